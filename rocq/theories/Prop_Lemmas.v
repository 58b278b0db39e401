(** * Properties C17, C20-C22, C39: lemmatisation.  STATEMENTS ONLY.
    The vocabulary is in RusSpec.v, RusReadings.v and RusLemmaSpec.v ([answer], [safe_call], [lemma_of], [grouped], ...). *)
From Verif Require Import Base Serial WordTree TreeSpec FlatScan Stems StemSpec CharTables CapScheme CapSpec GramMap RusRuntime RusSpec RusDemo
  RusBuild RusBuildSpec RusReadings RusDemo2 RusLemmaSpec PropLemmasLemmas.
Local Open Scope N_scope.

(** ** C17: Lemmatize *)
Theorem C17_lemmatize_case_blind : forall A L w w' psz cch psz' cch' dwsets junk junk' plemma pforms pgrams,
  holds A L -> given w psz cch -> given w' psz' cch' -> is_bytes w -> is_bytes w' ->
  map (locase rus_casing) w = map (locase rus_casing) w' -> bit 1 dwsets = true -> (length (parts rus_casing w) <= 8)%nat ->
  lemmatize A junk psz cch plemma pforms pgrams dwsets = lemmatize A junk' psz' cch' plemma pforms pgrams dwsets.
Proof. exact lemmatize_case_blind. Qed.
Print Assumptions C17_lemmatize_case_blind.

Example C17_lemmatize_case :
  lemmatize demo2_arrays (repeat 7 48) (Some [232; 194; 224; 237]) 4 None (Some (repeat 1 6)) None 2 =
    Ok (1%Z, (None, Some [200; 226; 224; 237; 0; 0], None)) /\
  lemmatize demo2_arrays (repeat 7 48) (Some [232; 194; 224; 237]) 4 None (Some (repeat 1 6)) None 0 = Ok (0%Z, (None, Some (repeat 1 6), None)).
Proof. split; vm_compute; reflexivity. Qed.

(** ** C20 *)
Theorem C20_agree : forall A L, holds A L -> buildable L -> forall w psz cch dwsets junk junk',
  is_bytes w -> w <> [] -> (length w < 48)%nat -> (length (parts rus_casing w) <= 8)%nat -> given w psz cch ->
  exists n, lemmatize A junk psz cch None None None dwsets = Ok (n, (None, None, None)) /\
    ((0 < n)%Z <-> check_word A junk' psz cch dwsets = Ok 1%Z) /\ (n = 0%Z <-> check_word A junk' psz cch dwsets = Ok 0%Z).
Proof. exact agree. Qed.
Print Assumptions C20_agree.

Theorem C20_number_of_matches : forall A L, holds A L -> buildable L -> forall w dwsets,
  is_bytes w -> w <> [] -> (length w < 48)%nat -> (length (parts rus_casing w) <= 8)%nat ->
  exists hs, found L (bit 1 dwsets) w hs /\ forall psz cch junk, given w psz cch ->
    lemmatize A junk psz cch None None None dwsets = Ok (Z.of_nat (length hs), (None, None, None)) /\
    check_word A junk psz cch dwsets = Ok (match hs with [] => 0%Z | _ => 1%Z end).
Proof. exact lemmatize_counts. Qed.
Print Assumptions C20_number_of_matches.

(** nothing, and words that do not fit *)
Theorem C20_degenerate : forall A psz cch plemma pforms pgrams dwsets junk,
  (psz = None \/ given [] psz cch -> lemmatize A junk psz cch plemma pforms pgrams dwsets = Ok (0%Z, (plemma, pforms, pgrams))) /\
  (forall w, given w psz cch -> (48 <= length w)%nat -> (length (parts rus_casing w) <= 16)%nat ->
     lemmatize A junk psz cch plemma pforms pgrams dwsets = Ok ((-4)%Z, (plemma, pforms, pgrams))).
Proof. exact lemmatize_degenerate. Qed.
Print Assumptions C20_degenerate.

Example C20_case : holds demo4_arrays demo4_lexicon /\ buildable demo4_lexicon /\
  lemmatize demo4_arrays (repeat 7 48) (Some [241; 237; 224]) 3 None None None 0 = Ok (2%Z, (None, None, None)).
Proof. split; [apply demo4_holds|]. split; [apply demo4_buildable|]. vm_compute. reflexivity. Qed.

(** ** C21: for calls that are [safe_call]s *)
Theorem C21_stays_inside_partial : forall A L, holds A L -> buildable L -> forall w dwsets,
  is_bytes w -> w <> [] -> (length w < 48)%nat -> (length (parts rus_casing w) <= 8)%nat ->
  exists hs, found L (bit 1 dwsets) w hs /\
    forall psz cch plemma pforms pgrams junk, given w psz cch ->
      safe_call dwsets (lexemes_of plemma hs) plemma pforms pgrams ->
      exists z plemma' pforms' pgrams', lemmatize A junk psz cch plemma pforms pgrams dwsets = Ok (z, (plemma', pforms', pgrams')) /\
        same_size plemma' plemma /\ same_size pforms' pforms /\ same_size pgrams' pgrams /\
        (z = Z.of_nat (length (lexemes_of plemma hs)) \/ z = (-1)%Z \/ z = (-2)%Z \/ z = (-3)%Z) /\
        (forall mem, plemma = Some mem -> (length mem < length (lexemes_of plemma hs))%nat -> (z < 0)%Z) /\
        (forall mem, pforms = Some mem -> (length mem <= length (lexemes_of plemma hs))%nat -> hs <> [] -> (z < 0)%Z) /\
        (forall mem, plemma <> None -> pgrams = Some mem -> (length mem < length (concat (flat_map stored (lexemes_of plemma hs))))%nat -> (z < 0)%Z).
Proof. exact inside. Qed.
Print Assumptions C21_stays_inside_partial.

(** two records of one lexeme and room for one lexeme: the element behind the array is written *)
Theorem C21_full_array_refuted : exists A L w, holds A L /\ buildable L /\ bounds_ok L /\ is_bytes w /\ (length w < 48)%nat /\
  lemmatize A (repeat 7 48) (Some w) (N.of_nat (length w)) (Some [Lemm 0 None 0 0]) (Some (repeat 1 20)) (Some (repeat (Gram 0 0 0 0) 20)) 0 = Ub /\
  exists r, lemmatize A (repeat 7 48) (Some w) (N.of_nat (length w)) (Some [Lemm 0 None 0 0]) (Some (repeat 1 20)) None 0 = Ok (1%Z, r).
Proof. exact full_array_written. Qed.
Print Assumptions C21_full_array_refuted.

(** a lexeme whose table lists no dictionary form: a dead array is read *)
Theorem C21_dictionary_form_refuted : exists A L w, holds A L /\ buildable L /\ bounds_ok L /\ is_bytes w /\ (length w < 48)%nat /\
  lemmatize A (repeat 7 48) (Some w) (N.of_nat (length w)) (Some (repeat (Lemm 0 None 0 0) 9)) (Some (repeat 1 20)) None 0 = Ub /\
  check_word A (repeat 7 48) (Some w) (N.of_nat (length w)) 0 = Ok 1%Z.
Proof. exact no_dictionary_form. Qed.
Print Assumptions C21_dictionary_form_refuted.

(** сна: two lexemes; eight bytes of strings and a terminator are needed, and four descriptions *)
Example C21_case : forall hs, hs = readings demo4_lexicon [241; 237; 224] -> length hs = 2%nat /\
  safe_call 0 (grouped hs) (Some (repeat (Lemm 0 None 0 0) 2)) (Some (repeat 1 9)) (Some (repeat (Gram 0 0 0 0) 4)) /\
  (exists r, lemmatize demo4_arrays (repeat 7 48) (Some [241; 237; 224]) 3 (Some (repeat (Lemm 0 None 0 0) 2)) (Some (repeat 1 9)) (Some (repeat (Gram 0 0 0 0) 4)) 0 = Ok (2%Z, r)) /\
  (exists r, lemmatize demo4_arrays (repeat 7 48) (Some [241; 237; 224]) 3 (Some (repeat (Lemm 0 None 0 0) 2)) (Some (repeat 1 9)) (Some (repeat (Gram 0 0 0 0) 3)) 0 = Ok ((-3)%Z, r)).
Proof.
  intros hs ->. split; [vm_compute; reflexivity|]. split.
  - split.
    + intros _. let t := eval vm_compute in (map (fun g => rd_dict_forms 0 (lx_first g)) (grouped (readings demo4_lexicon [241; 237; 224]))) in
        assert (E : map (fun g => rd_dict_forms 0 (lx_first g)) (grouped (readings demo4_lexicon [241; 237; 224])) = t) by (vm_compute; reflexivity).
      apply (proj1 (Forall_map (fun g => rd_dict_forms 0 (lx_first g)) (fun fs => fs <> []) _)). rewrite E. repeat constructor; discriminate.
    + intros mem g [= <-] _ _ Hn. vm_compute in Hn. injection Hn as <-. reflexivity.
  - split; eexists; vm_compute; reflexivity.
Qed.

(** ** C22 *)
Theorem C22_well_formed_partial : forall A L, holds A L -> buildable L -> forall w dwsets,
  is_bytes w -> w <> [] -> (length w < 48)%nat -> (length (parts rus_casing w) <= 8)%nat ->
  exists hs, found L (bit 1 dwsets) w hs /\ let gs := grouped hs in
    forall psz cch lemmas forms grams junk z plemma' pforms' pgrams', given w psz cch ->
      safe_call dwsets gs (Some lemmas) (Some forms) (Some grams) ->
      lemmatize A junk psz cch (Some lemmas) (Some forms) (Some grams) dwsets = Ok (z, (plemma', pforms', pgrams')) -> (0 <= z)%Z ->
      exists lemmas' forms' grams', plemma' = Some lemmas' /\ pforms' = Some forms' /\ pgrams' = Some grams' /\
        z = Z.of_nat (length gs) /\ (length gs <= length lemmas')%nat /\
        (forall i g, nth_error gs i = Some g -> exists cell o s before after before' after',
           nth_error lemmas' i = Some cell /\ lm_id cell = rd_id (lx_first g) /\
           lm_form cell = Some o /\ lemma_of dwsets (lx_first g) s /\ forms' = before ++ s ++ 0 :: after /\ length before = o /\
           grams' = before' ++ rd_shown (lx_first g) ++ after' /\ N.of_nat (length before') = lm_grams cell /\
           N.of_nat (length (rd_shown (lx_first g))) = lm_ngrams cell /\
           (forall j cell', (i < j)%nat -> (j < length gs)%nat -> nth_error lemmas' j = Some cell' ->
              lm_grams cell + lm_ngrams cell <= lm_grams cell' /\
              exists o', lm_form cell' = Some o' /\ (o + length s + 1 <= o')%nat)).
Proof. exact well_formed. Qed.
Print Assumptions C22_well_formed_partial.

(** the descriptions of further readings of a lexeme are stored, but not counted: the caller does not see them *)
Theorem C22_merged_uncounted_refuted : exists A L w lemmas' forms' g1 g2 grams', holds A L /\ buildable L /\ bounds_ok L /\ is_bytes w /\ (length w < 48)%nat /\
  lemmatize A (repeat 7 48) (Some w) (N.of_nat (length w)) (Some (repeat (Lemm 0 None 0 0) 9)) (Some (repeat 1 20)) (Some (repeat (Gram 0 0 0 0) 9)) 0
    = Ok (1%Z, (Some lemmas', Some forms', Some (g1 :: g2 :: grams'))) /\
  map rd_shown (readings L w) = [[g1]; [g2]] /\ g1 <> g2 /\ map rd_id (readings L w) = [3; 3] /\ option_map lm_ngrams (nth_error lemmas' 0) = Some 1.
Proof. exact merged_uncounted. Qed.
Print Assumptions C22_merged_uncounted_refuted.

Example C22_case : exists lemmas' forms' grams',
  lemmatize demo4_arrays (repeat 7 48) (Some [241; 237; 224]) 3 (Some (repeat (Lemm 0 None 0 0) 3)) (Some (repeat 1 9)) (Some (repeat (Gram 0 0 0 0) 5)) 0
    = Ok (2%Z, (Some lemmas', Some forms', Some grams')) /\
  map lm_form lemmas' = [Some 0; Some 4; None]%nat /\ map lm_grams lemmas' = [0; 2; 0] /\ map lm_ngrams lemmas' = [2; 2; 0] /\
  forms' = [241; 238; 237; 0; 241; 238; 237; 0; 0] /\ map gidForm grams' = [10; 1; 10; 1; 0].
Proof. eexists _, _, _. split; [vm_compute; reflexivity|]. repeat split. Qed.

(** ** C39: everything Lemmatize stores *)
Theorem C39_lemmatize_exact_partial : forall A L, holds A L -> buildable L -> forall w dwsets,
  is_bytes w -> w <> [] -> (length w < 48)%nat -> (length (parts rus_casing w) <= 8)%nat ->
  exists hs, found L (bit 1 dwsets) w hs /\
    (forall psz cch junk, given w psz cch -> check_word A junk psz cch dwsets = Ok (match hs with [] => 0%Z | _ => 1%Z end)) /\
    forall psz cch plemma pforms pgrams junk, given w psz cch ->
      safe_call dwsets (lexemes_of plemma hs) plemma pforms pgrams ->
      answer dwsets hs plemma pforms pgrams (lemmatize A junk psz cch plemma pforms pgrams dwsets).
Proof. exact lemmatize_answer. Qed.
Print Assumptions C39_lemmatize_exact_partial.

Example C39_case : forall r, In r (readings demo4_lexicon [241; 237; 224]) -> rd_dict_forms 0 r = [[241; 238; 237]] /\ lemma_of 0 r [241; 238; 237].
Proof.
  intros r Hr. assert (E : rd_dict_forms 0 r = [[241; 238; 237]] /\ min_case (rd_class r) = 0).
  { assert (H : Forall (fun r => rd_dict_forms 0 r = [[241; 238; 237]] /\ min_case (rd_class r) = 0) (readings demo4_lexicon [241; 237; 224])).
    { let t := eval vm_compute in (readings demo4_lexicon [241; 237; 224]) in assert (E : readings demo4_lexicon [241; 237; 224] = t) by (vm_compute; reflexivity).
      rewrite E. repeat constructor. }
    rewrite Forall_forall in H. apply (H r Hr). }
  destruct E as [E1 E2]. split; [exact E1|]. exists [241; 238; 237]. rewrite E1, E2. split; [left; reflexivity|]. split; [|reflexivity].
  constructor; [right; reflexivity|constructor].
Qed.
