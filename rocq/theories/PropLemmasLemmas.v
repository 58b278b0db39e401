(** * PropLemmasLemmas: from the model of Lemmatize to properties C17, C20-C22, C39. *)
From Verif Require Import Base Serial SerialProofs WordTree TreeSpec WordTreeProofs FlatScan FlatScanProofs LidsProofs TrackProofs TreeWalk Stems StemSpec StemsProofs
  DictProofs CharTables CapScheme CapSpec CapProofs CapProofs2 PropCaseLemmas PropTreesLemmas GramMap RusRuntime RusSpec RusProofs RusProofs2 RusProofs3 RusDemo
  RusBuild RusBuildSpec RusBuildProofs RusBuildProofs2 RusBuildProofs3 RusReadings RusReadingsProofs RusDemo2 RusLemmaSpec RusLemmaProofs RusLemmaProofs2
  RusLemmaProofs3 RusLemmaProofs4 RusLemmaProofs5 RusLemmaProofs6.
Local Open Scope N_scope.

(** ** The exact answer *)
Lemma lemmatize_answer A L : holds A L -> buildable L -> forall w dwsets,
  is_bytes w -> w <> [] -> (length w < 48)%nat -> (length (rparts w) <= 8)%nat ->
  exists hs, found L (bit 1 dwsets) w hs /\
    (forall psz cch junk, given w psz cch -> check_word A junk psz cch dwsets = Ok (match hs with [] => 0%Z | _ => 1%Z end)) /\
    forall psz cch plemma pforms pgrams junk, given w psz cch ->
      safe_call dwsets (lexemes_of plemma hs) plemma pforms pgrams ->
      answer dwsets hs plemma pforms pgrams (lemmatize A junk psz cch plemma pforms pgrams dwsets).
Proof.
  intros HL HB w dwsets Hb Hw Hlen Hp. destruct (scheme_exists w Hb Hw Hlen Hp) as (scheme & Hs).
  exists (hits L scheme dwsets (rlow w)). split; [apply hits_found with A; assumption|]. split.
  - intros psz cch junk Hg. destruct (check_word_eq A L HL w psz cch dwsets junk Hg Hb Hw Hlen Hp) as (scheme' & Hs' & ->).
    rewrite analyses_hits, (hits_scheme L scheme' scheme) by (intros m; rewrite Hs, Hs'; reflexivity).
    destruct (hits L scheme dwsets (rlow w)); reflexivity.
  - intros psz cch plemma pforms pgrams junk Hg Hsafe.
    destruct (lemmatize_eq A L HL w psz cch plemma pforms pgrams dwsets junk Hg Hb Hw Hlen Hp) as (scheme' & tail & Hs' & ->).
    rewrite (hits_scheme L scheme' scheme) by (intros m; rewrite Hs, Hs'; reflexivity).
    apply (run_answer A L HL HB); [|exact Hsafe]. apply Forall_forall. intros r Hr. eapply hits_ok; eassumption.
Qed.

(** ** C20 *)
Lemma lemmatize_counts A L : holds A L -> buildable L -> forall w dwsets,
  is_bytes w -> w <> [] -> (length w < 48)%nat -> (length (rparts w) <= 8)%nat ->
  exists hs, found L (bit 1 dwsets) w hs /\ forall psz cch junk, given w psz cch ->
    lemmatize A junk psz cch None None None dwsets = Ok (Z.of_nat (length hs), (None, None, None)) /\
    check_word A junk psz cch dwsets = Ok (match hs with [] => 0%Z | _ => 1%Z end).
Proof.
  intros HL HB w dwsets Hb Hw Hlen Hp. destruct (lemmatize_answer A L HL HB w dwsets Hb Hw Hlen Hp) as (hs & Hf & Hc & Ha).
  exists hs. split; [exact Hf|]. intros psz cch junk Hg. split; [|apply Hc, Hg].
  destruct (Ha psz cch None None None junk Hg) as (ls & z & a & b & c & Hl & _ & -> & S1 & S2 & S3 & Hok & _).
  - split; [intros H; contradiction|intros ? ? H; discriminate].
  - destruct a; [discriminate|]. destruct b; [discriminate|]. destruct c; [discriminate|].
    destruct Hok as [-> _].
    + split; [|split]; intros ? H; try discriminate; contradiction.
    + cbn [lexemes_of]. rewrite map_length. reflexivity.
Qed.

Lemma agree A L : holds A L -> buildable L -> forall w psz cch dwsets junk junk',
  is_bytes w -> w <> [] -> (length w < 48)%nat -> (length (rparts w) <= 8)%nat -> given w psz cch ->
  exists n, lemmatize A junk psz cch None None None dwsets = Ok (n, (None, None, None)) /\
    ((0 < n)%Z <-> check_word A junk' psz cch dwsets = Ok 1%Z) /\ (n = 0%Z <-> check_word A junk' psz cch dwsets = Ok 0%Z).
Proof.
  intros HL HB w psz cch dwsets junk junk' Hb Hw Hlen Hp Hg. destruct (lemmatize_counts A L HL HB w dwsets Hb Hw Hlen Hp) as (hs & _ & H).
  exists (Z.of_nat (length hs)). destruct (H psz cch junk Hg) as [-> _], (H psz cch junk' Hg) as [_ ->]. split; [reflexivity|].
  destruct hs as [|h hs]; cbn [length]; split; split; intros; try lia; try discriminate; try reflexivity; exfalso; congruence.
Qed.

(** ** C21 *)
Lemma inside A L : holds A L -> buildable L -> forall w dwsets,
  is_bytes w -> w <> [] -> (length w < 48)%nat -> (length (rparts w) <= 8)%nat ->
  exists hs, found L (bit 1 dwsets) w hs /\
    forall psz cch plemma pforms pgrams junk, given w psz cch ->
      safe_call dwsets (lexemes_of plemma hs) plemma pforms pgrams ->
      exists z plemma' pforms' pgrams', lemmatize A junk psz cch plemma pforms pgrams dwsets = Ok (z, (plemma', pforms', pgrams')) /\
        same_size plemma' plemma /\ same_size pforms' pforms /\ same_size pgrams' pgrams /\
        (z = Z.of_nat (length (lexemes_of plemma hs)) \/ z = (-1)%Z \/ z = (-2)%Z \/ z = (-3)%Z) /\
        (forall mem, plemma = Some mem -> (length mem < length (lexemes_of plemma hs))%nat -> (z < 0)%Z) /\
        (forall mem, pforms = Some mem -> (length mem <= length (lexemes_of plemma hs))%nat -> hs <> [] -> (z < 0)%Z) /\
        (forall mem, plemma <> None -> pgrams = Some mem -> (length mem < length (concat (flat_map stored (lexemes_of plemma hs))))%nat -> (z < 0)%Z).
Proof.
  intros HL HB w dwsets Hb Hw Hlen Hp. destruct (lemmatize_answer A L HL HB w dwsets Hb Hw Hlen Hp) as (hs & Hf & _ & Ha).
  exists hs. split; [exact Hf|]. intros psz cch plemma pforms pgrams junk Hg Hsafe.
  destruct (Ha psz cch plemma pforms pgrams junk Hg Hsafe) as (ls & z & a & b & c & Hl & _ & -> & S1 & S2 & S3 & Hok & Hno).
  exists z, a, b, c. repeat match goal with |- _ /\ _ => split end; try assumption; try reflexivity.
  - destruct (all_fit_dec dwsets (lexemes_of plemma hs) ls plemma pforms pgrams) as [H|H]; [left; apply Hok, H|right; apply Hno, H].
  - intros mem -> Hm. destruct (Hno) as [->|[->| ->]]; try lia. intros (H & _). specialize (H _ eq_refl). lia.
  - intros mem -> Hm Hne. destruct (Hno) as [->|[->| ->]]; try lia. intros (_ & H & _). destruct (H _ eq_refl) as [_ [->|Hfit]].
    + destruct hs; [congruence|]. cbn in Hl. destruct plemma; cbn in Hl; [|lia]. destruct (grouped hs); cbn in Hl; [lia|].
      destruct (rd_id _ =? rd_id _); cbn in Hl; lia.
    + assert (Ht : forall fs, (length fs <= total fs)%nat) by (induction fs as [|f fs IH]; [cbn; lia|unfold total in *; cbn [fold_right length]; lia]).
      specialize (Ht ls). rewrite Hl in Ht. lia.
  - intros mem Hpl -> Hm. destruct (Hno) as [->|[->| ->]]; try lia. intros (_ & _ & H). specialize (H _ Hpl eq_refl). apply grams_fit_length in H. lia.
Qed.

(** ** C22 *)
Lemma total_firstn_split ls : forall i l, nth_error ls i = Some l ->
  joined ls = joined (firstn i ls) ++ (l ++ [0]) ++ joined (skipn (S i) ls).
Proof.
  induction ls as [|x ls IH]; intros [|i] l H; try discriminate.
  - injection H as ->. reflexivity.
  - cbn [nth_error] in H. change (joined (x :: ls)) with ((x ++ [0]) ++ joined ls). rewrite (IH i l H).
    change (firstn (S i) (x :: ls)) with (x :: firstn i ls). change (skipn (S (S i)) (x :: ls)) with (skipn (S i) ls).
    change (joined (x :: firstn i ls)) with ((x ++ [0]) ++ joined (firstn i ls)). rewrite <- !app_assoc. reflexivity.
Qed.
Lemma concat_split gs : forall i g, nth_error gs i = Some g ->
  concat (flat_map stored gs) = concat (flat_map stored (firstn i gs)) ++ rd_shown (lx_first g) ++ concat (map (added (lx_first g)) (lx_more g)) ++ concat (flat_map stored (skipn (S i) gs)).
Proof.
  induction gs as [|x gs IH]; intros [|i] g H; try discriminate.
  - injection H as ->. cbn [flat_map firstn skipn app]. rewrite concat_app. cbn [stored concat app]. rewrite <- app_assoc. reflexivity.
  - cbn [nth_error] in H. cbn [flat_map firstn]. rewrite !concat_app, (IH i g H). change (skipn (S (S i)) (x :: gs)) with (skipn (S i) gs).
    rewrite <- !app_assoc. reflexivity.
Qed.
Lemma total_mono ls i j l : (i < j)%nat -> nth_error ls i = Some l -> (total (firstn i ls) + length l + 1 <= total (firstn j ls))%nat.
Proof.
  revert i j. induction ls as [|x ls IH]; intros [|i] [|j] Hij H; try discriminate; try lia.
  - injection H as ->. cbn [firstn]. unfold total. cbn [fold_right]. lia.
  - cbn [nth_error] in H. specialize (IH i j ltac:(lia) H). cbn [firstn]. unfold total in *. cbn [fold_right]. lia.
Qed.
Lemma concat_mono gs i j g : (i < j)%nat -> nth_error gs i = Some g ->
  (length (concat (flat_map stored (firstn i gs))) + length (concat (stored g)) <= length (concat (flat_map stored (firstn j gs))))%nat.
Proof.
  revert i j. induction gs as [|x gs IH]; intros [|i] [|j] Hij H; try discriminate; try lia.
  - injection H as ->. cbn [firstn flat_map]. rewrite concat_app, app_length. cbn [concat length]. lia.
  - cbn [nth_error] in H. specialize (IH i j ltac:(lia) H). cbn [firstn flat_map]. rewrite !concat_app, !app_length. lia.
Qed.

Lemma well_formed A L : holds A L -> buildable L -> forall w dwsets,
  is_bytes w -> w <> [] -> (length w < 48)%nat -> (length (rparts w) <= 8)%nat ->
  exists hs, found L (bit 1 dwsets) w hs /\ let gs := grouped hs in
    forall psz cch lemmas forms grams junk z plemma' pforms' pgrams', given w psz cch ->
      safe_call dwsets gs (Some lemmas) (Some forms) (Some grams) ->
      lemmatize A junk psz cch (Some lemmas) (Some forms) (Some grams) dwsets = Ok (z, (plemma', pforms', pgrams')) -> (0 <= z)%Z ->
      exists lemmas' forms' grams', plemma' = Some lemmas' /\ pforms' = Some forms' /\ pgrams' = Some grams' /\
        z = Z.of_nat (length gs) /\ (length gs <= length lemmas')%nat /\
        (forall i g, nth_error gs i = Some g -> exists cell o s before after before' after',
           nth_error lemmas' i = Some cell /\ lm_id cell = rd_id (lx_first g) /\
           lm_form cell = Some o /\ lemma_of dwsets (lx_first g) s /\ forms' = before ++ s ++ 0 :: after /\ length before = o /\
           grams' = before' ++ rd_shown (lx_first g) ++ after' /\ N.of_nat (length before') = lm_grams cell /\
           N.of_nat (length (rd_shown (lx_first g))) = lm_ngrams cell /\
           (forall j cell', (i < j)%nat -> (j < length gs)%nat -> nth_error lemmas' j = Some cell' ->
              lm_grams cell + lm_ngrams cell <= lm_grams cell' /\
              exists o', lm_form cell' = Some o' /\ (o + length s + 1 <= o')%nat)).
Proof.
  intros HL HB w dwsets Hb Hw Hlen Hp. destruct (lemmatize_answer A L HL HB w dwsets Hb Hw Hlen Hp) as (hs & Hf & _ & Ha).
  exists hs. split; [exact Hf|]. intros gs psz cch lemmas forms grams junk z pl pf pg Hg Hsafe E Hz.
  destruct (Ha psz cch (Some lemmas) (Some forms) (Some grams) junk Hg Hsafe) as (ls & z' & a & b & c & Hl & Hlem & E' & S1 & S2 & S3 & Hok & Hno).
  rewrite E in E'. injection E' as <- <- <- <-. cbn [lexemes_of] in *. fold gs in Hl, Hlem, Hok, Hno.
  destruct (all_fit_dec dwsets gs ls (Some lemmas) (Some forms) (Some grams)) as [Hfit|H]; [|destruct (Hno H) as [H'|[H'|H']]; lia].
  destruct (Hok Hfit) as (-> & D1 & D2 & D3). destruct (D1 _ eq_refl) as (lm' & -> & Hc & _). rewrite (D2 _ eq_refl), (D3 _ eq_refl).
  specialize (Hlem ltac:(discriminate)). eexists lm', _, _. do 4 (split; [reflexivity|]). split.
  { destruct Hfit as (H & _). specialize (H _ eq_refl). unfold same_size in S1. cbn in S1. injection S1 as ->. exact H. }
  intros i g Hn. pose proof (Hc i g Hn) as Hcell.
  assert (Hs : exists s, nth_error ls i = Some s /\ lemma_of dwsets (lx_first g) s).
  { clear - Hlem Hn. revert i Hn. induction Hlem as [|g0 s0 gs' ls' Hgs _ IH]; intros [|i] Hn; try discriminate.
    - injection Hn as ->. exists s0. split; [reflexivity|exact Hgs].
    - apply (IH i Hn). }
  destruct Hs as (s & Hs & Hls).
  exists (lemm_cell gs ls (Some forms) (Some grams) i g), (total (firstn i ls)), s, (joined (firstn i ls)), (joined (skipn (S i) ls) ++ RusBuildSpec.after ls forms),
    (concat (flat_map stored (firstn i gs))),
    (concat (map (added (lx_first g)) (lx_more g)) ++ concat (flat_map stored (skipn (S i) gs)) ++ skipn (length (concat (flat_map stored gs))) grams).
  split; [exact Hcell|]. split; [reflexivity|]. split; [reflexivity|]. split; [exact Hls|]. split.
  { unfold filled. rewrite (total_firstn_split ls i s Hs). rewrite <- !app_assoc. reflexivity. }
  split; [apply joined_length|]. split.
  { rewrite (concat_split gs i g Hn) at 1. rewrite <- !app_assoc. reflexivity. }
  split; [reflexivity|]. split; [reflexivity|].
  intros j cell' Hij Hj Hnj. destruct (nth_error gs j) as [g'|] eqn:Eg; [|apply nth_error_None in Eg; lia].
  rewrite (Hc j g' Eg) in Hnj. injection Hnj as <-. cbn [lemm_cell lm_grams lm_ngrams lm_form]. split.
  - pose proof (concat_mono gs i j g Hij Hn) as H. cbn [stored concat] in H. rewrite app_length in H. lia.
  - eexists. split; [reflexivity|]. pose proof (total_mono ls i j s Hij Hs). lia.
Qed.

Lemma lemmatize_degenerate A psz cch plemma pforms pgrams dwsets junk :
  (psz = None \/ given [] psz cch -> lemmatize A junk psz cch plemma pforms pgrams dwsets = Ok (0%Z, (plemma, pforms, pgrams))) /\
  (forall w, given w psz cch -> (48 <= length w)%nat -> (length (rparts w) <= 16)%nat ->
     lemmatize A junk psz cch plemma pforms pgrams dwsets = Ok ((-4)%Z, (plemma, pforms, pgrams))).
Proof.
  split.
  - intros H. unfold lemmatize, prologue. rewrite (to_canonic_empty psz cch H). cbn [bind N.eqb Pos.eqb]. reflexivity.
  - intros w Hg Hl Hp. unfold lemmatize. rewrite (prologue_long w psz cch) by assumption. reflexivity.
Qed.

(** ** C17 *)
Lemma lemmatize_case_blind A L w w' psz cch psz' cch' dwsets junk junk' plemma pforms pgrams :
  holds A L -> given w psz cch -> given w' psz' cch' -> is_bytes w -> is_bytes w' ->
  map (locase rus_casing) w = map (locase rus_casing) w' -> bit 1 dwsets = true -> (length (rparts w) <= 8)%nat ->
  lemmatize A junk psz cch plemma pforms pgrams dwsets = lemmatize A junk' psz' cch' plemma pforms pgrams dwsets.
Proof.
  intros HL Hg Hg' Hb Hb' El Hbit Hp.
  assert (Hl : length w' = length w) by (rewrite <- (map_length (locase rus_casing) w), El, map_length; reflexivity).
  destruct w as [|c w].
  - destruct w'; [|discriminate]. rewrite (proj1 (lemmatize_degenerate A psz cch plemma pforms pgrams dwsets junk) (or_intror Hg)),
      (proj1 (lemmatize_degenerate A psz' cch' plemma pforms pgrams dwsets junk') (or_intror Hg')). reflexivity.
  - destruct (le_lt_dec 48 (length (c :: w))) as [H48|H48].
    + unfold lemmatize. rewrite (prologue_long (c :: w) psz cch) by (try assumption; lia).
      rewrite (prologue_long w' psz' cch'); [reflexivity|exact Hg'|lia|].
      rewrite <- lower_parts by assumption. rewrite <- El, lower_parts by assumption. lia.
    + eapply lemmatize_same; try eassumption; [discriminate|left; exact Hbit].
Qed.


(** ** Refutations: a dictionary with two records of one lexeme, and a verb without infinitive *)
Definition demo4_items : list (bytes * entry) :=
  [ ([228; 238; 236], Entry 224 251 1 0 [])                            (* дом *)
  ; ([228; 238; 236], Entry 0 0 1 10 [])                               (* дом, the same lexeme, fixed *)
  ; ([234; 224; 234], Entry 0 0 3 10 [])                               (* как *)
  ; ([234; 224; 234], Entry 0 0 3 12 [])                               (* как, the same lexeme, as preposition *)
  ; ([241], Entry 237 238 2 4 [])                                      (* с(о)н *)
  ; ([241], Entry 237 238 5 4 [])                                      (* another с(о)н *)
  ; ([232; 228], Entry 224 224 7 20 []) ].                             (* ида *)
Definition demo4_lexicon := lexicon_of (words_of demo4_items).
Definition demo4_arrays := arrays_of (words_of demo4_items).
Lemma demo4_ok : itemsb demo4_items = true.
Proof. vm_compute. reflexivity. Qed.
Lemma demo4_holds : holds demo4_arrays demo4_lexicon.
Proof. exact (small_holds _ demo4_ok). Qed.
Lemma demo4_buildable : buildable demo4_lexicon.
Proof. apply small_buildable; [apply demo4_ok|repeat constructor]. Qed.
Lemma demo4_bounds : bounds_ok demo4_lexicon.
Proof. exact (small_bounds _ demo4_ok). Qed.

Lemma full_array_written : exists A L w, holds A L /\ buildable L /\ bounds_ok L /\ is_bytes w /\ (length w < 48)%nat /\
  lemmatize A (repeat 7 48) (Some w) (N.of_nat (length w)) (Some [Lemm 0 None 0 0]) (Some (repeat 1 20)) (Some (repeat (Gram 0 0 0 0) 20)) 0 = Ub /\
  exists r, lemmatize A (repeat 7 48) (Some w) (N.of_nat (length w)) (Some [Lemm 0 None 0 0]) (Some (repeat 1 20)) None 0 = Ok (1%Z, r).
Proof.
  exists demo4_arrays, demo4_lexicon, [228; 238; 236]. split; [apply demo4_holds|]. split; [apply demo4_buildable|]. split; [apply demo4_bounds|].
  split; [repeat constructor|]. split; [cbn; lia|]. split; [vm_compute; reflexivity|]. eexists. vm_compute. reflexivity.
Qed.

Lemma no_dictionary_form : exists A L w, holds A L /\ buildable L /\ bounds_ok L /\ is_bytes w /\ (length w < 48)%nat /\
  lemmatize A (repeat 7 48) (Some w) (N.of_nat (length w)) (Some (repeat (Lemm 0 None 0 0) 9)) (Some (repeat 1 20)) None 0 = Ub /\
  check_word A (repeat 7 48) (Some w) (N.of_nat (length w)) 0 = Ok 1%Z.
Proof.
  exists demo4_arrays, demo4_lexicon, [232; 228; 224]. split; [apply demo4_holds|]. split; [apply demo4_buildable|]. split; [apply demo4_bounds|].
  split; [repeat constructor|]. split; [cbn; lia|]. split; vm_compute; reflexivity.
Qed.

Lemma merged_uncounted : exists A L w lemmas' forms' g1 g2 grams', holds A L /\ buildable L /\ bounds_ok L /\ is_bytes w /\ (length w < 48)%nat /\
  lemmatize A (repeat 7 48) (Some w) (N.of_nat (length w)) (Some (repeat (Lemm 0 None 0 0) 9)) (Some (repeat 1 20)) (Some (repeat (Gram 0 0 0 0) 9)) 0
    = Ok (1%Z, (Some lemmas', Some forms', Some (g1 :: g2 :: grams'))) /\
  map rd_shown (readings L w) = [[g1]; [g2]] /\ g1 <> g2 /\ map rd_id (readings L w) = [3; 3] /\ option_map lm_ngrams (nth_error lemmas' 0) = Some 1.
Proof.
  eexists demo4_arrays, demo4_lexicon, [234; 224; 234], _, _, _, _, _. split; [apply demo4_holds|]. split; [apply demo4_buildable|]. split; [apply demo4_bounds|].
  split; [repeat constructor|]. split; [cbn; lia|]. split; [vm_compute; reflexivity|]. split; [vm_compute; reflexivity|]. split; [discriminate|].
  split; vm_compute; reflexivity.
Qed.
