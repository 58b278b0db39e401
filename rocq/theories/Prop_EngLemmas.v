(** * Property C50: the English Lemmatize.  STATEMENTS ONLY.
    The vocabulary is in EngSpec.v, EngFormsSpec.v ([efound]) and EngLemmaSpec.v ([eanswer], [esafe_call], [elemma_of], [egrouped], ...). *)
From Verif Require Import Base Serial WordTree TreeSpec FlatScan Stems StemSpec CharTables CapScheme CapSpec GramMap RusRuntime RusSpec
  RusBuild RusBuildSpec RusLemmaSpec EngRuntime EngSpec EngProofs2 EngFormsSpec EngLemmaSpec EngDemo PropEngLemmas2.
Local Open Scope N_scope.

(** ** C50: everything Lemmatize stores, for calls that are [esafe_call]s *)
Theorem C50_lemmatize_exact_partial : forall A L, eholds A L -> ebuildable L -> forall w dwsets,
  is_bytes w -> w <> [] -> (length w < 48)%nat -> (length (parts eng_casing w) <= 8)%nat ->
  exists hs, efound L (bit 1 dwsets) w hs /\
    (forall psz cch junk, given w psz cch -> echeck_word A junk psz cch dwsets = Ok (match hs with [] => 0%Z | _ => 1%Z end)) /\
    forall psz cch plemma pforms pgrams junk, given w psz cch ->
      esafe_call (elexemes_of plemma hs) plemma pforms pgrams ->
      eanswer hs plemma pforms pgrams (elemmatize A junk psz cch plemma pforms pgrams dwsets).
Proof. exact elemmatize_answer. Qed.
Print Assumptions C50_lemmatize_exact_partial.

Theorem C50_agree : forall A L, eholds A L -> ebuildable L -> forall w psz cch dwsets junk junk',
  is_bytes w -> w <> [] -> (length w < 48)%nat -> (length (parts eng_casing w) <= 8)%nat -> given w psz cch ->
  exists n, elemmatize A junk psz cch None None None dwsets = Ok (n, (None, None, None)) /\
    ((0 < n)%Z <-> echeck_word A junk' psz cch dwsets = Ok 1%Z) /\ (n = 0%Z <-> echeck_word A junk' psz cch dwsets = Ok 0%Z).
Proof. exact elemmatize_agree. Qed.
Print Assumptions C50_agree.

Theorem C50_case_blind : forall A L w w' psz cch psz' cch' dwsets junk junk' plemma pforms pgrams,
  eholds A L -> given w psz cch -> given w' psz' cch' -> is_bytes w -> is_bytes w' ->
  map (locase eng_casing) w = map (locase eng_casing) w' -> bit 1 dwsets = true -> (length (parts eng_casing w) <= 8)%nat ->
  elemmatize A junk psz cch plemma pforms pgrams dwsets = elemmatize A junk' psz' cch' plemma pforms pgrams dwsets.
Proof. exact elemmatize_case_blind. Qed.
Print Assumptions C50_case_blind.

Theorem C50_degenerate : forall A psz cch plemma pforms pgrams dwsets junk,
  (psz = None \/ given [] psz cch -> elemmatize A junk psz cch plemma pforms pgrams dwsets = Ok (0%Z, (plemma, pforms, pgrams))) /\
  (forall w, given w psz cch -> (48 <= length w)%nat -> (length (parts eng_casing w) <= 16)%nat ->
     elemmatize A junk psz cch plemma pforms pgrams dwsets = Ok ((-4)%Z, (plemma, pforms, pgrams))).
Proof. exact elemmatize_degenerate. Qed.
Print Assumptions C50_degenerate.

(** two records of one lexeme and room for one lexeme: the element behind the array is written *)
Theorem C50_full_array_refuted : exists A L w, eholds A L /\ ebuildable L /\ ebounds_ok L /\ is_bytes w /\ (length w < 48)%nat /\
  elemmatize A (repeat 7 48) (Some w) (N.of_nat (length w)) (Some [Lemm 0 None 0 0]) (Some (repeat 1 20)) (Some (repeat (Gram 0 0 0 0) 20)) 0 = Ub /\
  exists r, elemmatize A (repeat 7 48) (Some w) (N.of_nat (length w)) (Some [Lemm 0 None 0 0]) (Some (repeat 1 20)) None 0 = Ok (1%Z, r).
Proof. exact efull_array. Qed.
Print Assumptions C50_full_array_refuted.

(** a word of the dictionary whose lexeme has no form below 16: no lexeme is reported once normal forms are wanted *)
Theorem C50_no_normal_form_refuted : exists A L w, eholds A L /\ ebuildable L /\ ebounds_ok L /\ is_bytes w /\ (length w < 48)%nat /\
  echeck_word A (repeat 7 48) (Some w) (N.of_nat (length w)) 0 = Ok 1%Z /\
  elemmatize A (repeat 7 48) (Some w) (N.of_nat (length w)) None None None 0 = Ok (1%Z, (None, None, None)) /\
  elemmatize A (repeat 7 48) (Some w) (N.of_nat (length w)) None (Some (repeat 1 20)) None 0 = Ok (0%Z, (None, Some (repeat 1 20), None)).
Proof. exact eno_normal_form. Qed.
Print Assumptions C50_no_normal_form_refuted.

(** Brothers: one lexeme, brother, plural; the call is safe with these arrays *)
Example C50_case : forall hs, hs = ereadings edemo_lexicon [98; 114; 111; 116; 104; 101; 114; 115] -> length hs = 1%nat /\
  esafe_call (egrouped hs) (Some [Lemm 0 None 0 0]) (Some (repeat 1 10)) (Some [Gram 0 0 0 0]) /\
  elemmatize edemo_arrays (repeat 7 48) (Some [66; 114; 111; 116; 104; 101; 114; 115]) 8 (Some [Lemm 0 None 0 0]) (Some (repeat 1 10)) (Some [Gram 0 0 0 0]) 0 =
    Ok (1%Z, (Some [Lemm 6 (Some 0%nat) 0 1], Some [98; 114; 111; 116; 104; 101; 114; 0; 0; 1], Some [Gram 7 1 0 0])) /\
  elemmatize edemo_arrays (repeat 7 48) (Some [66; 114; 111; 116; 104; 101; 114; 115]) 8 (Some [Lemm 0 None 0 0]) (Some (repeat 1 8)) (Some [Gram 0 0 0 0]) 0 <>
    Ok (1%Z, (Some [Lemm 6 (Some 0%nat) 0 1], Some [98; 114; 111; 116; 104; 101; 114; 0], Some [Gram 7 1 0 0])).
Proof.
  intros hs ->. split; [vm_compute; reflexivity|]. split; [|split; [vm_compute; reflexivity|vm_compute; discriminate]]. split.
  - intros _. let t := eval vm_compute in (map (fun g => er_dict_forms (ex_first g)) (egrouped (ereadings edemo_lexicon [98; 114; 111; 116; 104; 101; 114; 115]))) in
      assert (E : map (fun g => er_dict_forms (ex_first g)) (egrouped (ereadings edemo_lexicon [98; 114; 111; 116; 104; 101; 114; 115])) = t) by (vm_compute; reflexivity).
    apply (proj1 (Forall_map (fun g => er_dict_forms (ex_first g)) (fun fs => fs <> []) _)). rewrite E. repeat constructor; discriminate.
  - intros mem g [= <-] _ _ Hn. vm_compute in Hn. injection Hn as <-. reflexivity.
Qed.
