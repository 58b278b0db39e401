(** * EngDemo: a small concrete English dictionary meeting all hypotheses of the theorems. *)
From Verif Require Import Base Serial SerialProofs WordTree TreeSpec WordTreeProofs FlatScan FlatScanProofs LidsProofs TrackProofs
  TreeWalk Stems StemSpec StemsProofs DictProofs CharTables CapScheme CapSpec CapProofs CapProofs2 PropCaseLemmas PropTreesLemmas
  GramMap RusRuntime RusBuild RusSpec RusBuildSpec RusReadings RusDemo RusDemo2 EngRuntime EngSpec EngFormsSpec.
Local Open Scope N_scope.

(** endings of nouns: "", "'s", "s", "s'"; a verb whose only form has the identifier 20 *)
Definition eends1 : list (N * bytes) := [(0, []); (2, [39; 115]); (1, [115]); (3, [115; 39])].
Definition eends2 : list (N * bytes) := [(20, [115])].
Definition est_noun := EStem 7 4.
Definition est_name := EStem (7 + 0x80) 4.
Definition est_abbr := EStem (7 + 0x100) 4.
Definition est_fixed := EStem 20 0.
Definition est_far := EStem 1 20.
Definition ecl_noun := EClass 7 (Some eends1).
Definition ecl_name := EClass (7 + 0x80) (Some eends1).
Definition ecl_abbr := EClass (7 + 0x100) (Some eends1).
Definition ecl_fixed := EClass 20 None.
Definition ecl_far := EClass 1 (Some eends2).

Definition elexicon_of (t : wtree (list entry)) : elexicon :=
  ELexicon t (fun off =>
    if off =? 0 then Some (est_noun, ecl_noun) else if off =? 4 then Some (est_name, ecl_name)
    else if off =? 8 then Some (est_abbr, ecl_abbr) else if off =? 12 then Some (est_fixed, ecl_fixed)
    else if off =? 16 then Some (est_far, ecl_far) else None).
Definition estem_ser (s : estem) : bytes := putword16 (e_wdinfo s) ++ putword16 (e_tfoffs s).
Definition earrays_of (t : wtree (list entry)) : earrays :=
  EArrays ([70; 76; 69; 88] ++ table_ser eends1 ++ repeat 0 2 ++ table_ser eends2)
          (estem_ser est_noun ++ estem_ser est_name ++ estem_ser est_abbr ++ estem_ser est_fixed ++ estem_ser est_far)
          (stemtree_bytes t) (lidstree_bytes (create_lids t)).

Definition edemo_items : list (bytes * entry) :=
  [ ([99; 97; 116], Entry 0 115 1 0 [])                                                            (* cat *)
  ; ([98; 114; 111; 116; 104; 101; 114], Entry 0 115 2 0 [45; 105; 110; 45; 108; 97; 119])            (* brother..-in-law *)
  ; ([98; 114; 111; 116; 104; 101; 114], Entry 0 115 6 0 [])                                        (* brother *)
  ; ([97; 100; 97; 109], Entry 0 115 65540 4 [])                                                  (* Adam *)
  ; ([117; 115; 97], Entry 0 115 300 8 [])                                                        (* USA *)
  ; ([97; 115], Entry 0 0 3 12 []) ].                                                             (* as *)
Definition edemo_words := words_of edemo_items.
Definition edemo_lexicon := elexicon_of edemo_words.
Definition edemo_arrays := earrays_of edemo_words.

(** a fixed word with a postfix, a word that hides it, and a word with a distant form only *)
Definition eodd_items : list (bytes * entry) :=
  [ ([97; 115], Entry 0 0 3 12 [])                     (* as *)
  ; ([97; 115], Entry 0 0 4 12 [45; 105; 115])           (* as-is *)
  ; ([97; 116], Entry 0 0 7 12 [45; 105; 116])           (* at-it *)
  ; ([109; 117], Entry 115 115 5 16 []) ].              (* mu.. *)
Definition eodd_words := words_of eodd_items.
Definition eodd_lexicon := elexicon_of eodd_words.
Definition eodd_arrays := earrays_of eodd_words.

Lemma filter_le {X} (f : X -> bool) l : (length (filter f l) <= length l)%nat.
Proof. induction l as [|x l IH]; cbn [filter length]; [lia|]. destruct (f x); cbn [length]; lia. Qed.

Lemma eends1_ok : etable_ok eends1.
Proof.
  split; [cbn; lia|]. split; [repeat constructor; cbn; lia|]. split.
  - cbn. repeat split; repeat constructor; (left; repeat constructor) || (right; reflexivity).
  - intros part. unfold ids_of. rewrite map_length. pose proof (filter_le (fun ie : N * bytes => if list_eq_dec N.eq_dec (snd ie) part then true else false) eends1).
    eapply Nat.le_trans; [exact H|]. cbn. lia.
Qed.
Lemma eends2_ok : etable_ok eends2.
Proof.
  split; [cbn; lia|]. split; [repeat constructor; cbn; lia|]. split.
  - cbn. repeat split; repeat constructor.
  - intros part. unfold ids_of. rewrite map_length. pose proof (filter_le (fun ie : N * bytes => if list_eq_dec N.eq_dec (snd ie) part then true else false) eends2).
    eapply Nat.le_trans; [exact H|]. cbn. lia.
Qed.

Definition edemo_class (off : N) : bool := existsb (N.eqb off) [0; 4; 8; 12; 16].

Lemma eclass_in A off st c pre rest :
  eclass_repr A st c -> e_class A = pre ++ estem_ser st ++ rest -> N.of_nat (length pre) = off -> e_wdinfo st < 2 ^ 16 ->
  eclass_at A off st /\ eclass_repr A st c.
Proof. intros H1 H2 H3 H4. split; [|exact H1]. split; [assumption|]. exists pre, rest. split; assumption. Qed.

Lemma edemo_class_ok t off : edemo_class off = true ->
  exists st c, eclass_of (elexicon_of t) off = Some (st, c) /\ eclass_at (earrays_of t) off st /\ eclass_repr (earrays_of t) st c.
Proof.
  unfold edemo_class. cbn [existsb]. rewrite !orb_true_iff, !N.eqb_eq. intros H.
  assert (Hf : exists pre rest, e_flex (earrays_of t) = pre ++ table_ser eends1 ++ rest /\ N.of_nat (length pre) = 4).
  { eexists [70; 76; 69; 88], _. split; reflexivity. }
  assert (Hf2 : exists pre rest, e_flex (earrays_of t) = pre ++ table_ser eends2 ++ rest /\ N.of_nat (length pre) = 20).
  { exists ([70; 76; 69; 88] ++ table_ser eends1 ++ repeat 0 2), []. split; reflexivity. }
  assert (Hrep : eclass_repr (earrays_of t) est_noun ecl_noun /\ eclass_repr (earrays_of t) est_name ecl_name /\
    eclass_repr (earrays_of t) est_abbr ecl_abbr /\ eclass_repr (earrays_of t) est_fixed ecl_fixed /\ eclass_repr (earrays_of t) est_far ecl_far).
  { unfold eclass_repr, ecl_noun, ecl_name, ecl_abbr, ecl_fixed, ecl_far, est_noun, est_name, est_abbr, est_fixed, est_far.
    cbn [e_wdinfo e_tfoffs k_word k_ends].
    repeat match goal with |- _ /\ _ => split end; try reflexivity; try discriminate; try apply eends1_ok; try apply eends2_ok; try exact Hf; try exact Hf2. }
  destruct Hrep as (R1 & R2 & R3 & R4 & R5).
  repeat (destruct H as [->|H]); [| | | | |discriminate]; eexists _, _; (split; [reflexivity|]).
  - apply eclass_in with [] (estem_ser est_name ++ estem_ser est_abbr ++ estem_ser est_fixed ++ estem_ser est_far); try reflexivity. exact R1.
  - apply eclass_in with (estem_ser est_noun) (estem_ser est_abbr ++ estem_ser est_fixed ++ estem_ser est_far); try reflexivity. exact R2.
  - apply eclass_in with (estem_ser est_noun ++ estem_ser est_name) (estem_ser est_fixed ++ estem_ser est_far); try reflexivity. exact R3.
  - apply eclass_in with (estem_ser est_noun ++ estem_ser est_name ++ estem_ser est_abbr) (estem_ser est_far); try reflexivity. exact R4.
  - apply eclass_in with (estem_ser est_noun ++ estem_ser est_name ++ estem_ser est_abbr ++ estem_ser est_fixed) []; try reflexivity. exact R5.
Qed.

Definition eboundsb (e : entry) : bool :=
  match oclass e with 12 => true | _ => (chrmin e <=? 39) && (chrmax e =? 115) || (oclass e =? 16) && (chrmin e <=? 115) && (chrmax e =? 115) end.
Definition eitemsb (items : list (bytes * entry)) : bool :=
  let t := words_of items in
  forallb (fun ke => forallb (fun b => b <? 256) (fst ke)) items &&
  all_datab (listb (fun e => edemo_class (oclass e) && (nlexid e <? 2 ^ 24) && eboundsb e && negb (existsb (N.eqb 0) (stpost e)))) 49 t &&
  countsb C8 49 t && (getbuflen C8 stems_len t <? 2 ^ 32) && nonzerob 49 t &&
  (getbuflen C16 seriallen (create_lids t) <? 2 ^ 32).

Section Small.
  Variable items : list (bytes * entry).
  Hypothesis Hok : eitemsb items = true.
  Notation t := (words_of items).

  Lemma eitems_facts :
    Forall (fun ke => is_bytes (fst ke)) items /\
    all_data (fun l => listb (fun e => edemo_class (oclass e) && (nlexid e <? 2 ^ 24) && eboundsb e && negb (existsb (N.eqb 0) (stpost e))) l = true) t /\
    counts_ok C8 t /\ getbuflen C8 stems_len t < 2 ^ 32 /\ nonzero t /\ getbuflen C16 seriallen (create_lids t) < 2 ^ 32.
  Proof.
    unfold eitemsb in Hok. rewrite !andb_true_iff in Hok. destruct Hok as (((((H1 & H2) & H3) & H4) & H5) & H6).
    repeat match goal with |- _ /\ _ => split end.
    - rewrite forallb_forall in H1. apply Forall_forall. intros ke Hke. specialize (H1 ke Hke). rewrite forallb_forall in H1.
      apply Forall_forall. intros b Hb. apply N.ltb_lt, H1, Hb.
    - apply (all_datab_ok _ 49 _ H2).
    - apply (countsb_ok C8 49 _ H3).
    - apply N.ltb_lt, H4.
    - apply (nonzerob_ok 49 _ H5).
    - apply N.ltb_lt, H6.
  Qed.

  Lemma esmall_record key e : has_record t key e ->
    edemo_class (oclass e) = true /\ nlexid e < 2 ^ 24 /\ eboundsb e = true /\ ~ In 0 (stpost e).
  Proof.
    intros (l & Hl & Hin). pose proof (all_data_lookup _ _ _ _ (proj1 (proj2 eitems_facts)) Hl) as H. apply listb_ok in H as (_ & _ & H).
    rewrite Forall_forall in H. specialize (H e Hin). rewrite !andb_true_iff, N.ltb_lt in H. destruct H as (((H1 & H2) & H3) & H4).
    repeat match goal with |- _ /\ _ => split end; try assumption. intros H0. apply negb_true_iff in H4.
    apply eq_true_false_abs with (2 := H4). apply existsb_exists. exists 0. split; [exact H0|reflexivity].
  Qed.

  Lemma esmall_ordered : ordered t.
  Proof.
    apply (dict_reader_facts items wempty).
    - apply ordered_wempty.
    - apply eitems_facts.
    - intros key l. rewrite lookup_wempty. discriminate.
  Qed.

  Lemma esmall_holds : eholds (earrays_of t) (elexicon_of t).
  Proof.
    destruct eitems_facts as (_ & H2 & H3 & H4 & H5 & _). constructor.
    - exists []. rewrite app_nil_r. reflexivity.
    - apply dumpable_intro; [apply esmall_ordered|exact H3|exact H4].
    - exact H5.
    - intros key l Hl. pose proof (all_data_lookup _ _ _ _ H2 Hl) as H. apply listb_ok in H as (K1 & K2 & _). split; assumption.
    - intros key e H. apply edemo_class_ok, (esmall_record key e H).
  Qed.

  Lemma esmall_indexed : eindexed (earrays_of t) (elexicon_of t).
  Proof.
    destruct eitems_facts as (_ & _ & _ & H4 & _ & H6). constructor.
    - exists []. rewrite app_nil_r. reflexivity.
    - exact H6.
    - exact H4.
    - intros key e H. apply (esmall_record key e H).
  Qed.

  Lemma eclass_cases off st c : eclass_of (elexicon_of t) off = Some (st, c) ->
    off = 0 /\ c = ecl_noun \/ off = 4 /\ c = ecl_name \/ off = 8 /\ c = ecl_abbr \/ off = 12 /\ c = ecl_fixed \/ off = 16 /\ c = ecl_far.
  Proof.
    cbn [eclass_of elexicon_of]. destruct (N.eqb_spec off 0); [intros [= <- <-]; auto|]. destruct (N.eqb_spec off 4); [intros [= <- <-]; auto|].
    destruct (N.eqb_spec off 8); [intros [= <- <-]; auto|]. destruct (N.eqb_spec off 12); [intros [= <- <-]; auto 10|].
    destruct (N.eqb_spec off 16); [intros [= <- <-]; auto 10|discriminate].
  Qed.

  Lemma esmall_bounds : ebounds_ok (elexicon_of t).
  Proof.
    intros key e st c part id Hr Hc Hf. destruct (esmall_record key e Hr) as (_ & _ & H & _). unfold eboundsb in H.
    assert (Hn : c = ecl_noun \/ c = ecl_name \/ c = ecl_abbr -> chrmin e <= 39 -> chrmax e = 115 -> admits e part).
    { intros Hc' H1 H2 x p Hx. assert (Et : k_ends c = Some eends1) by (destruct Hc' as [->|[->| ->]]; reflexivity).
      destruct Hf as [E|t0 part id E Hin]; [congruence|]. rewrite Et in E. injection E as <-. subst part.
      destruct Hin as [[= <- E]|[[= <- <- <-]|[[= <- <- <-]|[[= <- <- <-]|[]]]]]; lia. }
    assert (Hb : oclass e <> 12 -> oclass e <> 16 -> chrmin e <= 39 /\ chrmax e = 115).
    { intros N1 N2. apply N.eqb_neq in N1, N2. destruct (oclass e) as [|q] eqn:Eo.
      - apply orb_true_iff in H as [H|H]; [|discriminate]. apply andb_true_iff in H as [H1 H2]. apply N.leb_le in H1. apply N.eqb_eq in H2. auto.
      - assert (H' : (chrmin e <=? 39) && (chrmax e =? 115) || (N.pos q =? 16) && (chrmin e <=? 115) && (chrmax e =? 115) = true).
        { destruct q as [q|q|]; try exact H. destruct q as [q|q|]; try exact H. destruct q as [q|q|]; try exact H. destruct q as [q|q|]; try exact H. discriminate. }
        rewrite N2 in H'. cbn [andb] in H'. rewrite orb_false_r in H'. apply andb_true_iff in H' as [H1 H2]. apply N.leb_le in H1. apply N.eqb_eq in H2. auto. }
    destruct (eclass_cases _ _ _ Hc) as [[Eo ->]|[[Eo ->]|[[Eo ->]|[[Eo ->]|[Eo ->]]]]]; try (apply Hn; [auto|apply Hb; rewrite Eo; discriminate|apply Hb; rewrite Eo; discriminate]).
    - intros x p Hx. destruct Hf as [E|t0 part id E Hin]; discriminate.
    - rewrite Eo in H. cbn in H. intros x p Hx. destruct Hf as [E|t0 part id E Hin]; [discriminate|]. injection E as <-. subst part. destruct Hin as [[= <- <- <-]|[]].
      apply orb_true_iff in H as [H|H]; apply andb_true_iff in H as [H1 H2]; apply N.leb_le in H1; apply N.eqb_eq in H2; lia.
  Qed.

  Lemma esmall_buildable : Forall (fun ke => (length (fst ke) <= 48)%nat) items ->
    (forall key e, has_record t key e -> oclass e = 12 -> stpost e = []) -> ebuildable (elexicon_of t).
  Proof.
    intros Hlen Hfix. constructor.
    - apply within_items, Hlen.
    - intros key e Hr. apply (esmall_record key e Hr).
    - intros key e st c t0 id part _ Hc Ht Hin.
      destruct (eclass_cases _ _ _ Hc) as [[Eo ->]|[[Eo ->]|[[Eo ->]|[[Eo ->]|[Eo ->]]]]]; try discriminate; injection Ht as <-; cbn in Hin;
        repeat (destruct Hin as [[= <- <-]|Hin]; [cbn; intuition discriminate|]); destruct Hin.
    - intros key e st c _ Hc. destruct (eclass_cases _ _ _ Hc) as [[Eo ->]|[[Eo ->]|[[Eo ->]|[[Eo ->]|[Eo ->]]]]]; vm_compute; discriminate.
    - intros key e st c Hr Hc Hk. destruct (eclass_cases _ _ _ Hc) as [[Eo ->]|[[Eo ->]|[[Eo ->]|[[Eo ->]|[Eo ->]]]]]; try discriminate.
      exact (Hfix key e Hr Eo).
  Qed.
End Small.

Definition eplainb (t : wtree (list entry)) : bool := all_datab (forallb (fun e => negb (oclass e =? 12) || negb (nonempty (stpost e)))) 49 t.
Lemma eplainb_ok t : eplainb t = true -> forall key e, has_record t key e -> oclass e = 12 -> stpost e = [].
Proof.
  intros H key e (l & Hl & Hin) Ho. apply all_datab_ok in H. pose proof (all_data_lookup _ _ _ _ H Hl) as H'. cbn beta in H'. rewrite forallb_forall in H'.
  specialize (H' e Hin). rewrite Ho in H'. cbn in H'. destruct (stpost e); [reflexivity|discriminate].
Qed.

Lemma edemo_ok : eitemsb edemo_items = true.
Proof. vm_compute. reflexivity. Qed.
Lemma edemo_holds : eholds edemo_arrays edemo_lexicon.
Proof. exact (esmall_holds edemo_items edemo_ok). Qed.
Lemma edemo_indexed : eindexed edemo_arrays edemo_lexicon.
Proof. exact (esmall_indexed edemo_items edemo_ok). Qed.
Lemma edemo_bounds : ebounds_ok edemo_lexicon.
Proof. exact (esmall_bounds edemo_items edemo_ok). Qed.
Lemma edemo_buildable : ebuildable edemo_lexicon.
Proof. apply (esmall_buildable edemo_items edemo_ok); [repeat constructor|apply eplainb_ok; vm_compute; reflexivity]. Qed.

Lemma eodd_ok : eitemsb eodd_items = true.
Proof. vm_compute. reflexivity. Qed.
Lemma eodd_holds : eholds eodd_arrays eodd_lexicon.
Proof. exact (esmall_holds eodd_items eodd_ok). Qed.
Lemma eodd_indexed : eindexed eodd_arrays eodd_lexicon.
Proof. exact (esmall_indexed eodd_items eodd_ok). Qed.
Lemma eodd_bounds : ebounds_ok eodd_lexicon.
Proof. exact (esmall_bounds eodd_items eodd_ok). Qed.
