(** * RusDemo2: the concrete dictionaries are buildable, and one whose forms are all recognised. *)
From Verif Require Import Base Serial SerialProofs WordTree TreeSpec WordTreeProofs FlatScan FlatScanProofs LidsProofs TrackProofs
  TreeWalk Stems StemSpec StemsProofs DictProofs CharTables CapScheme CapSpec CapProofs CapProofs2 PropCaseLemmas PropTreesLemmas
  GramMap RusRuntime RusSpec RusProofs RusProofs2 RusProofs3 RusDemo RusBuild RusBuildSpec.
Local Open Scope N_scope.

Lemma within_items items : Forall (fun ke => (length (fst ke) <= 48)%nat) items -> within 48 (words_of items).
Proof.
  intros H. unfold words_of, dict_reader. assert (Hw : within 48 (@wempty (list entry))) by apply within_wempty. revert Hw. generalize (@wempty (list entry)) as t.
  induction H as [|ke items Hke H IH]; intros t Ht; cbn [fold_left]; [exact Ht|]. apply IH, within_insert; assumption.
Qed.

Lemma endings1_within : within 64 endings1.
Proof. unfold endings1. repeat (apply within_insert; [|cbn; lia]). apply within_wempty. Qed.

Lemma endings2_within : within 64 endings2.
Proof. unfold endings2. repeat (apply within_insert; [|cbn; lia]). apply within_wempty. Qed.

Lemma class_cases t off st c : class_of (lexicon_of t) off = Some (st, c) ->
  c = cl_plain \/ c = cl_mixed /\ off = 4 \/ c = cl_fixed \/ c = cl_prep \/ c = cl_name \/ c = cl_verb.
Proof.
  cbn [class_of lexicon_of]. destruct (off =? 0); [intros [= <- <-]; auto|]. destruct (N.eqb_spec off 4); [intros [= <- <-]; auto|].
  destruct (off =? 10); [intros [= <- <-]; auto|]. destruct (off =? 12); [intros [= <- <-]; auto|].
  destruct (off =? 16); [intros [= <- <-]; auto 10|]. destruct (off =? 20); [intros [= <- <-]; auto 10|discriminate].
Qed.

Lemma small_buildable items : itemsb items = true -> Forall (fun ke => (length (fst ke) <= 48)%nat) items -> buildable (lexicon_of (words_of items)).
Proof.
  intros Hok Hlen. constructor.
  - apply within_items, Hlen.
  - intros key e Hr. apply (small_record items Hok key e Hr).
  - intros key e st c ft _ Hc Hf. apply class_cases in Hc as [->|[[-> _]|[->|[->|[->| ->]]]]]; try discriminate; injection Hf as <-; (apply endings1_within || apply endings2_within).
  - intros key e st c mx _ Hc Hm. apply class_cases in Hc as [->|[[-> _]|[->|[->|[->| ->]]]]]; try discriminate. injection Hm as <-.
    repeat constructor; cbn; intuition discriminate.
Qed.

Lemma demo_buildable : buildable demo_lexicon.
Proof. apply small_buildable; [apply demo_items_ok|]. repeat constructor. Qed.

(** ** A dictionary all forms of which are recognised *)
Definition demo2_items : list (bytes * entry) :=
  [ ([228; 238; 236], Entry 224 251 1 0 [])                           (* дом *)
  ; ([241], Entry 237 238 2 4 [])                                      (* с(о)н *)
  ; ([241], Entry 237 238 6 4 [45; 242; 238])                          (* с(о)н..-то *)
  ; ([234; 224; 234], Entry 0 0 3 10 [])                               (* как *)
  ; ([239; 238; 228], Entry 0 0 300 12 [])                             (* под *)
  ; ([232; 226; 224; 237], Entry 224 251 65540 16 []) ].                (* иван *)
Definition demo2_words := words_of demo2_items.
Definition demo2_lexicon := lexicon_of demo2_words.
Definition demo2_arrays := arrays_of demo2_words.
Lemma demo2_items_ok : itemsb demo2_items = true.
Proof. vm_compute. reflexivity. Qed.
Lemma demo2_holds : holds demo2_arrays demo2_lexicon.
Proof. exact (small_holds demo2_items demo2_items_ok). Qed.
Lemma demo2_indexed : indexed demo2_arrays demo2_lexicon.
Proof. exact (small_indexed demo2_items demo2_items_ok). Qed.
Lemma demo2_buildable : buildable demo2_lexicon.
Proof. apply small_buildable; [apply demo2_items_ok|]. repeat constructor. Qed.

Definition goodb (c : N) : bool :=
  ((c <? 256) && (ctype rus_casing c =? 1) && (locase rus_casing c =? c) && (ctype rus_casing (upcase rus_casing c) =? 0)) ||
  ((c <? 256) && (ctype rus_casing c =? 2) && negb (c =? 0)).
Lemma goodb_ok w : forallb goodb w = true -> Forall (good_char rus_casing) w.
Proof.
  rewrite forallb_forall, Forall_forall. intros H c Hc. specialize (H c Hc). unfold goodb in H.
  rewrite orb_true_iff, !andb_true_iff, negb_true_iff, N.ltb_lt, N.eqb_neq, !N.eqb_eq in H.
  destruct H as [(((H1 & H2) & H3) & H4)|((H1 & H2) & H3)]; [left|right]; repeat split; assumption.
Qed.

Lemma endings1_keys fx t : In t (endings_for endings1 fx) -> t = [] \/ t = [224] \/ t = [251].
Proof.
  unfold endings_for. intros H. apply in_map_iff in H as ([k l] & <- & H). apply filter_In in H as [H _].
  let x := eval vm_compute in (entries [] endings1) in change (entries [] endings1) with x in H.
  cbn in H. destruct H as [[= <- <-]|[[= <- <-]|[[= <- <-]|[]]]]; cbn [fst]; auto.
Qed.

Lemma endings2_keys fx t : In t (endings_for endings2 fx) -> t = [224].
Proof.
  unfold endings_for. intros H. apply in_map_iff in H as ([k l] & <- & H). apply filter_In in H as [H _].
  let x := eval vm_compute in (entries [] endings2) in change (entries [] endings2) with x in H.
  cbn in H. destruct H as [[= <- <-]|[]]; cbn [fst]; auto.
Qed.

Lemma small_tails t off st c fx x : class_of (lexicon_of t) off = Some (st, c) -> In x (tails c fx) ->
  forallb goodb x = true /\ (off = 4 -> x <> []).
Proof.
  intros Hc Hin.
  assert (Hend : forall y, In y (endings_for endings1 fx) -> forallb goodb y = true).
  { intros y Hy. apply endings1_keys in Hy as [->|[->| ->]]; vm_compute; reflexivity. }
  assert (Hno : forall c', c' <> cl_mixed -> c = c' -> off = 4 -> x <> []).
  { intros c' Hn -> ->. cbn in Hc. injection Hc as _ <-. congruence. }
  apply class_cases in Hc as Hcc. destruct Hcc as [->|[[-> ->]|[->|[->|[->| ->]]]]].
  - split; [apply Hend, Hin|apply (Hno cl_plain); [discriminate|reflexivity]].
  - unfold tails, cl_mixed in Hin. cbn [c_flex c_mix c_word] in Hin.
    destruct (alternation_for (7 + 0x6000) alter1 fx) as [alt|] eqn:Ea; [|destruct Hin]. apply in_map_iff in Hin as (y & <- & Hy).
    unfold alternation_for in Ea. destruct (find _ alter1) as [[mask a]|] eqn:Ef; [|discriminate]. cbn in Ea. injection Ea as <-.
    apply find_some in Ef as [Ef _]. rewrite forallb_app, (Hend y Hy), andb_true_r.
    destruct Ef as [[= <- <-]|[[= <- <-]|[]]]; (split; [vm_compute; reflexivity|intros _ H; discriminate H]).
  - destruct Hin as [<-|[]]. split; [reflexivity|apply (Hno cl_fixed); [discriminate|reflexivity]].
  - destruct Hin as [<-|[]]. split; [reflexivity|apply (Hno cl_prep); [discriminate|reflexivity]].
  - split; [apply Hend, Hin|apply (Hno cl_name); [discriminate|reflexivity]].
  - apply endings2_keys in Hin. subst x. split; [reflexivity|intros _; discriminate].
Qed.

Fixpoint keysb (f : bytes -> bool) (n : nat) (pre : bytes) (t : wtree (list entry)) : bool :=
  match n with O => false | S n' => f pre && forallb (fun ct => keysb f n' (pre ++ [fst ct]) (snd ct)) (nested t) end.
Lemma keysb_ok f n : forall pre t, keysb f n pre t = true -> forall key l, lookup key t = Some l -> f (pre ++ key) = true.
Proof.
  induction n as [|n IH]; intros pre t H key l Hl; [discriminate|]. cbn in H. apply andb_true_iff in H as [H1 H2].
  destruct key as [|c key]; [rewrite app_nil_r; exact H1|]. cbn [lookup] in Hl. destruct (assoc c (nested t)) as [t'|] eqn:E; [|discriminate].
  apply assoc_in in E. rewrite forallb_forall in H2. specialize (IH _ _ (H2 _ E) key l Hl). cbn [fst] in IH. rewrite <- app_assoc in IH. exact IH.
Qed.

Definition lettersb (t : wtree (list entry)) : bool :=
  keysb (forallb goodb) 16 [] t &&
  all_datab (forallb (fun e => forallb goodb (stpost e) && (negb (nonempty (stpost e)) || (oclass e =? 4)))) 16 t.

Lemma small_recognisable items : itemsb items = true -> lettersb (words_of items) = true -> recognisable (lexicon_of (words_of items)).
Proof.
  intros Hok Hlet. unfold lettersb in Hlet. apply andb_true_iff in Hlet as [Hk Hd]. apply all_datab_ok in Hd.
  assert (Hrec : forall key e, has_record (words_of items) key e -> forallb goodb key = true /\ forallb goodb (stpost e) = true /\ (stpost e = [] \/ oclass e = 4)).
  { intros key e (l & Hl & Hin). split.
    - apply (keysb_ok _ _ _ _ Hk key l Hl).
    - pose proof (all_data_lookup _ _ _ _ Hd Hl) as H'. cbn beta in H'. rewrite forallb_forall in H'. specialize (H' e Hin).
      apply andb_true_iff in H' as [H1 H2]. split; [exact H1|]. apply orb_true_iff in H2 as [H2|H2]; [left|right; apply N.eqb_eq, H2].
      destruct (stpost e); [reflexivity|discriminate]. }
  constructor.
  - exact (small_bounds items Hok).
  - intros key e st c _ Hc H6. apply class_cases in Hc as [->|[[-> _]|[->|[->|[->| ->]]]]]; vm_compute in H6; discriminate.
  - intros key e st c ft t g f _ Hc Hin. apply class_cases in Hc as [->|[[-> _]|[->|[->|[->| ->]]]]]; vm_compute in Hin; intuition discriminate.
  - intros key e st c fx Hr Hc. destruct (Hrec key e Hr) as (_ & _ & [H|H]); apply Forall_forall; intros t Hin; [right; rewrite H; exact I|left].
    destruct (small_tails _ _ _ _ _ _ Hc Hin) as [_ Hn]. exact (Hn H).
  - intros key e st c fx Hr Hc. destruct (Hrec key e Hr) as (H1 & H2 & _). apply Forall_forall. intros w Hw. unfold raw_forms in Hw.
    apply in_map_iff in Hw as (t & <- & Ht). apply goodb_ok. rewrite !forallb_app, H1, H2. destruct (small_tails _ _ _ _ _ _ Hc Ht) as [-> _]. reflexivity.
Qed.

Lemma demo2_recognisable : recognisable demo2_lexicon.
Proof. apply small_recognisable; [apply demo2_items_ok|vm_compute; reflexivity]. Qed.
