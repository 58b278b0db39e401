(** * RusDemo: a small concrete Russian dictionary meeting all hypotheses of the theorems. *)
From Verif Require Import Base Serial SerialProofs WordTree TreeSpec WordTreeProofs FlatScan FlatScanProofs LidsProofs TrackProofs
  TreeWalk Stems StemSpec StemsProofs DictProofs CharTables CapScheme CapSpec CapProofs CapProofs2 PropCaseLemmas PropTreesLemmas
  GramMap RusRuntime RusSpec RusProofs RusProofs2 RusProofs3.
Local Open Scope N_scope.

(** ** Checkers *)
Fixpoint all_datab {X} (f : X -> bool) (n : nat) (t : wtree X) : bool :=
  match n with
  | O => false
  | S n' => (match p_data t with Some x => f x | None => true end) && forallb (fun ct => all_datab f n' (snd ct)) (nested t)
  end.
Lemma all_datab_ok {X} (f : X -> bool) n : forall t, all_datab f n t = true -> all_data (fun x => f x = true) t.
Proof.
  induction n as [|n IH]; intros [l d] H; cbn in H; [discriminate|]. apply andb_true_iff in H as [H1 H2]. constructor.
  - intros x ->. exact H1.
  - intros c t Hin. rewrite forallb_forall in H2. apply IH, (H2 (c, t) Hin).
Qed.

Definition entry_okb (e : entry) : bool :=
  (chrmin e <? 256) && (chrmax e <? 256) && (nlexid e <? 2 ^ 32) && (oclass e <? 2 ^ 15)
  && forallb (fun b => b <? 256) (stpost e) && (N.of_nat (length (stpost e)) <? 128).
Lemma entry_okb_ok e : entry_okb e = true -> entry_ok e.
Proof.
  unfold entry_okb. rewrite !andb_true_iff, !N.ltb_lt, forallb_forall. intros (((((H1 & H2) & H3) & H4) & H5) & H6).
  repeat split; try assumption. apply Forall_forall. intros b Hb. apply N.ltb_lt, H5, Hb.
Qed.
Fixpoint max_descendingb (l : list entry) : bool :=
  match l with [] => true | e :: l' => forallb (fun e' => chrmax e' <=? chrmax e) l' && max_descendingb l' end.
Lemma max_descendingb_ok l : max_descendingb l = true -> max_descending l.
Proof.
  induction l as [|e l IH]; [intros; exact I|]. cbn. rewrite andb_true_iff, forallb_forall. intros [H1 H2]. split; [|apply IH, H2].
  apply Forall_forall. intros e' He. apply N.leb_le, H1, He.
Qed.
Definition listb (f : entry -> bool) (l : list entry) : bool :=
  forallb entry_okb l && (N.of_nat (length l) <? 2 ^ 32) && max_descendingb l && forallb f l.
Lemma listb_ok f l : listb f l = true -> stems_ok l /\ max_descending l /\ Forall (fun e => f e = true) l.
Proof.
  unfold listb. rewrite !andb_true_iff, N.ltb_lt, !forallb_forall. intros (((H1 & H2) & H3) & H4).
  split; [split; [|exact H2]|split; [apply max_descendingb_ok, H3|]]; apply Forall_forall; intros e He.
  - apply entry_okb_ok, H1, He.
  - apply H4, He.
Qed.

(** ** The dictionary *)
(** endings: "" (nominative), "а", "ы" *)
Definition endings1 : wtree (list (N * N)) :=
  insert [] [224] (fun _ => [(0x0800, 3); (0x1000, 3)]) (insert [] [251] (fun _ => [(0x0800, 3)]) (insert [] [] (fun _ => [(0, 3); (0x3000, 3)]) wempty)).
(** one ending, for a verb without infinitive *)
Definition endings2 : wtree (list (N * N)) := insert [] [224] (fun _ => [(0x0080, 3)]) wempty.
(** сон, сна: alternations "н" at level 2, "он" at level 1 *)
Definition alter1 : list (N * bytes) := [(2, [237]); (1, [238; 237])].

Definition st_plain := Steminfo (7 + 0x2000) 1 0.
Definition st_mixed := Steminfo (7 + 0x6000) 1 1.
Definition st_fixed := Steminfo 49 0 0.
Definition st_prep := Steminfo 51 0x30 0.
Definition st_name := Steminfo (38 + 0x2000) 1 0.
Definition st_verb := Steminfo (1 + 0x2000) 3 0.
Definition cl_plain := AClass (7 + 0x2000) 0 (Some endings1) None.
Definition cl_mixed := AClass (7 + 0x6000) 0 (Some endings1) (Some alter1).
Definition cl_fixed := AClass 49 0 None None.
Definition cl_prep := AClass 51 0x30 None None.
Definition cl_name := AClass (38 + 0x2000) 0 (Some endings1) None.
Definition cl_verb := AClass (1 + 0x2000) 0 (Some endings2) None.

Definition demo_items : list (bytes * entry) :=
  [ ([228; 238; 236], Entry 224 251 1 0 [])                           (* дом *)
  ; ([228; 238; 236], Entry 224 251 5 0 [45; 242; 238])                (* дом..-то *)
  ; ([241], Entry 237 238 2 4 [])                                      (* с(о)н *)
  ; ([234; 224; 234], Entry 0 0 3 10 [])                               (* как *)
  ; ([234; 224; 234], Entry 0 0 4 10 [45; 242; 238])                   (* как-то *)
  ; ([239; 238; 228], Entry 0 0 300 12 [])                             (* под *)
  ; ([232; 226; 224; 237], Entry 224 251 65540 16 []) ].                (* иван *)

(** dictionaries with the classes above *)
Definition words_of (items : list (bytes * entry)) : wtree (list entry) := dict_reader items wempty.
Definition lexicon_of (t : wtree (list entry)) : lexicon :=
  Lexicon t (fun off =>
    if off =? 0 then Some (st_plain, cl_plain) else if off =? 4 then Some (st_mixed, cl_mixed)
    else if off =? 10 then Some (st_fixed, cl_fixed) else if off =? 12 then Some (st_prep, cl_prep)
    else if off =? 16 then Some (st_name, cl_name) else if off =? 20 then Some (st_verb, cl_verb) else None).
Definition arrays_of (t : wtree (list entry)) : arrays :=
  Arrays (repeat 0 16 ++ serialize C8 flex_ser flex_len endings1 ++ repeat 0 7 ++ serialize C8 flex_ser flex_len endings2) (0 :: mix_ser alter1)
         (class_ser st_plain ++ class_ser st_mixed ++ class_ser st_fixed ++ class_ser st_prep ++ class_ser st_name ++ class_ser st_verb)
         (stemtree_bytes t) (lidstree_bytes (create_lids t)).

Definition demo_words : wtree (list entry) := words_of demo_items.
Definition demo_lexicon : lexicon := lexicon_of demo_words.
Definition demo_arrays : arrays := arrays_of demo_words.

Lemma endings1_ok : flex_ok endings1.
Proof.
  unfold flex_ok. split; [|split].
  - apply dumpable_intro; [|apply countsb_ok with 5%nat; reflexivity|reflexivity].
    unfold endings1. repeat (apply insert_ordered; [repeat constructor|]). apply ordered_wempty.
  - apply nonzerob_ok with 5%nat. reflexivity.
  - apply all_data_impl with (fun l => (Nat.leb (length l) 64 && forallb (fun gf => (fst gf <? 2 ^ 16) && (snd gf <? 256)) l) = true).
    + intros l. rewrite andb_true_iff, Nat.leb_le, forallb_forall. intros [H1 H2]. split; [exact H1|]. apply Forall_forall.
      intros gf Hin. specialize (H2 gf Hin). apply andb_true_iff in H2 as [H2 H3]. rewrite N.ltb_lt in H2, H3. split; assumption.
    + apply (all_datab_ok _ 5). reflexivity.
Qed.

Lemma endings2_ok : flex_ok endings2.
Proof.
  unfold flex_ok. split; [|split].
  - apply dumpable_intro; [|apply countsb_ok with 5%nat; reflexivity|reflexivity].
    unfold endings2. repeat (apply insert_ordered; [repeat constructor|]). apply ordered_wempty.
  - apply nonzerob_ok with 5%nat. reflexivity.
  - apply all_data_impl with (fun l => (Nat.leb (length l) 64 && forallb (fun gf => (fst gf <? 2 ^ 16) && (snd gf <? 256)) l) = true).
    + intros l. rewrite andb_true_iff, Nat.leb_le, forallb_forall. intros [H1 H2]. split; [exact H1|]. apply Forall_forall.
      intros gf Hin. specialize (H2 gf Hin). apply andb_true_iff in H2 as [H2 H3]. rewrite N.ltb_lt in H2, H3. split; assumption.
    + apply (all_datab_ok _ 5). reflexivity.
Qed.

Lemma alter1_ok : mix_ok alter1.
Proof.
  unfold mix_ok, alter1. split; [reflexivity|]. split.
  - repeat constructor.
  - cbn. repeat split; repeat constructor.
Qed.

Lemma class_in A off st c pre rest :
  class_repr A st c -> classmap A = pre ++ class_ser st ++ rest -> N.of_nat (length pre) = off -> wdinfo st < 2 ^ 16 ->
  (bit 13 (wdinfo st) || (N.land (wdinfo st) 63 =? 51) = false -> tfoffs st = 0) ->
  (bit 14 (wdinfo st) = false -> mtoffs st = 0) ->
  class_at A off st /\ class_repr A st c.
Proof. intros H1 H2 H3 H4 H5 H6. split; [|exact H1]. repeat split; try assumption. exists pre, rest. split; assumption. Qed.

Definition demo_class (off : N) : bool := existsb (N.eqb off) [0; 4; 10; 12; 16; 20].

Lemma demo_class_ok t off : demo_class off = true ->
  exists st c, class_of (lexicon_of t) off = Some (st, c) /\ class_at (arrays_of t) off st /\ class_repr (arrays_of t) st c.
Proof.
  unfold demo_class. cbn [existsb]. rewrite !orb_true_iff, !N.eqb_eq. intros H.
  assert (Hf : exists pre rest, flexTree (arrays_of t) = pre ++ serialize C8 flex_ser flex_len endings1 ++ rest /\ N.of_nat (length pre) = 16 * 1).
  { eexists (repeat 0 16), _. split; reflexivity. }
  assert (Hf2 : exists pre rest, flexTree (arrays_of t) = pre ++ serialize C8 flex_ser flex_len endings2 ++ rest /\ N.of_nat (length pre) = 16 * 3).
  { exists (repeat 0 16 ++ serialize C8 flex_ser flex_len endings1 ++ repeat 0 7), []. split; [|reflexivity]. rewrite app_nil_r, <- !app_assoc. reflexivity. }
  assert (Hm : exists pre rest, mxTables (arrays_of t) = pre ++ mix_ser alter1 ++ rest /\ N.of_nat (length pre) = 1).
  { exists [0], []. rewrite app_nil_r. split; reflexivity. }
  pose proof endings1_ok. pose proof endings2_ok. pose proof alter1_ok.
  assert (Hrep : class_repr (arrays_of t) st_plain cl_plain /\ class_repr (arrays_of t) st_mixed cl_mixed /\
                 class_repr (arrays_of t) st_fixed cl_fixed /\ class_repr (arrays_of t) st_prep cl_prep /\ class_repr (arrays_of t) st_name cl_name /\ class_repr (arrays_of t) st_verb cl_verb).
  { unfold class_repr, cl_plain, cl_mixed, cl_fixed, cl_prep, cl_name, cl_verb, st_verb, st_plain, st_mixed, st_fixed, st_prep, st_name.
    cbn [wdinfo tfoffs mtoffs c_word c_case c_flex c_mix].
    repeat match goal with |- _ /\ _ => split end; try reflexivity; try discriminate; try apply endings1_ok; try apply endings2_ok; try apply alter1_ok; try exact Hf; try exact Hf2; try exact Hm.
    - left. reflexivity.
    - right. reflexivity. }
  destruct Hrep as (R1 & R2 & R3 & R4 & R5 & R6).
  repeat (destruct H as [->|H]); [| | | | | |discriminate]; eexists _, _; (split; [reflexivity|]).
  - apply class_in with [] (class_ser st_mixed ++ class_ser st_fixed ++ class_ser st_prep ++ class_ser st_name ++ class_ser st_verb);
      try reflexivity; try (intros; discriminate). exact R1.
  - apply class_in with (class_ser st_plain) (class_ser st_fixed ++ class_ser st_prep ++ class_ser st_name ++ class_ser st_verb);
      try reflexivity; try (intros; discriminate). exact R2.
  - apply class_in with (class_ser st_plain ++ class_ser st_mixed) (class_ser st_prep ++ class_ser st_name ++ class_ser st_verb);
      try reflexivity; try (intros; discriminate). exact R3.
  - apply class_in with (class_ser st_plain ++ class_ser st_mixed ++ class_ser st_fixed) (class_ser st_name ++ class_ser st_verb);
      try reflexivity; try (intros; discriminate). exact R4.
  - apply class_in with (class_ser st_plain ++ class_ser st_mixed ++ class_ser st_fixed ++ class_ser st_prep) (class_ser st_verb);
      try reflexivity; try (intros; discriminate). exact R5.
  - apply class_in with (class_ser st_plain ++ class_ser st_mixed ++ class_ser st_fixed ++ class_ser st_prep ++ class_ser st_name) [];
      try reflexivity; try (intros; discriminate). exact R6.
Qed.

(** what a list of stems has to satisfy *)
Definition boundsb (e : entry) : bool :=
  match oclass e with
  | 0 | 16 => (chrmin e =? 224) && (chrmax e =? 251) | 4 => (chrmin e =? 237) && (chrmax e =? 238) | 20 => (chrmin e =? 224) && (chrmax e =? 224) | _ => true end.
Definition itemsb (items : list (bytes * entry)) : bool :=
  let t := words_of items in
  forallb (fun ke => forallb (fun b => b <? 256) (fst ke)) items &&
  all_datab (listb (fun e => demo_class (oclass e) && (nlexid e <? 2 ^ 24) && boundsb e && negb (existsb (N.eqb 0) (stpost e)))) 49 t &&
  countsb C8 49 t && (getbuflen C8 stems_len t <? 2 ^ 32) && nonzerob 49 t &&
  (getbuflen C16 seriallen (create_lids t) <? 2 ^ 32).

Section Small.
  Variable items : list (bytes * entry).
  Hypothesis Hok : itemsb items = true.
  Notation t := (words_of items).

  Lemma items_facts :
    Forall (fun ke => is_bytes (fst ke)) items /\
    all_data (fun l => listb (fun e => demo_class (oclass e) && (nlexid e <? 2 ^ 24) && boundsb e && negb (existsb (N.eqb 0) (stpost e))) l = true) t /\
    counts_ok C8 t /\ getbuflen C8 stems_len t < 2 ^ 32 /\ nonzero t /\ getbuflen C16 seriallen (create_lids t) < 2 ^ 32.
  Proof.
    unfold itemsb in Hok. rewrite !andb_true_iff in Hok. destruct Hok as (((((H1 & H2) & H3) & H4) & H5) & H6).
    repeat match goal with |- _ /\ _ => split end.
    - rewrite forallb_forall in H1. apply Forall_forall. intros ke Hke. specialize (H1 ke Hke). rewrite forallb_forall in H1.
      apply Forall_forall. intros b Hb. apply N.ltb_lt, H1, Hb.
    - apply (all_datab_ok _ 49 _ H2).
    - apply (countsb_ok C8 49 _ H3).
    - apply N.ltb_lt, H4.
    - apply (nonzerob_ok 49 _ H5).
    - apply N.ltb_lt, H6.
  Qed.

  Lemma small_record key e : has_record t key e ->
    demo_class (oclass e) = true /\ nlexid e < 2 ^ 24 /\ boundsb e = true /\ ~ In 0 (stpost e).
  Proof.
    intros (l & Hl & Hin). pose proof (all_data_lookup _ _ _ _ (proj1 (proj2 items_facts)) Hl) as H. apply listb_ok in H as (_ & _ & H).
    rewrite Forall_forall in H. specialize (H e Hin). rewrite !andb_true_iff, N.ltb_lt in H. destruct H as (((H1 & H2) & H3) & H4).
    repeat match goal with |- _ /\ _ => split end; try assumption. intros H0. apply negb_true_iff in H4.
    apply eq_true_false_abs with (2 := H4). apply existsb_exists. exists 0. split; [exact H0|reflexivity].
  Qed.

  Lemma small_ordered : ordered t.
  Proof.
    apply (dict_reader_facts items wempty).
    - apply ordered_wempty.
    - apply items_facts.
    - intros key l. rewrite lookup_wempty. discriminate.
  Qed.

  Lemma small_holds : holds (arrays_of t) (lexicon_of t).
  Proof.
    destruct items_facts as (_ & H2 & H3 & H4 & H5 & _). constructor.
    - exists []. rewrite app_nil_r. reflexivity.
    - apply dumpable_intro; [apply small_ordered|exact H3|exact H4].
    - exact H5.
    - intros key l Hl. pose proof (all_data_lookup _ _ _ _ H2 Hl) as H. apply listb_ok in H as (K1 & K2 & _). split; assumption.
    - intros key e H. apply demo_class_ok, (small_record key e H).
  Qed.

  Lemma small_indexed : indexed (arrays_of t) (lexicon_of t).
  Proof.
    destruct items_facts as (_ & _ & _ & H4 & _ & H6). constructor.
    - exists []. rewrite app_nil_r. reflexivity.
    - exact H6.
    - exact H4.
    - intros key e H. apply (small_record key e H).
  Qed.

  Lemma small_bounds : bounds_ok (lexicon_of t).
  Proof.
    assert (Hend : forall key l, lookup key endings1 = Some l -> key = [] \/ key = [224] \/ key = [251]).
    { intros [|c [|d key]] l; [left; reflexivity| |]; let t := eval vm_compute in endings1 in change endings1 with t; cbn [lookup assoc nested p_data].
      - destruct (N.eqb_spec 251 c) as [<-|]; [right; right; reflexivity|]. destruct (N.eqb_spec 224 c) as [<-|]; [right; left; reflexivity|discriminate].
      - destruct (251 =? c); [discriminate|]. destruct (224 =? c); discriminate. }
    intros key e st c part g f Hrec Hcl Hf.
      destruct (small_record key e Hrec) as (_ & _ & H & _). unfold boundsb in H. cbn [class_of lexicon_of] in Hcl.
      assert (Hfl : forall c0, c_flex c0 = Some endings1 -> c_mix c0 = None -> chrmin e = 224 -> chrmax e = 251 -> form_part c0 part g f -> admits e part).
      { intros c0 E1 E2 E3 E4 Hp x p' Hx. destruct Hp as [E|ft p g f E _ (l & Hl & _)|ft mx mask alt p g f _ E]; try congruence.
        rewrite E in E1. injection E1 as ->. apply Hend in Hl. subst p. rewrite E3, E4. destruct Hl as [Hl|[Hl|Hl]]; [discriminate|injection Hl as -> _|injection Hl as -> _]; lia. }
      destruct (N.eqb_spec (oclass e) 0) as [E0|_].
      { injection Hcl as <- <-. rewrite E0 in H. apply andb_true_iff in H as [H1 H2]. apply N.eqb_eq in H1, H2. apply (Hfl cl_plain); auto. }
      destruct (N.eqb_spec (oclass e) 4) as [E4|_].
      { injection Hcl as <- <-. rewrite E4 in H. apply andb_true_iff in H as [H1 H2]. apply N.eqb_eq in H1, H2.
        intros x p' Hx. destruct Hf as [E|ft p g f _ E|ft mx mask alt p g f Ef Em Hin]; try discriminate.
        injection Em as <-. rewrite H1, H2. destruct Hin as [[= <- <-]|[[= <- <-]|[]]]; injection Hx as <- _; lia. }
      destruct (N.eqb_spec (oclass e) 10) as [_|_].
      { injection Hcl as <- <-. intros x p' Hx. destruct Hf; discriminate. }
      destruct (N.eqb_spec (oclass e) 12) as [_|_].
      { injection Hcl as <- <-. intros x p' Hx. destruct Hf; discriminate. }
      destruct (N.eqb_spec (oclass e) 16) as [E16|_].
      { injection Hcl as <- <-. rewrite E16 in H. apply andb_true_iff in H as [H1 H2]. apply N.eqb_eq in H1, H2. apply (Hfl cl_name); auto. }
      destruct (N.eqb_spec (oclass e) 20) as [E20|_]; [|discriminate].
      injection Hcl as <- <-. rewrite E20 in H. apply andb_true_iff in H as [H1 H2]. apply N.eqb_eq in H1, H2.
      intros x p' Hx. destruct Hf as [E|ft p g f E _ (l & Hl & _)|ft mx mask alt p g f _ E]; try discriminate.
      injection E as <-. rewrite H1, H2. subst p. let t := eval vm_compute in endings2 in change endings2 with t in Hl. cbn [lookup assoc nested] in Hl.
      destruct (N.eqb_spec 224 x) as [<-|]; [lia|discriminate].
  Qed.
End Small.

Lemma demo_items_ok : itemsb demo_items = true.
Proof. vm_compute. reflexivity. Qed.
Lemma demo_ordered : ordered demo_words.
Proof. exact (small_ordered demo_items demo_items_ok). Qed.
Lemma demo_holds : holds demo_arrays demo_lexicon.
Proof. exact (small_holds demo_items demo_items_ok). Qed.
Lemma demo_indexed : indexed demo_arrays demo_lexicon.
Proof. exact (small_indexed demo_items demo_items_ok). Qed.
Lemma demo_bounds : bounds_ok demo_lexicon.
Proof. exact (small_bounds demo_items demo_items_ok). Qed.
