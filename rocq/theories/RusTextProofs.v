(** * RusTextProofs: the text of an article is read as it is written. *)
From Coq Require Import String Ascii.
From Verif Require Import Base Serial SerialProofs WordTree TreeSpec Stems StemSpec CharTables CapScheme CapSpec GramMap RusRuntime RusSpec Compile CompileSpec Resolve Api Utf8
  EngCompile EngCompileSpec EngCompileProofs EngCompileProofs2 RusText RusTextSpec.
Local Open Scope N_scope.
Local Open Scope list_scope.
Notation length := List.length.
Notation visible := RusTextSpec.visible.

(** ** Tokens *)
Lemma visible_not_space c : visible c -> is_space c = false.
Proof. unfold visible, is_space. intros H. apply N.leb_gt. exact H. Qed.
Lemma visibles s : Forall visible s -> Forall (fun c => is_space c = false) s.
Proof. intros H. refine (Forall_impl _ _ H). intros c. apply visible_not_space. Qed.
Lemma blank_small c : blank c -> c <= 32.
Proof. intros [->| ->]; lia. Qed.

(** A pattern of visible characters does not begin before a blank and end behind it. *)
Lemma starts_cut pat : Forall visible pat -> forall v c s, c <= 32 -> starts pat (v ++ c :: s) = true -> starts pat v = true.
Proof.
  intros Hp v c s Hc H. apply starts_iff in H as (r & H). revert v H. induction Hp as [|p pat Hvp Hp IH]; intros v H; [apply starts_iff; exists v; reflexivity|].
  destruct v as [|d v]; cbn in H; injection H as <- H.
  - unfold visible in Hvp. lia.
  - apply IH in H. apply starts_iff in H as (r' & ->). apply starts_iff. exists r'. reflexivity.
Qed.

Lemma strstr_token pat a sp s : Forall visible pat -> pat <> [] -> lacks pat a -> Forall (fun c => c <= 32) sp -> sp <> [] ->
  strstr pat (a ++ sp ++ s) = match strstr pat s with None => None | Some (u, v) => Some (a ++ sp ++ u, v) end.
Proof.
  intros Hp Hn Hl Hs Hsp.
  assert (K : strstr pat (sp ++ s) = match strstr pat s with None => None | Some (u, v) => Some (sp ++ u, v) end).
  { clear Hsp. induction Hs as [|c sp Hc Hs IH]; [cbn [app]; destruct (strstr pat s) as [[u v]|]; reflexivity|]. cbn [app strstr].
    destruct (starts pat (c :: sp ++ s)) eqn:E.
    - destruct pat as [|p pat]; [congruence|]. apply starts_iff in E as (r & E). injection E as -> _. inversion Hp; subst. unfold visible in *. lia.
    - rewrite IH. destruct (strstr pat s) as [[u v]|]; reflexivity. }
  destruct sp as [|c0 sp]; [congruence|].
  induction a as [|c a IH].
  - cbn [app]. cbn [app] in K. rewrite K. destruct (strstr pat s) as [[u v]|]; reflexivity.
  - cbn [app strstr]. destruct (starts pat (c :: a ++ c0 :: sp ++ s)) eqn:E.
    + exfalso. change (c :: a ++ c0 :: sp ++ s) with ((c :: a) ++ c0 :: sp ++ s) in E. apply starts_cut in E; [|exact Hp|inversion Hs; assumption].
      apply starts_iff in E as (r & E). apply (Hl [] r). exact E.
    + cbn [app] in IH. rewrite IH by (intros u v ->; apply (Hl (c :: u) v); reflexivity). destruct (strstr pat s) as [[u v]|]; reflexivity.
Qed.
Lemma strstr_lacks pat s : lacks pat s -> strstr pat s = None.
Proof.
  intros H. destruct (strstr pat s) as [[a b]|] eqn:E; [|reflexivity]. apply strstr_some in E as (-> & r & ->). exfalso. apply (H a r). reflexivity.
Qed.
Lemma lacks_colon q s : Forall (fun c => c <> 58) s -> lacks (q ++ [58]) s.
Proof.
  intros H u v ->. apply Forall_app in H as [_ H]. apply Forall_app in H as [H _]. apply Forall_app in H as [_ H]. inversion H. congruence.
Qed.
Lemma lacks_char c pat s : In c pat -> ~ In c s -> lacks pat s.
Proof. intros Hc Hs u v ->. apply Hs. apply in_or_app. right. apply in_or_app. left. exact Hc. Qed.
Lemma lacks_first c pat s : hd_error pat = Some c -> ~ In c s -> lacks pat s.
Proof. destruct pat as [|d pat]; [discriminate|]. intros [= ->]. apply lacks_char. left. reflexivity. Qed.

(** ** Fields *)
Lemma gap_spaces sp : gap sp -> Forall (fun c => is_space c = true) sp /\ Forall (fun c => c <= 32) sp /\ sp <> [].
Proof. intros [H1 H2]. split; [apply blank_spaces, H1|]. split; [|exact H2]. refine (Forall_impl _ _ H1). intros c. apply blank_small. Qed.

Lemma take_field a sp s : Forall visible a -> gap sp -> take_until is_space (a ++ sp ++ s) = (a, sp ++ s).
Proof.
  intros Ha Hs. apply gap_spaces in Hs as (H1 & _ & H2). destruct sp as [|c sp]; [congruence|]. cbn [app]. apply take_until_app; [apply visibles, Ha|]. inversion H1. assumption.
Qed.
Lemma skip_gap sp c s : gap sp -> visible c -> skip_space (sp ++ c :: s) = c :: s.
Proof. intros Hs Hc. apply gap_spaces in Hs as (H1 & _ & _). apply skip_space_app; [exact H1|apply visible_not_space, Hc]. Qed.

Lemma sub_text_eq room a sp c s : field room a -> gap sp -> visible c -> sub_text room (a ++ sp ++ c :: s) = Ok (a, c :: s).
Proof.
  intros (H1 & _ & _ & H4) Hs Hc. unfold sub_text. rewrite take_field by assumption. rewrite (proj2 (Nat.leb_gt _ _) H4). rewrite skip_gap by assumption. reflexivity.
Qed.

(** ** Notes *)
Lemma attr_facts i : (i < 4)%nat -> let s := cyr (nth i attributes ""%string) in
  Forall visible s /\ s <> [] /\ ~ In 58 s /\ ~ In 45 s.
Proof.
  intros Hi. assert (K : forallb (fun i => let s := cyr (nth i attributes ""%string) in forallb (fun c => (32 <? c) && negb (c =? 58) && negb (c =? 45)) s && nonempty s) (seq 0 4) = true) by (vm_compute; reflexivity).
  rewrite forallb_forall in K. specialize (K i). cbv zeta in K. rewrite in_seq in K. specialize (K ltac:(lia)). apply andb_true_iff in K as [K1 K2].
  cbv zeta. set (s := cyr (nth i attributes ""%string)) in *. rewrite forallb_forall in K1.
  assert (F : forall c, In c s -> 32 < c /\ c <> 58 /\ c <> 45).
  { intros c Hc. apply K1 in Hc. apply andb_true_iff in Hc as [Hc H3]. apply andb_true_iff in Hc as [H1 H2]. apply N.ltb_lt in H1.
    apply negb_true_iff, N.eqb_neq in H2. apply negb_true_iff, N.eqb_neq in H3. repeat split; assumption. }
  split; [apply Forall_forall; intros c Hc; apply F, Hc|]. split; [destruct s; [discriminate|discriminate]|].
  split; intros Hc; apply F in Hc as (_ & H & H'); congruence.
Qed.
Lemma note_text_facts s : note_text s -> Forall visible s /\ ~ In 58 s /\ ~ In 123 s /\ s <> [].
Proof.
  intros [H1 H2]. split; [refine (Forall_impl _ _ H1); intros c (H & _); exact H|]. rewrite Forall_forall in H1.
  split; [intros Hc; apply H1 in Hc as (_ & Hc & _); congruence|]. split; [intros Hc; apply H1 in Hc as (_ & _ & Hc); congruence|exact H2].
Qed.
Lemma note_visible n : note_ok n -> Forall visible (put_note n) /\ put_note n <> [].
Proof.
  destruct n as [s|s|i|s]; cbn [note_ok put_note].
  - intros [H _]. apply note_text_facts in H as (H & _). split; [|discriminate]. apply Forall_app. split; [|exact H]. unfold visible. repeat constructor.
  - intros [H _]. apply note_text_facts in H as (H & _). split; [|discriminate]. constructor; [unfold visible; lia|]. apply Forall_app. split; [exact H|]. repeat constructor.
  - intros H. apply attr_facts in H as (H1 & H2 & _). split; assumption.
  - intros [H _]. apply note_text_facts in H as (H & _ & _ & H'). split; assumption.
Qed.
(** LID: can only be the mark of the lexeme id *)
Lemma note_no_lid n : note_ok n -> lacks (text "LID:") (put_note n).
Proof.
  assert (A : forall s, ~ In 58 s -> lacks (text "LID:") s) by (intros s; apply lacks_char; right; right; right; left; reflexivity).
  destruct n as [s|s|i|s]; cbn [note_ok put_note].
  - intros [H _] u v E. apply note_text_facts in H as (_ & H & _).
    change (text "post:") with ([112; 111; 115; 116] ++ [58]) in E. change (text "LID:") with ([76; 73; 68] ++ [58]) in E.
    rewrite <- !app_assoc in E. cbn [app] in E.
    replace (112 :: 111 :: 115 :: 116 :: 58 :: s) with ([112; 111; 115; 116] ++ 58 :: s) in E by reflexivity.
    replace (u ++ 76 :: 73 :: 68 :: 58 :: v) with ((u ++ [76; 73; 68]) ++ 58 :: v) in E by (rewrite <- app_assoc; reflexivity).
    assert (K : forall a b a' b' : bytes, ~ In 58 b -> a ++ 58 :: b = a' ++ 58 :: b' -> ~ In 58 a -> a = a').
    { intros a. induction a as [|x a IH]; intros b a' b' Hb E' Ha.
      - destruct a' as [|y a']; [reflexivity|]. exfalso. cbn in E'. injection E' as <- E'. apply Hb. rewrite E'. apply in_or_app. right. left. reflexivity.
      - destruct a' as [|y a']; [exfalso; cbn in E'; injection E' as -> _; apply Ha; left; reflexivity|]. cbn in E'. injection E' as <- E'. f_equal.
        apply (IH b a' b'); [exact Hb|exact E'|intros H'; apply Ha; right; exact H']. }
    apply K in E; [|exact H|cbn; intros [?|[?|[?|[?|[]]]]]; discriminate].
    apply (f_equal (fun l => last l 0)) in E. change [76; 73; 68] with ([76; 73] ++ [68]) in E. rewrite app_assoc, last_last in E. discriminate.
  - intros [H H']. apply note_text_facts in H as (_ & H & _). apply A. intros [K|K]; [discriminate|]. apply in_app_or in K as [K|[K|[]]]; [contradiction|discriminate].
  - intros H. apply attr_facts in H as (_ & _ & H & _). apply A. exact H.
  - intros [H _]. apply note_text_facts in H as (_ & H & _). apply A. exact H.
Qed.
