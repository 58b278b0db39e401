(** * RusTextProofs4: whole files.  PROOFS. *)
From Coq Require Import String Ascii.
From Verif Require Import Base Serial SerialProofs WordTree TreeSpec Stems StemSpec CharTables CapScheme CapSpec GramMap RusRuntime RusSpec Compile CompileSpec Resolve Api Utf8
  EngCompile EngCompileSpec EngCompileProofs EngCompileProofs2 EngCompileProofs4 RusText RusTextSpec RusTextProofs RusTextProofs2 RusTextProofs3.
Local Open Scope N_scope.
Local Open Scope list_scope.
Notation length := List.length.
Notation visible := RusTextSpec.visible.

(** ** Other lines *)
Lemma low_space c : c <= 32 -> is_space c = true.
Proof. intros H. apply N.leb_le, H. Qed.
Lemma comment_body line body : comment line body -> trim_end (skip_space line) = body /\ starts (text "//") body = true.
Proof.
  intros (sp0 & sp5 & rest & -> & H0 & H5 & Eb & Hl). split; [|apply starts_iff; exists rest; exact Eb].
  assert (Hs0 : Forall (fun c => is_space c = true) sp0) by (eapply Forall_impl; [|exact H0]; apply low_space).
  assert (Hs5 : Forall (fun c => is_space c = true) sp5) by (eapply Forall_impl; [|exact H5]; apply low_space).
  assert (E1 : skip_space (sp0 ++ body ++ sp5) = body ++ sp5).
  { rewrite Eb. change (text "//" ++ rest) with (47 :: 47 :: rest). cbn [app]. apply skip_space_app; [exact Hs0|reflexivity]. }
  rewrite E1. assert (Hne : body <> []) by (rewrite Eb; discriminate). destruct (exists_last Hne) as (b & c & Ec). rewrite Ec in Hl. rewrite last_last in Hl.
  rewrite Ec, <- app_assoc. cbn [app]. apply trim_end_app; [|exact Hs5]. apply N.leb_gt. exact Hl.
Qed.
Lemma read_comment depth T line body : comment line body -> read_line depth T line = Ok ([], [body]).
Proof. intros H. apply comment_body in H as [E1 E2]. unfold read_line. cbv zeta. rewrite E1, E2. reflexivity. Qed.

Lemma skip_space_parts s : exists a, s = a ++ skip_space s /\ Forall (fun c => c <= 32) a.
Proof.
  induction s as [|c s (a & IH & Ha)]; [exists []; split; [reflexivity|constructor]|]. cbn [skip_space].
  destruct (is_space c) eqn:E; [exists (c :: a); split; [cbn; congruence|constructor; [apply N.leb_le, E|exact Ha]]|exists []; split; [reflexivity|constructor]].
Qed.
Lemma trim_end_parts s : exists b, s = trim_end s ++ b /\ Forall (fun c => c <= 32) b /\ (trim_end s = [] \/ visible (last (trim_end s) 0)).
Proof.
  induction s as [|c s (b & IH & Hb & Hl)]; [exists []; split; [reflexivity|split; [constructor|left; reflexivity]]|]. cbn [trim_end]. destruct (trim_end s) as [|d t].
  - destruct (is_space c) eqn:E; [exists (c :: s)|exists s].
    + split; [reflexivity|]. split; [|left; reflexivity]. constructor; [apply N.leb_le, E|]. cbn [app] in IH. subst b. exact Hb.
    + cbn [app] in IH. subst b. split; [reflexivity|]. split; [exact Hb|]. right. cbn [last]. apply N.leb_gt, E.
  - exists b. split; [cbn [app] in *; congruence|]. split; [exact Hb|]. right. destruct Hl as [Hl|Hl]; [discriminate|]. exact Hl.
Qed.
Lemma read_none depth T line : no_entry line -> read_line depth T line = Ok ([], []).
Proof.
  intros H. unfold read_line. cbv zeta. destruct (starts (text "//") (trim_end (skip_space line))) eqn:Es.
  - exfalso. destruct H as [H|[_ H]].
    + rewrite skip_space_all in Es; [discriminate|]. eapply Forall_impl; [|exact H]. apply low_space.
    + apply (H (trim_end (skip_space line))). destruct (skip_space_parts line) as (a & Ea & Ha). destruct (trim_end_parts (skip_space line)) as (b & Eb & Hb & Hl).
      apply starts_iff in Es as (r & Es). exists a, b, r. split; [rewrite <- Eb; exact Ea|]. split; [exact Ha|]. split; [exact Hb|]. split; [exact Es|].
      destruct Hl as [Hl|Hl]; [rewrite Hl in Es; discriminate|exact Hl].
  - rewrite no_article_line; [reflexivity|]. destruct H as [H|[H _]]; [left; exact H|right; right; exact H].
Qed.

(** ** Files *)
Lemma add_lexemes_app depth ft xs : forall b ys,
  add_lexemes depth ft b (xs ++ ys) = let! o := add_lexemes depth ft b xs in match o with None => Ok None | Some b => add_lexemes depth ft b ys end.
Proof.
  induction xs as [|x xs IH]; intros b ys; [reflexivity|]. cbn [app add_lexemes]. destruct (add_lexeme depth ft b x) as [[b'|]|]; cbn [bind]; [apply IH|reflexivity|reflexivity].
Qed.

Lemma read_lines_eq depth T : tables_ok T -> forall lines xs ls us, rlists depth T lines xs ls us -> forall b u,
  read_lines depth T b u lines = let! o := add_lexemes depth (tb_flex T) b ls in Ok (option_map (fun b => (b, u ++ us)) o).
Proof.
  intros HT lines xs ls us H. induction H as [|line lines xs ls us Hn H IH|line body lines xs ls us Hc H IH|line body lines x l xs ls us Hw Hs H IH]; intros b u.
  - cbn. rewrite app_nil_r. reflexivity.
  - cbn [read_lines]. rewrite read_none by exact Hn. cbn [bind add_lexemes]. rewrite app_nil_r. apply IH.
  - cbn [read_lines]. rewrite (read_comment _ _ _ _ Hc). cbn [bind add_lexemes]. rewrite IH. rewrite <- app_assoc. reflexivity.
  - cbn [read_lines]. rewrite (read_written _ _ _ _ _ _ HT Hw Hs). cbn [bind]. rewrite add_lexemes_app.
    destruct (add_lexemes depth (tb_flex T) b l) as [[b'|]|]; cbn [bind]; [|reflexivity|reflexivity]. rewrite IH. rewrite <- app_assoc. reflexivity.
Qed.

Lemma rcompile_eq depth T lines xs ls us : tables_ok T -> rlists depth T lines xs ls us ->
  rcompile_lines depth T lines = let! o := compile depth (tb_flex T) (tb_mix T) ls in Ok (option_map (fun A => (A, us)) o).
Proof.
  intros HT H. unfold rcompile_lines, compile. rewrite (read_lines_eq depth T HT lines xs ls us H). destruct (add_lexemes depth (tb_flex T) new_builder ls) as [[b|]|]; reflexivity.
Qed.

(** Where the lexemes come from. *)
Lemma rlists_in depth T lines xs ls us : rlists depth T lines xs ls us ->
  (forall l, In l ls -> exists x line body s, In x xs /\ In line lines /\ rwritten x line body /\ senses depth T x s /\ In l s) /\
  (forall x, In x xs -> exists line body s, In line lines /\ rwritten x line body /\ senses depth T x s /\ incl s ls /\ (s = [] -> In body us)).
Proof.
  induction 1 as [|line lines xs ls us Hn H IH|line body lines xs ls us Hc H IH|line body lines x l xs ls us Hw Hs H IH].
  - split; intros ? [].
  - destruct IH as [A B]. split.
    + intros l Hl. destruct (A l Hl) as (x & ln & bd & s & ? & ? & ?). exists x, ln, bd, s. cbn. auto.
    + intros x Hx. destruct (B x Hx) as (ln & bd & s & ? & ?). exists ln, bd, s. cbn. auto.
  - destruct IH as [A B]. split.
    + intros l Hl. destruct (A l Hl) as (x & ln & bd & s & ? & ? & ?). exists x, ln, bd, s. cbn. auto.
    + intros x Hx. destruct (B x Hx) as (ln & bd & s & ? & ? & ? & ? & ?). exists ln, bd, s. cbn [In]. intuition.
  - destruct IH as [A B]. split.
    + intros l0 Hl. apply in_app_or in Hl as [Hl|Hl].
      * exists x, line, body, l. cbn. auto.
      * destruct (A l0 Hl) as (x0 & ln & bd & s & ? & ? & ?). exists x0, ln, bd, s. cbn. auto.
    + intros x0 [<-|Hx].
      * exists line, body, l. cbn. split; [auto|]. split; [exact Hw|]. split; [exact Hs|]. split; [apply incl_appl, incl_refl|]. intros ->. cbn. auto.
      * destruct (B x0 Hx) as (ln & bd & s & ? & ? & ? & ? & ?). exists ln, bd, s. cbn [In]. split; [auto|]. split; [assumption|]. split; [assumption|]. split; [apply incl_appr; assumption|]. intros E. apply in_or_app. auto.
Qed.
Lemma senses_unique depth T x line body l l' : tables_ok T -> rwritten x line body -> senses depth T x l -> senses depth T x l' -> l = l'.
Proof. intros HT Hw H H'. pose proof (read_written _ _ _ _ _ _ HT Hw H) as E. rewrite (read_written _ _ _ _ _ _ HT Hw H') in E. injection E as E _. auto. Qed.

(** ** Lines of a file *)
Lemma fgets_line line : forall room acc file, ~ In 10 line -> (length line < room)%nat ->
  fgets_lines room acc (line ++ 10 :: file) = (acc ++ line ++ [10]) :: fgets_lines 0x3fe [] file.
Proof.
  induction line as [|c line IH]; intros room acc file Hn Hl.
  - cbn [app fgets_lines]. rewrite N.eqb_refl. reflexivity.
  - cbn [app fgets_lines]. destruct (N.eqb_spec c 10) as [->|]; [exfalso; apply Hn; left; reflexivity|]. cbn [length] in Hl. destruct (Nat.leb_spec room 1) as [Hlt|Hlt]; [lia|].
    cbn [orb]. rewrite IH; [rewrite <- app_assoc; reflexivity| |lia]. intros Hin. apply Hn. right. exact Hin.
Qed.
Lemma fgets_last line : forall room acc, ~ In 10 line -> (length line <= room)%nat -> acc ++ line <> [] -> fgets_lines room acc line = [acc ++ line].
Proof.
  induction line as [|c line IH]; intros room acc Hn Hl Hne.
  - cbn [fgets_lines]. rewrite app_nil_r in *. destruct acc; [congruence|reflexivity].
  - cbn [fgets_lines]. destruct (N.eqb_spec c 10) as [->|]; [exfalso; apply Hn; left; reflexivity|]. cbn [length] in Hl. destruct (Nat.leb_spec room 1) as [Hlt|Hlt]; cbn [orb].
    + destruct line; [reflexivity|]. cbn [length] in Hl. lia.
    + rewrite IH; [rewrite <- app_assoc; reflexivity| |lia|].
      * intros Hin. apply Hn. right. exact Hin.
      * rewrite <- app_assoc. exact Hne.
Qed.
Lemma fgets_eq file lines : in_lines file lines -> fgets_lines 0x3fe [] file = lines.
Proof.
  induction 1 as [|line Hn Hne Hl|line file lines Hn Hl H IH]; [reflexivity| |].
  - apply (fgets_last line 0x3fe []); assumption.
  - rewrite (fgets_line line 0x3fe []) by assumption. rewrite IH. reflexivity.
Qed.
