(** * PropApiLemmas: lemmas for C35.  PROOFS. *)
From Coq Require Import String Ascii.
From Verif Require Import Base Api ApiSpec.
Local Open Scope N_scope.

Lemma same_letter_eq x y : same_letter x y <-> tolower x = tolower y.
Proof.
  unfold same_letter, tolower.
  destruct (N.leb_spec 65 x), (N.leb_spec x 90), (N.leb_spec 65 y), (N.leb_spec y 90); cbn [andb]; lia.
Qed.
Lemma any_case_eq a : forall b, any_case a b <-> map tolower a = map tolower b.
Proof.
  unfold any_case. induction a as [|x a IH]; intros [|y b]; cbn [map]; split; intros H; try reflexivity; try discriminate; try constructor; try (inversion H; fail).
  - inversion H as [|? ? ? ? H1 H2]; subst. apply same_letter_eq in H1. apply IH in H2. congruence.
  - injection H as H1 H2. apply same_letter_eq, H1.
  - injection H as H1 H2. apply IH, H2.
Qed.

Lemma strcasecmp_ok a : forall name after, ~ In 0 a -> ~ In 0 name ->
  strcasecmp_eq a (name ++ 0 :: after) = Ok (if list_eq_dec N.eq_dec (map tolower a) (map tolower name) then true else false).
Proof.
  induction a as [|x a IH]; intros [|y name] after Ha Hn; cbn [app strcasecmp_eq rd bind map].
  - reflexivity.
  - replace (y =? 0) with false by (symmetry; apply N.eqb_neq; intros ->; apply Hn; left; reflexivity). reflexivity.
  - rewrite N.eqb_refl, andb_false_r. reflexivity.
  - replace (y =? 0) with false by (symmetry; apply N.eqb_neq; intros ->; apply Hn; left; reflexivity). rewrite andb_true_r.
    destruct (N.eqb_spec (tolower x) (tolower y)) as [E|E].
    + rewrite IH by (intros H; (apply Ha + apply Hn); right; exact H).
      destruct (list_eq_dec N.eq_dec (map tolower a) (map tolower name)) as [E2|E2], (list_eq_dec N.eq_dec (tolower x :: map tolower a) (tolower y :: map tolower name)) as [E3|E3];
        try reflexivity; exfalso; [apply E3; congruence|apply E2; congruence].
    + destruct (list_eq_dec N.eq_dec (tolower x :: map tolower a) (tolower y :: map tolower name)) as [E3|E3]; [exfalso; apply E; congruence|reflexivity].
Qed.

Lemma find_page_ok l : forall name after, Forall (fun p => ~ In 0 (snd p)) l -> ~ In 0 name ->
  exists r, find_page l (name ++ 0 :: after) = Ok r /\
    match r with
    | Some i => exists n, In (i, n) l /\ any_case n name
    | None => forall i n, In (i, n) l -> ~ any_case n name
    end.
Proof.
  induction l as [|[i n] l IH]; intros name after Hl Hn; cbn [find_page].
  - exists None. split; [reflexivity|]. intros i n [].
  - rewrite strcasecmp_ok by (assumption || exact (Forall_inv Hl)). cbn [bind].
    destruct (list_eq_dec N.eq_dec (map tolower n) (map tolower name)) as [E|E].
    + exists (Some i). split; [reflexivity|]. exists n. split; [left; reflexivity|]. apply any_case_eq, E.
    + destruct (IH name after (Forall_inv_tail Hl) Hn) as (r & -> & Hr). exists r. split; [reflexivity|].
      destruct r as [j|].
      * destruct Hr as (m & Hm & Hc). exists m. split; [right; exact Hm|exact Hc].
      * intros j m [[= <- <-]|Hm]; [intros H; apply E, any_case_eq, H|exact (Hr j m Hm)].
Qed.

Definition idx (i : instance) : N := match i with Mb1251 => 0 | MbKoi8 => 1 | Mb866 => 2 | MbIso => 3 | MbMac => 4 | MbUtf8 => 5 | WcInstance => 6 end.
Lemma idx_inj i j : idx i = idx j -> i = j.
Proof. destruct i, j; cbn; intros H; try reflexivity; discriminate. Qed.

Lemma pages_no_nul : Forall (fun p => ~ In 0 (snd p)) codepageList.
Proof. unfold codepageList. repeat constructor; cbn; intuition discriminate. Qed.

Definition eqs (a b : bytes) : bool := if list_eq_dec N.eq_dec a b then true else false.
Lemma pages_unique i n j m : In (i, n) codepageList -> In (j, m) codepageList -> map tolower n = map tolower m -> i = j.
Proof.
  assert (H : forallb (fun p => forallb (fun q => negb (eqs (map tolower (snd p)) (map tolower (snd q))) || (idx (fst p) =? idx (fst q))) codepageList) codepageList = true)
    by (vm_compute; reflexivity).
  intros H1 H2 E. rewrite forallb_forall in H. specialize (H _ H1). rewrite forallb_forall in H. specialize (H _ H2). cbn [fst snd] in H. unfold eqs in H.
  destruct (list_eq_dec N.eq_dec (map tolower n) (map tolower m)) as [_|E2]; [|contradiction]. cbn [negb orb] in H. apply idx_inj, N.eqb_eq, H.
Qed.

Lemma names_pages i name : names i name <-> exists n, In (i, n) codepageList /\ any_case n name.
Proof.
  assert (H1 : forall i d, In d (documented i) -> exists n, In (i, n) codepageList /\ map tolower n = map tolower (text d)).
  { intros j d Hd. destruct j; cbn [documented] in Hd; repeat (destruct Hd as [<-|Hd]; [|]); try destruct Hd;
      match goal with |- exists n, In (?i, n) _ /\ _ = map tolower (text ?d) =>
        let r := eval vm_compute in (find (fun p => eqs (map tolower (snd p)) (map tolower (text d))) codepageList) in
        match r with Some (_, ?n) => exists n end end; (split; [vm_compute; tauto|vm_compute; reflexivity]). }
  assert (H2 : forall i n, In (i, n) codepageList -> exists d, In d (documented i) /\ map tolower n = map tolower (text d)).
  { assert (Hc : forallb (fun p => existsb (fun d => eqs (map tolower (snd p)) (map tolower (text d))) (documented (fst p))) codepageList = true) by (vm_compute; reflexivity).
    intros j n Hn. rewrite forallb_forall in Hc. specialize (Hc _ Hn). apply existsb_exists in Hc as (d & Hd & E). exists d. split; [exact Hd|].
    unfold eqs in E. destruct (list_eq_dec N.eq_dec _ _) as [E2|]; [exact E2|discriminate]. }
  unfold names. split.
  - intros (d & Hd & Hc). destruct (H1 i d Hd) as (n & Hn & E). exists n. split; [exact Hn|]. apply any_case_eq. apply any_case_eq in Hc. congruence.
  - intros (n & Hn & Hc). destruct (H2 i n Hn) as (d & Hd & E). exists d. split; [exact Hd|]. apply any_case_eq. apply any_case_eq in Hc. congruence.
Qed.

Lemma names_unique i j name : names i name -> names j name -> i = j.
Proof.
  rewrite !names_pages. intros (n & Hn & Hc) (m & Hm & Hd). apply (pages_unique i n j m Hn Hm). apply any_case_eq in Hc, Hd. congruence.
Qed.

Lemma page_found name p : passed name p ->
  (exists i, names i name /\ find_page codepageList p = Ok (Some i)) \/ (forall i, ~ names i name) /\ find_page codepageList p = Ok None.
Proof.
  intros (Hn & after & ->). destruct (find_page_ok codepageList name after pages_no_nul Hn) as ([i|] & -> & H).
  - left. exists i. split; [apply names_pages, H|reflexivity].
  - right. split; [|reflexivity]. intros i Hi. apply names_pages in Hi as (n & Hn' & Hc). exact (H i n Hn' Hc).
Qed.

Lemma memcmp_prefix a b : memcmp_eq (a ++ b) a = Ok true.
Proof.
  unfold memcmp_eq. rewrite app_length. replace (Nat.ltb (length a + length b) (length a)) with false by (symmetry; apply Nat.ltb_ge; lia).
  rewrite firstn_app, Nat.sub_diag, firstn_all, app_nil_r. destruct (list_eq_dec N.eq_dec a a) as [|H]; [reflexivity|exfalso; apply H; reflexivity].
Qed.
Lemma memcmp_other p a : (length a <= length p)%nat -> (forall r, p <> a ++ r) -> memcmp_eq p a = Ok false.
Proof.
  intros Hl Hne. unfold memcmp_eq. replace (Nat.ltb (length p) (length a)) with false by (symmetry; apply Nat.ltb_ge; lia).
  destruct (list_eq_dec N.eq_dec (firstn (length a) p) a) as [E|]; [|reflexivity]. exfalso. apply (Hne (skipn (length a) p)). rewrite <- E at 1. rewrite firstn_skipn. reflexivity.
Qed.

Lemma get_api_found magic name p : length magic = 15%nat -> passed name p ->
  (exists i, names i name /\ rus_get_api magic (Some (magic ++ text ":" ++ p)) true = Ok (0%Z, Points i)) \/
  (forall i, ~ names i name) /\ rus_get_api magic (Some (magic ++ text ":" ++ p)) true = Ok (EINVAL, Null).
Proof.
  intros Hm Hp. unfold rus_get_api. cbn [negb]. rewrite app_assoc, memcmp_prefix. cbn [bind negb].
  rewrite advance_app by (rewrite app_length, Hm; reflexivity). cbn [bind].
  destruct (page_found name p Hp) as [(i & Hi & ->)|(Hno & ->)]; [left; exists i|right]; (split; [assumption|reflexivity]).
Qed.

Lemma get_api_bad magic p : length magic = 15%nat -> (16 <= length p)%nat -> (forall r, p <> magic ++ text ":" ++ r) ->
  rus_get_api magic (Some p) true = Ok (EINVAL, Untouched).
Proof.
  intros Hm Hl Hne. unfold rus_get_api. cbn [negb]. rewrite memcmp_other; [reflexivity| |].
  - rewrite app_length, Hm. exact Hl.
  - intros r. rewrite <- app_assoc. apply Hne.
Qed.
Lemma get_api_short magic p : length magic = 15%nat -> (length p < 16)%nat -> rus_get_api magic (Some p) true = Ub.
Proof.
  intros Hm Hl. unfold rus_get_api, memcmp_eq. cbn [negb]. rewrite app_length, Hm. cbn [text list_ascii_of_string List.map List.length Nat.add].
  replace (Nat.ltb (length p) 16) with true by (symmetry; apply Nat.ltb_lt; exact Hl). reflexivity.
Qed.

Lemma load_cp_found name p : name <> [] -> passed name p ->
  (exists i, names i name /\ i <> WcInstance /\ rus_load_cp true (Some p) = Ok (0%Z, Points i)) \/
  names WcInstance name /\ rus_load_cp true (Some p) = Ok (EINVAL, Untouched) \/
  (forall i, ~ names i name) /\ rus_load_cp true (Some p) = Ok (EINVAL, Null).
Proof.
  intros Hne Hp. pose proof Hp as (Hn & after & ->). destruct name as [|c name]; [contradiction|]. unfold rus_load_cp. cbn [app rd bind].
  replace (c =? 0) with false by (symmetry; apply N.eqb_neq; intros ->; apply Hn; left; reflexivity).
  change (c :: name ++ 0 :: after) with ((c :: name) ++ 0 :: after).
  destruct (page_found _ _ Hp) as [(i & Hi & ->)|(Hno & ->)]; cbn [bind].
  - destruct i; try (left; eexists; split; [exact Hi|]; split; [discriminate|reflexivity]). right; left. split; [exact Hi|reflexivity].
  - right; right. split; [exact Hno|reflexivity].
Qed.
Lemma fuzzy_load_cp_found name p : name <> [] -> passed name p ->
  (exists i, names i name /\ rus_fuzzy_load_cp true (Some p) = Ok (0%Z, Points i)) \/
  (forall i, ~ names i name) /\ rus_fuzzy_load_cp true (Some p) = Ok (EINVAL, Null).
Proof.
  intros Hne Hp. pose proof Hp as (Hn & after & ->). destruct name as [|c name]; [contradiction|]. unfold rus_fuzzy_load_cp. cbn [app rd bind].
  replace (c =? 0) with false by (symmetry; apply N.eqb_neq; intros ->; apply Hn; left; reflexivity).
  change (c :: name ++ 0 :: after) with ((c :: name) ++ 0 :: after).
  destruct (page_found _ _ Hp) as [(i & Hi & ->)|(Hno & ->)]; cbn [bind]; [left; eexists; split; [exact Hi|reflexivity]|right; split; [exact Hno|reflexivity]].
Qed.

Lemma wide_names name : names WcInstance name <-> map tolower (text "utf-16") = map tolower name \/ map tolower (text "utf16") = map tolower name.
Proof.
  unfold names. cbn [documented]. split.
  - intros (d & [<-|[<-|[]]] & H); apply any_case_eq in H; auto.
  - intros [H|H]; eexists; (split; [|apply any_case_eq, H]); cbn; auto.
Qed.
Lemma eng_get_api_found magic name p : length magic = 15%nat -> passed name p ->
  names WcInstance name /\ eng_get_api magic (Some (magic ++ text ":" ++ p)) true = Ok (0%Z, Points WcInstance) \/
  ~ names WcInstance name /\ eng_get_api magic (Some (magic ++ text ":" ++ p)) true = Ok (0%Z, Points Mb1251).
Proof.
  intros Hm (Hn & after & ->). unfold eng_get_api. cbn [negb]. rewrite app_assoc, memcmp_prefix. cbn [bind negb].
  rewrite advance_app by (rewrite app_length, Hm; reflexivity). cbn [bind].
  assert (H1 : ~ In 0 (text "utf-16")) by (cbn; intuition discriminate). assert (H2 : ~ In 0 (text "utf16")) by (cbn; intuition discriminate).
  rewrite (strcasecmp_ok (text "utf-16") name after H1 Hn), (strcasecmp_ok (text "utf16") name after H2 Hn). cbn [bind].
  pose proof (wide_names name) as Hw.
  destruct (list_eq_dec N.eq_dec (map tolower (text "utf-16")) (map tolower name)) as [E1|E1]; cbn [bind load_api].
  - left. split; [apply Hw; left; exact E1|reflexivity].
  - destruct (list_eq_dec N.eq_dec (map tolower (text "utf16")) (map tolower name)) as [E2|E2]; cbn [bind load_api].
    + left. split; [apply Hw; right; exact E2|reflexivity].
    + right. split; [intros H; apply Hw in H; tauto|reflexivity].
Qed.
