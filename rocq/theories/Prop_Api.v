(** * Property C35: selecting an interface.  STATEMENTS ONLY.  [names], [passed], [any_case] are in ApiSpec.v. *)
From Coq Require Import String Ascii.
From Verif Require Import Base Api ApiSpec PropApiLemmas.
Local Open Scope N_scope.

(** the magic, a colon and a documented name in any letter case give its instance; any other name an error and a null pointer;
    for the dictionary ([MORPH_MAGIC]) and for the guesser ([FUZZY_MAGIC]) *)
Theorem C35_get_api_exact : forall magic name p, magic = MORPH_MAGIC \/ magic = FUZZY_MAGIC -> passed name p ->
  (exists i, names i name /\ rus_get_api magic (Some (magic ++ text ":" ++ p)) true = Ok (0%Z, Points i)) \/
  (forall i, ~ names i name) /\ rus_get_api magic (Some (magic ++ text ":" ++ p)) true = Ok (EINVAL, Null).
Proof. intros magic name p Hm. apply get_api_found. destruct Hm as [->| ->]; reflexivity. Qed.
Print Assumptions C35_get_api_exact.

(** no name has two instances *)
Theorem C35_names_unique : forall i j name, names i name -> names j name -> i = j.
Proof. exact names_unique. Qed.
Print Assumptions C35_names_unique.

(** the old-style functions; UTF-16 is not available there (the dictionary leaves the pointer alone) *)
Theorem C35_load_cp_exact : forall name p, name <> [] -> passed name p ->
  (exists i, names i name /\ i <> WcInstance /\ rus_load_cp true (Some p) = Ok (0%Z, Points i)) \/
  names WcInstance name /\ rus_load_cp true (Some p) = Ok (EINVAL, Untouched) \/
  (forall i, ~ names i name) /\ rus_load_cp true (Some p) = Ok (EINVAL, Null).
Proof. exact load_cp_found. Qed.
Print Assumptions C35_load_cp_exact.

(** missing arguments *)
Theorem C35_missing : forall magic key codepage p,
  rus_get_api magic key false = Ok (EINVAL, Untouched) /\ rus_get_api magic None true = Ok (EINVAL, Untouched) /\
  eng_get_api magic key false = Ok (EINVAL, Untouched) /\ eng_get_api magic None true = Ok (EINVAL, Untouched) /\
  rus_load_cp false codepage = Ok (EINVAL, Untouched) /\ rus_load_cp true None = Ok (EINVAL, Untouched) /\
  rus_load_cp true (Some (0 :: p)) = Ok (EINVAL, Untouched).
Proof. intros. repeat split. Qed.
Print Assumptions C35_missing.

(** a key without the magic is an error, but the result is not cleared *)
Theorem C35_other_key : forall magic p, magic = MORPH_MAGIC \/ magic = FUZZY_MAGIC -> (16 <= length p)%nat -> (forall r, p <> magic ++ text ":" ++ r) ->
  rus_get_api magic (Some p) true = Ok (EINVAL, Untouched).
Proof. intros magic p Hm. apply get_api_bad. destruct Hm as [->| ->]; reflexivity. Qed.
Print Assumptions C35_other_key.
Theorem C35_not_cleared_refuted : exists p, passed (text "libmorph.api.v3:utf-8") p /\ rus_get_api MORPH_MAGIC (Some p) true = Ok (EINVAL, Untouched).
Proof. exists (text "libmorph.api.v3:utf-8" ++ [0]). split; [split; [cbn; intuition discriminate|exists []; reflexivity]|vm_compute; reflexivity]. Qed.
Print Assumptions C35_not_cleared_refuted.

(** a key shorter than the magic, such as the utf-8 of samples/sample-libmorphrus.cpp, is read beyond its end *)
Theorem C35_short_key_refuted : exists p, passed (text "utf-8") p /\ rus_get_api MORPH_MAGIC (Some p) true = Ub.
Proof. exists (text "utf-8" ++ [0]). split; [split; [cbn; intuition discriminate|exists []; reflexivity]|vm_compute; reflexivity]. Qed.
Print Assumptions C35_short_key_refuted.

(** the guesser's LoadCpAPI hands out the wide instance as a narrow one *)
Theorem C35_fuzzy_wide_refuted : forall name p, names WcInstance name -> name <> [] -> passed name p ->
  rus_fuzzy_load_cp true (Some p) = Ok (0%Z, Points WcInstance) /\ rus_load_cp true (Some p) = Ok (EINVAL, Untouched).
Proof.
  intros name p Hw Hne Hp. split.
  - destruct (fuzzy_load_cp_found name p Hne Hp) as [(i & Hi & ->)|(Hno & _)]; [rewrite (names_unique i WcInstance name Hi Hw); reflexivity|exfalso; exact (Hno _ Hw)].
  - destruct (load_cp_found name p Hne Hp) as [(i & Hi & Hi2 & _)|[(_ & ->)|(Hno & _)]];
      [exfalso; apply Hi2, (names_unique i WcInstance name Hi Hw)|reflexivity|exfalso; exact (Hno _ Hw)].
Qed.
Print Assumptions C35_fuzzy_wide_refuted.

(** English: whatever the name behind the magic, an instance is given: the wide one for UTF-16, the narrow one otherwise.
    So a name that is not documented does not fail. *)
Theorem C35_english : forall magic name p, magic = MORPH_MAGIC \/ magic = FUZZY_MAGIC -> passed name p ->
  names WcInstance name /\ eng_get_api magic (Some (magic ++ text ":" ++ p)) true = Ok (0%Z, Points WcInstance) \/
  ~ names WcInstance name /\ eng_get_api magic (Some (magic ++ text ":" ++ p)) true = Ok (0%Z, Points Mb1251).
Proof. intros magic name p Hm. apply eng_get_api_found. destruct Hm as [->| ->]; reflexivity. Qed.
Print Assumptions C35_english.
Theorem C35_english_other_refuted : exists p, passed (text "latin-1") p /\ (forall i, ~ names i (text "latin-1")) /\
  eng_get_api MORPH_MAGIC (Some (MORPH_MAGIC ++ text ":" ++ p)) true = Ok (0%Z, Points Mb1251).
Proof.
  exists (text "latin-1" ++ [0]). split; [split; [cbn; intuition discriminate|exists []; reflexivity]|]. split; [|vm_compute; reflexivity].
  intros i. rewrite names_pages. intros (n & Hn & Hc). apply any_case_eq in Hc.
  repeat (destruct Hn as [[= <- <-]|Hn]; [discriminate|]). destruct Hn.
Qed.
Print Assumptions C35_english_other_refuted.

(** libmorph.api.v4:UTF-8 *)
Example C35_case : passed (text "UTF-8") (text "UTF-8" ++ [0; 77]) /\ names MbUtf8 (text "UTF-8") /\
  rus_get_api MORPH_MAGIC (Some (text "libmorph.api.v4:UTF-8" ++ [0; 77])) true = Ok (0%Z, Points MbUtf8) /\
  rus_load_cp true (Some (text "wiN 1251" ++ [0])) = Ok (0%Z, Points Mb1251) /\
  rus_load_cp true (Some (text "win1251" ++ [0])) = Ok (EINVAL, Null).
Proof.
  split; [split; [cbn; intuition discriminate|exists [77]; reflexivity]|]. split; [|repeat split; vm_compute; reflexivity].
  exists "utf-8"%string. split; [cbn; auto|]. apply any_case_eq. reflexivity.
Qed.
