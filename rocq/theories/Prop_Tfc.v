(** * Prop_Tfc: the compiler of inflexion tables. *)
From Coq Require Import String.
From Verif Require Import Base Serial WordTree TreeSpec Stems StemSpec GramMap RusRuntime LevelSpec RusSpec Compile CompileSpec Api EngCompileSpec Utf8 RusText Tfc TfcSpec TfcDemo PropTfcLemmas.
Local Open Scope N_scope.
Local Open Scope list_scope.
Notation length := List.length.

(** ** C82: a text that defines tables is compiled to them *)
Theorem C82_text_compiled : forall depth fs conv name ds, file_defines fs conv depth name ds -> Forall fits_format ds -> links_defined ds -> whole_size ds <= 0x20000 ->
  exists b ix, tfc depth fs conv name = Some (b, ix) /\ tables_mean ds b ix.
Proof. exact tables_compiled. Qed.
(** The hypotheses are met by tables of /repo/lang-rus/tables in four files; the compiled bytes tell "ла" + "сь" as the reflexive past of the feminine. *)
Theorem C82_text_compiled_case :
  file_defines demo_files same 3 (text "tables/all.tf") demo_defs /\ Forall fits_format demo_defs /\ links_defined demo_defs /\ whole_size demo_defs <= 0x20000 /\
  tells demo_defs (cyr "нсв 1a") (cyr "лась") (5 + 0x400 + 0x8000) 3 /\ tells demo_defs (cyr "с 2c-") (cyr "ем") 0x4000 3.
Proof.
  split; [exact demo_defines|]. split; [exact demo_format|]. split; [exact demo_links|]. split; [exact demo_size|]. split.
  - change (cyr "лась") with (cyr "л" ++ cyr "а" ++ cyr "сь"). change (5 + 0x400 + 0x8000) with (N.lor 5 (N.lor 0x400 0x8000)). change 3 with (N.land 131 (N.land 67 3)).
    refine (tells_further _ _ _ (FxItem (cyr "л") 5 131 (cyr """3""")) _ _ _ _ _ _ (tells_further _ _ _ (FxItem (cyr "а") 0x400 67 (cyr """2""")) _ _ _ _ _ _ (tells_here _ _ _ (FxItem (cyr "сь") 0x8000 3 []) _ _ _))).
    + exists (firstn 3 demo_defs), (nth 3 demo_defs (Definition_ [] [])), (skipn 4 demo_defs). split; [reflexivity|]. split; [right; left; reflexivity|]. split; [reflexivity|]. repeat (constructor; [intros K; repeat destruct K as [K|K]; discriminate || contradiction|]). constructor.
    + right; left; reflexivity.
    + discriminate.
    + exists (firstn 2 demo_defs), (nth 2 demo_defs (Definition_ [] [])), (skipn 3 demo_defs). split; [reflexivity|]. split; [left; reflexivity|]. split; [reflexivity|]. repeat (constructor; [intros K; repeat destruct K as [K|K]; discriminate || contradiction|]). constructor.
    + right; left; reflexivity.
    + discriminate.
    + exists (firstn 1 demo_defs), (nth 1 demo_defs (Definition_ [] [])), (skipn 2 demo_defs). split; [reflexivity|]. split; [left; reflexivity|]. split; [reflexivity|]. repeat (constructor; [intros K; repeat destruct K as [K|K]; discriminate || contradiction|]). constructor.
    + left; reflexivity.
    + reflexivity.
  - refine (tells_here _ _ _ (FxItem (cyr "ем") 0x4000 3 []) _ _ _).
    + exists (firstn 5 demo_defs), (nth 5 demo_defs (Definition_ [] [])), []. split; [reflexivity|]. split; [left; reflexivity|]. split; [reflexivity|]. repeat (constructor; [intros K; repeat destruct K as [K|K]; discriminate || contradiction|]). constructor.
    + right; left; reflexivity.
    + reflexivity.
Qed.

(** ** C83: only well-formed texts without dangling references are compiled *)
Theorem C83_accepted : forall depth fs conv name b ix, readable fs -> conv_white conv -> tfc depth fs conv name = Some (b, ix) ->
  exists ds, file_defines fs conv depth name ds /\ links_defined ds /\ (Forall fits_format ds -> tables_mean ds b ix).
Proof. exact accepted. Qed.
Theorem C83_dangling_refused : forall depth fs conv name ds, file_defines fs conv depth name ds -> ~ links_defined ds -> tfc depth fs conv name = None.
Proof. exact dangling. Qed.
Theorem C83_accepted_case : readable demo_files /\ conv_white same /\ exists b ix, tfc 3 demo_files same (text "tables/all.tf") = Some (b, ix).
Proof.
  split; [|split; [exact same_white|]].
  - intros n f. unfold demo_files. cbn [lookup]. intros H. exists (split_lines [] f). apply short_text. repeat (destruct (list_eq_dec N.eq_dec n _); [injection H as <-; vm_compute; reflexivity|]). discriminate.
  - destruct (tables_compiled _ _ _ _ _ demo_defines demo_format demo_links demo_size) as (b & ix & H & _). eauto.
Qed.
Theorem C83_dangling_case : exists ds, file_defines (one_file verbs_alone) same 1 (text "a.tf") ds /\ ~ links_defined ds.
Proof.
  exists verbs_alone_defs. split; [exact verbs_alone_defines|]. intros H. destruct (H _ (FxItem (cyr "ть") 1 67 (cyr """1""")) (or_introl eq_refl) (or_introl eq_refl)) as (lines & a & d & b & E & Hn & _); [discriminate|].
  destruct a as [|x [|y a]]; cbn [app] in E; [injection E as <- _|discriminate|discriminate]. repeat destruct Hn as [Hn|Hn]; discriminate || contradiction.
Qed.

(** ** C84: the order of the lines of a table does not matter; names share a table exactly if their tables have the same lines *)
Theorem C84_order : forall depth fs conv name ds depth' fs' conv' name' ds', file_defines fs conv depth name ds -> file_defines fs' conv' depth' name' ds' -> same_tables ds ds' ->
  tfc depth fs conv name = tfc depth' fs' conv' name'.
Proof. exact order_free. Qed.
Theorem C84_shared : forall depth fs conv name ds b ix, file_defines fs conv depth name ds -> tfc depth fs conv name = Some (b, ix) ->
  forall n n' l l', defined ds n l -> defined ds n' l' -> (lookup n ix = lookup n' ix <-> same_lines l l').
Proof. exact shared. Qed.
Theorem C84_shared_case : exists b ix, tfc 3 demo_files same (text "tables/all.tf") = Some (b, ix) /\
  lookup (cyr "с 2a-") ix = Some 40 /\ lookup (cyr "с 2c-") ix = Some 40 /\ lookup (cyr """1""") ix = Some 3 /\ lookup (cyr """2""") ix = Some 7.
Proof. eexists _, _. split; [vm_compute; reflexivity|]. vm_compute. auto. Qed.

(** ** C85: a second definition of a name has no effect and is not reported *)
Theorem C85_first_definition_wins : forall depth fs conv name ds b ix, file_defines fs conv depth name ds -> tfc depth fs conv name = Some (b, ix) ->
  forall d, Forall fits_format ds -> Forall fits_format [d] -> forall depth' fs' conv' name' b' ix', file_defines fs' conv' depth' name' (ds ++ [d]) -> tfc depth' fs' conv' name' = Some (b', ix') ->
  forall n, (exists off, lookup n ix = Some off) -> exists lines off off', defined ds n lines /\ defined (ds ++ [d]) n lines /\ lookup n ix = Some off /\ lookup n ix' = Some off' /\
    compiled_as b ix off lines /\ compiled_as b' ix' off' lines.
Proof. exact first_wins. Qed.
Theorem C85_redefinition_reported_refuted : exists ds d d' n b ix,
  file_defines (one_file twice_tf) same 1 (text "a.tf") ds /\ ds = [d; d'] /\ d_names d = [n] /\ d_names d' = [n] /\ ~ same_lines (d_lines d) (d_lines d') /\
  tfc 1 (one_file twice_tf) same (text "a.tf") = Some (b, ix).
Proof.
  exists twice_defs. eexists _, _, _, _, _. split; [exact twice_defines|]. split; [reflexivity|]. split; [reflexivity|]. split; [reflexivity|]. split; [|vm_compute; reflexivity].
  intros H. destruct (proj1 (H _) (or_introl eq_refl)) as [K|[]]. discriminate.
Qed.

(** ** C86: the number of elements of a table is not checked *)
Theorem C86_count_checked_refuted : exists d b, file_defines (one_file big_table) same 1 (text "a.tf") [d] /\ length (d_lines d) = 256%nat /\
  tfc 1 (one_file big_table) same (text "a.tf") = Some (b, [(cyr "а", 3)]) /\ forall s g f, ~ ending b 3 s g f.
Proof.
  destruct big_defines as (d & H1 & H2). apply Nat.eqb_eq in H2. destruct big_lost as (b & H3 & H4). exists d, b. auto.
Qed.

(** ** C87: descriptions *)
Theorem C87_tokens : forall s cg cg', map_gram s cg = Some cg' <-> gram_says s cg cg'.
Proof. exact map_gram_says_iff. Qed.
Theorem C87_tokens_case : gram_says (cyr "число М|И|затрудн") (GramInfo 0x1000 3) (GramInfo 0x800 7).
Proof. apply map_gram_says_iff. vm_compute. reflexivity. Qed.
(** A token with a space in its name cannot be used in an element: what follows the space is taken for the name of a table. *)
Theorem C87_spaced_token_refuted : forall cg it, element cg (cyr "а, число М") it -> fx_next it = cyr "М" /\ linked_to it.
Proof. exact spaced_token. Qed.
Theorem C87_spaced_token_case : exists it, element (GramInfo 0 3) (cyr "а, число М") it.
Proof. exact spaced_token_case. Qed.
