(** * Prop_DictText: from the texts of tables, alternations and articles to the words recognised. *)
From Coq Require Import String.
From Verif Require Import Base Serial WordTree TreeSpec Stems StemSpec CharTables CapScheme CapSpec GramMap RusRuntime LevelSpec RusSpec Compile CompileSpec CompileDemo ResolveSpec StripSpec Api EngCompileSpec Utf8 RusText RusTextSpec Tfc TfcSpec TfcDemo
  Makeich MakeichSpec DictTextSpec PropDictTextLemmas DictTextDemo.
Local Open Scope N_scope.
Local Open Scope list_scope.
Notation length := List.length.

(** ** C91.  Texts of tables and alternations that satisfy the conditions are compiled, to tables that mean the same and that the dictionary compiler can use. *)
Theorem C91_texts_compiled : forall alphabet ds ms fs fs' conv conv' depth depth' name name',
  file_defines fs conv depth name ds -> mixes_defined fs' conv' depth' name' ms -> texts_valid alphabet ds ms ->
  exists b ix mb mix, tfc depth fs conv name = Some (b, ix) /\ makeich depth' fs' conv' name' = Some (mb, mix) /\
    tables_mean ds b ix /\ mixes_mean ms mb mix /\ tables_valid alphabet (Tables b ix mb mix).
Proof. exact texts_compiled. Qed.
Print Assumptions C91_texts_compiled.
Example C91_case : file_defines dt_files same 3 (text "tables/all.tf") dt_defs /\ mixes_defined dt_mix_files same 1 (text "all.mix") dt_mixes /\ texts_valid cyrillic dt_defs dt_mixes.
Proof. split; [exact dt_defines|]. split; [exact dt_mixes_defined|exact (dv_texts _ _ _ _ dt_valid)]. Qed.

(** ** C92.  CheckWord on the dictionary built from the texts accepts exactly the words they tell of, in acceptable capitalisation.
    Missing to the full property: words of 48 letters and more, of more than eight parts, postfixes above the letters of the changing parts; texts that do not satisfy [dictionary_valid]. *)
Theorem C92_texts_to_words_partial : forall alphabet ds ms xs A w psz cch dwsets junk, built ds ms xs A -> dictionary_valid alphabet ds ms xs -> arrays_fit A ->
  given w psz cch -> is_bytes w -> w <> [] -> (length w < 48)%nat -> (length (parts rus_casing w) <= 8)%nat ->
  (forall x tw part g f, dictionary_word ds ms xs (bit 1 dwsets) w x tw part g f -> postfix_reached ds x tw part) ->
  check_word A junk psz cch dwsets = Ok 1%Z /\ (exists x tw part g f, dictionary_word ds ms xs (bit 1 dwsets) w x tw part g f) \/
  check_word A junk psz cch dwsets = Ok 0%Z /\ ~ (exists x tw part g f, dictionary_word ds ms xs (bit 1 dwsets) w x tw part g f).
Proof. exact built_check. Qed.
Print Assumptions C92_texts_to_words_partial.
(** A dictionary of seven articles, with a table that is continued by another, an alternation, a postfix, a preposition, a word whose type is unknown. *)
Example C92_case : built dt_defs dt_mixes dt_articles dt_A /\ dictionary_valid cyrillic dt_defs dt_mixes dt_articles /\ arrays_fit dt_A /\
  (forall x tw part g f, dictionary_word dt_defs dt_mixes dt_articles false (cyr "Снов") x tw part g f -> postfix_reached dt_defs x tw part) /\
  map (fun w => check_word dt_A (repeat 7 48) (Some (cyr w)) (N.of_nat (length (cyr w))) 0) ["Снов"; "сна-то"; "делалась"; "под"; "глокая"; "сонов"]%string = [Ok 1%Z; Ok 1%Z; Ok 1%Z; Ok 1%Z; Ok 0%Z; Ok 0%Z].
Proof.
  split; [exact dt_built|]. split; [exact dt_valid|]. split; [exact dt_fit|]. split; [|vm_compute; reflexivity].
  intros x tw part g f. apply dt_reached. vm_compute. discriminate.
Qed.
(** So the texts tell of снов and not of сонов. *)
Example C92_told : (exists x tw part g f, dictionary_word dt_defs dt_mixes dt_articles false (cyr "Снов") x tw part g f) /\ ~ (exists x tw part g f, dictionary_word dt_defs dt_mixes dt_articles false (cyr "сонов") x tw part g f).
Proof.
  assert (G : forall s, cyr s <> [] -> (forallb (fun c => c <? 256) (cyr s) && Nat.ltb (length (cyr s)) 48 && Nat.leb (length (parts rus_casing (cyr s))) 8)%bool = true -> firstn 3 (rev (map (locase rus_casing) (cyr s))) <> rev (cyr "-то") ->
    check_word dt_A (repeat 7 48) (Some (cyr s)) (N.of_nat (length (cyr s))) 0 = Ok 1%Z /\ (exists x tw part g f, dictionary_word dt_defs dt_mixes dt_articles false (cyr s) x tw part g f) \/
    check_word dt_A (repeat 7 48) (Some (cyr s)) (N.of_nat (length (cyr s))) 0 = Ok 0%Z /\ ~ (exists x tw part g f, dictionary_word dt_defs dt_mixes dt_articles false (cyr s) x tw part g f)).
  { intros s Hn H Hz. rewrite !Bool.andb_true_iff in H. destruct H as [[H1 H2] H3]. apply (C92_texts_to_words_partial cyrillic).
    - exact dt_built.
    - exact dt_valid.
    - exact dt_fit.
    - rewrite <- (app_nil_r (cyr s)) at 2. apply given_counted. apply Nat.ltb_lt in H2. lia.
    - apply Forall_forall. intros c Hc. rewrite forallb_forall in H1. apply N.ltb_lt, H1, Hc.
    - exact Hn.
    - apply Nat.ltb_lt, H2.
    - apply Nat.leb_le, H3.
    - intros x tw part g f. apply dt_reached, Hz. }
  assert (C1 : check_word dt_A (repeat 7 48) (Some (cyr "Снов")) (N.of_nat (length (cyr "Снов"))) 0 = Ok 1%Z) by (vm_compute; reflexivity).
  assert (C2 : check_word dt_A (repeat 7 48) (Some (cyr "сонов")) (N.of_nat (length (cyr "сонов"))) 0 = Ok 0%Z) by (vm_compute; reflexivity).
  split.
  - specialize (G "Снов"%string ltac:(discriminate) ltac:(vm_compute; reflexivity) ltac:(vm_compute; discriminate)). rewrite C1 in G. destruct G as [[_ K]|[K _]]; [exact K|discriminate K].
  - specialize (G "сонов"%string ltac:(discriminate) ltac:(vm_compute; reflexivity) ltac:(vm_compute; discriminate)). rewrite C2 in G. destruct G as [[K _]|[_ K]]; [discriminate K|exact K].
Qed.

(** ** C93.  The headword of every article that has a table is recognised, in acceptable capitalisation. *)
Theorem C93_headwords_accepted_partial : forall alphabet ds ms xs A x n p base lines tw w psz cch dwsets junk, built ds ms xs A -> dictionary_valid alphabet ds ms xs -> arrays_fit A ->
  In x xs -> typed (r_mark x) (r_type x) n p -> ~ constant n -> defined ds (table_name x (r_index x)) lines ->
  plain_word (r_head x) = base ++ post_of (r_notes x) -> ~ In 64 base -> ~ In 58 (r_index x) ->
  sense ds ms x (r_index x) (Some tw) -> (if is_verb (class_bits x n p) then reflexive_end ds (table_name x (r_index x)) else tw_mix tw <> None -> p = false) ->
  given w psz cch -> is_bytes w -> w <> [] -> (length w < 48)%nat -> (length (parts rus_casing w) <= 8)%nat ->
  (forall x tw part g f, dictionary_word ds ms xs (bit 1 dwsets) w x tw part g f -> postfix_reached ds x tw part) ->
  map (locase rus_casing) w = plain_word (r_head x) -> (bit 1 dwsets = false -> suits w (required_case (tw_class tw))) ->
  check_word A junk psz cch dwsets = Ok 1%Z.
Proof. exact built_headword. Qed.
Print Assumptions C93_headwords_accepted_partial.
Example C93_case : In dt_son dt_articles /\ typed (r_mark dt_son) (r_type dt_son) 7 false /\ defined dt_defs (table_name dt_son (r_index dt_son)) dt_son_lines /\
  plain_word (r_head dt_son) = cyr "сон" ++ post_of (r_notes dt_son) /\ sense dt_defs dt_mixes dt_son (r_index dt_son) (Some dt_son_word) /\ tw_mix dt_son_word <> None /\
  (forall x tw part g f, dictionary_word dt_defs dt_mixes dt_articles false (cyr "СОН") x tw part g f -> postfix_reached dt_defs x tw part) /\
  map (locase rus_casing) (cyr "СОН") = plain_word (r_head dt_son) /\ check_word dt_A (repeat 7 48) (Some (cyr "СОН")) 3 0 = Ok 1%Z.
Proof.
  split; [exact dt_son_in|]. split; [exact dt_son_typed|]. split; [exact dt_son_defined|]. split; [reflexivity|]. split; [exact dt_son_sense|]. split; [discriminate|].
  split; [intros x tw part g f; apply dt_reached; vm_compute; discriminate|]. split; vm_compute; reflexivity.
Qed.
