(** * Properties C28, C29, C30, C40, C41: the dictionary compiler.  STATEMENTS ONLY.
    [describable], [reads_as], [add_all], [ending], [changing], [form_of], [source_word], [compiled_from], [bounds_cover], [sources_ok], [arrays_fit]
    are in CompileSpec.v; [plain_links], [letters_alternate], [simple_table] in ResolveSpec.v. *)
From Verif Require Import Base Serial WordTree TreeSpec Stems StemSpec CharTables CapScheme CapSpec GramMap RusRuntime LevelSpec RusSpec
  Compile CompileSpec Resolve ResolveSpec CompileProofs5 ResolveProofs ResolveProofs2 CompileDemo PropCompileLemmas.
Local Open Scope N_scope.

(** ** C28.  After any sequence of additions every offset returned locates its description in the table, equal offsets mean equal classes, and
    the table has each class once. *)
Theorem C28_class_table : forall ms t offs, add_all no_classes ms = Some (t, offs) ->
  length offs = length ms /\
  (forall i m off, nth_error ms i = Some m -> nth_error offs i = Some off -> describable m -> exists p, advance off (classtable_ser t) = Ok p /\ reads_as p m) /\
  (forall i j mi mj oi oj, nth_error ms i = Some mi -> nth_error ms j = Some mj -> nth_error offs i = Some oi -> nth_error offs j = Some oj -> (oi = oj <-> mi = mj)) /\
  (exists each, NoDup each /\ (forall m, In m each <-> In m ms) /\ classtable_ser t = flat_map morphclass_ser each).
Proof. exact class_history. Qed.
Print Assumptions C28_class_table.

(** ... and later additions leave the offsets and the bytes already there as they are. *)
Theorem C28_later_additions : forall ms more t' offs', add_all no_classes (ms ++ more) = Some (t', offs') ->
  exists t offs, add_all no_classes ms = Some (t, offs) /\ firstn (length ms) offs' = offs /\ exists rest, classtable_ser t' = classtable_ser t ++ rest.
Proof. exact class_later. Qed.
Print Assumptions C28_later_additions.

(** Offsets above 0x7fff are returned without complaint, but stem records keep 15 bits of them: the analyser reads something else. *)
Theorem C28_large_offset_refuted : exists ms t offs i m off p, Forall describable ms /\ add_all no_classes ms = Some (t, offs) /\
  nth_error ms i = Some m /\ nth_error offs i = Some off /\ advance (off mod 2 ^ 15) (classtable_ser t) = Ok p /\ ~ reads_as p m.
Proof. exact too_many. Qed.
Print Assumptions C28_large_offset_refuted.

Example C28_case : exists t, add_all no_classes [Morphclass 7 1 0; Morphclass 51 16 0; Morphclass 7 1 1; Morphclass 7 1 0; Morphclass 53 0 0] = Some (t, [0; 4; 8; 0; 14]) /\
  classtable_ser t = [7; 32; 1; 0;  51; 32; 16; 0;  7; 96; 1; 0; 1; 0;  53; 0].
Proof. eexists. split; reflexivity. Qed.

(** ** C29.  The description written for a class is read as the same type, inflexion table and alternation table. *)
Theorem C29_round_trip : forall m rest, describable m -> reads_as (morphclass_ser m ++ rest) m.
Proof. exact class_reads. Qed.
Print Assumptions C29_round_trip.

(** a preposition whose article names no case is written without the field the analyser reads: it takes the next class for it, or reads past the end *)
Theorem C29_no_cases_refuted : exists x, resolve 8 demo_ftable demo_mtable [] [239; 238; 228] [] [] 51 0 0 None false 0 300 = Ok (Some x) /\
  load (morphclass_ser (l_class x)) = Ub /\
  (forall a b rest, a < 256 -> b < 256 -> a + b <> 0 -> ~ reads_as (morphclass_ser (l_class x) ++ a :: b :: rest) (l_class x)).
Proof. exact no_cases. Qed.
Print Assumptions C29_no_cases_refuted.

(** a preposition with a style mark has its cases taken for the number of an inflexion table and replaced *)
Theorem C29_marked_preposition_refuted : exists x b m,
  resolve 8 prep_ftable demo_mtable [] [239; 238; 228] [] [] (51 + 512) 0 16 None false 0 300 = Ok (Some x) /\ m_tfoffs (l_class x) = 16 /\
  map_tables 8 prep_ftable new_builder (l_class x) = Ok (b, m) /\ m_tfoffs m = 1.
Proof. exact marked_cases. Qed.
Print Assumptions C29_marked_preposition_refuted.

Example C29_case : describable (Morphclass (7 + 4096) 65535 300) /\ describable (Morphclass 51 32 0) /\ describable (Morphclass 53 0 0).
Proof. repeat (split; [reflexivity|]). split; [|split]; repeat (split; [reflexivity|]); try (intros _; discriminate); discriminate. Qed.

(** ** C30.  The bounds computed for a class contain the first letter of every changing part, provided no optional element of the tables is empty
    and no alternation is, or that the letters of the others suffice.  Both conditions are needed (below). *)
Theorem C30_bounds_partial : forall depth ftable mtable x,
  letter_bounds depth ftable mtable (l_class x) = Ok (l_min x, l_max x) ->
  (inflected (l_class x) = true -> plain_links ftable (m_tfoffs (l_class x))) ->
  (forall mx, inflected (l_class x) = true -> m_mtoffs (l_class x) <> 0 -> mix_at mtable (m_mtoffs (l_class x)) mx -> mixed_letters ftable (m_tfoffs (l_class x)) mx) ->
  bounds_cover ftable mtable x.
Proof. exact bounds_sound. Qed.
Print Assumptions C30_bounds_partial.

(** татарин with the alternation ин / nothing: its plural татары is not found in the compiled dictionary *)
Theorem C30_empty_alternation_refuted : exists A,
  resolve 8 demo_ftable tatar_mtable demo_alts [242; 224; 242; 224; 240; 232; 237] [] [] 8 1 0 None false 0 1 = Ok (Some tatar_x) /\
  sources_ok demo_ftable tatar_mtable [tatar_x] /\ compile 8 demo_ftable tatar_mtable [tatar_x] = Ok (Some A) /\ arrays_fit A /\
  form_of demo_ftable tatar_mtable tatar_x tatars [251] 0x800 3 /\ l_max tatar_x < 251 /\
  check_word A (repeat 7 48) (Some tatars) 6 0 = Ok 0%Z.
Proof. exact empty_alternation. Qed.
Print Assumptions C30_empty_alternation_refuted.

(** the letters of what follows an empty optional element are not counted *)
Theorem C30_empty_option_refuted : flex_minmax 8 option_ftable 1 = Ok (0, 0) /\ ending option_ftable 1 [241; 255] 0x8000 3.
Proof. exact empty_option. Qed.
Print Assumptions C30_empty_option_refuted.

Example C30_case : Forall (fun x => letter_bounds 8 demo_ftable demo_mtable (l_class x) = Ok (l_min x, l_max x)) demo_xs /\
  plain_links demo_ftable 1 /\ plain_links demo_ftable 20 /\ (forall mx, mix_at demo_mtable 1 mx -> letters_alternate mx) /\
  map (fun x => (l_min x, l_max x)) demo_xs = [(0, 251); (237, 238); (237, 238); (235, 242); (0, 0); (0, 0); (0, 0)].
Proof. split; [apply demo_bounds_computed|]. split; [apply nouns_plain|]. split; [apply verbs_plain|]. split; [apply sleep_letters|reflexivity]. Qed.

(** ** C40.  Compiling sources gives arrays that hold a lexicon consisting of the sources' lexemes, each with exactly the changing parts that its
    tables give. *)
Theorem C40_compiled_lexicon : forall depth ftable mtable xs A,
  sources_ok ftable mtable xs -> compile depth ftable mtable xs = Ok (Some A) -> arrays_fit A ->
  exists L, holds A L /\ compiled_from ftable mtable xs L /\ lidstree A = lidstree_bytes (create_lids (words L)) /\ stemtree A = stemtree_bytes (words L).
Proof. intros depth ftable mtable xs A H1 H2 H3. exact (compile_holds_from depth ftable mtable xs H1 A H2 H3). Qed.
Print Assumptions C40_compiled_lexicon.

(** CheckWord on the compiled arrays accepts exactly the forms of the sources' lexemes in acceptable capitalisation.
    Missing to the full property: words with a postfix directly after the stem that starts above the greatest first letter (refuted below), more than eight hyphenated parts (C12), unsound letter bounds (C30). *)
Theorem C40_compiled_check_partial : forall depth ftable mtable xs A w psz cch dwsets junk,
  compile depth ftable mtable xs = Ok (Some A) -> sources_ok ftable mtable xs -> arrays_fit A -> Forall (bounds_cover ftable mtable) xs ->
  given w psz cch -> is_bytes w -> w <> [] -> (length w < 48)%nat -> (length (parts rus_casing w) <= 8)%nat ->
  (forall x part g f, source_word ftable mtable xs (bit 1 dwsets) w x part g f ->
     part <> [] \/ match l_post x with [] => True | c :: _ => c <= l_max x end) ->
  check_word A junk psz cch dwsets = Ok 1%Z /\ (exists x part g f, source_word ftable mtable xs (bit 1 dwsets) w x part g f) \/
  check_word A junk psz cch dwsets = Ok 0%Z /\ ~ (exists x part g f, source_word ftable mtable xs (bit 1 dwsets) w x part g f).
Proof. exact compiled_check. Qed.
Print Assumptions C40_compiled_check_partial.

Theorem C40_postfix_refuted : exists x, In x demo_xs /\ form_of demo_ftable demo_mtable x [234; 224; 234; 45; 242; 238] [] 0 0 /\
  check_word demo_compiled (repeat 7 48) (Some [234; 224; 234; 45; 242; 238]) 6 0 = Ok 0%Z.
Proof. exact compiled_missed. Qed.
Print Assumptions C40_postfix_refuted.

Example C40_case : compile 8 demo_ftable demo_mtable demo_xs = Ok (Some demo_compiled) /\ sources_ok demo_ftable demo_mtable demo_xs /\
  arrays_fit demo_compiled /\ Forall (bounds_cover demo_ftable demo_mtable) demo_xs /\
  (* Сны, сон-то, мыться, мыл, мылся; соны, снов-, мыя *)
  map (fun w => check_word demo_compiled (repeat 7 48) (Some w) (N.of_nat (length w)) 0)
    [[209; 237; 251]; [241; 238; 237; 45; 242; 238]; [236; 251; 242; 252; 241; 255]; [236; 251; 235]; [236; 251; 235; 241; 255];
     [241; 238; 237; 251]; [241; 237; 238; 226; 45]; [236; 251; 255]] = [Ok 1%Z; Ok 1%Z; Ok 1%Z; Ok 1%Z; Ok 1%Z; Ok 0%Z; Ok 0%Z; Ok 0%Z].
Proof. split; [apply demo_compile|]. split; [apply demo_sources|]. split; [apply demo_fit|]. split; [apply demo_covered|vm_compute; reflexivity]. Qed.

(** ** C41.  The headword of an article is a form of the lexeme made of it.  Proved for words other than verbs whose table has no continued
    elements; plural-only words must not alternate (refuted below). *)
Theorem C41_headword_partial : forall depth ftable mtable alts stem post rems wd off cases mixkind id x,
  resolve depth ftable mtable alts (stem ++ post) post rems wd off cases None false mixkind id = Ok (Some x) ->
  (off <> 0 -> ~ (1 <= wd mod 64 <= 6) /\ wd mod 64 <> 51 /\ mixkind = 0 /\ simple_table ftable off) ->
  (forall o cond, In (o, cond) alts -> o <> 0 /\ exists mx, mix_at mtable o mx) ->
  (m_mtoffs (l_class x) <> 0 -> N.testbit wd 6 = false) ->
  exists part g f, form_of ftable mtable x (stem ++ post) part g f.
Proof. exact headword. Qed.
Print Assumptions C41_headword_partial.

(** a continued ending that matches in its last part only leaves the stem shortened *)
Theorem C41_continued_refuted : exists x, resolve 8 spoil_ftable [0] [] [226; 238; 228; 224] [] [] 13 1 0 None false 0 1 = Ok (Some x) /\
  forall part g f, ~ form_of spoil_ftable [0] x [226; 238; 228; 224] part g f.
Proof. exact spoiled. Qed.
Print Assumptions C41_continued_refuted.

(** a plural-only masculine noun loses the alternation of the singular *)
Theorem C41_plural_refuted : exists x, resolve 8 demo_ftable demo_mtable demo_alts [241; 238; 237; 251] [] [] 71 1 0 None false 0 1 = Ok (Some x) /\
  forall part g f, ~ form_of demo_ftable demo_mtable x [241; 238; 237; 251] part g f.
Proof. exact plural_headword. Qed.
Print Assumptions C41_plural_refuted.

Example C41_case : exists x, resolve 8 demo_ftable demo_mtable demo_alts ([241; 238; 237] ++ [45; 242; 238]) [45; 242; 238] [] 7 1 0 None false 0 6 = Ok (Some x) /\
  l_stem x = [241] /\ m_mtoffs (l_class x) = 1 /\ simple_table demo_ftable 1 /\ (forall o cond, In (o, cond) demo_alts -> o <> 0 /\ exists mx, mix_at demo_mtable o mx).
Proof.
  eexists. split; [reflexivity|]. split; [reflexivity|]. split; [reflexivity|]. split.
  - exists nouns. split; [apply nouns_at|]. split; [cbn; lia|]. repeat constructor; cbn; lia.
  - intros o cond [[= <- <-]|[]]. split; [discriminate|]. exists sleep. apply sleep_at.
Qed.
