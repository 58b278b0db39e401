(** * Properties C77-C81: the Russian dictionary compiler from the text of the articles.  STATEMENTS ONLY.
    [rarticle], [rwritten], [senses], [entry], [lexeme_of], [comment], [no_entry], [in_lines], [rlists], [tables_valid], [rarticle_valid], [article_word] are in RusTextSpec.v;
    [normal_of_word], [taken_off], [unended], [alternation], [searchable], [reflexive_last] in StripSpec.v; [form_of] in CompileSpec.v. *)
From Coq Require Import String Ascii.
From Verif Require Import Base Serial WordTree TreeSpec Stems StemSpec CharTables CapScheme CapSpec GramMap RusRuntime LevelSpec RusSpec Compile CompileSpec CompileFormsSpec
  Resolve ResolveSpec CompileDemo CompileDemo2 Api Utf8 EngCompile EngCompileSpec
  RusText RusTextSpec RusTextProofs3 RusTextProofs4 RusTextProofs5 RusTextProofs6 RusTextDemo StripSpec StripProofs2 StripProofs3 PropRusTextLemmas.
Local Open Scope N_scope.
Local Open Scope list_scope.
Notation length := List.length.

(** ** C77.  The line of an article, written with any spaces and any notes, gives exactly the lexemes it means; if it means none it is reported. *)
Theorem C77_article_read : forall depth T x line body l u, tables_ok T -> rwritten x line body ->
  read_line depth T line = Ok (l, u) <-> senses depth T x l /\ u = match l with [] => [body] | _ => [] end.
Proof. exact read_senses. Qed.
Print Assumptions C77_article_read.

(** Comments and lines without an article give nothing; comments are reported. *)
Theorem C77_other_lines : forall depth T line,
  (forall body, comment line body -> read_line depth T line = Ok ([], [body])) /\ (no_entry line -> read_line depth T line = Ok ([], [])).
Proof. intros depth T line. split; [intros body; apply read_comment|apply read_none]. Qed.
Print Assumptions C77_other_lines.

(** Fields are copied to arrays of 256, 32, 32 and 32 characters: what does not fit is undefined. *)
Theorem C77_long_field_refuted : exists line, line = cyr "дом # м 1aaaaaaaaaaaaaaaaaaaaaaaaaaaaaaaaaaaaaa LID:1" /\ read_line 8 demo_tables line = Ub.
Proof. exists long_index. split; [reflexivity|apply long_field]. Qed.
Print Assumptions C77_long_field_refuted.

(** The postfix is not looked for at the end of the headword: as many characters are cut off, whatever they are; a longer one ends the compiler. *)
Theorem C77_postfix_refuted :
  read_line 8 demo_tables (cyr "кабан # союз 0 post:-то LID:5") = Ok ([Lexeme (cyr "ка") (Morphclass 52 0 0) 0 0 (cyr "-то") 5], []) /\
  read_line 8 demo_tables (cyr "он # союз 0 post:-то LID:5") = Ub.
Proof. split; [exact odd_postfix|exact long_postfix]. Qed.
Print Assumptions C77_postfix_refuted.

(** A postfix with two hyphens is also taken for a remark; the mark @ stays in words that do not change. *)
Theorem C77_marks_refuted : get_remark (cyr "post:-де-факто LID:5") = cyr "де" /\
  read_line 8 demo_tables (cyr "ко@т # союз 0 LID:5") = Ok ([Lexeme (cyr "ко@т") (Morphclass 52 0 0) 0 0 [] 5], []).
Proof. split; [exact two_hyphens|exact marked_constant]. Qed.
Print Assumptions C77_marks_refuted.

Example C77_case : tables_ok demo_tables /\ Forall (fun xn => rwritten (fst xn) (spaced (fst xn) (snd xn) ++ [10]) (spaced (fst xn) (snd xn))) demo_arts /\
  (* сон-то *) nth 2 (map (fun xn => read_line 8 demo_tables (spaced (fst xn) (snd xn) ++ [10])) demo_arts) Ub = Ok ([Lexeme (cyr "с") (Morphclass 7 1 1) 237 238 (cyr "-то") 6], []) /\
  comment (nth 1 demo_lines []) (nth 0 demo_unknown []) /\ no_entry (nth 3 demo_lines []) /\ no_entry (nth 9 demo_lines []).
Proof. split; [apply demo_tables_ok|]. split; [apply demo_written|]. split; [vm_compute; reflexivity|]. split; [apply demo_comment|]. split; [apply demo_blank|apply demo_draft]. Qed.

(** ** C78.  Files of lines of at most 1022 characters compile to what the lexemes of their articles compile to, in the order of the files and lines; the comments and the articles
    without meaning are reported. *)
Theorem C78_files_compiled : forall depth T conv files liness xs ls us, tables_ok T -> Forall2 in_lines files liness -> rlists depth T (map (map conv) (concat liness)) xs ls us ->
  rcompile depth T conv files = let! o := compile depth (tb_flex T) (tb_mix T) ls in Ok (option_map (fun A => (A, us)) o).
Proof. exact rus_text_compiled. Qed.
Print Assumptions C78_files_compiled.

(** The lexemes compiled are those the articles mean. *)
Theorem C78_lexemes : forall depth T lines xs ls us, tables_ok T -> rlists depth T lines xs ls us -> forall l, In l ls <-> exists x, In x xs /\ lexeme_of depth T x l.
Proof. exact rus_text_from. Qed.
Print Assumptions C78_lexemes.

(** Longer lines are read in pieces: the end of a long comment is taken for an article. *)
Theorem C78_long_line_refuted : exists line, ~ In 10 line /\ starts (text "//") line = true /\
  map (read_line 8 demo_tables) (file_lines (fun c => c) (line ++ [10])) = [Ok ([], [text "//"]); Ok ([Lexeme (cyr "дом") (Morphclass 7 1 0) 0 251 [] 1], [])].
Proof. exists long_comment. exact comment_read. Qed.
Print Assumptions C78_long_line_refuted.

Example C78_case : Forall2 in_lines [demo_file] [demo_lines] /\ rlists 8 demo_tables (map (map (fun c => c)) (concat [demo_lines])) demo_articles demo_ys demo_unknown /\
  rcompile 8 demo_tables (fun c => c) [demo_file] = Ok (Some (ys_compiled, demo_unknown)).
Proof.
  split; [constructor; [apply demo_in_lines|constructor]|]. assert (E : map (map (fun c => c)) (concat [demo_lines]) = demo_lines) by (vm_compute; reflexivity). rewrite E. split; [apply demo_rlists|].
  vm_compute. reflexivity.
Qed.

(** ** C79.  CheckWord on the dictionary compiled from text accepts exactly the forms of the words the articles mean, in acceptable capitalisation.
    Missing to the full property: what is missing to C40. *)
Theorem C79_text_to_words_partial : forall alphabet depth T conv files liness xs ls us A us' w psz cch dwsets junk,
  tables_valid alphabet T -> Forall2 in_lines files liness -> rlists depth T (map (map conv) (concat liness)) xs ls us -> Forall (rarticle_valid alphabet) xs -> N.of_nat (length ls) < 2 ^ 32 ->
  rcompile depth T conv files = Ok (Some (A, us')) -> arrays_fit A ->
  given w psz cch -> is_bytes w -> w <> [] -> (length w < 48)%nat -> (length (parts rus_casing w) <= 8)%nat ->
  (forall x l part g f, article_word depth T xs (bit 1 dwsets) w x l part g f -> part <> [] \/ match l_post l with [] => True | c :: _ => c <= l_max l end) ->
  check_word A junk psz cch dwsets = Ok 1%Z /\ (exists x l part g f, article_word depth T xs (bit 1 dwsets) w x l part g f) \/
  check_word A junk psz cch dwsets = Ok 0%Z /\ ~ (exists x l part g f, article_word depth T xs (bit 1 dwsets) w x l part g f).
Proof. exact rus_text_check. Qed.
Print Assumptions C79_text_to_words_partial.

(** The sources made of valid articles and tables are valid for the compiler: everything proved of compiled sources (C40, C66-C68) holds of them. *)
Theorem C79_valid_sources : forall alphabet depth T lines xs ls us, tables_valid alphabet T -> Forall (rarticle_valid alphabet) xs -> rlists depth T lines xs ls us -> N.of_nat (length ls) < 2 ^ 32 ->
  sources_ok (tb_flex T) (tb_mix T) ls /\ Forall (bounds_cover (tb_flex T) (tb_mix T)) ls.
Proof. exact lists_sources. Qed.
Print Assumptions C79_valid_sources.

Example C79_case : tables_valid cyrillic demo_tables /\ Forall (rarticle_valid cyrillic) demo_articles /\ arrays_fit ys_compiled /\
  (* снов, мылся, под; глокая *)
  map (fun w => check_word ys_compiled (repeat 7 48) (Some (cyr w)) (N.of_nat (length (cyr w))) 0) ["снов"; "мылся"; "под"; "глокая"]%string = [Ok 1%Z; Ok 1%Z; Ok 1%Z; Ok 0%Z].
Proof. split; [apply demo_tables_valid|]. split; [apply demo_articles_valid|]. split; [apply ys_fit|]. vm_compute. reflexivity. Qed.

(** ** C80.  The stem of a word that changes: the first of the endings of the normal form that the word has is taken off, in the order of the tables, then the first alternation
    the rest has; the word is refused when it has no such ending and its index no colon. *)
Theorem C80_stem_search : forall depth ftable mtable alts base post rems wd off cases at_mark colon mixkind id l r,
  resolve depth ftable mtable alts (base ++ post) post rems wd off cases at_mark colon mixkind id = Ok r -> off <> 0 ->
  searchable ftable mtable alts wd off base rems -> normal_of_word ftable wd off base l ->
  match r with
  | None => unended base l at_mark colon None
  | Some x => exists stem mt, unended base l at_mark colon (Some stem) /\ alternation mtable alts (is_verb wd) rems stem (l_stem x) mt /\
      l_class x = Morphclass (if mt =? 0 then wd else N.lor wd (N.shiftl mixkind 11)) off mt /\ l_post x = post /\ l_id x = id
  end.
Proof. exact resolve_found. Qed.
Print Assumptions C80_stem_search.

Example C80_case : (* мыть, сон *)
  searchable demo_ftable demo_mtable [] 1 20 wash [] /\ normal_of_word demo_ftable 1 20 wash [(cyr "ть", 1, 0x7f)] /\
  searchable demo_ftable demo_mtable demo_alts 7 1 dream [] /\ normal_of_word demo_ftable 7 1 dream [([], 0, 3)] /\
  resolve 8 demo_ftable demo_mtable demo_alts (dream ++ []) [] [] 7 1 0 None false 0 2 = Ok (Some (Lexeme (cyr "с") (Morphclass 7 1 1) 237 238 [] 2)).
Proof. split; [apply wash_searchable|]. split; [apply wash_normal|]. split; [apply dream_searchable|]. split; [apply dream_normal|vm_compute; reflexivity]. Qed.

(** ** C41 for verbs and continued tables: the headword is a form of the lexeme made of it. *)
Theorem C41_headword_continued_partial : forall depth ftable mtable alts base post rems wd off cases mixkind id l x,
  resolve depth ftable mtable alts (base ++ post) post rems wd off cases None false mixkind id = Ok (Some x) -> off <> 0 -> wd mod 64 <> 51 ->
  searchable ftable mtable alts wd off base rems -> normal_of_word ftable wd off base l ->
  (if is_verb wd then reflexive_last ftable off else m_mtoffs (l_class x) <> 0 -> N.testbit wd 6 = false /\ mixkind = 0) ->
  exists part g f, form_of ftable mtable x (base ++ post) part g f.
Proof. exact headword_form. Qed.
Print Assumptions C41_headword_continued_partial.

(** мыться, whose ending is ть continued by ся *)
Example C41_continued_case : searchable self_ftable [] [] 1 1 wash_self [] /\ (exists l, normal_of_word self_ftable 1 1 wash_self l /\ In (cyr "ться", 0x8001, 0x3f) l) /\ reflexive_last self_ftable 1 /\
  resolve 8 self_ftable [] [] wash_self [] [] 1 1 0 None false 0 7 = Ok (Some wash_self_x) /\ l_stem wash_self_x = cyr "мы".
Proof. split; [apply self_searchable|]. split; [apply self_normal|]. split; [apply self_reflexive|]. split; [apply self_resolve|reflexivity]. Qed.

(** ** C81.  The dictionary compiled from text recognises the headword of every article whose stem is searched for, in any acceptable capitalisation. *)
Theorem C81_headword_accepted_partial : forall alphabet depth T conv files liness xs ls us A us' x n p off base d l w psz cch dwsets junk,
  tables_valid alphabet T -> Forall2 in_lines files liness -> rlists depth T (map (map conv) (concat liness)) xs ls us -> Forall (rarticle_valid alphabet) xs -> N.of_nat (length ls) < 2 ^ 32 ->
  rcompile depth T conv files = Ok (Some (A, us')) -> arrays_fit A ->
  (* an article of the dictionary: a word that changes by table [off], [base] is its headword without the postfix, without marks *)
  In x xs -> typed (r_mark x) (r_type x) n p -> ~ constant n -> RusText.lookup (r_type x ++ 32 :: r_index x) (tb_findex T) = Some off ->
  plain_word (r_head x) = base ++ post_of (r_notes x) -> ~ In 64 base -> ~ In 58 (r_index x) ->
  searchable (tb_flex T) (tb_mix T) (match RusText.lookup (r_type x ++ 32 :: r_index x) (tb_mindex T) with Some l => l | None => [] end) (class_bits x n p) off base (remark_of (r_notes x)) ->
  normal_of_word (tb_flex T) (class_bits x n p) off base d -> entry depth T x (r_index x) (Ok (Some l)) ->
  (if is_verb (class_bits x n p) then reflexive_last (tb_flex T) off else m_mtoffs (l_class l) <> 0 -> p = false) ->
  (* a spelling of the headword *)
  given w psz cch -> is_bytes w -> w <> [] -> (length w < 48)%nat -> (length (parts rus_casing w) <= 8)%nat ->
  (forall x l part g f, article_word depth T xs (bit 1 dwsets) w x l part g f -> part <> [] \/ match l_post l with [] => True | c :: _ => c <= l_max l end) ->
  map (locase rus_casing) w = plain_word (r_head x) -> (bit 1 dwsets = false -> suits w (required_case (m_wdinfo (l_class l)))) ->
  check_word A junk psz cch dwsets = Ok 1%Z.
Proof. exact headword_accepted. Qed.
Print Assumptions C81_headword_accepted_partial.

Example C81_case : In (at_ 3) demo_articles /\ typed (r_mark (at_ 3)) (r_type (at_ 3)) 1 false /\ RusText.lookup (r_type (at_ 3) ++ 32 :: r_index (at_ 3)) (tb_findex demo_tables) = Some 20 /\
  plain_word (r_head (at_ 3)) = wash ++ post_of (r_notes (at_ 3)) /\ entry 8 demo_tables (at_ 3) (r_index (at_ 3)) (Ok (Some (ly 3))) /\ reflexive_last demo_ftable 20 /\
  map (locase rus_casing) (cyr "Мыть") = plain_word (r_head (at_ 3)) /\ check_word ys_compiled (repeat 7 48) (Some (cyr "Мыть")) 4 0 = Ok 1%Z.
Proof.
  split; [right; right; right; left; reflexivity|]. split; [exists ["# нсв"%string], "# нсв"%string; split; [left; reflexivity|split; [left; reflexivity|reflexivity]]|].
  split; [vm_compute; reflexivity|]. split; [reflexivity|]. split; [apply demo_entry_one; [lia|vm_compute; reflexivity|vm_compute; reflexivity]|]. split; [apply wash_reflexive|]. split; vm_compute; reflexivity.
Qed.
