(** * Properties C66, C67, C68: a Russian dictionary compiled from its sources answers what the sources say.  STATEMENTS ONLY.
    [changing], [form_of], [source_word] are in CompileSpec.v; [asked_part], [has_number], [spelled], [source_lemma], [source_shown], [tells], [word_forms],
    [lexeme_buildable], [lexeme_recognisable], [lexeme_searchable] in CompileFormsSpec.v.  [junk], [buf] are previous contents of the stack. *)
From Verif Require Import Base Serial WordTree TreeSpec Stems StemSpec CharTables CapScheme CapSpec GramMap RusRuntime LevelSpec RusSpec RusBuild RusBuildSpec RusReadings RusLemmaSpec
  Wild WildSpec Compile CompileSpec CompileFormsSpec CompileDemo CompileDemo2 PropWildLemmas PropCompileFormsLemmas.
Local Open Scope N_scope.

(** ** C66: by lexeme id.  BuildForm delivers exactly the forms with the number asked for, each once. *)
Theorem C66_build_form : forall depth ftable mtable xs A,
  compile depth ftable mtable xs = Ok (Some A) -> sources_ok ftable mtable xs -> arrays_fit A -> forall x id junk mem,
  N.of_nat (length (lidstree A)) < 2 ^ 32 -> Forall (lexeme_buildable ftable mtable) xs ->
  In x xs -> (forall y, In y xs -> l_id y = l_id x -> y = x) -> mem <> [] -> (length (lexkeylen (l_id x) ++ junk) = 16)%nat ->
  exists ps, NoDup ps /\ (forall p, In p ps <-> has_number (l_class x) id /\ asked_part ftable mtable (l_class x) (GetGramInfo (m_wdinfo (l_class x)) id) p) /\
    let fs := map (spelled x) ps in delivered mem fs (small fs) (build_form A junk (Some mem) (l_id x) id).
Proof. exact rus_build. Qed.
Print Assumptions C66_build_form.

Theorem C66_word_class : forall depth ftable mtable xs A,
  compile depth ftable mtable xs = Ok (Some A) -> sources_ok ftable mtable xs -> arrays_fit A -> forall x junk,
  N.of_nat (length (lidstree A)) < 2 ^ 32 -> Forall (lexeme_buildable ftable mtable) xs ->
  In x xs -> (forall y, In y xs -> l_id y = l_id x -> m_wdinfo (l_class y) mod 64 = m_wdinfo (l_class x) mod 64) -> (length (lexkeylen (l_id x) ++ junk) = 16)%nat ->
  get_wd_info A junk (l_id x) = Ok (1%Z, Some (m_wdinfo (l_class x) mod 64)).
Proof. exact rus_class. Qed.
Print Assumptions C66_word_class.

Theorem C66_unknown : forall depth ftable mtable xs A,
  compile depth ftable mtable xs = Ok (Some A) -> sources_ok ftable mtable xs -> arrays_fit A -> forall id idform junk mem,
  N.of_nat (length (lidstree A)) < 2 ^ 32 -> Forall (lexeme_buildable ftable mtable) xs ->
  id < 2 ^ 32 -> (forall y, In y xs -> l_id y <> id) -> mem <> [] -> (length (lexkeylen id ++ junk) = 16)%nat ->
  get_wd_info A junk id = Ok (0%Z, None) /\ build_form A junk (Some mem) id idform = Ok (0%Z, Some mem).
Proof. exact rus_absent. Qed.
Print Assumptions C66_unknown.

(** What is built is recognised.  Missing to the full property: the conditions of [lexeme_recognisable] (refuted without them, see C25). *)
Theorem C66_built_recognised_partial : forall depth ftable mtable xs A,
  compile depth ftable mtable xs = Ok (Some A) -> sources_ok ftable mtable xs -> arrays_fit A -> forall x id n mem mem' junk,
  N.of_nat (length (lidstree A)) < 2 ^ 32 -> Forall (lexeme_buildable ftable mtable) xs -> Forall (lexeme_recognisable ftable mtable) xs ->
  In x xs -> (forall y, In y xs -> l_id y = l_id x -> y = x) -> mem <> [] -> (length (lexkeylen (l_id x) ++ junk) = 16)%nat ->
  build_form A junk (Some mem) (l_id x) id = Ok (n, Some mem') -> (0 < n)%Z ->
  exists fs, n = Z.of_nat (length fs) /\ mem' = filled fs mem /\
    forall form, In form fs -> form <> [] -> (length form < 48)%nat -> forall psz cch dwsets junk', given form psz cch ->
      bit 1 dwsets = true /\ (length (parts rus_casing form) <= 8)%nat \/ casable (required_case (m_wdinfo (l_class x))) (map (locase rus_casing) form) ->
      check_word A junk' psz cch dwsets = Ok 1%Z.
Proof. exact rus_recognised. Qed.
Print Assumptions C66_built_recognised_partial.

(** дом, сон, сон-то, мыть, под, как: сна is form 1 of сон, сна-то of сон-то, мыть form 0 of мыть *)
Example C66_case : compile 8 demo_ftable demo_mtable demo_ys = Ok (Some ys_compiled) /\ sources_ok demo_ftable demo_mtable demo_ys /\
  (arrays_fit ys_compiled /\ N.of_nat (length (lidstree ys_compiled)) < 2 ^ 32) /\ Forall (lexeme_buildable demo_ftable demo_mtable) demo_ys /\ Forall (lexeme_recognisable demo_ftable demo_mtable) demo_ys /\
  (forall x y, In x demo_ys -> In y demo_ys -> l_id y = l_id x -> y = x) /\ map l_id demo_ys = [1; 2; 6; 7; 300; 3] /\
  build_form ys_compiled (repeat 9 15) (Some (repeat 1 9)) 2 1 = Ok (1%Z, Some [241; 237; 224; 0; 0; 1; 1; 1; 1]) /\
  build_form ys_compiled (repeat 9 15) (Some (repeat 1 9)) 6 1 = Ok (1%Z, Some [241; 237; 224; 45; 242; 238; 0; 0; 1]) /\
  build_form ys_compiled (repeat 9 15) (Some (repeat 1 9)) 7 0 = Ok (1%Z, Some [236; 251; 242; 252; 0; 0; 1; 1; 1]) /\
  check_word ys_compiled (repeat 7 48) (Some [241; 237; 224; 45; 242; 238]) 6 0 = Ok 1%Z /\
  get_wd_info ys_compiled (repeat 9 14) 300 = Ok (1%Z, Some 51) /\ get_wd_info ys_compiled (repeat 9 14) 301 = Ok (0%Z, None).
Proof.
  split; [exact ys_compile|]. split; [exact ys_sources|]. split; [exact ys_fit|]. split; [exact ys_buildable|]. split; [exact ys_recognisable|]. split; [exact ys_ids|].
  repeat match goal with |- _ /\ _ => split end; vm_compute; reflexivity.
Qed.

(** ** C67: by word.  FindForms delivers, for lexemes that have a form spelled so, their forms with the number asked for; none of these lexemes is missing
    provided the bounds cover the endings and no postfix starts above them (see C40). *)
Theorem C67_find_forms_partial : forall depth ftable mtable xs A,
  compile depth ftable mtable xs = Ok (Some A) -> sources_ok ftable mtable xs -> arrays_fit A -> forall w psz cch id dwsets junk mem,
  Forall (lexeme_buildable ftable mtable) xs ->
  given w psz cch -> is_bytes w -> w <> [] -> (length w < 48)%nat -> (length (parts rus_casing w) <= 8)%nat -> mem <> [] ->
  exists groups : list (list bytes),
    delivered mem (concat groups) (Forall small groups) (find_forms A junk (Some mem) psz cch id dwsets) /\
    (forall group, In group groups -> exists x, word_forms ftable mtable xs (bit 1 dwsets) w id x group) /\
    (Forall (bounds_cover ftable mtable) xs -> no_bare_word ftable mtable xs w ->
       forall x part g f, source_word ftable mtable xs (bit 1 dwsets) w x part g f -> exists group, In group groups /\ word_forms ftable mtable xs (bit 1 dwsets) w id x group).
Proof. exact rus_forms. Qed.
Print Assumptions C67_find_forms_partial.

(** Lemmatize: everything it stores, see C39, about readings that tell what the sources say. *)
Theorem C67_lemmatize_partial : forall depth ftable mtable xs A,
  compile depth ftable mtable xs = Ok (Some A) -> sources_ok ftable mtable xs -> arrays_fit A -> forall w dwsets,
  Forall (lexeme_buildable ftable mtable) xs ->
  is_bytes w -> w <> [] -> (length w < 48)%nat -> (length (parts rus_casing w) <= 8)%nat ->
  exists hs,
    (forall r, In r hs -> exists x, In x xs /\ tells ftable mtable xs (bit 1 dwsets) w r x) /\
    (Forall (bounds_cover ftable mtable) xs -> no_bare_word ftable mtable xs w ->
       forall x part g f, source_word ftable mtable xs (bit 1 dwsets) w x part g f ->
         exists r, In r hs /\ tells ftable mtable xs (bit 1 dwsets) w r x /\ rd_part r = part /\ In (g, f) (rd_descs r)) /\
    forall psz cch plemma pforms pgrams junk, given w psz cch ->
      safe_call dwsets (lexemes_of plemma hs) plemma pforms pgrams ->
      answer dwsets hs plemma pforms pgrams (lemmatize A junk psz cch plemma pforms pgrams dwsets).
Proof. exact rus_lemmatize. Qed.
Print Assumptions C67_lemmatize_partial.

(** ... and read off the arrays: when every lexeme has a dictionary form and the array of lexemes is longer than their number [n], a successful call stores
    [n] lexemes of the sources with the normal form and descriptions of forms spelled like the word; none is missing (as above). *)
Theorem C67_stored_partial : forall depth ftable mtable xs A,
  compile depth ftable mtable xs = Ok (Some A) -> sources_ok ftable mtable xs -> arrays_fit A -> forall w dwsets,
  Forall (lexeme_buildable ftable mtable) xs ->
  (forall x gf, In x xs -> exists part, dict_part ftable mtable (l_class x) dwsets gf part) ->
  is_bytes w -> w <> [] -> (length w < 48)%nat -> (length (parts rus_casing w) <= 8)%nat ->
  exists n : nat, forall psz cch lemmas forms grams junk z plemma' pforms' pgrams', given w psz cch -> (n < length lemmas)%nat ->
    lemmatize A junk psz cch (Some lemmas) (Some forms) (Some grams) dwsets = Ok (z, (plemma', pforms', pgrams')) -> (0 <= z)%Z ->
    exists lemmas' forms' grams', plemma' = Some lemmas' /\ pforms' = Some forms' /\ pgrams' = Some grams' /\ z = Z.of_nat n /\
      (forall i, (i < n)%nat -> exists cell x part ds o s before after before' after',
         nth_error lemmas' i = Some cell /\ lm_id cell = l_id x /\
         ds <> [] /\ (forall g f, In (g, f) ds -> source_word ftable mtable xs (bit 1 dwsets) w x part g f) /\
         lm_form cell = Some o /\ source_lemma ftable mtable x dwsets (hd (0, 0) ds) s /\ forms' = before ++ s ++ 0 :: after /\ length before = o /\
         grams' = before' ++ map (source_shown (l_class x)) ds ++ after' /\ N.of_nat (length before') = lm_grams cell /\ N.of_nat (length ds) = lm_ngrams cell) /\
      (Forall (bounds_cover ftable mtable) xs -> no_bare_word ftable mtable xs w ->
         forall x part g f, source_word ftable mtable xs (bit 1 dwsets) w x part g f ->
           exists i cell, (i < n)%nat /\ nth_error lemmas' i = Some cell /\ lm_id cell = l_id x).
Proof. exact rus_stored. Qed.
Print Assumptions C67_stored_partial.

(** сна is a form of сон; FindForms gives сны for number 10, Lemmatize сон *)
Example C67_case : compile 8 demo_ftable demo_mtable demo_ys = Ok (Some ys_compiled) /\ sources_ok demo_ftable demo_mtable demo_ys /\ arrays_fit ys_compiled /\
  Forall (lexeme_buildable demo_ftable demo_mtable) demo_ys /\ Forall (bounds_cover demo_ftable demo_mtable) demo_ys /\
  (forall x gf, In x demo_ys -> exists part, dict_part demo_ftable demo_mtable (l_class x) 0 gf part) /\
  find_forms ys_compiled (repeat 7 48) (Some (repeat 1 6)) (Some [241; 237; 224]) 3 10 0 = Ok (1%Z, Some [241; 237; 251; 0; 0; 1]) /\
  exists lemmas' grams',
    lemmatize ys_compiled (repeat 7 48) (Some [241; 237; 224]) 3 (Some (repeat (Lemm 0 None 0 0) 3)) (Some (repeat 1 6)) (Some (repeat (Gram 0 0 0 0) 3)) 0
      = Ok (1%Z, (Some lemmas', Some [241; 238; 237; 0; 0; 1], Some grams')) /\
    map lm_id lemmas' = [2; 0; 0] /\ map lm_ngrams lemmas' = [1; 0; 0] /\ firstn 1 grams' = [source_shown (Morphclass 7 1 1) (0x1000, 3)].
Proof.
  split; [exact ys_compile|]. split; [exact ys_sources|]. split; [apply ys_fit|]. split; [exact ys_buildable|]. split; [exact ys_covered|]. split; [exact ys_dict|].
  split; [vm_compute; reflexivity|]. eexists _, _. split; [vm_compute; reflexivity|]. repeat split.
Qed.

(** ** C68: by pattern.  [tl] lies behind the tree of stems in memory.  Missing to the full property: see C26, C27. *)
Theorem C68_find_match_partial : forall depth ftable mtable xs A,
  compile depth ftable mtable xs = Ok (Some A) -> sources_ok ftable mtable xs -> arrays_fit A -> forall tl w psz cch,
  Forall (lexeme_searchable ftable mtable) xs -> tl <> [] \/ (exists x, In x xs /\ l_stem x = []) ->
  given w psz cch -> is_bytes w -> w <> [] -> (length w < 48)%nat -> (length (parts rus_casing w) <= 16)%nat ->
  exists evs : list (N * bytes * N),
    (forall U (add : U -> N -> list (bytes * N) -> U * Z) junk buf u, length junk = 48%nat -> length buf = 48%nat ->
       (Forall call_fits (runs evs) -> find_match add (followed_by A tl) junk buf psz cch u = Ok (deliver add (runs evs) u)) /\
       (~ Forall call_fits (runs evs) -> find_match add (followed_by A tl) junk buf psz cch u = Ub)) /\
    (forall lid str id, In (lid, str, id) evs -> exists x part g f, In x xs /\ l_id x = lid /\ form_of ftable mtable x str part g f /\
       id = source_form_id (l_class x) g f /\ glob (map (locase rus_casing) w) str) /\
    (Forall (bounds_cover ftable mtable) xs -> forall x str part g f, In x xs -> form_of ftable mtable x str part g f -> glob (map (locase rus_casing) w) str -> ~ In 42 str ->
       part <> [] \/ match l_post x with [] => True | b :: _ => l_min x <= b <= l_max x end -> In (l_id x, str, source_form_id (l_class x) g f) evs).
Proof. exact rus_search. Qed.
Print Assumptions C68_find_match_partial.

(** с*а *)
Example C68_case : compile 8 demo_ftable demo_mtable demo_ys = Ok (Some ys_compiled) /\ sources_ok demo_ftable demo_mtable demo_ys /\ arrays_fit ys_compiled /\
  Forall (lexeme_searchable demo_ftable demo_mtable) demo_ys /\ Forall (bounds_cover demo_ftable demo_mtable) demo_ys /\
  searched (followed_by ys_compiled [0]) [241; 42; 224] = Ok ([(2, [([241; 237; 224], 1)])], 0%Z).
Proof. split; [exact ys_compile|]. split; [exact ys_sources|]. split; [apply ys_fit|]. split; [exact ys_searchable|]. split; [exact ys_covered|]. vm_compute. reflexivity. Qed.
