(** * Properties C51-C53: the compiler of the English dictionary.  STATEMENTS ONLY.
    The vocabulary is in EngCompileSpec.v: [lists lines xs] says that the lines of the source files contain the articles [xs],
    [aword] that a spelling is a form of an article.  [given] is in RusSpec.v, [delivered] in RusBuildSpec.v, [ecasable] in EngFormsSpec.v. *)
From Coq Require Import String Permutation.
From Verif Require Import Base Serial WordTree TreeSpec FlatScan Stems StemSpec CharTables CapScheme CapSpec GramMap RusRuntime RusSpec
  RusBuild RusBuildSpec EngRuntime EngSpec EngFormsSpec Api EngCompile EngCompileSpec EngCompileProofs6 PropEngCompileLemmas.
Local Open Scope N_scope.
Local Open Scope list_scope.

(** ** C51: a dictionary compiled from the source files recognises exactly the words of its articles *)

(** well-formed sources compile *)
Theorem C51_compiles : forall lines xs, lists lines xs -> exists A, ecompile lines = Ok (Some A).
Proof. exact ecompile_total. Qed.
Print Assumptions C51_compiles.

Theorem C51_check_word_exact_partial : forall lines xs A w psz cch dwsets junk,
  lists lines xs -> Forall few_homonyms xs -> N.of_nat (length xs) < 2 ^ 32 -> ecompile lines = Ok (Some A) -> earrays_fit A -> Forall small_post xs ->
  given w psz cch -> is_bytes w -> w <> [] -> (length w < 48)%nat -> (length (parts eng_casing w) <= 8)%nat ->
  (forall x id, aword xs (bit 1 dwsets) w x [] id -> post_reached x) ->
  echeck_word A junk psz cch dwsets = Ok 1%Z /\ (exists x part id, aword xs (bit 1 dwsets) w x part id) \/
  echeck_word A junk psz cch dwsets = Ok 0%Z /\ ~ (exists x part id, aword xs (bit 1 dwsets) w x part id).
Proof. exact english_check. Qed.
Print Assumptions C51_check_word_exact_partial.

Theorem C51_check_word_sound : forall lines xs A w psz cch dwsets junk,
  lists lines xs -> Forall few_homonyms xs -> N.of_nat (length xs) < 2 ^ 32 -> ecompile lines = Ok (Some A) -> earrays_fit A -> Forall small_post xs ->
  given w psz cch -> is_bytes w -> w <> [] -> (length w < 48)%nat -> (length (parts eng_casing w) <= 8)%nat ->
  exists r, echeck_word A junk psz cch dwsets = Ok r /\ (r = 0%Z \/ r = 1%Z) /\ (r = 1%Z -> exists x part id, aword xs (bit 1 dwsets) w x part id).
Proof. exact english_check_sound. Qed.
Print Assumptions C51_check_word_sound.

(** the order of the articles and comments between them do not matter *)
Theorem C51_order_free : forall lines lines' xs xs' A A' w psz cch dwsets junk junk',
  lists lines xs -> lists lines' xs' -> (forall x, In x xs <-> In x xs') ->
  Forall few_homonyms xs -> N.of_nat (length xs) < 2 ^ 32 -> N.of_nat (length xs') < 2 ^ 32 -> ecompile lines = Ok (Some A) -> ecompile lines' = Ok (Some A') ->
  earrays_fit A -> earrays_fit A' -> Forall small_post xs ->
  given w psz cch -> is_bytes w -> w <> [] -> (length w < 48)%nat -> (length (parts eng_casing w) <= 8)%nat ->
  (forall x id, aword xs (bit 1 dwsets) w x [] id -> post_reached x) ->
  echeck_word A junk psz cch dwsets = echeck_word A' junk' psz cch dwsets.
Proof. exact english_order. Qed.
Print Assumptions C51_order_free.

(** [small_post]: capitals in the postfix are not folded (Attorneys-at-Law from Attorney-At-Law|0|s) *)
Theorem C51_capital_postfix_refuted : exists lines xs A w x id,
  lists lines xs /\ Forall few_homonyms xs /\ ecompile lines = Ok (Some A) /\ earrays_fit A /\ is_bytes w /\ (length w < 48)%nat /\
  aword xs true w x (text "s") id /\ aword xs false w x (text "s") id /\
  echeck_word A (repeat 7 48) (Some w) (N.of_nat (length w)) 0 = Ok 0%Z /\ echeck_word A (repeat 7 48) (Some w) (N.of_nat (length w)) 2 = Ok 0%Z.
Proof. exact capital_postfix. Qed.
Print Assumptions C51_capital_postfix_refuted.

(** [post_reached]: with mother|0|'s and mother-in-law|0|'s, mother's-in-law is recognised but mother-in-law is not *)
Theorem C51_bare_postfix_refuted : exists lines xs A w x id,
  lists lines xs /\ Forall few_homonyms xs /\ Forall small_post xs /\ ecompile lines = Ok (Some A) /\ earrays_fit A /\ is_bytes w /\ (length w < 48)%nat /\
  aword xs true w x [] id /\
  echeck_word A (repeat 7 48) (Some w) (N.of_nat (length w)) 2 = Ok 0%Z /\
  echeck_word A (repeat 7 48) (Some (text "mother's-in-law")) 15 2 = Ok 1%Z.
Proof. exact bare_postfix. Qed.
Print Assumptions C51_bare_postfix_refuted.

(** [few_homonyms]: 65 equal endings overflow the array of readings *)
Theorem C51_many_endings_refuted : exists lines xs A w x id,
  lists lines xs /\ Forall small_post xs /\ ecompile lines = Ok (Some A) /\ earrays_fit A /\ is_bytes w /\ (length w < 48)%nat /\
  aword xs true w x [] id /\ echeck_word A (repeat 7 48) (Some w) (N.of_nat (length w)) 0 = Ub.
Proof. exact many_endings. Qed.
Print Assumptions C51_many_endings_refuted.

(** the articles Abel, little, brother-in-law, be, aaronical and UK, with comments and empty lines between them *)
Example C51_case : lists elines edict /\ Forall few_homonyms edict /\ Forall small_post edict /\
  ecompile elines = Ok (Some (arrays_of elines)) /\ earrays_fit (arrays_of elines) /\
  map (fun w => echeck_word (arrays_of elines) (repeat 7 48) (Some (text w)) (N.of_nat (String.length w)) 0)
    ["Abel's"; "abel"; "lesser"; "LEAST"; "brothers-in-law"; "brother-in-law"; "Are"; "aaronical"; "UK's"; "UK"; "uk"; "brothers"; "l"]%string
    = [Ok 1%Z; Ok 0%Z; Ok 1%Z; Ok 1%Z; Ok 1%Z; Ok 1%Z; Ok 1%Z; Ok 1%Z; Ok 0%Z; Ok 1%Z; Ok 0%Z; Ok 0%Z; Ok 0%Z].
Proof.
  destruct (compiles_ok _ edict_compiles) as (C1 & C2 & _). split; [apply edict_lists|]. split; [apply edict_few|]. split; [apply edict_small|].
  split; [exact C1|]. split; [exact C2|]. vm_compute. reflexivity.
Qed.

(** ** C52: forms and parts of speech by lexeme id are those of the article *)
Theorem C52_build_form : forall lines xs A x id junk mem,
  lists lines xs -> Forall few_homonyms xs -> N.of_nat (length xs) < 2 ^ 32 -> ecompile lines = Ok (Some A) -> earrays_fit A ->
  N.of_nat (length (e_lids A)) < 2 ^ 32 -> Forall abuildable xs ->
  In x xs -> (forall y, In y xs -> a_id y = a_id x -> y = x) -> mem <> [] -> (length (lexkeylen (a_id x) ++ junk) = 16)%nat ->
  exists l, Permutation l (map to_small (asked x id)) /\ ascending l /\
    let fs := map (aspell x) l in delivered mem fs (small fs) (ebuild_form A junk (Some mem) (a_id x) id).
Proof. exact english_build. Qed.
Print Assumptions C52_build_form.

Theorem C52_word_class : forall lines xs A x junk,
  lists lines xs -> Forall few_homonyms xs -> N.of_nat (length xs) < 2 ^ 32 -> ecompile lines = Ok (Some A) -> earrays_fit A ->
  N.of_nat (length (e_lids A)) < 2 ^ 32 -> Forall abuildable xs ->
  In x xs -> (forall y, In y xs -> a_id y = a_id x -> a_part y = a_part x) -> (length (lexkeylen (a_id x) ++ junk) = 16)%nat ->
  eget_wd_info A junk (a_id x) = Ok (1%Z, Some (a_part x)).
Proof. exact english_class. Qed.
Print Assumptions C52_word_class.

Theorem C52_unknown : forall lines xs A id idform junk mem,
  lists lines xs -> Forall few_homonyms xs -> N.of_nat (length xs) < 2 ^ 32 -> ecompile lines = Ok (Some A) -> earrays_fit A ->
  N.of_nat (length (e_lids A)) < 2 ^ 32 -> Forall abuildable xs ->
  id < 2 ^ 32 -> (forall y, In y xs -> a_id y <> id) -> mem <> [] -> (length (lexkeylen id ++ junk) = 16)%nat ->
  eget_wd_info A junk id = Ok (0%Z, None) /\ ebuild_form A junk (Some mem) id idform = Ok (0%Z, Some mem).
Proof. exact english_absent. Qed.
Print Assumptions C52_unknown.

(** what is built is recognised *)
Theorem C52_built_recognised_partial : forall lines xs A x id n mem mem' junk,
  lists lines xs -> Forall few_homonyms xs -> N.of_nat (length xs) < 2 ^ 32 -> ecompile lines = Ok (Some A) -> earrays_fit A ->
  N.of_nat (length (e_lids A)) < 2 ^ 32 -> Forall abuildable xs -> Forall aordinary xs ->
  In x xs -> (forall y, In y xs -> a_id y = a_id x -> y = x) -> mem <> [] -> (length (lexkeylen (a_id x) ++ junk) = 16)%nat ->
  ebuild_form A junk (Some mem) (a_id x) id = Ok (n, Some mem') -> (0 < n)%Z ->
  exists fs, n = Z.of_nat (length fs) /\ mem' = filled fs mem /\
    forall form, In form fs -> form <> [] -> (length form < 48)%nat -> forall psz cch dwsets junk', given form psz cch ->
      bit 1 dwsets = true /\ (length (parts eng_casing form) <= 8)%nat \/ ecasable (acase x) (map (locase eng_casing) form) ->
      echeck_word A junk' psz cch dwsets = Ok 1%Z.
Proof. exact english_recognised. Qed.
Print Assumptions C52_built_recognised_partial.

Example C52_case : lists elines edict /\ Forall few_homonyms edict /\ ecompile elines = Ok (Some (arrays_of elines)) /\ earrays_fit (arrays_of elines) /\
  N.of_nat (length (e_lids (arrays_of elines))) < 2 ^ 32 /\ Forall abuildable edict /\ Forall aordinary edict /\
  (forall x y, In x edict -> In y edict -> a_id y = a_id x -> y = x) /\
  ebuild_form (arrays_of elines) (repeat 9 14) (Some (repeat 1 13)) 15011 1 = Ok (2%Z, Some (text "less" ++ [0] ++ text "lesser" ++ [0; 0])) /\
  ebuild_form (arrays_of elines) (repeat 9 13) (Some (repeat 1 8)) 131072 1 = Ok (1%Z, Some (text "Abel's" ++ [0; 0])) /\
  ebuild_form (arrays_of elines) (repeat 9 15) (Some (repeat 1 11)) 128 255 = Ok (1%Z, Some (text "aaronical" ++ [0; 0])) /\
  eget_wd_info (arrays_of elines) (repeat 9 13) 141312 = Ok (1%Z, Some 19).
Proof.
  destruct (compiles_ok _ edict_compiles) as (C1 & C2 & C3). split; [apply edict_lists|]. split; [apply edict_few|]. split; [exact C1|]. split; [exact C2|]. split; [exact C3|].
  split; [apply edict_buildable|]. split; [apply edict_ordinary|]. split; [apply edict_unique|]. repeat split; vm_compute; reflexivity.
Qed.

(** ** C53: lines that are not articles are refused or ignored *)

(** short lines without long words and postfix clauses are compiled or refused, whatever they contain *)
Theorem C53_no_crash_partial : forall lines, Forall tame_line lines -> ecompile lines <> Ub.
Proof. exact english_no_ub. Qed.
Print Assumptions C53_no_crash_partial.

(** a postfix that does not end the word is accepted: catalog with post:xyz gives cataxyz and catasxyz *)
Theorem C53_wrong_postfix_refuted : exists A, ecompile [wrong_post] = Ok (Some A) /\
  echeck_word A (repeat 7 48) (Some (text "catalog")) 7 2 = Ok 0%Z /\ echeck_word A (repeat 7 48) (Some (text "catasxyz")) 8 2 = Ok 1%Z.
Proof. exact wrong_postfix. Qed.
Print Assumptions C53_wrong_postfix_refuted.

(** a postfix longer than the word, a part of speech of 64 characters and a line of 256 overrun arrays *)
Theorem C53_overrun_refuted : ecompile [text "at|0" ++ [9] ++ text "N post:-it-all" ++ [9] ++ text "LID:5"] = Ub /\
  ecompile [text "at" ++ [9] ++ repeat 78 64 ++ [9] ++ text "LID:5"] = Ub /\
  ecompile [text "at" ++ [9] ++ text "N" ++ repeat 9 250 ++ text "LID:5"] = Ub.
Proof. exact bad_lines. Qed.
Print Assumptions C53_overrun_refuted.

Example C53_case : tame_line (text "at|0|s LID:5") /\ ecompile [text "at" ++ [9] ++ text "NOUN" ++ [9] ++ text "LID:5"] = Ok None /\
  ecompile [text "at LID:5"] = Ok None /\ ecompile [text "at|0|s LID:5"] = Ok None.
Proof. split; [apply tame_example|exact refused_lines]. Qed.
