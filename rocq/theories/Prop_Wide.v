(** * Properties C62 - C65: the wide-character interface of the Russian and English analysers.  STATEMENTS ONLY.
    CheckWord (C62), BuildForm and FindForms (C63), Lemmatize (C64), FindMatch (C65).  [W] is a pair of converters between wide characters
    and windows-1251 ([wide_ok], WideSpec.v); [w] are the wide characters of the caller, [narrowed W w] is the text they mean.
    [szword], [szform], [lmbuff], [szlemm] are previous contents of local arrays. *)
From Verif Require Import Base Serial WordTree TreeSpec FlatScan Stems StemSpec CharTables CapScheme CapSpec GramMap RusRuntime RusSpec
  RusBuild RusBuildSpec RusReadings RusLemmaSpec RusDemo RusDemo2 PropBuildLemmas2 PropLemmasLemmas Wild WildSpec PropWildLemmas
  EngRuntime EngSpec EngFormsSpec EngLemmaSpec EngDemo EngWild EngWildSpec EngWildProofs2 PropEngWildLemmas
  Codepage Utf8 WideApi WideSpec WideProofs3 WideProofs4 WideProofs5 PropWideLemmas.
Local Open Scope N_scope.

(** ** C62.  CheckWord answers for the text: as the windows-1251 interface. *)
Theorem C62_same_answer : forall W, wide_ok W -> forall A junk szword p cch dwsets w psz' cch', given w (Some p) cch -> given (narrowed W w) psz' cch' ->
  (length (parts rus_casing (narrowed W w)) <= 16)%nat ->
  wc_check_word W A junk szword p cch dwsets = check_word A junk psz' cch' dwsets.
Proof. exact wc_check_same. Qed.
Print Assumptions C62_same_answer.

Theorem C62_eng_same_answer : forall W, wide_ok W -> forall A junk szword p cch dwsets w psz' cch', given w (Some p) cch -> given (narrowed W w) psz' cch' ->
  (length (parts eng_casing (narrowed W w)) <= 16)%nat ->
  wc_echeck_word W A junk szword p cch dwsets = echeck_word A junk psz' cch' dwsets.
Proof. exact wc_echeck_same. Qed.
Print Assumptions C62_eng_same_answer.

(** so exactly the dictionary words, under the conditions of C19 and C46 *)
Theorem C62_check_word_exact_partial : forall W A L w p cch dwsets junk szword, wide_ok W ->
  holds A L -> bounds_ok L -> given w (Some p) cch -> let t := narrowed W w in w <> [] -> (length w < 48)%nat -> (length (parts rus_casing t) <= 8)%nat ->
  (forall key e part g f, word_of L (bit 1 dwsets) t key e part g f -> reachable e part) ->
  wc_check_word W A junk szword p cch dwsets = Ok 1%Z /\ (exists key e part g f, word_of L (bit 1 dwsets) t key e part g f) \/
  wc_check_word W A junk szword p cch dwsets = Ok 0%Z /\ ~ (exists key e part g f, word_of L (bit 1 dwsets) t key e part g f).
Proof. exact wc_check_exact. Qed.
Print Assumptions C62_check_word_exact_partial.

Theorem C62_eng_check_word_exact_partial : forall W A L w p cch dwsets junk szword, wide_ok W ->
  eholds A L -> ebounds_ok L -> given w (Some p) cch -> let t := narrowed W w in w <> [] -> (length w < 48)%nat -> (length (parts eng_casing t) <= 8)%nat ->
  (forall key e part id, eword_of L (bit 1 dwsets) t key e part id -> reachable e part) ->
  wc_echeck_word W A junk szword p cch dwsets = Ok 1%Z /\ (exists key e part id, eword_of L (bit 1 dwsets) t key e part id) \/
  wc_echeck_word W A junk szword p cch dwsets = Ok 0%Z /\ ~ (exists key e part id, eword_of L (bit 1 dwsets) t key e part id).
Proof. exact wc_echeck_exact. Qed.
Print Assumptions C62_eng_check_word_exact_partial.

(** no word, and texts that do not fit *)
Theorem C62_degenerate : forall W A junk szword p cch dwsets, wide_ok W ->
  (given [] (Some p) cch -> wc_check_word W A junk szword p cch dwsets = Ok 0%Z /\ forall A', wc_echeck_word W A' junk szword p cch dwsets = Ok 0%Z) /\
  (forall w, given w (Some p) cch -> (48 < length w)%nat ->
     wc_check_word W A junk szword p cch dwsets = Ok (-4)%Z /\ forall A', wc_echeck_word W A' junk szword p cch dwsets = Ok (-4)%Z).
Proof. exact wc_check_degenerate. Qed.
Print Assumptions C62_degenerate.

(** "домы-то", "Сна" (terminated), "сона"; "Cats" *)
Example C62_case : wide_ok (utf16 1) /\ wide_ok (utf16 0) /\ narrowed (utf16 1) [1076; 1086; 1084; 1099; 45; 1090; 1086] = [228; 238; 236; 251; 45; 242; 238] /\
  wc_check_word (utf16 1) demo_arrays (repeat 7 48) (repeat 5 48) [1076; 1086; 1084; 1099; 45; 1090; 1086] 7 0 = Ok 1%Z /\
  wc_check_word (utf16 0) demo_arrays (repeat 7 48) (repeat 5 48) [1057; 1085; 1072; 0; 1072] (2 ^ 64 - 1) 0 = Ok 1%Z /\
  wc_check_word (utf16 1) demo_arrays (repeat 7 48) (repeat 5 48) [1089; 1086; 1085; 1072] 4 0 = Ok 0%Z /\
  wc_echeck_word (utf16 1) edemo_arrays (repeat 7 48) (repeat 5 48) [67; 97; 116; 115] 4 0 = Ok 1%Z.
Proof. split; [apply utf16_ok; lia|]. split; [apply utf16_ok; lia|]. repeat split; vm_compute; reflexivity. Qed.

(** ** C63.  BuildForm: the forms of a record with that lexeme id. *)
Theorem C63_build_form_exact : forall W A L, wide_ok W -> holds A L -> buildable L -> indexed A L -> forall junk szform mem id idform,
  length szform = 98%nat -> id < 2 ^ 32 -> (length (lexkeylen id ++ junk) = 16)%nat ->
  (exists key e, has_record (words L) key e /\ nlexid e = id) ->
  exists key e st c, has_record (words L) key e /\ nlexid e = id /\ class_of L (oclass e) = Some (st, c) /\
    let fs := requested c key (stpost e) idform in delivered_wide W mem fs (small fs) (wc_build_form W A junk szform (Some mem) id idform).
Proof. exact wc_build_some. Qed.
Print Assumptions C63_build_form_exact.

Theorem C63_build_unknown : forall W A L, holds A L -> buildable L -> indexed A L -> forall junk szform mem id idform,
  length szform = 98%nat -> (2 <= length mem)%nat -> id < 2 ^ 32 -> (length (lexkeylen id ++ junk) = 16)%nat ->
  (forall key e, has_record (words L) key e -> nlexid e <> id) -> wc_build_form W A junk szform (Some mem) id idform = Ok (0%Z, Some mem).
Proof. exact wc_build_unknown. Qed.
Print Assumptions C63_build_unknown.

Theorem C63_eng_build_form_exact : forall W A L, wide_ok W -> eholds A L -> ebuildable L -> eindexed A L -> forall junk szform mem id idform,
  length szform = 98%nat -> id < 2 ^ 32 -> (length (lexkeylen id ++ junk) = 16)%nat ->
  (exists key e, has_record (ewords L) key e /\ nlexid e = id) ->
  exists key e st c, has_record (ewords L) key e /\ nlexid e = id /\ eclass_of L (oclass e) = Some (st, c) /\
    let fs := erequested c key (stpost e) idform in delivered_wide W mem fs (small fs) (wc_ebuild_form W A junk szform (Some mem) id idform).
Proof. exact wc_ebuild_some. Qed.
Print Assumptions C63_eng_build_form_exact.

Theorem C63_eng_build_unknown : forall W A L, eholds A L -> ebuildable L -> eindexed A L -> forall junk szform mem id idform,
  length szform = 98%nat -> (2 <= length mem)%nat -> id < 2 ^ 32 -> (length (lexkeylen id ++ junk) = 16)%nat ->
  (forall key e, has_record (ewords L) key e -> nlexid e <> id) -> wc_ebuild_form W A junk szform (Some mem) id idform = Ok (0%Z, Some mem).
Proof. exact wc_ebuild_unknown. Qed.
Print Assumptions C63_eng_build_unknown.

(** FindForms: the forms of every reading of the word, when the word reaches the search ([convertible]) *)
Theorem C63_find_forms_partial : forall W A L, wide_ok W -> holds A L -> buildable L -> forall w dwsets, let t := narrowed W w in
  w <> [] -> (length w < 48)%nat -> (length (parts rus_casing t) <= 8)%nat ->
  exists hs, found L (bit 1 dwsets) t hs /\
    forall p cch mem idform junk szword szform, given w (Some p) cch -> convertible W w cch -> mem <> [] -> length szform = 98%nat ->
      delivered_wide W mem (flat_map (reading_forms idform) hs) (Forall (fun r => small (reading_forms idform r)) hs)
        (wc_find_forms W A junk szword szform (Some mem) (Some p) cch idform dwsets).
Proof. exact wc_find_found. Qed.
Print Assumptions C63_find_forms_partial.

Theorem C63_eng_find_forms_partial : forall W A L, wide_ok W -> eholds A L -> ebuildable L -> forall w dwsets, let t := narrowed W w in
  w <> [] -> (length w < 48)%nat -> (length (parts eng_casing t) <= 8)%nat ->
  exists hs, efound L (bit 1 dwsets) t hs /\
    forall p cch mem idform junk szword szform, given w (Some p) cch -> convertible W w cch -> mem <> [] -> length szform = 98%nat ->
      delivered_wide W mem (flat_map (ereading_forms idform) hs) (Forall (fun r => small (ereading_forms idform r)) hs)
        (wc_efind_forms W A junk szword szform (Some mem) (Some p) cch idform dwsets).
Proof. exact wc_efind_found. Qed.
Print Assumptions C63_eng_find_forms_partial.

(** what is refused without searching *)
Theorem C63_find_refused : forall W A A' junk szword szform idform dwsets,
  (forall pws cch, wc_find_forms W A junk szword szform None pws cch idform dwsets = Ok ((-5)%Z, None)) /\
  (forall mem pws, wc_find_forms W A junk szword szform (Some mem) pws 0 idform dwsets = Ok ((-5)%Z, Some mem)) /\
  (forall mem cch, wc_find_forms W A junk szword szform (Some mem) None cch idform dwsets = Ok ((-5)%Z, Some mem)) /\
  (forall mem w p cch, given w (Some p) cch -> w <> [] -> mem <> [] -> ~ convertible W w cch ->
     wc_find_forms W A junk szword szform (Some mem) (Some p) cch idform dwsets = Ok ((-4)%Z, Some mem) /\
     wc_efind_forms W A' junk szword szform (Some mem) (Some p) cch idform dwsets = Ok ((-4)%Z, Some mem)).
Proof. exact wc_find_refused. Qed.
Print Assumptions C63_find_refused.

(** if the converter wants room for a terminator, every word given with its length is refused: the room offered is that very length *)
Theorem C63_counted_refused_refuted : forall W A A' junk szword szform idform dwsets mem w after, wslack W = 1%nat ->
  w <> [] -> (length w < 1000)%nat -> mem <> [] ->
  wc_find_forms W A junk szword szform (Some mem) (Some (w ++ after)) (N.of_nat (length w)) idform dwsets = Ok ((-4)%Z, Some mem) /\
  wc_efind_forms W A' junk szword szform (Some mem) (Some (w ++ after)) (N.of_nat (length w)) idform dwsets = Ok ((-4)%Z, Some mem).
Proof. exact wc_find_counted. Qed.
Print Assumptions C63_counted_refused_refuted.

(** what BuildForm returns, CheckWord recognises, under the conditions of C25 *)
Theorem C63_built_recognised_partial : forall W A L, wide_ok W -> holds A L -> buildable L -> indexed A L -> recognisable L ->
  forall junk szform mem id idform n mem', length szform = 98%nat -> id < 2 ^ 32 -> (length (lexkeylen id ++ junk) = 16)%nat ->
  wc_build_form W A junk szform (Some mem) id idform = Ok (n, Some mem') -> (0 < n)%Z ->
  exists key e st c fs, has_record (words L) key e /\ nlexid e = id /\ class_of L (oclass e) = Some (st, c) /\
    n = Z.of_nat (length fs) /\ mem' = widened W (joined fs) ++ skipn (total fs) mem /\
    forall form, In form fs -> form <> [] -> (length form < 48)%nat -> forall p cch dwsets junk' szword, given (widened W form) (Some p) cch ->
      bit 1 dwsets = true /\ (length (parts rus_casing form) <= 8)%nat \/ casable (min_case c) (map (locase rus_casing) form) ->
      wc_check_word W A junk' szword p cch dwsets = Ok 1%Z.
Proof. exact wc_built_recognised. Qed.
Print Assumptions C63_built_recognised_partial.

(** Ивана, сна: two characters more than "сна" and its terminator are wanted, but not written; "cats" *)
Example C63_case : holds demo2_arrays demo2_lexicon /\ buildable demo2_lexicon /\ indexed demo2_arrays demo2_lexicon /\ recognisable demo2_lexicon /\
  wc_build_form (utf16 1) demo2_arrays (repeat 9 13) (repeat 5 98) (Some (repeat 1 9)) 65540 1 =
    Ok (1%Z, Some [1048; 1074; 1072; 1085; 1072; 0; 1; 1; 1]) /\
  wc_find_forms (utf16 0) demo2_arrays (repeat 7 48) (repeat 6 98) (repeat 5 98) (Some (repeat 1 6)) (Some [1089; 1085; 1072]) 3 1 0 =
    Ok (1%Z, Some [1089; 1085; 1072; 0; 1; 1]) /\
  wc_find_forms (utf16 0) demo2_arrays (repeat 7 48) (repeat 6 98) (repeat 5 98) (Some (repeat 1 5)) (Some [1089; 1085; 1072]) 3 1 0 =
    Ok ((-1)%Z, Some (repeat 1 5)) /\
  wc_find_forms (utf16 1) demo2_arrays (repeat 7 48) (repeat 6 98) (repeat 5 98) (Some (repeat 1 6)) (Some [1089; 1085; 1072; 0]) (2 ^ 64 - 1) 1 0 =
    Ok (1%Z, Some [1089; 1085; 1072; 0; 1; 1]) /\
  wc_build_form (utf16 1) demo2_arrays (repeat 9 13) (repeat 5 98) (Some [1]) 65540 1 = Ok ((-5)%Z, Some [1]) /\
  wc_ebuild_form (utf16 1) edemo_arrays (repeat 9 15) (repeat 5 98) (Some (repeat 1 7)) 1 1 = Ok (1%Z, Some [99; 97; 116; 115; 0; 1; 1]).
Proof.
  split; [apply demo2_holds|]. split; [apply demo2_buildable|]. split; [apply demo2_indexed|]. split; [apply demo2_recognisable|].
  repeat split; vm_compute; reflexivity.
Qed.

(** ** C64.  Lemmatize: the lexemes of the word, under the conditions of C39 and C50, at most 32 and at most 240 characters of them. *)
Theorem C64_lemmatize_partial : forall W A L, wide_ok W -> holds A L -> buildable L -> forall w dwsets, let t := narrowed W w in
  w <> [] -> (length w < 48)%nat -> (length (parts rus_casing t) <= 8)%nat ->
  exists hs, found L (bit 1 dwsets) t hs /\
    forall p cch output plemma pgrams junk lmbuff szlemm szword, given w (Some p) cch -> length lmbuff = 32%nat -> length szlemm = 240%nat ->
      wide_safe dwsets (lexemes_of output hs) output plemma pgrams ->
      wide_answer W dwsets hs output plemma pgrams (wc_lemmatize W A junk lmbuff szlemm szword p cch output plemma pgrams dwsets).
Proof. exact wc_lemmatize_answer. Qed.
Print Assumptions C64_lemmatize_partial.

Theorem C64_eng_lemmatize_partial : forall W A L, wide_ok W -> eholds A L -> ebuildable L -> forall w dwsets, let t := narrowed W w in
  w <> [] -> (length w < 48)%nat -> (length (parts eng_casing t) <= 8)%nat ->
  exists hs, efound L (bit 1 dwsets) t hs /\
    forall p cch output plemma pgrams junk lmbuff szlemm szword, given w (Some p) cch -> length lmbuff = 32%nat -> length szlemm = 240%nat ->
      ewide_safe (elexemes_of output hs) output plemma pgrams ->
      ewide_answer W hs output plemma pgrams (wc_elemmatize W A junk lmbuff szlemm szword p cch output plemma pgrams dwsets).
Proof. exact wc_elemmatize_answer. Qed.
Print Assumptions C64_eng_lemmatize_partial.

Theorem C64_degenerate : forall W A junk lmbuff szlemm szword p cch output plemma pgrams dwsets,
  length lmbuff = 32%nat -> length szlemm = 240%nat -> wide_ok W ->
  (given [] (Some p) cch -> wc_lemmatize W A junk lmbuff szlemm szword p cch output plemma pgrams dwsets = Ok (0%Z, (output, plemma, pgrams))) /\
  (forall w, given w (Some p) cch -> (48 <= length w)%nat -> (length (parts rus_casing (narrowed W w)) <= 16)%nat \/ (240 < length w)%nat ->
     wc_lemmatize W A junk lmbuff szlemm szword p cch output plemma pgrams dwsets = Ok ((-4)%Z, (output, plemma, pgrams))).
Proof. exact wc_lemm_degenerate. Qed.
Print Assumptions C64_degenerate.

Theorem C64_eng_degenerate : forall W A junk lmbuff szlemm szword p cch output plemma pgrams dwsets,
  length lmbuff = 32%nat -> length szlemm = 240%nat -> wide_ok W ->
  (given [] (Some p) cch -> wc_elemmatize W A junk lmbuff szlemm szword p cch output plemma pgrams dwsets = Ok (0%Z, (output, plemma, pgrams))) /\
  (forall w, given w (Some p) cch -> (48 <= length w)%nat -> (length (parts eng_casing (narrowed W w)) <= 16)%nat \/ (240 < length w)%nat ->
     wc_elemmatize W A junk lmbuff szlemm szword p cch output plemma pgrams dwsets = Ok ((-4)%Z, (output, plemma, pgrams))).
Proof. exact wc_elemm_degenerate. Qed.
Print Assumptions C64_eng_degenerate.

(** "сна", two lexemes, both "сон" *)
Example C64_case : exists lemms grams,
  wc_lemmatize (utf16 1) demo4_arrays (repeat 7 48) (repeat (Lemm 9 None 9 9) 32) (repeat 6 240) (repeat 5 240) [1089; 1085; 1072] 3
    (Some (repeat (Lemm 0 None 0 0) 4)) (Some (repeat 1 12)) (Some (repeat (Gram 0 0 0 0) 8)) 0 =
  Ok (2%Z, (Some lemms, Some [1089; 1086; 1085; 0; 1089; 1086; 1085; 0; 1; 1; 1; 1], Some grams)) /\
  map lm_form lemms = [Some 0%nat; Some 4%nat; None; None].
Proof. eexists _, _. split; vm_compute; reflexivity. Qed.
Example C64_safe_case : forall hs, hs = readings demo4_lexicon [241; 237; 224] -> length hs = 2%nat /\
  wide_safe 0 (grouped hs) (Some (repeat (Lemm 0 None 0 0) 4)) (Some (repeat 1 12)) (Some (repeat (Gram 0 0 0 0) 8)).
Proof.
  intros hs ->. split; [vm_compute; reflexivity|]. split.
  - intros _. let t := eval vm_compute in (map (fun g => rd_dict_forms 0 (lx_first g)) (grouped (readings demo4_lexicon [241; 237; 224]))) in
      assert (E : map (fun g => rd_dict_forms 0 (lx_first g)) (grouped (readings demo4_lexicon [241; 237; 224])) = t) by (vm_compute; reflexivity).
    apply (proj1 (Forall_map (fun g => rd_dict_forms 0 (lx_first g)) (fun fs => fs <> []) _)). rewrite E. repeat constructor; discriminate.
  - intros mem g [= <-] _ _ Hn. vm_compute in Hn. discriminate.
Qed.

(** ** C65.  FindMatch: the matches of the pattern, their strings made wide; defined exactly when the narrow search is.  Under the
    conditions of C26 and C54. *)
Theorem C65_find_match_partial : forall W A L w rest, wide_ok W -> holds A L -> fixed_plain L -> strings_within 47 L ->
  stemtree A = stemtree_bytes (words L) ++ rest -> rest <> [] \/ lookup [] (words L) <> None ->
  (forall key e, has_record (words L) key e -> nlexid e <> 0) ->
  let t := narrowed W w in w <> [] -> (length w < 48)%nat -> (length (parts rus_casing t) <= 16)%nat ->
  exists evs : list (N * bytes * N),
    (forall p cch, given w (Some p) cch ->
       forall U (add : U -> N -> list (list N * N) -> U * Z) junk buf szword u, length junk = 48%nat -> length buf = 48%nat ->
       (Forall call_fits (runs evs) -> wc_find_match W add A junk buf szword (Some p) cch u = Ok (deliver (wide_calls W add) (runs evs) u)) /\
       (~ Forall call_fits (runs evs) -> wc_find_match W add A junk buf szword (Some p) cch u = Ub)) /\
    (forall lid str id, In (lid, str, id) evs -> matching L (map (locase rus_casing) t) lid str id) /\
    (bounds_ok L -> forall key e part str id, has_form L key e part str id -> glob (map (locase rus_casing) t) str -> ~ In 42 str ->
       part <> [] \/ match stpost e with [] => True | b :: _ => chrmin e <= b <= chrmax e end -> In (nlexid e, str, id) evs).
Proof. exact wc_match_exact. Qed.
Print Assumptions C65_find_match_partial.

Theorem C65_eng_find_match_partial : forall W A L w rest, wide_ok W -> eholds A L -> ebuildable L -> estrings_within 47 L -> eforms_at_most 256 L ->
  e_stems A = stemtree_bytes (ewords L) ++ rest -> rest <> [] \/ lookup [] (ewords L) <> None ->
  (forall key e, has_record (ewords L) key e -> nlexid e <> 0) ->
  let t := narrowed W w in w <> [] -> (length w < 48)%nat -> (length (parts eng_casing t) <= 16)%nat ->
  exists calls : list (N * list (bytes * N)),
    (forall p cch, given w (Some p) cch ->
       forall U (add : U -> N -> list (list N * N) -> U * Z) junk buf szword u, length junk = 48%nat -> length buf = 48%nat ->
       wc_efind_match W add A junk buf szword (Some p) cch u = Ok (deliver (wide_calls W add) calls u)) /\
    (forall lid ms str id, In (lid, ms) calls -> In (str, id) ms -> elexeme_form L lid str id /\ glob (map (locase eng_casing) t) str) /\
    (ebounds_ok L -> forall key e part str id, ehas_form L key e part str id -> glob (map (locase eng_casing) t) str -> ~ In 42 str ->
       part <> [] \/ match stpost e with [] => True | b :: _ => chrmin e <= b <= chrmax e end ->
       exists ms, In (nlexid e, ms) calls /\ In (str, id) ms) /\
    Forall (fun call => NoDup (snd call) /\ snd call <> []) calls /\ neighbours_differ calls.
Proof. exact wc_ematch_exact. Qed.
Print Assumptions C65_eng_find_match_partial.

(** no pattern (an empty one is an argument error when counted), and patterns that do not fit *)
Theorem C65_degenerate : forall U W (add : U -> N -> list (list N * N) -> U * Z) A junk buf szword u cch, wide_ok W ->
  wc_find_match W add A junk buf szword None cch u = Ok (u, (-5)%Z) /\
  (forall p, wc_find_match W add A junk buf szword (Some p) 0 u = Ok (u, (-5)%Z)) /\
  (forall p, given [] (Some p) cch -> cch <> 0 -> wc_find_match W add A junk buf szword (Some p) cch u = Ok (u, 0%Z)) /\
  (forall w p, given w (Some p) cch -> (48 <= length w)%nat -> wc_find_match W add A junk buf szword (Some p) cch u = Ok (u, (-4)%Z)).
Proof. intros U. exact wc_match_degenerate. Qed.
Print Assumptions C65_degenerate.

Theorem C65_eng_degenerate : forall U W (add : U -> N -> list (list N * N) -> U * Z) A junk buf szword u cch, wide_ok W ->
  wc_efind_match W add A junk buf szword None cch u = Ok (u, (-5)%Z) /\
  (forall p, wc_efind_match W add A junk buf szword (Some p) 0 u = Ok (u, (-5)%Z)) /\
  (forall p, given [] (Some p) cch -> cch <> 0 -> wc_efind_match W add A junk buf szword (Some p) cch u = Ok (u, 0%Z)) /\
  (forall w p, given w (Some p) cch -> (48 <= length w)%nat -> wc_efind_match W add A junk buf szword (Some p) cch u = Ok (u, (-4)%Z)).
Proof. intros U. exact wc_ematch_degenerate. Qed.
Print Assumptions C65_eng_degenerate.

(** "С*О" and "?At*", as in C26_case and C54_case *)
Example C65_case :
  wc_find_match (utf16 1) note wild_arrays (repeat 7 48) (repeat 9 48) (repeat 5 48) (Some [1057; 42; 1054]) 3 [] =
    Ok ([(6, [([1089; 1085; 1099; 45; 1090; 1086], 10); ([1089; 1085; 1072; 45; 1090; 1086], 10);
         ([1089; 1085; 1072; 45; 1090; 1086], 1); ([1089; 1086; 1085; 45; 1090; 1086], 0); ([1089; 1086; 1085; 45; 1090; 1086], 3)])], 0%Z) /\
  wc_efind_match (utf16 1) note (etailed edemo_arrays [0]) (repeat 7 48) (repeat 9 48) (repeat 5 48) (Some [63; 65; 116; 42]) 4 [] =
    Ok ([(1, [([99; 97; 116], 0); ([99; 97; 116; 39; 115], 2); ([99; 97; 116; 115], 1); ([99; 97; 116; 115; 39], 3)])], 0%Z).
Proof. split; vm_compute; reflexivity. Qed.
