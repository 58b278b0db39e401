(** * Prop_Codepage: the Russian analyser in other code pages: CheckWord (C58), BuildForm and FindForms (C59), Lemmatize (C60),
    FindMatch (C61).  [E] is the code page of the caller, [t] the text in windows-1251, [w] the bytes the caller passes. *)
From Verif Require Import Base Serial WordTree TreeSpec FlatScan Stems StemSpec CharTables CapScheme CapSpec GramMap RusRuntime RusSpec
  RusBuild RusBuildSpec RusReadings RusLemmaSpec RusDemo RusDemo2 PropBuildLemmas2 PropLemmasLemmas Wild WildSpec PropWildLemmas
  Codepage CodepageSpec CodepageProofs3 CodepageProofs8 Utf8 PropCodepageLemmas.
Local Open Scope N_scope.

(** ** C58.  CheckWord answers for the text, whatever the code page: as in windows-1251. *)
Theorem C58_same_answer : forall E A, (slack E <= 1)%nat -> forall w t psz cch psz' cch' dwsets junk,
  given w psz cch -> spells E w t -> t <> [] -> given t psz' cch' -> (length (parts rus_casing t) <= 16)%nat ->
  cp_check_word E A junk psz cch dwsets = check_word A junk psz' cch' dwsets.
Proof. exact cp_check_same. Qed.
Print Assumptions C58_same_answer.

(** so exactly the dictionary words, under the conditions of C19 *)
Theorem C58_check_word_exact_partial : forall E A, (slack E <= 1)%nat -> forall L w t psz cch dwsets junk,
  holds A L -> bounds_ok L -> given w psz cch -> spells E w t -> is_bytes t -> t <> [] -> (length t < 48)%nat -> (length (parts rus_casing t) <= 8)%nat ->
  (forall key e part g f, word_of L (bit 1 dwsets) t key e part g f -> reachable e part) ->
  cp_check_word E A junk psz cch dwsets = Ok 1%Z /\ (exists key e part g f, word_of L (bit 1 dwsets) t key e part g f) \/
  cp_check_word E A junk psz cch dwsets = Ok 0%Z /\ ~ (exists key e part g f, word_of L (bit 1 dwsets) t key e part g f).
Proof. exact cp_check_exact. Qed.
Print Assumptions C58_check_word_exact_partial.

(** no word, and texts that do not fit; their bytes may be as many as they like *)
Theorem C58_degenerate : forall E A psz cch dwsets junk,
  (psz = None \/ given [] psz cch -> cp_check_word E A junk psz cch dwsets = Ok 0%Z) /\
  (forall w, given w psz cch -> w <> [] -> (48 < length (dec E w) + slack E)%nat -> cp_check_word E A junk psz cch dwsets = Ok (-4)%Z).
Proof. exact cp_check_degenerate. Qed.
Print Assumptions C58_degenerate.

(** any text can be passed: its encoding spells it; and UTF-8 is such a code page *)
Theorem C58_every_text : (forall E t, encoding_ok E -> is_bytes t -> ~ In 0 t -> t <> [] -> spells E (encode E t) t) /\
  forall k, encoding_ok (utf8 k).
Proof. split; [exact encode_spells|exact utf8_ok]. Qed.
Print Assumptions C58_every_text.

(** "домы-то" in UTF-8 is thirteen bytes and a word, "сона" is none, as in C19_case *)
Example C58_case : encode (utf8 1) [228; 238; 236; 251; 45; 242; 238] = [208; 180; 208; 190; 208; 188; 209; 139; 45; 209; 130; 208; 190] /\
  cp_check_word (utf8 1) demo_arrays (repeat 7 48) (Some [208; 180; 208; 190; 208; 188; 209; 139; 45; 209; 130; 208; 190]) 13 0 = Ok 1%Z /\
  cp_check_word (utf8 0) demo_arrays (repeat 7 48) (Some [208; 161; 208; 189; 208; 176; 0; 9]) (2 ^ 64 - 1) 0 = Ok 1%Z /\
  cp_check_word (utf8 1) demo_arrays (repeat 7 48) (Some (encode (utf8 1) [241; 238; 237; 224])) 8 0 = Ok 0%Z.
Proof. split; [reflexivity|]. repeat split; vm_compute; reflexivity. Qed.

(** ** C59.  BuildForm: the forms of the record, in the code page. *)
Theorem C59_build_form_exact : forall E A L, encoding_ok E -> holds A L -> buildable L -> indexed A L -> forall junk mem key e st c idform,
  mem <> [] -> has_record (words L) key e -> class_of L (oclass e) = Some (st, c) ->
  (forall key' e', has_record (words L) key' e' -> nlexid e' = nlexid e -> key' = key /\ e' = e) ->
  (length (lexkeylen (nlexid e) ++ junk) = 16)%nat ->
  let fs := requested c key (stpost e) idform in delivered_in E mem fs (small fs) (cp_build_form E A junk (Some mem) (nlexid e) idform).
Proof. exact cp_build_exact. Qed.
Print Assumptions C59_build_form_exact.

Theorem C59_build_form_shared : forall E A L, encoding_ok E -> holds A L -> buildable L -> indexed A L -> forall junk id idform,
  id < 2 ^ 32 -> (length (lexkeylen id ++ junk) = 16)%nat -> (exists key e, has_record (words L) key e /\ nlexid e = id) ->
  exists key e st c, has_record (words L) key e /\ nlexid e = id /\ class_of L (oclass e) = Some (st, c) /\
    forall mem, mem <> [] -> let fs := requested c key (stpost e) idform in delivered_in E mem fs (small fs) (cp_build_form E A junk (Some mem) id idform).
Proof. exact cp_build_shared. Qed.
Print Assumptions C59_build_form_shared.

Theorem C59_build_form_unknown : forall A L, holds A L -> buildable L -> forall E, indexed A L -> forall junk mem id idform,
  mem <> [] -> id < 2 ^ 32 -> (length (lexkeylen id ++ junk) = 16)%nat ->
  (forall key e, has_record (words L) key e -> nlexid e <> id) ->
  cp_build_form E A junk (Some mem) id idform = Ok (0%Z, Some mem).
Proof. exact cp_build_unknown. Qed.
Print Assumptions C59_build_form_unknown.

(** FindForms: the forms of the readings of the text *)
Theorem C59_find_forms_exact : forall E A L, encoding_ok E -> holds A L -> buildable L -> forall t dwsets,
  is_bytes t -> t <> [] -> (length t < 48)%nat -> (length (parts rus_casing t) <= 8)%nat -> (length t + slack E <= 48)%nat ->
  exists hs, found L (bit 1 dwsets) t hs /\
    forall w psz cch mem idform junk, given w psz cch -> spells E w t -> mem <> [] ->
      delivered_in E mem (flat_map (reading_forms idform) hs) (Forall (fun r => small (reading_forms idform r)) hs)
        (cp_find_forms E A junk (Some mem) psz cch idform dwsets).
Proof. exact cp_find_exact. Qed.
Print Assumptions C59_find_forms_exact.

(** nowhere to write, and too long a text *)
Theorem C59_degenerate : forall E A junk id idform psz cch dwsets,
  cp_build_form E A junk None id idform = Ok ((-5)%Z, None) /\ cp_build_form E A junk (Some []) id idform = Ok ((-5)%Z, Some []) /\
  forall w mem, given w psz cch -> w <> [] -> mem <> [] -> (48 < length (dec E w) + slack E)%nat ->
    cp_find_forms E A junk (Some mem) psz cch idform dwsets = Ok ((-4)%Z, Some mem).
Proof. exact cp_forms_nowhere. Qed.
Print Assumptions C59_degenerate.

(** what BuildForm writes, CheckWord of the same code page recognises, under the conditions of C25 *)
Theorem C59_built_recognised_partial : forall E A L, encoding_ok E -> (slack E <= 1)%nat -> holds A L -> buildable L -> indexed A L -> recognisable L ->
  forall junk mem id idform n mem', mem <> [] -> id < 2 ^ 32 -> (length (lexkeylen id ++ junk) = 16)%nat ->
  cp_build_form E A junk (Some mem) id idform = Ok (n, Some mem') -> (0 < n)%Z ->
  exists key e st c fs, has_record (words L) key e /\ nlexid e = id /\ class_of L (oclass e) = Some (st, c) /\
    n = Z.of_nat (length fs) /\ mem' = filled_in E fs mem /\
    forall form, In form fs -> form <> [] -> (length form < 48)%nat -> forall psz cch dwsets junk', given (encode E form) psz cch ->
      bit 1 dwsets = true /\ (length (parts rus_casing form) <= 8)%nat \/ casable (min_case c) (map (locase rus_casing) form) ->
      cp_check_word E A junk' psz cch dwsets = Ok 1%Z.
Proof. exact cp_built_recognised. Qed.
Print Assumptions C59_built_recognised_partial.

(** Ивана, сна in UTF-8; seven bytes are one too few for the six of "сна", its terminator and the slack *)
Example C59_case : encoding_ok (utf8 1) /\ holds demo2_arrays demo2_lexicon /\ buildable demo2_lexicon /\ indexed demo2_arrays demo2_lexicon /\ recognisable demo2_lexicon /\
  cp_build_form (utf8 1) demo2_arrays (repeat 9 13) (Some (repeat 1 13)) 65540 1 =
    Ok (1%Z, Some [208; 152; 208; 178; 208; 176; 208; 189; 208; 176; 0; 0; 1]) /\
  cp_find_forms (utf8 1) demo2_arrays (repeat 7 48) (Some (repeat 1 10)) (Some (encode (utf8 1) [241; 237; 224])) 6 1 0 =
    Ok (1%Z, Some [209; 129; 208; 189; 208; 176; 0; 0; 1; 1]) /\
  (exists mem, cp_find_forms (utf8 1) demo2_arrays (repeat 7 48) (Some (repeat 1 7)) (Some (encode (utf8 1) [241; 237; 224])) 6 1 0 = Ok ((-1)%Z, Some mem)) /\
  cp_find_forms (utf8 0) demo2_arrays (repeat 7 48) (Some (repeat 1 7)) (Some (encode (utf8 0) [241; 237; 224])) 6 1 0 =
    Ok (1%Z, Some [209; 129; 208; 189; 208; 176; 0]) /\
  cp_check_word (utf8 1) demo2_arrays (repeat 7 48) (Some [208; 152; 208; 178; 208; 176; 208; 189; 208; 176]) 10 0 = Ok 1%Z.
Proof.
  split; [apply utf8_ok|]. split; [apply demo2_holds|]. split; [apply demo2_buildable|]. split; [apply demo2_indexed|]. split; [apply demo2_recognisable|].
  split; [vm_compute; reflexivity|]. split; [vm_compute; reflexivity|]. split; [eexists; vm_compute; reflexivity|]. split; vm_compute; reflexivity.
Qed.

(** ** C60.  Lemmatize: the lexemes of the text with their normal forms in the code page, for [safe_call]s (see C21). *)
Theorem C60_lemmatize_partial : forall E A L, encoding_ok E -> holds A L -> buildable L -> forall t dwsets,
  is_bytes t -> t <> [] -> (length t < 48)%nat -> (length (parts rus_casing t) <= 8)%nat -> (length t + slack E <= 48)%nat ->
  exists hs, found L (bit 1 dwsets) t hs /\
    forall w psz cch plemma pforms pgrams junk, given w psz cch -> spells E w t ->
      safe_call dwsets (lexemes_of plemma hs) plemma pforms pgrams ->
      answer_in E dwsets hs plemma pforms pgrams (cp_lemmatize E A junk psz cch plemma pforms pgrams dwsets).
Proof. exact cp_lemmatize_exact. Qed.
Print Assumptions C60_lemmatize_partial.

Theorem C60_degenerate : forall E A psz cch plemma pforms pgrams dwsets junk,
  (psz = None \/ given [] psz cch -> cp_lemmatize E A junk psz cch plemma pforms pgrams dwsets = Ok (0%Z, (plemma, pforms, pgrams))) /\
  (forall w, given w psz cch -> w <> [] -> (48 < length (dec E w) + slack E)%nat ->
     cp_lemmatize E A junk psz cch plemma pforms pgrams dwsets = Ok ((-4)%Z, (plemma, pforms, pgrams))).
Proof. exact cp_lemmatize_degenerate. Qed.
Print Assumptions C60_degenerate.

(** "сна": two lexemes, the normal form "сон" of each in UTF-8, the second one seven bytes behind the first *)
Example C60_case : exists lemms grams,
  cp_lemmatize (utf8 1) demo4_arrays (repeat 7 48) (Some (encode (utf8 1) [241; 237; 224])) 6
    (Some (repeat (Lemm 0 None 0 0) 8)) (Some (repeat 1 20)) (Some (repeat (Gram 0 0 0 0) 8)) 0 =
  Ok (2%Z, (Some lemms, Some [209; 129; 208; 190; 208; 189; 0; 209; 129; 208; 190; 208; 189; 0; 0; 1; 1; 1; 1; 1], Some grams)) /\
  map lm_form (firstn 2 lemms) = [Some 0%nat; Some 7%nat].
Proof. eexists _, _. split; vm_compute; reflexivity. Qed.

(** ** C61.  FindMatch: the matches of the pattern, their strings in the code page; defined exactly when every string fits 96 bytes and
    every call the arrays.  Under the conditions of C26, and for patterns of less than 48 bytes. *)
Theorem C61_find_match_partial : forall E A L t rest, holds A L -> fixed_plain L -> strings_within 47 L ->
  stemtree A = stemtree_bytes (words L) ++ rest -> rest <> [] \/ lookup [] (words L) <> None ->
  (forall key e, has_record (words L) key e -> nlexid e <> 0) ->
  is_bytes t -> t <> [] -> (length t < 48)%nat -> (length t + slack E <= 48)%nat -> (length (parts rus_casing t) <= 16)%nat ->
  exists evs : list (N * bytes * N),
    (forall w psz cch, given w psz cch -> spells E w t -> (length w < 48)%nat ->
       forall U (add : U -> N -> list (bytes * N) -> U * Z) junk buf u, length junk = 48%nat -> length buf = 48%nat ->
       let fit := Forall (fun ev => (length (encode E (snd (fst ev))) + slack E <= 96)%nat) evs /\ Forall call_fits (runs (map (told_in E) evs)) in
       (fit -> cp_find_match E add A junk buf psz cch u = Ok (deliver add (runs (map (told_in E) evs)) u)) /\
       (~ fit -> cp_find_match E add A junk buf psz cch u = Ub)) /\
    (forall lid str id, In (lid, str, id) evs -> matching L (map (locase rus_casing) t) lid str id) /\
    (bounds_ok L -> forall key e part str id, has_form L key e part str id -> glob (map (locase rus_casing) t) str -> ~ In 42 str ->
       part <> [] \/ match stpost e with [] => True | b :: _ => chrmin e <= b <= chrmax e end -> In (nlexid e, str, id) evs).
Proof. exact cp_match_exact. Qed.
Print Assumptions C61_find_match_partial.

Theorem C61_degenerate : forall U (add : U -> N -> list (bytes * N) -> U * Z) E A junk buf u cch,
  cp_find_match E add A junk buf None cch u = Ok (u, (-5)%Z) /\
  (forall psz, given [] psz cch -> cp_find_match E add A junk buf psz cch u = Ok (u, 0%Z)) /\
  (forall w psz, given w psz cch -> w <> [] -> (48 <= length w)%nat \/ (48 < length (dec E w) + slack E)%nat ->
     cp_find_match E add A junk buf psz cch u = Ok (u, (-4)%Z)).
Proof. intros U add. exact (cp_find_match_degenerate add). Qed.
Print Assumptions C61_degenerate.

(** the pattern is measured before it is converted: 24 Cyrillic letters are refused in UTF-8, though CheckWord takes them, and FindMatch
    takes them in windows-1251 *)
Theorem C61_long_pattern_refuted : exists A L t, holds A L /\ is_bytes t /\ length t = 24%nat /\ spells (utf8 1) (encode (utf8 1) t) t /\
  (forall U (add : U -> N -> list (bytes * N) -> U * Z) junk buf u,
     cp_find_match (utf8 1) add A junk buf (Some (encode (utf8 1) t)) (N.of_nat (length (encode (utf8 1) t))) u = Ok (u, (-4)%Z)) /\
  cp_check_word (utf8 1) A (repeat 7 48) (Some (encode (utf8 1) t)) (N.of_nat (length (encode (utf8 1) t))) 0 = Ok 0%Z /\
  exists r, find_match note A (repeat 7 48) (repeat 9 48) (Some t) 24 [] = Ok (r, 0%Z).
Proof. exact utf8_pattern_refused. Qed.
Print Assumptions C61_long_pattern_refuted.

(** "С*О": as in C26_case, in UTF-8 *)
Example C61_case : encode (utf8 1) [209; 42; 206] = [208; 161; 42; 208; 158] /\
  exists evs, cp_find_match (utf8 1) note wild_arrays (repeat 7 48) (repeat 9 48) (Some [208; 161; 42; 208; 158]) 5 [] =
    Ok ([(6, map (fun ev => (encode (utf8 1) (fst ev), snd ev)) evs)], 0%Z) /\
  evs = [([241; 237; 251; 45; 242; 238], 10); ([241; 237; 224; 45; 242; 238], 10);
         ([241; 237; 224; 45; 242; 238], 1); ([241; 238; 237; 45; 242; 238], 0); ([241; 238; 237; 45; 242; 238], 3)].
Proof. split; [reflexivity|]. eexists. split; [|reflexivity]. vm_compute. reflexivity. Qed.
