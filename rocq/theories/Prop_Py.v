(** * Properties C94-C99: the Python modules pyrusmorph and pyengmorph.  STATEMENTS ONLY.
    The vocabulary is in PySpec.v: [listed rows room r] - the call returns [rows] if there is [room] for them and an empty list otherwise.
    [junk], [lxbuff], [stbuff], [grbuff], ... are what the local arrays hold before the call.  [P] is the code page of the object. *)
From Coq Require Import Permutation String.
From Verif Require Import Base Serial WordTree TreeSpec FlatScan Stems StemSpec CharTables CapScheme CapSpec GramMap RusRuntime LevelSpec RusSpec RusProofs RusDemo RusDemo2
  RusBuild RusBuildSpec RusReadings RusLemmaSpec PropBuildLemmas2 PropLemmasLemmas Wild WildSpec PropWildLemmas
  EngRuntime EngSpec EngFormsSpec EngLemmaSpec EngDemo EngWild EngWildSpec PropEngWildLemmas Fuzzy FuzzySpec FuzzyProofs4 PropFuzzyLemmas Codepage CodepageSpec Utf8 CodepageProofs3
  WideApi WideSpec PropWideLemmas Guess GuessSpec GuessWide GuessWideSpec GuessProofs PropGuessLemmas Api ApiSpec PropApiLemmas CxxApi CxxProofs CxxProofs2 PropCxxLemmas PyApi PySpec PyProofs PyProofs2 PyProofs3 PyProofs4 PyProofs5.
Notation length := List.length.
Notation runs := WildSpec.runs.
Local Open Scope N_scope.

(** ** C94.  The constructors.  [passed name (codepage ++ [0])]: [name] is the argument up to its first NUL, if it has one. *)
Theorem C94_russian : forall magic codepage name, magic = MORPH_MAGIC \/ magic = FUZZY_MAGIC -> passed name (codepage ++ [0]) ->
  (exists i, names i name /\ py_rus_new magic codepage = Ok (Made i)) \/ (forall i, ~ names i name) /\ py_rus_new magic codepage = Ok Refused.
Proof. exact py_new_rus. Qed.
Print Assumptions C94_russian.
Theorem C94_english : forall magic codepage name, magic = MORPH_MAGIC \/ magic = FUZZY_MAGIC -> passed name (codepage ++ [0]) ->
  names WcInstance name /\ py_eng_new magic codepage = Ok (Made WcInstance) \/ ~ names WcInstance name /\ py_eng_new magic codepage = Ok (Made Mb1251).
Proof. exact py_new_eng. Qed.
Print Assumptions C94_english.
(** every argument has such a name *)
Theorem C94_every_argument : forall codepage, exists name, passed name (codepage ++ [0]).
Proof.
  induction codepage as [|c s (name & Hn & after & E)]; [exists []; split; [intros []|exists []; reflexivity]|].
  destruct (N.eq_dec c 0) as [->|Hc]; [exists []; split; [intros []|exists (s ++ [0]); reflexivity]|].
  exists (c :: name). split; [intros [K|K]; [congruence|contradiction]|exists after; cbn [app]; rewrite E; reflexivity].
Qed.
Print Assumptions C94_every_argument.
(** the wide classes [mlmaruWc()] ..., and [mlmaruMb( "utf-8" )]; an unknown code page raises an exception - in Russian *)
Example C94_case : py_rus_new MORPH_MAGIC (text "utf-16") = Ok (Made WcInstance) /\ py_rus_new FUZZY_MAGIC (text "UTF-8") = Ok (Made MbUtf8) /\
  py_rus_new MORPH_MAGIC (text "latin-1") = Ok Refused /\ py_eng_new MORPH_MAGIC (text "latin-1") = Ok (Made Mb1251).
Proof. repeat split; vm_compute; reflexivity. Qed.
(** "an object of a narrow class has a narrow dictionary": [mlmaruMb( "utf-16" )] gives the narrow class the wide one, in both languages *)
Theorem C94_narrow_is_narrow_refuted : forall magic name, magic = MORPH_MAGIC \/ magic = FUZZY_MAGIC -> names WcInstance name -> ~ In 0 name ->
  py_rus_new magic name = Ok (Made WcInstance) /\ py_eng_new magic name = Ok (Made WcInstance).
Proof.
  intros magic name Hm Hw H0. assert (Hp : passed name (name ++ [0])) by (split; [exact H0|exists []; reflexivity]). split.
  - destruct (py_new_rus magic name name Hm Hp) as [(i & Hi & ->)|(Hno & _)]; [rewrite (names_unique i WcInstance name Hi Hw); reflexivity|exfalso; exact (Hno _ Hw)].
  - destruct (py_new_eng magic name name Hm Hp) as [(_ & ->)|(Hno & _)]; [reflexivity|contradiction].
Qed.
Print Assumptions C94_narrow_is_narrow_refuted.

(** ** C95.  [lemmatize]: the lexemes of the word in the order of C20, each with its normal form and its descriptions as the settings ask;
    [hs] are the readings, [grouped hs] the lexemes.  Missing to the full property: words of more than eight parts, and the conditions
    [rus_safe] on the dictionary. *)
Theorem C95_lemmatize_partial : forall P A L, page_ok P -> holds A L -> buildable L -> forall t dwsets,
  is_bytes t -> t <> [] -> (length t < 48)%nat -> (length (parts rus_casing t) <= 8)%nat -> (length t + slack (coding P) <= 48)%nat ->
  exists hs, found L (ignores_capitals dwsets) t hs /\
    forall w junk lxbuff stbuff grbuff, spells (coding P) w t -> N.of_nat (length w) < 2 ^ 64 - 1 ->
      length lxbuff = 32%nat -> length stbuff = 2048%nat -> length grbuff = 512%nat -> rus_safe dwsets (grouped hs) ->
    exists ls, length ls = length (grouped hs) /\ (wants_lemma dwsets = true -> Forall2 (fun g l => lemma_of 0 (lx_first g) l) (grouped hs) ls) /\
      listed (map (rus_row dwsets (encode (coding P))) (combine (grouped hs) ls)) (rus_room dwsets (grouped hs) (fit_in (coding P) 2048 ls))
        (py_lemmatize_mb P A junk lxbuff stbuff grbuff w dwsets).
Proof. exact py_lemmatize_answer. Qed.
Print Assumptions C95_lemmatize_partial.

Theorem C95_english_lemmatize_partial : forall A L, eholds A L -> ebuildable L -> forall w dwsets,
  is_bytes w -> w <> [] -> (length w < 48)%nat -> (length (parts eng_casing w) <= 8)%nat ->
  exists hs, efound L (ignores_capitals dwsets) w hs /\
    forall junk lxbuff stbuff grbuff, length lxbuff = 32%nat -> length stbuff = 2048%nat -> length grbuff = 512%nat -> eng_safe dwsets (egrouped hs) ->
    exists ls, length ls = length (egrouped hs) /\ (wants_lemma dwsets = true -> Forall2 (fun g l => elemma_of (ex_first g) l) (egrouped hs) ls) /\
      listed (map (eng_row dwsets (fun l => l)) (combine (egrouped hs) ls)) (eng_room dwsets (egrouped hs) (fit 2048 ls))
        (py_elemmatize_mb A junk lxbuff stbuff grbuff w dwsets).
Proof. exact py_elemmatize_answer. Qed.
Print Assumptions C95_english_lemmatize_partial.

(** the wide classes: 240 characters of normal forms *)
Theorem C95_wide_lemmatize_partial : forall W A L, wide_ok W -> holds A L -> buildable L -> forall w dwsets, let t := narrowed W w in
  w <> [] -> (length w < 48)%nat -> (length (parts rus_casing t) <= 8)%nat ->
  exists hs, found L (ignores_capitals dwsets) t hs /\
    forall junk lmbuff szlemm szword lxbuff stbuff grbuff, length lmbuff = 32%nat -> length szlemm = 240%nat ->
      length lxbuff = 32%nat -> length stbuff = 2048%nat -> length grbuff = 512%nat -> rus_safe dwsets (grouped hs) ->
    exists ls, length ls = length (grouped hs) /\ (wants_lemma dwsets = true -> Forall2 (fun g l => lemma_of 0 (lx_first g) l) (grouped hs) ls) /\
      listed (map (rus_row dwsets (widened W)) (combine (grouped hs) ls)) (rus_room dwsets (grouped hs) (fit 240 ls))
        (py_lemmatize_wc W A junk lmbuff szlemm szword lxbuff stbuff grbuff w dwsets).
Proof. exact py_lemmatize_wide. Qed.
Print Assumptions C95_wide_lemmatize_partial.

Theorem C95_wide_english_lemmatize_partial : forall W A L, wide_ok W -> eholds A L -> ebuildable L -> forall w dwsets, let t := narrowed W w in
  w <> [] -> (length w < 48)%nat -> (length (parts eng_casing t) <= 8)%nat ->
  exists hs, efound L (ignores_capitals dwsets) t hs /\
    forall junk lmbuff szlemm szword lxbuff stbuff grbuff, length lmbuff = 32%nat -> length szlemm = 240%nat ->
      length lxbuff = 32%nat -> length stbuff = 2048%nat -> length grbuff = 512%nat -> eng_safe dwsets (egrouped hs) ->
    exists ls, length ls = length (egrouped hs) /\ (wants_lemma dwsets = true -> Forall2 (fun g l => elemma_of (ex_first g) l) (egrouped hs) ls) /\
      listed (map (eng_row dwsets (widened W)) (combine (egrouped hs) ls)) (eng_room dwsets (egrouped hs) (fit 240 ls))
        (py_elemmatize_wc W A junk lmbuff szlemm szword lxbuff stbuff grbuff w dwsets).
Proof. exact py_elemmatize_wide. Qed.
Print Assumptions C95_wide_english_lemmatize_partial.

(** "Сна" in UTF-8, without descriptions; "Cats", all of it *)
Definition lx0 := repeat (Lemm 7 (Some 9%nat) 5 5) 32.
Definition gr0 := repeat (Gram 1 2 3 4) 512.
Definition st0 := repeat 9 2048.
Example C95_case : page_ok (Utf8 (utf8 1)) /\ holds demo2_arrays demo2_lexicon /\ buildable demo2_lexicon /\
  py_lemmatize_mb (Utf8 (utf8 1)) demo2_arrays (repeat 7 48) lx0 st0 gr0 (encode (utf8 1) [209; 237; 224]) 8 = Ok [PyLemm 2 (Some [209; 129; 208; 190; 208; 189]) None] /\
  py_lemmatize_mb Win1251 demo2_arrays (repeat 7 48) lx0 st0 gr0 [209; 237; 224] 4 = Ok [PyLemm 2 None (Some [Gram 7 10 2048 3; Gram 7 1 4096 3])] /\
  eholds edemo_arrays edemo_lexicon /\ ebuildable edemo_lexicon /\
  py_elemmatize_mb edemo_arrays (repeat 7 48) lx0 st0 gr0 [67; 97; 116; 115] 0 = Ok [PyLemm 1 (Some [99; 97; 116]) (Some [Gram 7 1 0 0])].
Proof.
  split; [apply utf8_ok|]. split; [apply demo2_holds|]. split; [apply demo2_buildable|]. split; [vm_compute; reflexivity|]. split; [vm_compute; reflexivity|].
  split; [apply edemo_holds|]. split; [apply edemo_buildable|]. vm_compute; reflexivity.
Qed.

(** "an empty list means an unknown word": a word of 33 lexemes is right and has none *)
Definition many_items : list (bytes * entry) := map (fun n => ([99; 97; 116], Entry 0 115 (N.of_nat n) 0 [])) (seq 1 33).
Lemma many_ok : eitemsb many_items = true.
Proof. vm_compute. reflexivity. Qed.
Theorem C95_empty_means_unknown_refuted : exists A L, eholds A L /\ ebuildable L /\
  py_echeck_word A (repeat 7 48) [99; 97; 116] 0 = Ok 1%Z /\ py_elemmatize_mb A (repeat 7 48) lx0 st0 gr0 [99; 97; 116] 0 = Ok [].
Proof.
  exists (earrays_of (words_of many_items)), (elexicon_of (words_of many_items)). split; [exact (esmall_holds many_items many_ok)|].
  split; [apply (esmall_buildable many_items many_ok); [repeat constructor; cbn; lia|apply eplainb_ok; vm_compute; reflexivity]|]. split; vm_compute; reflexivity.
Qed.
Print Assumptions C95_empty_means_unknown_refuted.

(** ** C96.  [check_word], [build_form] and [part_of_sp]. *)
Theorem C96_check_word_partial : forall P A L w t junk dwsets, page_ok P -> (slack (coding P) <= 1)%nat ->
  holds A L -> bounds_ok L -> spells (coding P) w t -> N.of_nat (length w) < 2 ^ 64 - 1 -> is_bytes t -> t <> [] -> (length t < 48)%nat -> (length (parts rus_casing t) <= 8)%nat ->
  (forall key e part g f, word_of L (ignores_capitals dwsets) t key e part g f -> reachable e part) ->
  py_check_word P A junk w dwsets = Ok 1%Z /\ (exists key e part g f, word_of L (ignores_capitals dwsets) t key e part g f) \/
  py_check_word P A junk w dwsets = Ok 0%Z /\ ~ (exists key e part g f, word_of L (ignores_capitals dwsets) t key e part g f).
Proof. exact py_check. Qed.
Print Assumptions C96_check_word_partial.
Theorem C96_english_check_word_partial : forall A L w junk dwsets, eholds A L -> ebounds_ok L -> is_bytes w -> w <> [] -> (length w < 48)%nat -> (length (parts eng_casing w) <= 8)%nat ->
  (forall key e part id, eword_of L (ignores_capitals dwsets) w key e part id -> reachable e part) ->
  py_echeck_word A junk w dwsets = Ok 1%Z /\ (exists key e part id, eword_of L (ignores_capitals dwsets) w key e part id) \/
  py_echeck_word A junk w dwsets = Ok 0%Z /\ ~ (exists key e part id, eword_of L (ignores_capitals dwsets) w key e part id).
Proof. exact py_echeck. Qed.
Print Assumptions C96_english_check_word_partial.
Theorem C96_wide_check_word_partial : forall W A L w junk szword dwsets, wide_ok W -> holds A L -> bounds_ok L -> let t := narrowed W w in
  w <> [] -> (length w < 48)%nat -> (length (parts rus_casing t) <= 8)%nat ->
  (forall key e part g f, word_of L (ignores_capitals dwsets) t key e part g f -> reachable e part) ->
  py_wcheck_word W A junk szword w dwsets = Ok 1%Z /\ (exists key e part g f, word_of L (ignores_capitals dwsets) t key e part g f) \/
  py_wcheck_word W A junk szword w dwsets = Ok 0%Z /\ ~ (exists key e part g f, word_of L (ignores_capitals dwsets) t key e part g f).
Proof. exact py_wcheck. Qed.
Print Assumptions C96_wide_check_word_partial.
Theorem C96_wide_english_check_word_partial : forall W A L w junk szword dwsets, wide_ok W -> eholds A L -> ebounds_ok L -> let t := narrowed W w in
  w <> [] -> (length w < 48)%nat -> (length (parts eng_casing t) <= 8)%nat ->
  (forall key e part id, eword_of L (ignores_capitals dwsets) t key e part id -> reachable e part) ->
  py_wecheck_word W A junk szword w dwsets = Ok 1%Z /\ (exists key e part id, eword_of L (ignores_capitals dwsets) t key e part id) \/
  py_wecheck_word W A junk szword w dwsets = Ok 0%Z /\ ~ (exists key e part id, eword_of L (ignores_capitals dwsets) t key e part id).
Proof. exact py_wecheck. Qed.
Print Assumptions C96_wide_english_check_word_partial.

(** the forms of the lexeme; when several records share the number, of one of them *)
Theorem C96_build_form : forall P A L, page_ok P -> holds A L -> buildable L -> indexed A L -> forall junk stbuff id idform,
  length stbuff = 2048%nat -> id < 2 ^ 32 -> (length (lexkeylen id ++ junk) = 16)%nat ->
  ((exists key e, has_record (words L) key e /\ nlexid e = id) ->
   exists key e st c, has_record (words L) key e /\ nlexid e = id /\ class_of L (oclass e) = Some (st, c) /\
     let fs := requested c key (stpost e) idform in
     listed (map (encode (coding P)) fs) (small fs /\ fit_in (coding P) 2048 fs) (py_build_form_mb P A junk stbuff id idform)) /\
  ((forall key e, has_record (words L) key e -> nlexid e <> id) -> py_build_form_mb P A junk stbuff id idform = Ok []).
Proof.
  intros P A L HP HL HB HI junk stbuff id idform H1 H2 H3. split; intros H.
  - exact (py_build_answer P A L HP HL HB HI junk stbuff id idform H1 H2 H3 H).
  - exact (py_build_none P A L HP HL HB HI junk stbuff id idform H1 H2 H3 H).
Qed.
Print Assumptions C96_build_form.
Theorem C96_english_build_form : forall A L, eholds A L -> ebuildable L -> eindexed A L -> forall junk stbuff id idform,
  length stbuff = 2048%nat -> id < 2 ^ 32 -> (length (lexkeylen id ++ junk) = 16)%nat ->
  ((exists key e, has_record (ewords L) key e /\ nlexid e = id) -> exists key e st c, has_record (ewords L) key e /\ nlexid e = id /\ eclass_of L (oclass e) = Some (st, c) /\
     let fs := erequested c key (stpost e) idform in listed fs (small fs) (py_ebuild_form_mb A junk stbuff id idform)) /\
  ((forall key e, has_record (ewords L) key e -> nlexid e <> id) -> py_ebuild_form_mb A junk stbuff id idform = Ok []).
Proof. exact py_ebuild_answer. Qed.
Print Assumptions C96_english_build_form.
(** the wide classes: 96 characters *)
Theorem C96_wide_build_form : forall W A L, wide_ok W -> holds A L -> buildable L -> indexed A L -> forall junk szform stbuff id idform,
  length szform = 98%nat -> length stbuff = 2048%nat -> id < 2 ^ 32 -> (length (lexkeylen id ++ junk) = 16)%nat ->
  ((exists key e, has_record (words L) key e /\ nlexid e = id) -> exists key e st c, has_record (words L) key e /\ nlexid e = id /\ class_of L (oclass e) = Some (st, c) /\
     let fs := requested c key (stpost e) idform in
     listed (map (widened W) fs) (small fs /\ (total fs <= 96)%nat) (py_build_form_wc W A junk szform stbuff id idform)) /\
  ((forall key e, has_record (words L) key e -> nlexid e <> id) -> py_build_form_wc W A junk szform stbuff id idform = Ok []).
Proof. exact py_build_wide. Qed.
Print Assumptions C96_wide_build_form.
Theorem C96_wide_english_build_form : forall W A L, wide_ok W -> eholds A L -> ebuildable L -> eindexed A L -> forall junk szform stbuff id idform,
  length szform = 98%nat -> length stbuff = 2048%nat -> id < 2 ^ 32 -> (length (lexkeylen id ++ junk) = 16)%nat ->
  ((exists key e, has_record (ewords L) key e /\ nlexid e = id) -> exists key e st c, has_record (ewords L) key e /\ nlexid e = id /\ eclass_of L (oclass e) = Some (st, c) /\
     let fs := erequested c key (stpost e) idform in
     listed (map (widened W) fs) (small fs /\ (total fs <= 96)%nat) (py_ebuild_form_wc W A junk szform stbuff id idform)) /\
  ((forall key e, has_record (ewords L) key e -> nlexid e <> id) -> py_ebuild_form_wc W A junk szform stbuff id idform = Ok []).
Proof. exact py_ebuild_wide. Qed.
Print Assumptions C96_wide_english_build_form.

(** the part of speech; an unknown number has 0 *)
Theorem C96_part_of_sp :
  (forall A L key e st c junk,
     holds A L -> indexed A L -> has_record (words L) key e -> class_of L (oclass e) = Some (st, c) ->
     (forall key' e' st' c', has_record (words L) key' e' -> nlexid e' = nlexid e -> class_of L (oclass e') = Some (st', c') ->
        N.land (c_word c') 63 = N.land (c_word c) 63) ->
     (length (lexkeylen (nlexid e) ++ junk) = 16)%nat -> py_part_of_sp A junk (nlexid e) = Ok (N.land (c_word c) 63)) /\
  (forall A L id junk, holds A L -> indexed A L -> id < 2 ^ 32 -> (forall key e, has_record (words L) key e -> nlexid e <> id) ->
     (length (lexkeylen id ++ junk) = 16)%nat -> py_part_of_sp A junk id = Ok 0) /\
  (forall A L key e st c junk,
     eholds A L -> eindexed A L -> has_record (ewords L) key e -> eclass_of L (oclass e) = Some (st, c) ->
     (forall key' e' st' c', has_record (ewords L) key' e' -> nlexid e' = nlexid e -> eclass_of L (oclass e') = Some (st', c') ->
        k_word c' mod 64 = k_word c mod 64) ->
     (length (lexkeylen (nlexid e) ++ junk) = 16)%nat -> py_epart_of_sp A junk (nlexid e) = Ok (k_word c mod 64)) /\
  (forall A L id junk, eholds A L -> eindexed A L -> id < 2 ^ 32 -> (forall key e, has_record (ewords L) key e -> nlexid e <> id) ->
     (length (lexkeylen id ++ junk) = 16)%nat -> py_epart_of_sp A junk id = Ok 0).
Proof. split; [exact cxx_wd_info_found|]. split; [exact cxx_wd_info_none|]. split; [exact cxx_ewd_info_found|exact cxx_ewd_info_none]. Qed.
Print Assumptions C96_part_of_sp.

(** "сна" of "сон", in UTF-8 and wide; words and not; "cat's" *)
Example C96_case : indexed demo2_arrays demo2_lexicon /\ eindexed edemo_arrays edemo_lexicon /\ wide_ok (utf16 1) /\
  py_build_form_mb (Utf8 (utf8 1)) demo2_arrays (repeat 9 15) st0 2 1 = Ok [encode (utf8 1) [241; 237; 224]] /\
  py_build_form_wc (utf16 1) demo2_arrays (repeat 9 15) (repeat 5 98) st0 2 1 = Ok [[1089; 1085; 1072]] /\
  py_build_form_mb Win1251 demo2_arrays (repeat 9 15) st0 77 1 = Ok [] /\
  py_check_word (Utf8 (utf8 1)) demo2_arrays (repeat 7 48) (encode (utf8 1) [209; 237; 224]) 0 = Ok 1%Z /\
  py_check_word Win1251 demo2_arrays (repeat 7 48) [241; 206; 237] 0 = Ok 0%Z /\ py_check_word Win1251 demo2_arrays (repeat 7 48) [241; 206; 237] 14 = Ok 1%Z /\
  py_ebuild_form_mb edemo_arrays (repeat 9 13) st0 65540 0 <> Ok [] /\ py_epart_of_sp edemo_arrays (repeat 9 13) 65540 = Ok 7 /\ py_part_of_sp demo2_arrays (repeat 9 15) 77 = Ok 0.
Proof.
  split; [apply demo2_indexed|]. split; [apply edemo_indexed|]. split; [apply utf16_ok; lia|]. repeat split; vm_compute; try reflexivity. discriminate.
Qed.

(** ** C97.  [find_match]: the function is called with the matches of the pattern, each lexeme by itself; what it returns has no effect
    but the last result, unless it is no number.  [py_reads f] reads the texts of the matches it is given in every call.  Under the
    conditions of C26 and C54. *)
Theorem C97_find_match_partial : forall P A L t rest, page_ok P -> holds A L -> fixed_plain L -> strings_within 47 L ->
  stemtree A = stemtree_bytes (words L) ++ rest -> rest <> [] \/ lookup [] (words L) <> None ->
  (forall key e, has_record (words L) key e -> nlexid e <> 0) ->
  is_bytes t -> t <> [] -> (length t < 48)%nat -> (length t + slack (coding P) <= 48)%nat -> (length (parts rus_casing t) <= 16)%nat ->
  exists evs : list (N * bytes * N),
    (forall w U (f : U -> N -> list (res bytes * N) -> U * py_result) junk buf sforms u, spells (coding P) w t -> (length w < 48)%nat ->
       length junk = 48%nat -> length buf = 48%nat ->
       Forall (fun ev => (length (encode (coding P) (snd (fst ev))) + slack (coding P) <= 96)%nat) evs -> Forall call_fits (runs (map (told_in (coding P)) evs)) ->
       py_find_match_mb (py_reads f) P A junk buf sforms w u = Ok (py_session f (runs (map (told_in (coding P)) evs)) u)) /\
    (forall lid str id, In (lid, str, id) evs -> matching L (map (locase rus_casing) t) lid str id) /\
    (bounds_ok L -> forall key e part str id, has_form L key e part str id -> glob (map (locase rus_casing) t) str -> ~ In 42 str ->
       part <> [] \/ match stpost e with [] => True | b :: _ => chrmin e <= b <= chrmax e end -> In (nlexid e, str, id) evs).
Proof. exact py_match_page. Qed.
Print Assumptions C97_find_match_partial.
Theorem C97_english_find_match_partial : forall A L w rest,
  eholds A L -> ebuildable L -> estrings_within 47 L -> eforms_at_most 256 L ->
  e_stems A = stemtree_bytes (ewords L) ++ rest -> rest <> [] \/ lookup [] (ewords L) <> None ->
  (forall key e, has_record (ewords L) key e -> nlexid e <> 0) ->
  is_bytes w -> w <> [] -> (length w < 48)%nat -> (length (parts eng_casing w) <= 16)%nat ->
  exists calls : list (N * list (bytes * N)),
    (forall U (f : U -> N -> list (res bytes * N) -> U * py_result) junk buf sforms u, length junk = 48%nat -> length buf = 48%nat ->
       py_efind_match_mb (py_reads f) A junk buf sforms w u = Ok (py_session f calls u)) /\
    (forall lid ms str id, In (lid, ms) calls -> In (str, id) ms -> elexeme_form L lid str id /\ glob (map (locase eng_casing) w) str) /\
    (ebounds_ok L -> forall key e part str id, ehas_form L key e part str id -> glob (map (locase eng_casing) w) str -> ~ In 42 str ->
       part <> [] \/ match stpost e with [] => True | b :: _ => chrmin e <= b <= chrmax e end ->
       exists ms, In (nlexid e, ms) calls /\ In (str, id) ms) /\
    Forall (fun call => NoDup (snd call) /\ snd call <> []) calls /\ neighbours_differ calls.
Proof. exact py_ematch. Qed.
Print Assumptions C97_english_find_match_partial.

(** A function that notes the lexemes and returns the same thing in every call; "?о?" has three lexemes. *)
Definition noting (r : py_result) (u : list (N * list (res bytes * N))) (lid : N) (ms : list (res bytes * N)) : list (N * list (res bytes * N)) * py_result := (u ++ [(lid, ms)], r).
Definition py_searched (r : py_result) := py_find_match_mb (py_reads (noting r)) Win1251 wild_arrays (repeat 7 48) (repeat 9 48) [] [63; 238; 63] [].
Definition three_calls : list (N * list (res bytes * N)) :=
  [(2, [(Ok [241; 238; 237], 0); (Ok [241; 238; 237], 3)]); (300, [(Ok [239; 238; 228], 255)]); (1, [(Ok [228; 238; 236], 0); (Ok [228; 238; 236], 3)])].
Example C97_case : holds wild_arrays demo2_lexicon /\ fixed_plain demo2_lexicon /\ strings_within 47 demo2_lexicon /\
  stemtree wild_arrays = stemtree_bytes (words demo2_lexicon) ++ [0] /\ (forall key e, has_record (words demo2_lexicon) key e -> nlexid e <> 0) /\
  py_searched (PyInt 0) = Ok (three_calls, 0%Z).
Proof. split; [apply wild_holds|]. split; [apply wild_plain|]. split; [apply wild_within|]. split; [reflexivity|]. split; [apply wild_ids|]. vm_compute; reflexivity. Qed.
(** documented: the calls go on until the function returns something other than 0.  They do not stop: *)
Theorem C97_stops_refuted : py_searched (PyInt 1) = Ok (three_calls, 1%Z).
Proof. vm_compute. reflexivity. Qed.
Print Assumptions C97_stops_refuted.
(** whatever numbers it returns, the function gets every call *)
Theorem C97_never_stops : forall U (f : U -> N -> list (res bytes * N) -> U * py_result) calls u,
  (forall v lid ms, snd (f v lid ms) <> PyOther) ->
  fst (py_session f calls u) = fold_left (fun v call => fst (f v (fst call) (map (fun m => (Ok (fst m), snd m)) (snd call)))) calls u.
Proof.
  intros U f calls. induction calls as [|(lid, ms) calls IH]; intros u H; [reflexivity|]. cbn [py_session fold_left fst snd].
  pose proof (H u lid (map (fun m => (Ok (fst m), snd m)) ms)) as K. destruct (f u lid _) as [v [z| |]]; cbn [fst snd] in *; [| |congruence]; (destruct calls; [reflexivity|apply IH, H]).
Qed.
Print Assumptions C97_never_stops.
(** an exception raised in the function is lost: the caller sees -1 if it was raised in the last call, otherwise nothing *)
Theorem C97_exception_refuted : py_searched PyRaised = Ok (three_calls, (-1)%Z) /\
  py_find_match_mb (py_reads (fun (u : nat) _ _ => (S u, match u with O => PyRaised | _ => PyInt 0 end))) Win1251 wild_arrays (repeat 7 48) (repeat 9 48) [] [63; 238; 63] O = Ok (3%nat, 0%Z).
Proof. split; vm_compute; reflexivity. Qed.
Print Assumptions C97_exception_refuted.
(** a function without a result - it returns [None] - is called once *)
Theorem C97_no_result_refuted : py_searched PyOther = Ok (firstn 1 three_calls, (-1)%Z).
Proof. vm_compute. reflexivity. Qed.
Print Assumptions C97_no_result_refuted.
(** a match kept from an earlier call changes its text: "сон" has become "дом" when it is read in the third call *)
Theorem C97_kept_match_refuted : 
  py_find_match_mb (fun (u : list py_match * list (res bytes)) lid ms sforms =>
      match fst u with
      | [] => ((ms, map (py_match_text sforms) ms), PyInt 0)
      | kept => ((kept, snd u ++ map (py_match_text sforms) kept), PyInt 0)
      end) Win1251 wild_arrays (repeat 7 48) (repeat 9 48) (repeat 0 64) [63; 238; 63] ([], []) =
  Ok (([PyMatch 0 3 0; PyMatch 4 3 3], [Ok [241; 238; 237]; Ok [241; 238; 237]; Ok [239; 238; 228]; Ok [241; 238; 237]; Ok [228; 238; 236]; Ok [228; 238; 236]]), 0%Z).
Proof. vm_compute. reflexivity. Qed.
Print Assumptions C97_kept_match_refuted.

(** ** C98.  The attribute [lemma] of a narrow result is read as UTF-8: with the code page UTF-8 it is the text of the normal form. *)
Theorem C98_utf8_lemma : forall k s, is_bytes s -> py_str (encode (utf8 k) s) = Some (map to_unicode s).
Proof. exact py_str_utf8. Qed.
Print Assumptions C98_utf8_lemma.
(** so every lemma [lemmatize] gives for a word in UTF-8 can be read; it needs the forms of the dictionary to be windows-1251 texts *)
Theorem C98_rows_readable : forall k dwsets (gs : list lexeme) ls, Forall is_bytes ls ->
  Forall (fun row => match pl_lemma row with Some l => py_str l <> None | None => True end) (map (rus_row dwsets (encode (utf8 k))) (combine gs ls)).
Proof.
  intros k dwsets gs ls Hb. apply Forall_map. apply Forall_forall. intros (g, l) Hin. cbn [rus_row pl_lemma fst snd told_lemma]. unfold told_lemma. destruct (wants_lemma dwsets); [|exact I].
  rewrite py_str_utf8; [discriminate|]. rewrite Forall_forall in Hb. apply Hb. exact (in_combine_r _ _ _ _ Hin).
Qed.
Print Assumptions C98_rows_readable.
(** with another code page reading it raises an exception: no word of Cyrillic letters in windows-1251 can be read *)
Theorem C98_other_pages_refuted : forall s, s <> [] -> Forall (fun c => 192 <= c < 256) s -> py_str (encode (coding Win1251) s) = None.
Proof. intros s H1 H2. cbn [coding]. rewrite encode_plain. apply py_str_cyrillic; assumption. Qed.
Print Assumptions C98_other_pages_refuted.
Example C98_case : py_str (encode (utf8 1) [241; 238; 237]) = Some [1089; 1086; 1085] /\ py_str [241; 238; 237] = None /\ py_str [99; 97; 116] = Some [99; 97; 116] /\
  py_str [224; 128; 128] = None /\ py_str [240; 159; 152; 128] = Some [128512] /\ py_str [237; 160; 128] = None.
Proof. repeat split; vm_compute; reflexivity. Qed.

(** ** C99.  The guessers [mlfaruMb], [mlfaenMb], [mlfaruWc], [mlfaenWc]: the guesses by decreasing weight; the forms of a guess.  As C71 and
    C75. *)
Theorem C99_lemmatize_partial : forall T P rank sort junk F t cls below lojunk lxbuff stbuff grbuff w dwsets l, page_ok P ->
  guesser_in T F t cls -> (forall x, Permutation x (sort x) /\ falling (sort x)) ->
  let u := text_of P w in let low := map (locase (tg_casing T)) u in
  proper_in T P u -> w <> [] -> N.of_nat (length w) < 2 ^ 64 - 1 -> readable below t (rev low) -> (forall n, workable T (junk n)) ->
  acceptable_in T cls (ignores_capitals dwsets) u (guesses (contents t) low) l ->
  length lxbuff = 32%nat -> length stbuff = 2048%nat -> length grbuff = 512%nat ->
  guessed (map (py_guess_row T P (encode (coding P)) cls rank low dwsets) (FuzzySpec.runs l))
    (py_guess_room T cls low dwsets (FuzzySpec.runs l) (fit_in (coding P) 2048 (map (normal_in T cls low) (FuzzySpec.runs l))))
    (py_guess_mb T P rank sort junk F below lojunk lxbuff stbuff grbuff w dwsets).
Proof. exact py_guess_answer. Qed.
Print Assumptions C99_lemmatize_partial.
Theorem C99_wide_lemmatize_partial : forall W T rank sort junk F t cls below lojunk lmbuff szlemm szword lxbuff stbuff grbuff w dwsets l, wide_ok W ->
  guesser_in T F t cls -> (forall x, Permutation x (sort x) /\ falling (sort x)) ->
  let u := narrowed W w in let low := map (locase (tg_casing T)) u in
  proper_in T Win1251 u -> (length w + wslack W <= 240)%nat -> readable below t (rev low) -> (forall n, workable T (junk n)) ->
  acceptable_in T cls (ignores_capitals dwsets) u (guesses (contents t) low) l ->
  length lmbuff = 32%nat -> length szlemm = 240%nat -> length lxbuff = 32%nat -> length stbuff = 2048%nat -> length grbuff = 512%nat ->
  guessed (map (py_guess_row T Win1251 (widened W) cls rank low dwsets) (FuzzySpec.runs l))
    (py_guess_room T cls low dwsets (FuzzySpec.runs l) (fit 240 (map (normal_in T cls low) (FuzzySpec.runs l))))
    (py_guess_wc W T rank sort junk F below lojunk lmbuff szlemm szword lxbuff stbuff grbuff w dwsets).
Proof. exact py_guess_wide. Qed.
Print Assumptions C99_wide_lemmatize_partial.
Theorem C99_build_form_partial : forall T P F lojunk junk stbuff w i c id, page_ok P -> has_class F i c -> by_form (c_inflex c) -> proper_in T P (text_of P w) -> w <> [] ->
  N.of_nat (length w) < 2 ^ 64 - 1 -> length stbuff = 2048%nat -> workable T junk ->
  (forall f, In f (c_inflex c) -> fst f = id -> (length (text_of P w) + length (snd f) <= longest T)%nat) ->
  let fs := variants_in T c (map (locase (tg_casing T)) (text_of P w)) id in
  listed (map (encode (coding P)) fs) (fit_in (coding P) 2048 fs) (py_guess_form_mb T P F lojunk junk stbuff w i id).
Proof. exact py_guess_forms. Qed.
Print Assumptions C99_build_form_partial.
Theorem C99_wide_build_form_partial : forall W T F lojunk junk slemma szform stbuff w i c id, wide_ok W -> has_class F i c -> by_form (c_inflex c) ->
  proper_in T Win1251 (narrowed W w) -> (length w + wslack W <= 64)%nat -> length szform = 96%nat -> length stbuff = 2048%nat -> workable T junk ->
  (forall f, In f (c_inflex c) -> fst f = id -> (length w + length (snd f) <= longest T)%nat) ->
  let fs := variants_in T c (map (locase (tg_casing T)) (narrowed W w)) id in
  listed (map (widened W) fs) (guess_fit 2048 fs) (py_guess_form_wc W T F lojunk junk slemma szform stbuff w i id).
Proof. exact py_guess_forms_wide. Qed.
Print Assumptions C99_wide_build_form_partial.
(** "дона" of "Дон", in UTF-8 and wide *)
Example C99_case : has_class guess_arrays 0 masc /\ by_form (c_inflex masc) /\
  py_guess_form_mb Russian (Utf8 (utf8 1)) guess_arrays (repeat 0 256) (repeat 0 64) st0 (encode (utf8 1) [196; 238; 237]) 0 1 = Ok [[208; 180; 208; 190; 208; 189; 208; 176]] /\
  py_guess_form_wc (utf16 1) Russian guess_arrays (repeat 0 256) (repeat 0 64) (repeat 0 64) (repeat 0 96) st0 [1044; 1086; 1085] 0 1 = Ok [[1076; 1086; 1085; 1072]].
Proof. split; [apply guess_masc|]. split; [apply masc_sorted|]. split; vm_compute; reflexivity. Qed.
