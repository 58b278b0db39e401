(** * CompileFormsSpec: what the calls answer about a dictionary compiled from Russian sources.  SPECIFICATION ONLY. *)
From Verif Require Import Base Serial WordTree TreeSpec Stems StemSpec CharTables CapScheme CapSpec GramMap RusRuntime LevelSpec RusSpec RusBuild RusBuildSpec RusReadings RusLemmaSpec
  Wild WildSpec Compile CompileSpec.
Local Open Scope N_scope.

(** ** Forms *)

(** [part] is a changing part of words of class [m] for the description asked for: the grammar is the one asked for, the flags have one in
    common with it; of several alternations of its level the first is taken. *)
Inductive asked_part (ftable mtable : bytes) (m : morphclass) (fx : flexinfo) : bytes -> Prop :=
| asked_never : inflected m = false -> asked_part ftable mtable m fx []
| asked_ending s f : inflected m = true -> m_mtoffs m = 0 -> ending ftable (m_tfoffs m) s (gramm fx) f -> N.land f (flags fx) <> 0 ->
    asked_part ftable mtable m fx s
| asked_mixed before mask alt behind s f : inflected m = true -> m_mtoffs m <> 0 -> mix_at mtable (m_mtoffs m) (before ++ (mask, alt) :: behind) ->
    let level := alternation_level (m_wdinfo m) (gramm fx) (flags fx) in
    N.testbit mask (level - 1) = true -> (forall mask' alt', In (mask', alt') before -> N.testbit mask' (level - 1) = false) ->
    ending ftable (m_tfoffs m) s (gramm fx) f -> N.land f (flags fx) <> 0 ->
    asked_part ftable mtable m fx (alt ++ s).

(** The numbers of forms: words that neither change nor govern a case have the number 255 only, other words those that mean something. *)
Definition has_number (m : morphclass) (id : N) : Prop :=
  if m_tfoffs m =? 0 then id = 255 else id <> 255 /\ GetGramInfo (m_wdinfo m) id <> noflex.
(** ... of words found in a text: here a preposition has the number 255 (see C24). *)
Definition found_number (m : morphclass) (id : N) : Prop :=
  if inflected m then id <> 255 /\ GetGramInfo (m_wdinfo m) id <> noflex else id = 255.

(** The lexeme with the changing part [part], in its capitalisation. *)
Definition spelled (x : Compile.lexeme) (part : bytes) : bytes :=
  respell rus_casing (required_case (m_wdinfo (l_class x))) (l_stem x ++ part ++ l_post x).

(** Lexemes forms can be built from: stems and endings fit the buffers, no string has a zero byte, ids take at most three bytes (see C02). *)
Record lexeme_buildable (ftable mtable : bytes) (x : Compile.lexeme) : Prop := {
  lb_stem : (length (l_stem x) <= 48)%nat;
  lb_post : ~ In 0 (l_post x);
  lb_endings : inflected (l_class x) = true -> forall s g f, ending ftable (m_tfoffs (l_class x)) s g f -> (length s <= 64)%nat;
  lb_mix : forall mx, m_mtoffs (l_class x) <> 0 -> mix_at mtable (m_mtoffs (l_class x)) mx -> Forall (fun ma => ~ In 0 (snd ma)) mx;
  lb_id : l_id x < 2 ^ 24;
}.

(** Lexemes whose forms are recognised (see C25). *)
Record lexeme_recognisable (ftable mtable : bytes) (x : Compile.lexeme) : Prop := {
  lr_bounds : bounds_cover ftable mtable x;
  lr_number : N.testbit (m_wdinfo (l_class x)) 6 = true -> IsVerb (m_wdinfo (l_class x)) = false /\ IsAdjective (m_wdinfo (l_class x)) = false;
  lr_animacy : In (m_wdinfo (l_class x) mod 64) [9; 15; 18] -> inflected (l_class x) = true ->
    forall s g f, ending ftable (m_tfoffs (l_class x)) s g f -> N.land g 0x7000 = 0x3000 -> N.testbit f 1 = true -> N.testbit f 0 = false;
  lr_postfix : forall fx, asked_part ftable mtable (l_class x) fx [] -> match l_post x with [] => True | c :: _ => c <= l_max x end;
  lr_letters : forall fx part, asked_part ftable mtable (l_class x) fx part -> Forall (good_char rus_casing) (l_stem x ++ part ++ l_post x);
}.

(** ** Normal forms *)

(** The grammar of the dictionary form of words of class [m] (see [dict_gramm] in RusLemmaSpec.v). *)
Definition class_gramm (m : morphclass) (dwsets : N) (gf : N * N) : N :=
  if IsVerb (m_wdinfo m)
  then if N.testbit dwsets 8 && IsParticiple (fst gf) then N.lor (N.land (fst gf) 0x67) 0x200 else 1
  else (if IsAdjective (m_wdinfo m) then 0x200 else 0) + (if N.testbit (m_wdinfo m) 6 then 0x800 else 0).

(** [part] is the changing part of a dictionary form: of that grammar, else (verbs and adjectives) with bit 15 added. *)
Definition dict_part (ftable mtable : bytes) (m : morphclass) (dwsets : N) (gf : N * N) (part : bytes) : Prop :=
  let g := class_gramm m dwsets gf in
  asked_part ftable mtable m (Flexinfo g 3) part \/
  (IsVerb (m_wdinfo m) = true \/ IsAdjective (m_wdinfo m) = true) /\ (forall p, ~ asked_part ftable mtable m (Flexinfo g 3) p) /\
  asked_part ftable mtable m (Flexinfo (N.lor g 0x8000) 3) part.

(** The normal form of [x] for a word described by [gf]: the least of the dictionary forms. *)
Definition source_lemma (ftable mtable : bytes) (x : Compile.lexeme) (dwsets : N) (gf : N * N) (s : bytes) : Prop :=
  exists part, dict_part ftable mtable (l_class x) dwsets gf part /\
    (forall p, dict_part ftable mtable (l_class x) dwsets gf p -> let form q := l_stem x ++ q ++ l_post x in lex_lt (form part) (form p) \/ form part = form p) /\
    s = spelled x part.

(** The description shown to the user. *)
Definition source_shown (m : morphclass) (gf : N * N) : gram :=
  if inflected m then let wd := N.ldiff (m_wdinfo m) 0xf800 in Gram wd (MapWordInfo wd (fst gf) (snd gf)) (fst gf) (snd gf)
  else Gram (m_wdinfo m) 255 (fst gf) (snd gf).

(** Reading [r] of the spelling [w] is about lexeme [x] of the sources: its descriptions are those of forms of [x] spelled [w], and what is reported
    for it - the id, the descriptions, the normal form, further forms - is what the sources say. *)
Record tells (ftable mtable : bytes) (xs : list Compile.lexeme) (ignore : bool) (w : bytes) (r : reading) (x : Compile.lexeme) : Prop := {
  te_words : rd_descs r <> [] /\ forall g f, In (g, f) (rd_descs r) -> source_word ftable mtable xs ignore w x (rd_part r) g f;
  te_id : rd_id r = l_id x;
  te_shown : rd_shown r = map (source_shown (l_class x)) (rd_descs r);
  te_lemma : forall dwsets s, lemma_of dwsets r s <-> source_lemma ftable mtable x dwsets (hd (0, 0) (rd_descs r)) s;
  te_dict : forall dwsets, rd_dict_forms dwsets r <> [] <-> exists part, dict_part ftable mtable (l_class x) dwsets (hd (0, 0) (rd_descs r)) part;
  te_forms : forall id s, In s (reading_forms id r) <->
    found_number (l_class x) id /\ exists part, asked_part ftable mtable (l_class x) (GetGramInfo (m_wdinfo (l_class x)) id) part /\ s = spelled x part;
}.

(** No word of the sources spelled [w] is a stem followed by a postfix that starts above the greatest first letter (see C11). *)
Definition no_bare_word (ftable mtable : bytes) (xs : list Compile.lexeme) (w : bytes) : Prop :=
  forall x part g f, source_word ftable mtable xs true w x part g f -> part <> [] \/ match l_post x with [] => True | c :: _ => c <= l_max x end.

(** ** Search *)

(** The number reported for a form. *)
Definition source_form_id (m : morphclass) (g f : N) : N := if inflected m then MapWordInfo (m_wdinfo m) g f else 255.

(** The words of [x] can be searched: they take at most 47 bytes, even if each element is the longest; words that do not change have no postfix;
    the id is not 0 (see C26, C27). *)
Record lexeme_searchable (ftable mtable : bytes) (x : Compile.lexeme) : Prop := {
  ls_stem : (length (l_stem x) <= 47)%nat;
  ls_room : inflected (l_class x) = true -> exists h a,
    (forall s g f, ending ftable (m_tfoffs (l_class x)) s g f -> (length s <= h)%nat) /\
    (forall mx, m_mtoffs (l_class x) <> 0 -> mix_at mtable (m_mtoffs (l_class x)) mx -> Forall (fun ma => (length (snd ma) <= a)%nat) mx) /\
    (length (l_stem x) + a + h + length (l_post x) <= 47)%nat;
  ls_fixed : inflected (l_class x) = false -> l_post x = [];
  ls_id : l_id x <> 0;
}.

(** The arrays with [tl] lying behind the tree of stems in memory. *)
Definition followed_by (A : arrays) (tl : bytes) : arrays := Arrays (flexTree A) (mxTables A) (classmap A) (stemtree A ++ tl) (lidstree A).

(** [group] are the forms number [id] of a lexeme [x] that has a form spelled [w]. *)
Definition word_forms (ftable mtable : bytes) (xs : list Compile.lexeme) (ignore : bool) (w : bytes) (id : N) (x : Compile.lexeme) (group : list bytes) : Prop :=
  (exists part g f, source_word ftable mtable xs ignore w x part g f) /\
  forall s, In s group <-> found_number (l_class x) id /\ exists part, asked_part ftable mtable (l_class x) (GetGramInfo (m_wdinfo (l_class x)) id) part /\ s = spelled x part.
