(** * RusTextSpec: how the articles of the Russian dictionary are written and what they say.  SPECIFICATION ONLY. *)
From Coq Require Import String Ascii.
From Verif Require Import Base Serial WordTree TreeSpec Stems StemSpec CharTables CapScheme CapSpec GramMap RusRuntime LevelSpec RusSpec Compile CompileSpec CompileFormsSpec Resolve ResolveSpec Api Utf8 EngCompileSpec RusText.
Local Open Scope N_scope.
Local Open Scope list_scope.
Notation length := List.length.

(** ** Articles *)

(** Notes behind the four fields of an article: the unchanging end of the word, the kind of alternation of a verb, an attribute, any other word. *)
Inductive note := Postfix (s : bytes) | Remark (s : bytes) | Attribute (i : nat) | Aside (s : bytes).
(** [сон-то # м 1*b post:-то {разг.} LID:6]: the headword, the mark of the article with the type, the type, the index, notes, the lexeme id. *)
Record rarticle := RArticle { r_head : bytes; r_mark : bytes; r_type : bytes; r_index : bytes; r_notes : list note; r_id : N }.

Definition attributes : list string := ["{превосх.}"; "{исчисл.}"; "{разг.}"; "{руг.}"]%string.
Definition put_note (n : note) : bytes :=
  match n with
  | Postfix s => text "post:" ++ s
  | Remark s => 45 :: s ++ [45]
  | Attribute i => cyr (nth i attributes ""%string)
  | Aside s => s
  end.

Definition lacks (pat s : bytes) : Prop := forall a b, s <> a ++ pat ++ b.
Definition visible (c : N) : Prop := 32 < c.
(** Fields: visible characters, without the mark of the lexeme id, shorter than the compiler's arrays. *)
Definition field (room : nat) (s : bytes) : Prop := Forall visible s /\ s <> [] /\ lacks (text "LID:") s /\ (length s < room)%nat.
(** Texts in notes: no colon, no brace, no hyphen; a postfix may have one hyphen. *)
Definition note_text (s : bytes) : Prop := Forall (fun c => visible c /\ c <> 58 /\ c <> 123) s /\ s <> [].
Definition note_ok (n : note) : Prop :=
  match n with
  | Postfix s => note_text s /\ (count_occ N.eq_dec s 45%N <= 1)%nat
  | Remark s | Aside s => note_text s /\ ~ In 45 s
  | Attribute i => (i < 4)%nat
  end.

Record rarticle_ok (x : rarticle) : Prop := {
  ro_head : field 256 (r_head x);
  ro_comment : firstn 2 (r_head x) <> text "//";
  ro_mark : field 32 (r_mark x);
  ro_type : field 32 (r_type x);
  ro_index : field 32 (r_index x);
  ro_notes : Forall note_ok (r_notes x);
  ro_id : 0 < r_id x < 2 ^ 32;
}.

Definition gap (s : bytes) : Prop := Forall blank s /\ s <> [].
Inductive put_notes : list note -> bytes -> Prop :=
| pn_nil : put_notes [] []
| pn_cons n ns sp rest : gap sp -> put_notes ns rest -> put_notes (n :: ns) (sp ++ put_note n ++ rest).
(** The text of an article, and a line with it. *)
Inductive rarticle_text (x : rarticle) : bytes -> Prop :=
| Rt_all sp1 sp2 sp3 notes sp4 num : gap sp1 -> gap sp2 -> gap sp3 -> put_notes (r_notes x) notes -> gap sp4 -> numeral num (r_id x) ->
    rarticle_text x (r_head x ++ sp1 ++ r_mark x ++ sp2 ++ r_type x ++ sp3 ++ r_index x ++ notes ++ sp4 ++ text "LID:" ++ num).
Definition rwritten (x : rarticle) (line body : bytes) : Prop :=
  rarticle_ok x /\ exists sp0 sp5, line = sp0 ++ body ++ sp5 /\ Forall blank sp0 /\ Forall line_end sp5 /\ rarticle_text x body.

(** ** Meaning *)

(** The types: numbers, "plural only" (or, of conjunctions, coordinating), and how they are denoted: mark and type. *)
Definition word_types : list (N * bool * list string) := [
   (1, false, ["# нсв"]); (2, false, ["# нсв_нп"]); (3, false, ["# св"]); (4, false, ["# св_нп"]); (5, false, ["# св-нсв"]);
   (6, false, ["# св-нсв_нп"]); (7, false, ["# м"; "м мп"; "м ммс"]); (7, true, ["мн. м"; "# мн._от_м"; "мн._неод. мп"]);
   (8, false, ["# мо"; "мо мпо"; "мо момс"]); (8, true, ["мн. мо"; "мн._одуш. мпо"]); (9, false, ["# м//мо"; "# мо//м"]);
   (10, false, ["м с"]); (11, false, ["мо жо"]); (12, false, ["мо со"]); (13, false, ["# ж"; "ж жп"; "ж жмс"]);
   (13, true, ["мн. ж"; "# мн._от_ж"]); (14, false, ["# жо"; "жо жпо"]); (14, true, ["мн. жо"]); (15, false, ["# ж//жо"; "# жо//ж"]);
   (16, false, ["# с"; "с сп"; "с смс"]); (16, true, ["мн. с"; "# мн._от_с"; "мн._от_с сп"]); (17, false, ["# со"; "со спо"]);
   (17, true, ["мн. со"]); (18, false, ["# с//со"; "# со//с"]); (19, false, ["м//ж ж"]);
   (20, false, ["# мо-жо"; "# мо//жо"; "мо-жо жо"; "мо//жо жо"]); (21, false, ["# м//с"; "# с//м"]); (22, false, ["мо//со со"]);
   (23, false, ["# ж//с"; "# с//ж"]); (24, true, ["мн. ж//м"; "мн. м//ж"]); (25, false, ["# п"]); (26, false, ["# г-п"]);
   (27, false, ["п мс"]); (28, false, ["мс-п мсп"; "# мс-п"]); (29, false, ["# мс"]); (29, true, ["# мс_мн."]); (30, false, ["# мсм"]);
   (31, false, ["# мсж"]); (32, false, ["# мсс"]); (33, false, ["# числ."]); (34, false, ["# числ._2"]); (35, false, ["# числ._с"]);
   (36, false, ["числ.-п мс"; "числ.-п мсп"; "числ.-п мс-п"]); (37, false, ["# и"]); (38, false, ["# им"; "им иж"]);
   (39, false, ["# иж"]); (40, false, ["# ом"]); (41, false, ["# ож"]); (42, false, ["# ф"; "ф фп"; "ф фж"]);
   (43, false, ["# г"; "# гп"]); (44, false, ["# гм"; "# гмп"]); (45, false, ["# гж"; "# гжп"]); (46, false, ["# гс"; "# гсп"]);
   (47, true, ["# мн._от_гж"; "# мн._от_гм"; "мн. гп"]); (48, false, ["# вводн."]); (49, false, ["# межд."]);
   (50, false, ["# предик."]); (51, false, ["# предл."]); (52, false, ["# союз"]); (52, true, ["# союз_соч."]);
   (53, false, ["# част."]); (54, false, ["# н"]); (55, false, ["# сокр._сущ."]); (56, false, ["# сокр._прил."]);
   (57, false, ["# сокр._вводн."]); (58, false, ["# сравн."]); (59, false, ["# АБ"]); (60, false, ["# аб"]); (61, false, ["# #1"]);
   (62, false, ["# #2"])]%string.
Definition typed (mark type : bytes) (number : N) (plural : bool) : Prop :=
  exists names name, In (number, plural, names) word_types /\ In name names /\ cyr name = mark ++ 32 :: type.
(** Types 48 and above do not change. *)
Definition constant (number : N) : Prop := 48 <= number.

(** The first postfix and the first remark. *)
Fixpoint post_of (l : list note) : bytes := match l with [] => [] | Postfix s :: _ => s | _ :: l' => post_of l' end.
Fixpoint remark_of (l : list note) : bytes := match l with [] => [] | Remark s :: _ => s | _ :: l' => remark_of l' end.
Definition has_attribute (l : list note) (i : nat) : bool := existsb (fun n => match n with Attribute j => Nat.eqb i j | _ => false end) l.
(** Attributes are bits 7 ... 10. *)
Definition attribute_bits (l : list note) : N :=
  (if has_attribute l 0 then 128 else 0) + (if has_attribute l 1 then 256 else 0) + (if has_attribute l 2 then 512 else 0) + (if has_attribute l 3 then 1024 else 0).
(** The word class of the article. *)
Definition class_bits (x : rarticle) (number : N) (plural : bool) : N := number + (if plural then 64 else 0) + attribute_bits (r_notes x).

(** The headword: e stands for ё, and '=' is no letter. *)
Definition plain_word (s : bytes) : bytes := map (fun c => if c =? 184 then 229 else c) (filter (fun c => negb (c =? 61)) s).

(** The cases governed by a preposition: those listed behind ШП:. *)
Definition cases_in (index : bytes) (i : nat) : Prop :=
  exists a b rest, index = a ++ cyr "ШП:" ++ b ++ rest /\ lacks (cyr "ШП:") (a ++ removelast (cyr "ШП:")) /\ incl b (cyr "ИРДВТП") /\
    (forall c r, rest = c :: r -> ~ In c (cyr "ИРДВТП")) /\ exists c, nth_error (cyr "ИРДВТП") i = Some c /\ In c b.

(** The levels of alternation of a verb, by the beginning of its index. *)
Definition verb_kind (index : bytes) : N :=
  if list_eq_dec N.eq_dec (firstn 2 index) (text "11") then 2
  else if existsb (fun p => if list_eq_dec N.eq_dec (firstn (length (text p)) index) (text p) then true else false) ["6"; "9"; "10"; "14"; "5c/c"; "5*c/c"]%string then 1
  else 0.

(** What the article with index [index] gives: nothing when its type is unknown, or it changes but has no table (and its index is not 0). *)
Inductive entry (depth : nat) (T : tables) (x : rarticle) (index : bytes) : res (option lexeme) -> Prop :=
| entry_untyped : (forall n p, ~ typed (r_mark x) (r_type x) n p) -> entry depth T x index (Ok None)
| entry_no_table n p : typed (r_mark x) (r_type x) n p -> ~ constant n -> index <> text "0" ->
    lookup (r_type x ++ 32 :: index) (tb_findex T) = None -> entry depth T x index (Ok None)
| entry_found n p off cases at_mark r : typed (r_mark x) (r_type x) n p ->
    (constant n /\ off = 0 \/
     ~ constant n /\ (lookup (r_type x ++ 32 :: index) (tb_findex T) = Some off \/
                      lookup (r_type x ++ 32 :: index) (tb_findex T) = None /\ index = text "0" /\ off = 0)) ->
    (forall i, N.testbit cases (N.of_nat i) = true <-> cases_in index i) ->
    let word := plain_word (r_head x) in let post := post_of (r_notes x) in
    (length post <= length word)%nat ->
    (** where the end of the stem is marked *)
    match at_mark with
    | None => ~ In 64 (firstn (length word - length post) word)
    | Some k => exists rest, firstn (length word - length post) word = firstn k word ++ 64 :: rest /\ ~ In 64 (firstn k word) /\ (k <= length word)%nat
    end ->
    resolve depth (tb_flex T) (tb_mix T) (match lookup (r_type x ++ 32 :: index) (tb_mindex T) with Some l => l | None => [] end) word post
      (remark_of (r_notes x)) (class_bits x n p) off cases at_mark (existsb (N.eqb 58) index) (if n <=? 6 then verb_kind index else 0) (r_id x) = r ->
    entry depth T x index r.

(** An index of the form a//b that gives nothing itself stands for the indexes a and b. *)
Inductive senses (depth : nat) (T : tables) (x : rarticle) : list lexeme -> Prop :=
| senses_one l : entry depth T x (r_index x) (Ok (Some l)) -> senses depth T x [l]
| senses_none : entry depth T x (r_index x) (Ok None) -> lacks (text "//") (r_index x) -> senses depth T x []
| senses_two a b la lb : entry depth T x (r_index x) (Ok None) -> r_index x = a ++ text "//" ++ b -> lacks (text "//") (a ++ text "/") ->
    entry depth T x a (Ok la) -> entry depth T x b (Ok lb) ->
    senses depth T x (match la with Some l => [l] | None => [] end ++ match lb with Some l => [l] | None => [] end).

(** [l] is what article [x] says. *)
Definition lexeme_of (depth : nat) (T : tables) (x : rarticle) (l : lexeme) : Prop := exists ls, senses depth T x ls /\ In l ls.

(** Table references are 16-bit numbers above 0. *)
Definition tables_ok (T : tables) : Prop := forall name off, lookup name (tb_findex T) = Some off -> 0 < off < 2 ^ 16.

(** ** Files *)

(** Comments, and lines that are neither comments nor articles: empty ones and those without a lexeme id. *)
Definition comment (line body : bytes) : Prop :=
  exists sp0 sp5 rest, line = sp0 ++ body ++ sp5 /\ Forall (fun c => c <= 32) sp0 /\ Forall (fun c => c <= 32) sp5 /\ body = text "//" ++ rest /\ visible (last body 0).
Definition no_entry (line : bytes) : Prop :=
  Forall (fun c => c <= 32) line \/ lacks (text "LID:") line /\ forall body, ~ comment line body.

(** [file] consists of [lines], each with its newline (the last one may have none) and of at most 1022 characters. *)
Inductive in_lines : bytes -> list bytes -> Prop :=
| il_nil : in_lines [] []
| il_last line : ~ In 10 line -> line <> [] -> (length line <= 1022)%nat -> in_lines line [line]
| il_more line file lines : ~ In 10 line -> (length line < 1022)%nat -> in_lines file lines -> in_lines (line ++ 10 :: file) ((line ++ [10]) :: lines).

(** The lines contain the articles [xs], these give the lexemes [ls]; comments and articles without meaning are reported as unknown. *)
Inductive rlists (depth : nat) (T : tables) : list bytes -> list rarticle -> list lexeme -> list bytes -> Prop :=
| rl_nil : rlists depth T [] [] [] []
| rl_none line lines xs ls us : no_entry line -> rlists depth T lines xs ls us -> rlists depth T (line :: lines) xs ls us
| rl_comment line body lines xs ls us : comment line body -> rlists depth T lines xs ls us -> rlists depth T (line :: lines) xs ls (body :: us)
| rl_article line body lines x l xs ls us : rwritten x line body -> senses depth T x l -> rlists depth T lines xs ls us ->
    rlists depth T (line :: lines) (x :: xs) (l ++ ls) (match l with [] => [body] | _ => [] end ++ us).

(** ** Conditions for whole dictionaries *)

(** The tables: every name refers to tables whose endings are words of the alphabet, at most 64 descriptions each; alternations have
    letters, or the endings used with them have suitable ones.  (The tables of words have a space in their names: type, space, index.) *)
Record tables_valid (alphabet : bytes) (T : tables) : Prop := {
  tv_alphabet : alphabet_ok alphabet;
  tv_bytes : is_bytes (tb_flex T);
  tv_offsets : tables_ok T;
  tv_links : forall name off, In 32 name -> lookup name (tb_findex T) = Some off -> plain_links (tb_flex T) off;
  tv_endings : forall name off s g f, lookup name (tb_findex T) = Some off -> ending (tb_flex T) off s g f -> incl s alphabet;
  tv_descs : forall name off s l, lookup name (tb_findex T) = Some off -> NoDup l -> (forall gf, In gf l -> ending (tb_flex T) off s (fst gf) (snd gf)) -> (length l <= 64)%nat;
  tv_mixes : forall name alts o cond, lookup name (tb_mindex T) = Some alts -> In (o, cond) alts ->
    0 < o < 2 ^ 16 /\ (exists mx, mix_at (tb_mix T) o mx) /\ forall mx off, mix_at (tb_mix T) o mx -> lookup name (tb_findex T) = Some off -> mixed_letters (tb_flex T) off mx;
}.
(** An article: letters of the alphabet before the postfix, a postfix of less than 128 bytes; a preposition has no attributes and governs some case. *)
Record rarticle_valid (alphabet : bytes) (x : rarticle) : Prop := {
  rv_head : incl (firstn (length (plain_word (r_head x)) - length (post_of (r_notes x))) (plain_word (r_head x))) alphabet;
  rv_post : is_bytes (post_of (r_notes x)) /\ (length (post_of (r_notes x)) < 128)%nat;
  rv_prep : forall p, typed (r_mark x) (r_type x) 51 p -> attribute_bits (r_notes x) = 0 /\ exists i, cases_in (r_index x) i;
}.

(** Spelling [w] is a form of lexeme [l] told by one of the articles, in acceptable capitalisation unless capitals are ignored. *)
Definition article_word (depth : nat) (T : tables) (xs : list rarticle) (ignore : bool) (w : bytes) (x : rarticle) (l : lexeme) (part : bytes) (g f : N) : Prop :=
  In x xs /\ lexeme_of depth T x l /\ form_of (tb_flex T) (tb_mix T) l (map (locase rus_casing) w) part g f /\
  (ignore = false -> suits w (required_case (m_wdinfo (l_class l)))).
