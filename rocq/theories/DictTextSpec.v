(** * DictTextSpec: what the texts of inflexion tables, alternations and the dictionary mean together.  SPECIFICATION ONLY.
    Tables and alternations are the definitions of [TfcSpec] and [MakeichSpec], articles those of [RusTextSpec]. *)
From Coq Require Import String.
From Verif Require Import Base Serial WordTree TreeSpec Stems StemSpec CharTables CapScheme CapSpec GramMap RusRuntime LevelSpec RusSpec Compile CompileSpec ResolveSpec StripSpec Api EngCompileSpec Utf8 RusText RusTextSpec Tfc TfcSpec Makeich MakeichSpec.
Local Open Scope N_scope.
Local Open Scope list_scope.
Notation length := List.length.

(** ** Conditions *)

(** Table [m] continues table [n], directly or through others; through empty elements. *)
Inductive table_linked (ds : list definition) : bytes -> bytes -> Prop :=
| tk_self n : table_linked ds n n
| tk_next n lines it m : defined ds n lines -> In it lines -> linked_to it -> table_linked ds (fx_next it) m -> table_linked ds n m.
Inductive table_begins (ds : list definition) : bytes -> bytes -> Prop :=
| tg_self n : table_begins ds n n
| tg_next n lines it m : defined ds n lines -> In it lines -> fx_tail it = [] -> linked_to it -> table_begins ds (fx_next it) m -> table_begins ds n m.
Definition fewer (k : nat) (lines : list fxitem) : Prop := forall l, NoDup l -> incl l lines -> (length l < k)%nat.
Definition plain_tables (ds : list definition) (name : bytes) : Prop :=
  forall n lines, table_begins ds name n -> defined ds n lines ->
    fewer 128 lines /\ forall it, In it lines -> fx_tail it = [] -> N.testbit (fx_flags it) 7 = false -> ~ linked_to it.
(** The strings of an alternation have letters; or some ending of the words that have it is empty, or begins with a letter not above those of
    the other strings, and the letters that endings begin with are not above all of those. *)
Definition letters_given (ds : list definition) (name : bytes) (strings : list bytes) : Prop :=
  Forall (fun s => exists c r, s = c :: r /\ c <> 0) strings \/
  (forall c r, In (c :: r) strings -> c <> 0 /\ exists s g f, tells ds name s g f /\ match s with [] => True | c' :: _ => c' <= c end) /\
  (forall c r g f, tells ds name (c :: r) g f -> exists c' r', In (c' :: r') strings /\ c <= c').
(** The tables of words have a space in their names: type, space, index. *)
Record texts_valid (alphabet : bytes) (ds : list definition) (ms : list mixdef) : Prop := {
  tx_alphabet : alphabet_ok alphabet;
  tx_format : Forall fits_format ds;
  tx_defined : links_defined ds;
  tx_size : whole_size ds <= 0x20000;
  tx_mix_format : Forall mix_fits ms;
  tx_consistent : consistent ms;
  tx_mix_size : mixes_size ms <= 0x10000;
  tx_links : forall name lines, In 32 name -> defined ds name lines -> plain_tables ds name;
  tx_endings : forall name s g f, tells ds name s g f -> incl s alphabet;
  tx_descs : forall name s l, NoDup l -> (forall gf, In gf l -> tells ds name s (fst gf) (snd gf)) -> (length l <= 64)%nat;
  tx_mixes : forall name lines x, defined ds name lines -> In x (mixes_of ms name) -> letters_given ds name (ml_strings x);
}.

(** ** Forms *)

(** [part] is the changing part of a form, described by (g, f), of words of class [wd] with table [name] and alternation [mix]. *)
Inductive part_told (ds : list definition) (wd : N) (name : bytes) : option mixline -> bytes -> N -> N -> Prop :=
| pt_ending s g f : tells ds name s g f -> (N.testbit wd 6 = true -> plural_of g = true) -> part_told ds wd name None s g f
| pt_mixed x s g f : tells ds name s g f -> (N.testbit wd 6 = true -> plural_of g = true) ->
    part_told ds wd name (Some x) (level_string (ml_strings x) (N.to_nat (alternation_level wd g f - 1)) ++ s) g f.

(** ** Stems *)

Definition normal_line (verb : bool) (nf : N) (it : fxitem) : Prop := if verb then fx_info it mod 128 = 1 else fx_info it = nf.
Definition reflexive_line (it : fxitem) : bool := N.testbit (fx_info it) 15.
Definition describe_line (it : fxitem) : described := (fx_tail it, fx_info it, fx_flags it).
Definition after_line (it : fxitem) (d : described) : described := let '(s, g, f) := d in (fx_tail it ++ s, N.lor (fx_info it) g, N.land (fx_flags it) f).
(** The endings of the normal form told by table [name], in order. *)
Inductive normal_told (ds : list definition) (verb : bool) (nf : N) : bytes -> list described -> Prop :=
| nt_table name lines l ls : defined ds name lines -> ordered lines l -> Forall2 (normal_of_line ds verb nf) l ls ->
    normal_told ds verb nf name (concat ls ++ if verb then map describe_line (filter reflexive_line l) else [])
with normal_of_line (ds : list definition) (verb : bool) (nf : N) : fxitem -> list described -> Prop :=
| nl_other it : ~ normal_line verb nf it -> normal_of_line ds verb nf it []
| nl_here it : normal_line verb nf it -> N.testbit (fx_flags it) 7 = false -> normal_of_line ds verb nf it [describe_line it]
| nl_further it l : normal_line verb nf it -> N.testbit (fx_flags it) 7 = true -> normal_told ds verb nf (fx_next it) l -> normal_of_line ds verb nf it (map (after_line it) l).
Definition normal_of_table (ds : list definition) (wd : N) (name word : bytes) (l : list described) : Prop :=
  normal_told ds (is_verb wd) (if is_verb wd then 0x8001 else normal_gramm wd word) name l.
(** The first alternation of the list that the stem has is taken off: its string is there and its condition holds. *)
Definition alternates_line (verb : bool) (stem rems : bytes) (x : mixline) : Prop := ends_with stem (level_string (ml_strings x) 0) /\ condition_holds verb (ml_cond x) stem rems.
Inductive alternation_told (xs : list mixline) (verb : bool) (rems stem : bytes) : bytes -> option mixline -> Prop :=
| at_none : Forall (fun x => ~ alternates_line verb stem rems x) xs -> alternation_told xs verb rems stem stem None
| at_found before x behind left : xs = before ++ x :: behind -> Forall (fun x => ~ alternates_line verb stem rems x) before ->
    alternates_line verb stem rems x -> stem = left ++ level_string (ml_strings x) 0 -> alternation_told xs verb rems stem left (Some x).
(** Conditions under which the search is exact: less than 128 elements of less than 16 letters per table; whenever the word ends with a
    continuation of an element it ends with the element and the continuation. *)
Record search_told (ds : list definition) (wd : N) (name word : bytes) : Prop := {
  st_plural : is_verb wd = true -> N.testbit wd 6 = false;
  st_links : forall n lines, table_linked ds name n -> defined ds n lines -> fewer 128 lines /\ Forall (fun it => (length (fx_tail it) < 16)%nat) lines;
  st_whole : forall n lines it l d, table_linked ds name n -> defined ds n lines -> In it lines -> normal_line (is_verb wd) (if is_verb wd then 0x8001 else normal_gramm wd word) it ->
    N.testbit (fx_flags it) 7 = true -> normal_of_table ds wd (fx_next it) word l -> In d l -> ends_with word (fst (fst d)) -> ends_with word (fx_tail it ++ fst (fst d));
  st_zero : ~ In 0 word;
}.
(** Verbs: reflexive elements have no further description and nothing must follow them; in the verb's own table they are infinitives. *)
Definition reflexive_end (ds : list definition) (name : bytes) : Prop :=
  (forall n lines it, table_linked ds name n -> defined ds n lines -> In it lines -> reflexive_line it = true -> N.testbit (fx_flags it) 7 = false /\ fx_info it mod 128 <= 1) /\
  (forall lines it, defined ds name lines -> In it lines -> reflexive_line it = true -> fx_info it mod 128 = 1).

(** ** Words *)

(** What an article says about a word: the stem; type, attributes and the kind of alternation; the table of its endings (none: it does not
    change), its alternation, the cases governed. *)
Record tword := TWord { tw_stem : bytes; tw_class : N; tw_table : option bytes; tw_mix : option mixline; tw_cases : N }.
(** [part] is the changing part of a form of the word. *)
Inductive word_part (ds : list definition) (tw : tword) : bytes -> N -> N -> Prop :=
| wp_fixed : tw_table tw = None -> word_part ds tw [] (tw_cases tw) 0
| wp_changing name part g f : tw_table tw = Some name -> part_told ds (tw_class tw) name (tw_mix tw) part g f -> word_part ds tw part g f.

Definition table_name (x : rarticle) (index : bytes) : bytes := r_type x ++ 32 :: index.
Definition no_table (ds : list definition) (name : bytes) : Prop := forall lines, ~ defined ds name lines.
(** The headword without its postfix; where the end of the stem is marked (64). *)
Definition without_postfix (x : rarticle) (base : bytes) : Prop := exists rest, plain_word (r_head x) = base ++ rest /\ length rest = length (post_of (r_notes x)).
Definition marked (base : bytes) (at_mark : option nat) : Prop :=
  match at_mark with
  | None => ~ In 64 base
  | Some k => exists rest, base = firstn k base ++ 64 :: rest /\ ~ In 64 (firstn k base) /\ (k <= length base)%nat
  end.
Definition colon_in (index : bytes) : bool := if in_dec N.eq_dec 58 index then true else false.
(** The kind of alternation is written to bits 11 and 12 of the word class when there is one. *)
Definition kind_bits (index : bytes) (number : N) (mix : option mixline) : N := match mix with None => 0 | Some _ => 2048 * (if number <=? 6 then verb_kind index else 0) end.
(** What the article with index [index] gives: nothing when its type is unknown, or it changes but has no table (and its index is not 0), or no
    ending of the normal form. *)
Inductive sense (ds : list definition) (ms : list mixdef) (x : rarticle) (index : bytes) : option tword -> Prop :=
| sn_untyped : (forall n p, ~ typed (r_mark x) (r_type x) n p) -> sense ds ms x index None
| sn_no_table n p : typed (r_mark x) (r_type x) n p -> ~ constant n -> index <> text "0" -> no_table ds (table_name x index) -> sense ds ms x index None
| sn_fixed n p base cases : typed (r_mark x) (r_type x) n p -> constant n \/ index = text "0" /\ no_table ds (table_name x index) ->
    without_postfix x base -> (forall i, N.testbit cases (N.of_nat i) = true <-> cases_in index i) ->
    sense ds ms x index (Some (TWord base (class_bits x n p) None None (if n =? 51 then cases else 0)))
| sn_changes n p base lines l at_mark stem left mix : typed (r_mark x) (r_type x) n p -> ~ constant n -> defined ds (table_name x index) lines ->
    without_postfix x base -> marked base at_mark -> normal_of_table ds (class_bits x n p) (table_name x index) base l ->
    unended base l at_mark (colon_in index) (Some stem) ->
    alternation_told (mixes_of ms (table_name x index)) (is_verb (class_bits x n p)) (remark_of (r_notes x)) stem left mix ->
    sense ds ms x index (Some (TWord left (class_bits x n p + kind_bits index n mix) (Some (table_name x index)) mix 0))
| sn_refused n p base lines l at_mark : typed (r_mark x) (r_type x) n p -> ~ constant n -> defined ds (table_name x index) lines ->
    without_postfix x base -> marked base at_mark -> normal_of_table ds (class_bits x n p) (table_name x index) base l ->
    unended base l at_mark (colon_in index) None -> sense ds ms x index None.
(** An index of the form a//b that gives nothing itself stands for the indexes a and b. *)
Inductive meanings (ds : list definition) (ms : list mixdef) (x : rarticle) : list tword -> Prop :=
| mg_one tw : sense ds ms x (r_index x) (Some tw) -> meanings ds ms x [tw]
| mg_none : sense ds ms x (r_index x) None -> lacks (text "//") (r_index x) -> meanings ds ms x []
| mg_two a b o o' : sense ds ms x (r_index x) None -> r_index x = a ++ text "//" ++ b -> lacks (text "//") (a ++ text "/") ->
    sense ds ms x a o -> sense ds ms x b o' ->
    meanings ds ms x (match o with Some tw => [tw] | None => [] end ++ match o' with Some tw => [tw] | None => [] end).

(** ** Dictionaries *)

(** The articles among the lines. *)
Inductive articles_in : list bytes -> list rarticle -> Prop :=
| ai_nil : articles_in [] []
| ai_none line lines xs : no_entry line -> articles_in lines xs -> articles_in (line :: lines) xs
| ai_comment line body lines xs : comment line body -> articles_in lines xs -> articles_in (line :: lines) xs
| ai_article line body lines x xs : rwritten x line body -> articles_in lines xs -> articles_in (line :: lines) (x :: xs).
(** The search for the stem of the article's word is exact, whichever index it is read with; the endings of the normal form are not endless. *)
Definition read_with (x : rarticle) (index : bytes) : Prop := index = r_index x \/ exists other, r_index x = index ++ text "//" ++ other \/ r_index x = other ++ text "//" ++ index.
Definition article_searchable (ds : list definition) (x : rarticle) : Prop :=
  forall index n p base lines, read_with x index -> typed (r_mark x) (r_type x) n p -> ~ constant n -> defined ds (table_name x index) lines -> without_postfix x base ->
    search_told ds (class_bits x n p) (table_name x index) base /\ exists l, normal_of_table ds (class_bits x n p) (table_name x index) base l.
(** Spelling [w] is a form of a word told by one of the articles, in acceptable capitalisation unless capitals are ignored. *)
Definition dictionary_word (ds : list definition) (ms : list mixdef) (xs : list rarticle) (ignore : bool) (w : bytes) (x : rarticle) (tw : tword) (part : bytes) (g f : N) : Prop :=
  In x xs /\ (exists tws, meanings ds ms x tws /\ In tw tws) /\ word_part ds tw part g f /\
  map (locase rus_casing) w = tw_stem tw ++ part ++ post_of (r_notes x) /\ (ignore = false -> suits w (required_case (tw_class tw))).
(** A postfix can be reached: it follows a part with letters, or does not begin above the letters that parts of the word begin with. *)
Definition postfix_reached (ds : list definition) (x : rarticle) (tw : tword) (part : bytes) : Prop :=
  part <> [] \/ match post_of (r_notes x) with [] => True | c :: _ => exists c' s g f, word_part ds tw (c' :: s) g f /\ c <= c' end.
(** The texts: tables, alternations and articles that can be compiled. *)
Record dictionary_valid (alphabet : bytes) (ds : list definition) (ms : list mixdef) (xs : list rarticle) : Prop := {
  dv_texts : texts_valid alphabet ds ms;
  dv_articles : Forall (rarticle_valid alphabet) xs;
  dv_search : Forall (article_searchable ds) xs;
  dv_count : 2 * N.of_nat (length xs) < 2 ^ 32;
}.

(** ** Building *)

(** The dictionary [A] is built from texts that define the tables [ds], the alternations [ms] and the articles [xs]: both table compilers, then the
    dictionary compiler. *)
Inductive built (ds : list definition) (ms : list mixdef) (xs : list rarticle) (A : arrays) : Prop :=
| built_from fs conv depth name fs' conv' depth' name' b ix mb mix k conv'' files liness us :
    file_defines fs conv depth name ds -> mixes_defined fs' conv' depth' name' ms -> Forall2 in_lines files liness -> articles_in (map (map conv'') (concat liness)) xs ->
    tfc depth fs conv name = Some (b, ix) -> makeich depth' fs' conv' name' = Some (mb, mix) -> rcompile k (Tables b ix mb mix) conv'' files = Ok (Some (A, us)) ->
    built ds ms xs A.
