(** * DictFormsSpec: what the calls answer about a dictionary built from texts.  SPECIFICATION ONLY.
    The words are those of [DictTextSpec]; the same notions for compiled lexemes are in [CompileFormsSpec]. *)
From Coq Require Import String.
From Verif Require Import Base Serial WordTree TreeSpec Stems StemSpec CharTables CapScheme CapSpec GramMap RusRuntime LevelSpec RusSpec RusBuild RusBuildSpec RusReadings RusLemmaSpec Compile CompileSpec ResolveSpec StripSpec Api EngCompileSpec
  Utf8 RusText RusTextSpec Tfc TfcSpec Makeich MakeichSpec DictTextSpec.
Local Open Scope N_scope.
Local Open Scope list_scope.
Notation length := List.length.

(** [tw] is a word told by article [x], one of [xs]. *)
Definition meant (ds : list definition) (ms : list mixdef) (xs : list rarticle) (x : rarticle) (tw : tword) : Prop :=
  In x xs /\ exists tws, meanings ds ms x tws /\ In tw tws.

(** ** Forms *)

(** [part] is a changing part of the word for the description asked for: the grammar is the one asked for, the flags have one in common with it,
    the alternation is that of the description asked for. *)
Inductive word_asked (ds : list definition) (tw : tword) (fx : flexinfo) : bytes -> Prop :=
| wa_fixed : tw_table tw = None -> word_asked ds tw fx []
| wa_ending name s f : tw_table tw = Some name -> tw_mix tw = None -> tells ds name s (gramm fx) f -> N.land f (flags fx) <> 0 -> word_asked ds tw fx s
| wa_mixed name x s f : tw_table tw = Some name -> tw_mix tw = Some x -> tells ds name s (gramm fx) f -> N.land f (flags fx) <> 0 ->
    word_asked ds tw fx (level_string (ml_strings x) (N.to_nat (alternation_level (tw_class tw) (gramm fx) (flags fx) - 1)) ++ s).
(** The numbers of forms: words that neither change nor govern a case have the number 255 only, other words those that mean something. *)
Definition word_number (tw : tword) (id : N) : Prop :=
  (tw_table tw = None /\ tw_cases tw = 0 -> id = 255) /\ (~ (tw_table tw = None /\ tw_cases tw = 0) -> id <> 255 /\ GetGramInfo (tw_class tw) id <> noflex).
(** ... of words found in a text: here a preposition has the number 255 (see C24). *)
Definition word_found_number (tw : tword) (id : N) : Prop :=
  match tw_table tw with Some _ => id <> 255 /\ GetGramInfo (tw_class tw) id <> noflex | None => id = 255 end.
(** The word with the changing part [part], in its capitalisation. *)
Definition word_spelled (x : rarticle) (tw : tword) (part : bytes) : bytes :=
  respell rus_casing (required_case (tw_class tw)) (tw_stem tw ++ part ++ post_of (r_notes x)).
(** [fs] are the spellings of the forms number [id]. *)
Definition forms_told (ds : list definition) (x : rarticle) (tw : tword) (numbered : Prop) (id : N) (fs : list bytes) : Prop :=
  forall s, In s fs <-> numbered /\ exists part, word_asked ds tw (GetGramInfo (tw_class tw) id) part /\ s = word_spelled x tw part.

(** Words that forms can be built from: stems and endings fit the buffers, no string has a zero byte, the number of the article takes at most three bytes. *)
Record word_buildable (ds : list definition) (x : rarticle) (tw : tword) : Prop := {
  wb_stem : (length (tw_stem tw) <= 48)%nat;
  wb_post : ~ In 0 (post_of (r_notes x));
  wb_endings : forall name s g f, tw_table tw = Some name -> tells ds name s g f -> (length s <= 64)%nat;
  wb_mix : forall y, tw_mix tw = Some y -> Forall (fun s => ~ In 0 s) (ml_strings y);
  wb_id : r_id x < 2 ^ 24;
}.
(** Words whose forms are recognised (see C25). *)
Record word_recognisable (ds : list definition) (x : rarticle) (tw : tword) : Prop := {
  wr_number : N.testbit (tw_class tw) 6 = true -> IsVerb (tw_class tw) = false /\ IsAdjective (tw_class tw) = false;
  wr_animacy : In (tw_class tw mod 64) [9; 15; 18] -> forall name s g f, tw_table tw = Some name -> tells ds name s g f -> N.land g 0x7000 = 0x3000 -> N.testbit f 1 = true -> N.testbit f 0 = false;
  wr_postfix : forall fx, word_asked ds tw fx [] -> postfix_reached ds x tw [];
  wr_letters : forall fx part, word_asked ds tw fx part -> Forall (good_char rus_casing) (tw_stem tw ++ part ++ post_of (r_notes x));
}.

(** ** Normal forms *)

(** The grammar of the dictionary form (see [dict_gramm] in RusLemmaSpec.v). *)
Definition word_gramm (tw : tword) (dwsets : N) (gf : N * N) : N :=
  if IsVerb (tw_class tw)
  then if N.testbit dwsets 8 && IsParticiple (fst gf) then N.lor (N.land (fst gf) 0x67) 0x200 else 1
  else (if IsAdjective (tw_class tw) then 0x200 else 0) + (if N.testbit (tw_class tw) 6 then 0x800 else 0).
(** [part] is the changing part of a dictionary form: of that grammar, else (verbs and adjectives) with bit 15 added. *)
Definition word_dict (ds : list definition) (tw : tword) (dwsets : N) (gf : N * N) (part : bytes) : Prop :=
  let g := word_gramm tw dwsets gf in
  word_asked ds tw (Flexinfo g 3) part \/
  (IsVerb (tw_class tw) = true \/ IsAdjective (tw_class tw) = true) /\ (forall p, ~ word_asked ds tw (Flexinfo g 3) p) /\ word_asked ds tw (Flexinfo (N.lor g 0x8000) 3) part.
(** The normal form of the word for a form described by [gf]: the least of the dictionary forms. *)
Definition word_lemma (ds : list definition) (x : rarticle) (tw : tword) (dwsets : N) (gf : N * N) (s : bytes) : Prop :=
  exists part, word_dict ds tw dwsets gf part /\
    (forall p, word_dict ds tw dwsets gf p -> let form q := tw_stem tw ++ q ++ post_of (r_notes x) in lex_lt (form part) (form p) \/ form part = form p) /\
    s = word_spelled x tw part.
(** The description shown to the user. *)
Definition word_shown (tw : tword) (gf : N * N) : gram :=
  match tw_table tw with
  | Some _ => let wd := N.ldiff (tw_class tw) 0xf800 in Gram wd (MapWordInfo wd (fst gf) (snd gf)) (fst gf) (snd gf)
  | None => Gram (tw_class tw) 255 (fst gf) (snd gf)
  end.

(** ** Search *)

(** The number reported for a form. *)
Definition word_form_id (tw : tword) (g f : N) : N := match tw_table tw with Some _ => MapWordInfo (tw_class tw) g f | None => 255 end.
(** The words can be searched: they take at most 47 bytes, even if each element is the longest; words that do not change have no postfix; the number of
    the article is not 0 (see C26, C27). *)
Record word_searchable (ds : list definition) (x : rarticle) (tw : tword) : Prop := {
  ws_stem : (length (tw_stem tw) <= 47)%nat;
  ws_room : forall name, tw_table tw = Some name -> exists h a,
    (forall s g f, tells ds name s g f -> (length s <= h)%nat) /\ (forall y, tw_mix tw = Some y -> Forall (fun s => (length s <= a)%nat) (ml_strings y)) /\
    (length (tw_stem tw) + a + h + length (post_of (r_notes x)) <= 47)%nat;
  ws_fixed : tw_table tw = None -> post_of (r_notes x) = [];
  ws_id : r_id x <> 0;
}.
(** The postfix can be reached by the search: it follows a part with letters, or begins between letters that parts of the word begin with. *)
Definition postfix_between (ds : list definition) (x : rarticle) (tw : tword) (part : bytes) : Prop :=
  part <> [] \/ match post_of (r_notes x) with
                | [] => True
                | c :: _ => (exists c' s g f, word_part ds tw (c' :: s) g f /\ c <= c') /\ (exists c' s g f, word_part ds tw (c' :: s) g f /\ c' <= c)
                end.
