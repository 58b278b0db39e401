(** * StripSpec: what makes the stem of a headword, declaratively.  SPECIFICATION ONLY. *)
From Coq Require Import String.
From Verif Require Import Base Serial WordTree TreeSpec Stems StemSpec GramMap RusRuntime LevelSpec RusSpec Compile CompileSpec ResolveSpec Api Utf8 RusText.
Local Open Scope N_scope.
Local Open Scope list_scope.
Notation length := List.length.

(** ** Endings of the normal form *)

(** Elements of the normal form: of verbs the infinitive; of other words those described by exactly [nf]. *)
Definition normal_element (verb : bool) (nf : N) (it : flexitem) : Prop := if verb then fi_info it mod 128 = 1 else fi_info it = nf.
(** Elements with the reflexive particle. *)
Definition reflexive_element (it : flexitem) : bool := N.testbit (fi_info it) 15.
(** An ending and its description. *)
Definition described : Type := bytes * N * N.
Definition describe (it : flexitem) : described := (fi_text it, fi_info it, fi_flags it).
Definition after (it : flexitem) (d : described) : described := let '(s, g, f) := d in (fi_text it ++ s, N.lor (fi_info it) g, N.land (fi_flags it) f).

(** The endings of the normal form in table [off], in order: elements marked with bit 7 go on with those of the table they refer to; for
    verbs the reflexive elements of the table follow. *)
Inductive normal_endings (tables : bytes) (verb : bool) (nf : N) : N -> list described -> Prop :=
| ne_table off items ls : table_at tables off items -> Forall2 (normal_of tables verb nf) items ls ->
    normal_endings tables verb nf off (concat ls ++ if verb then map describe (filter reflexive_element items) else [])
with normal_of (tables : bytes) (verb : bool) (nf : N) : flexitem -> list described -> Prop :=
| no_other it : ~ normal_element verb nf it -> normal_of tables verb nf it []
| no_here it : normal_element verb nf it -> N.testbit (fi_flags it) 7 = false -> normal_of tables verb nf it [describe it]
| no_further it l : normal_element verb nf it -> N.testbit (fi_flags it) 7 = true -> normal_endings tables verb nf (fi_next it) l -> normal_of tables verb nf it (map (after it) l).

Definition ends_with (s tail : bytes) : Prop := exists a, s = a ++ tail.
(** [stem] is left when the first of the endings that [s] has is taken off; *)
Definition taken_off (l : list described) (s stem : bytes) (d : described) : Prop :=
  exists before behind, l = before ++ d :: behind /\ s = stem ++ fst (fst d) /\ Forall (fun d => ~ ends_with s (fst (fst d))) before.
(** it has none. *)
Definition none_there (l : list described) (s : bytes) : Prop := Forall (fun d => ~ ends_with s (fst (fst d))) l.

(** Tables reachable from [off] have less than 128 elements with less than 16 letters, and elements marked with bit 7 go on somewhere. *)
Definition tidy_links (tables : bytes) (off : N) : Prop :=
  forall o items, linked tables off o -> table_at tables o items ->
    (length items < 128)%nat /\ forall it, In it items -> (length (fi_text it) < 16)%nat /\ (N.testbit (fi_flags it) 7 = true -> fi_next it <> 0).
(** Whenever [s] ends with a continuation of an element it ends with the element and the continuation (see C41_continued_refuted). *)
Definition continued_whole (tables : bytes) (verb : bool) (nf off : N) (s : bytes) : Prop :=
  forall o items it l d, linked tables off o -> table_at tables o items -> In it items -> normal_element verb nf it -> N.testbit (fi_flags it) 7 = true ->
    normal_endings tables verb nf (fi_next it) l -> In d l -> ends_with s (fst (fst d)) -> ends_with s (fi_text it ++ fst (fst d)).

(** ** Alternations *)

(** The string of alternation [o] that stands in the normal form: the first one of level 1. *)
Definition first_string (mtable : bytes) (o : N) (alt : bytes) : Prop :=
  exists before mask behind, mix_at mtable o (before ++ (mask, alt) :: behind) /\ N.testbit mask 0 = true /\ Forall (fun ma => N.testbit (fst ma) 0 = false) before.

Definition penult (s : bytes) (letters : string) : Prop := exists a c d, s = a ++ [c; d] /\ In c (cyr letters).
Definition antepenult (s : bytes) (letters letters' : string) : Prop := exists a c d e, s = a ++ [c; d; e] /\ In c (cyr letters) /\ In d (cyr letters').
(** The condition of an alternation: for verbs it is the remark in the article, or о; for other words it speaks of the letters before the last. *)
Definition condition_holds (verb : bool) (cond stem rems : bytes) : Prop :=
  if verb then cond = rems \/ cond = cyr "о"
  else cond = cyr "о" \/ cond = cyr "ле" /\ antepenult stem "л" "е" \/ cond = cyr "ге" /\ antepenult stem "аеиоуыэюя" "е" \/
    cond = cyr "ш" /\ penult stem "жцчшщ" \/ cond = cyr "к" /\ penult stem "кгх" \/ cond = cyr "ь" /\ penult stem "ь" \/ cond = cyr "й" /\ penult stem "й".
Definition alternates (mtable : bytes) (verb : bool) (stem rems : bytes) (oc : N * bytes) (alt : bytes) : Prop :=
  first_string mtable (fst oc) alt /\ ends_with stem alt /\ condition_holds verb (snd oc) stem rems.
(** The first alternation of the list that the stem has is taken off: what is left, and the alternation (0: none). *)
Inductive alternation (mtable : bytes) (alts : list (N * bytes)) (verb : bool) (rems stem : bytes) : bytes -> N -> Prop :=
| alt_none : (forall oc alt, In oc alts -> ~ alternates mtable verb stem rems oc alt) -> alternation mtable alts verb rems stem stem 0
| alt_found before oc behind alt left : alts = before ++ oc :: behind -> (forall oc' alt', In oc' before -> ~ alternates mtable verb stem rems oc' alt') ->
    alternates mtable verb stem rems oc alt -> stem = left ++ alt -> alternation mtable alts verb rems stem left (fst oc).

(** ** Stems *)
Definition is_verb (wd : N) : bool := (1 <=? wd mod 64) && (wd mod 64 <=? 6).
(** The description of the normal form of words that are no verbs: masculine of those that have genders, reflexive if in -ся; plural if only that exists. *)
Definition normal_gramm (wd : N) (word : bytes) : N :=
  (if existsb (N.eqb (wd mod 64)) [25; 26; 27; 28; 34; 36; 42; 52]
   then 0x200 + (if Nat.ltb 2 (length word) && (if list_eq_dec N.eq_dec (skipn (length word - 2) word) (cyr "ся") then true else false) then 0x8000 else 0) else 0)
  + (if N.testbit wd 6 then 0x800 else 0).
Definition normal_of_word (ftable : bytes) (wd off : N) (word : bytes) (l : list described) : Prop :=
  normal_endings ftable (is_verb wd) (if is_verb wd then 0x8001 else normal_gramm wd word) off l.

(** The word without its ending: up to the mark; without the ending of the normal form; whole, if there is none and the index has a colon. *)
Inductive unended (word : bytes) (l : list described) (at_mark : option nat) (colon : bool) : option bytes -> Prop :=
| ue_marked n : at_mark = Some n -> unended word l at_mark colon (Some (firstn n word))
| ue_normal stem d : at_mark = None -> taken_off l word stem d -> unended word l at_mark colon (Some stem)
| ue_whole : at_mark = None -> none_there l word -> colon = true -> unended word l at_mark colon (Some word)
| ue_rejected : at_mark = None -> none_there l word -> colon = false -> unended word l at_mark colon None.

(** Conditions under which the search is exact. *)
Record searchable (ftable mtable : bytes) (alts : list (N * bytes)) (wd off : N) (word rems : bytes) : Prop := {
  se_plural : is_verb wd = true -> N.testbit wd 6 = false;
  se_links : tidy_links ftable off;
  se_whole : continued_whole ftable (is_verb wd) (if is_verb wd then 0x8001 else normal_gramm wd word) off word;
  se_alts : forall o cond, In (o, cond) alts -> o <> 0 /\ exists mx, mix_at mtable o mx;
  se_zero : ~ In 0 word;
}.

(** Verbs: reflexive elements have no further description and nothing must follow them; in the verb's own table they are infinitives. *)
Definition reflexive_last (tables : bytes) (off : N) : Prop :=
  forall o items it, linked tables off o -> table_at tables o items -> In it items -> reflexive_element it = true ->
    N.testbit (fi_flags it) 7 = false /\ fi_info it mod 128 <= 1 /\ (o = off -> fi_info it mod 128 = 1).
