(** * LevelSpec: which forms of a word take which alternation, and which words need capitals.  SPECIFICATION ONLY. *)
From Verif Require Import Base.
Local Open Scope N_scope.

(** ** Fields of a description (rus.h): tense (1 infinitive, 3 present, 4 future, 5 past), person, participle (2 passive), number, case *)
Definition tense_of (g : N) : N := g mod 8.
Definition person_of (g : N) : N := (g / 8) mod 4.
Definition voice_of (g : N) : N := (g / 32) mod 4.
Definition plural_of (g : N) : bool := N.odd (g / 2048).
Definition case_no (g : N) : N := (g / 4096) mod 8.
Definition nominative := 0. Definition genitive := 1. Definition accusative := 3.

(** How nouns alternate: by gender and animacy. *)
Inductive noun_kind := Masculine | Feminine.
Inductive animacy := Inanimate | Animate | ByFlag.
Definition is_animate (a : animacy) (f : N) : bool := match a with Inanimate => false | Animate => true | ByFlag => N.odd f end.

(** Masculine nouns alternate everywhere but in the nominative singular (and the accusative singular when inanimate); other
    nouns only in the genitive plural (and the accusative plural when animate). *)
Definition noun_alternates (k : noun_kind) (animate : bool) (g : N) : bool :=
  match k with
  | Masculine => negb (negb (plural_of g) && ((case_no g =? nominative) || (negb animate && (case_no g =? accusative))))
  | Feminine => plural_of g && ((case_no g =? genitive) || (animate && (case_no g =? accusative)))
  end.

(** The kind of a part of speech (rus.h lists the types). *)
Definition noun_type (t : N) : option (noun_kind * animacy) :=
  match t with
  | 7 => Some (Masculine, Inanimate) | 8 => Some (Masculine, Animate) | 9 => Some (Masculine, ByFlag)
  | 10 | 13 | 16 | 19 | 21 | 23 | 24 => Some (Feminine, Inanimate)
  | 11 | 12 | 14 | 17 | 20 | 22 | 38 | 39 | 41 => Some (Feminine, Animate)
  | 15 | 18 => Some (Feminine, ByFlag)
  | _ => None
  end.

(** Verbs, by the two bits of their kind: past passive participles of kinds 0 and 1 have level 3; then the first person singular
    (kind 0), everything but past and infinitive (kind 1), present and future (kind 2) have level 2. *)
Definition verb_level (kind g : N) : N :=
  let passive_past := (tense_of g =? 5) && (voice_of g =? 2) in
  match kind with
  | 0 => if passive_past then 3 else if (person_of g =? 1) && negb (plural_of g) then 2 else 1
  | 1 => if passive_past then 3 else if (tense_of g =? 5) || (tense_of g =? 1) then 1 else 2
  | 2 => if (tense_of g =? 3) || (tense_of g =? 4) then 2 else 1
  | _ => 1
  end.

(** The level of alternation of the form (g, f) of a word described by [wd]: its low six bits are the part of speech, bits 11-12
    the kind of a verb.  Of the other words only full adjectives alternate: level 3 in the comparative, 2 in the short masculine. *)
Definition alternation_level (wd g f : N) : N :=
  let t := wd mod 64 in
  match noun_type t with
  | Some (k, a) => if noun_alternates k (is_animate a f) g then 2 else 1
  | None => if (1 <=? t) && (t <=? 6) then verb_level ((wd / 2048) mod 4) g
            else if t =? 25 then if g =? 0x80 then 3 else if g =? 0x300 then 2 else 1
            else 1
  end.

(** Capitals a word needs: proper names (types 37 to 47) a capital letter, abbreviations (type 59) capitals. *)
Definition required_case (wd : N) : N :=
  let t := wd mod 64 in if (37 <=? t) && (t <=? 47) then 1 else if t =? 59 then 2 else 0.
