(** * GramSpec: which form identifiers are meaningful.  SPECIFICATION ONLY. *)
From Verif Require Import Base GramMap.
Local Open Scope N_scope.

(** Verbs have 234 forms, adjectives 66; nouns have singular forms 0-8 and plural forms 10-17, plural-only words (bit 6)
    just the latter. *)
Definition proper_form (wd id : N) : Prop :=
  if IsVerb wd then id < 234
  else if IsAdjective wd then id < 66
  else (id <= 8 /\ N.testbit wd 6 = false) \/ 10 <= id <= 17.
