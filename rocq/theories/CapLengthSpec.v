(** * CapLengthSpec: the parts that count.  SPECIFICATION ONLY. *)
From Verif Require Import Base CapScheme CapSpec.
Local Open Scope N_scope.

(** The parts of a word, without an empty one behind a delimiter that ends the word. *)
Definition counted (cs : casing) (w : bytes) : nat :=
  match rev (parts cs w) with [] :: ps => length ps | ps => length ps end.
