(** * StemSpec: what stem records mean, independently of the code.  SPECIFICATION ONLY. *)
From Verif Require Import Base WordTree TreeSpec FlatScan Stems.
Local Open Scope N_scope.

(** A record that fits its storage format. *)
Definition entry_ok (e : entry) : Prop :=
  chrmin e < 256 /\ chrmax e < 256 /\ nlexid e < 2 ^ 32 /\ oclass e < 2 ^ 15 /\
  is_bytes (stpost e) /\ N.of_nat (length (stpost e)) < 128.

(** A list of records that can be stored. *)
Definition stems_ok (l : list entry) : Prop := Forall entry_ok l /\ N.of_nat (length l) < 2 ^ 32.

(** [rest] of a word is inflexion [infl] followed by the postfix of [e]. *)
Definition splits (rest : bytes) (e : entry) (infl : bytes) : Prop := rest = infl ++ stpost e.

(** The first letter of a non-empty inflexion lies between the bounds of [e]. *)
Definition admits (e : entry) (infl : bytes) : Prop :=
  forall c infl', infl = c :: infl' -> chrmin e <= c <= chrmax e.

(** The changing part is not empty, or there is no postfix, or the postfix starts with a letter that does not exceed the bound. *)
Definition reachable (e : entry) (infl : bytes) : Prop :=
  infl <> [] \/ match stpost e with [] => True | c :: _ => c <= chrmax e end.

(** Upper bounds never grow along the list. *)
Fixpoint max_descending (l : list entry) : Prop :=
  match l with
  | [] => True
  | e :: l' => Forall (fun e' => chrmax e' <= chrmax e) l' /\ max_descending l'
  end.

(** All stem records of a tree: record [e] is stored under [key]. *)
Definition has_record (t : wtree (list entry)) (key : bytes) (e : entry) : Prop :=
  exists l, lookup key t = Some l /\ In e l.

(** The fragment passed for the postfix of [e] when [after] follows it in memory: empty when there is none. *)
Definition post_frag (e : entry) (after : bytes) : frag :=
  if nonempty (stpost e) then Frag (stpost e ++ after) (N.of_nat (length (stpost e))) else Frag [] 0.

(** [l] is [l'] with some elements left out. *)
Inductive sublist {A} : list A -> list A -> Prop :=
| sub_nil l : sublist [] l
| sub_keep a l l' : sublist l l' -> sublist (a :: l) (a :: l')
| sub_skip a l l' : sublist l l' -> sublist l (a :: l').

(** Dictionary order of byte strings. *)
Inductive lex_lt : bytes -> bytes -> Prop :=
| lex_nil y b : lex_lt [] (y :: b)
| lex_head x a y b : x < y -> lex_lt (x :: a) (y :: b)
| lex_tail x a b : lex_lt a b -> lex_lt (x :: a) (x :: b).

(** [a] goes before [b] or ties with it: greater upper bound, then smaller lower bound, then smaller postfix, then
    smaller id. *)
Definition goes_before (a b : entry) : Prop :=
  chrmax b < chrmax a \/ chrmax a = chrmax b /\
  (chrmin a < chrmin b \/ chrmin a = chrmin b /\
   (lex_lt (stpost a) (stpost b) \/ stpost a = stpost b /\ nlexid a <= nlexid b)).

Fixpoint in_order (l : list entry) : Prop :=
  match l with
  | [] => True
  | e :: l' => Forall (goes_before e) l' /\ in_order l'
  end.
