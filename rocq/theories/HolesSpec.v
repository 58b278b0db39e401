(** * HolesSpec: gaps in a set of ids.  SPECIFICATION ONLY. *)
From Coq Require Import String Sorting.Sorted.
From Verif Require Import Base Api EngCompile EngCompileSpec RusTextSpec.
Local Open Scope N_scope.
Local Open Scope list_scope.

Definition least (ids : list N) (m : N) : Prop := In m ids /\ forall n, In n ids -> m <= n.
Definition greatest (ids : list N) (m : N) : Prop := In m ids /\ forall n, In n ids -> n <= m.

(** The gaps between the least and the greatest id: first and last number of each, in order. *)
Record gaps (ids : list N) (lo hi : N) (gs : list (N * N)) : Prop := {
  gp_order : StronglySorted (fun a b => snd a < fst b) gs;
  gp_gap : forall a b, In (a, b) gs -> lo < a /\ a <= b /\ b < hi /\ In (a - 1) ids /\ In (b + 1) ids /\ forall n, a <= n <= b -> ~ In n ids;
  gp_all : forall n, lo <= n <= hi -> ~ In n ids -> exists a b, In (a, b) gs /\ a <= n <= b;
}.

(** The ids that come again. *)
Inductive again : list N -> list N -> list N -> Prop :=
| ag_nil seen : again seen [] []
| ag_new seen id ids us : ~ In id seen -> again (id :: seen) ids us -> again seen (id :: ids) us
| ag_old seen id ids us : In id seen -> again seen ids us -> again seen (id :: ids) (id :: us).

(** A line that has a lexeme id: behind a blank, "LID:" and the number, in front of a blank or the end.  (The line is a comment or not.) *)
Definition shows_id (line : bytes) (id : N) : Prop :=
  exists a num rest, line = a ++ text "LID:" ++ num ++ rest /\ a <> [] /\ last a 0 <= 32 /\ lacks (text "LID:") a /\ numeral num id /\ 0 < id < 2 ^ 32 /\
    match rest with [] => True | c :: _ => c <= 32 end.
(** The lines show the ids [ids]; other lines have no "LID:". *)
Inductive shown : list bytes -> list N -> Prop :=
| sh_nil : shown [] []
| sh_none line lines ids : line <> [] -> lacks (text "LID:") line -> shown lines ids -> shown (line :: lines) ids
| sh_id line lines id ids : shows_id line id -> shown lines ids -> shown (line :: lines) (id :: ids).
