(** * DicdumpSpec: what the report of a comparison says.  SPECIFICATION ONLY. *)
From Verif Require Import Base Dicdump.
Local Open Scope N_scope.

(** A source gives these lines: call after call the next one, then always the empty string.  No line is empty. *)
Definition gives {S : Type} (get : S -> bytes * S) (s : S) (lines : list bytes) : Prop :=
  Forall (fun x => x <> []) lines /\
  forall k, fst (get (Nat.iter k (fun s => snd (get s)) s)) = nth k lines [].

(** The report is an edit script: going through both lists in order, a line is common to both or reported on its side.
    Reports of an empty line, which no list has, may be anywhere. *)
Inductive edit : list bytes -> list bytes -> list printed -> Prop :=
| edit_done : edit [] [] []
| edit_common x l1 l2 out : edit l1 l2 out -> edit (x :: l1) (x :: l2) out
| edit_left x l1 l2 out : edit l1 l2 out -> edit (x :: l1) l2 (Left x :: out)
| edit_right x l1 l2 out : edit l1 l2 out -> edit l1 (x :: l2) (Right x :: out)
| edit_noise_left l1 l2 out : edit l1 l2 out -> edit l1 l2 (Left [] :: out)
| edit_noise_right l1 l2 out : edit l1 l2 out -> edit l1 l2 (Right [] :: out).

(** It says exactly which lines only one of the lists has. *)
Definition tells_difference (l1 l2 : list bytes) (out : list printed) : Prop :=
  ~ In Too_big out /\
  forall x, x <> [] -> (In (Left x) out <-> In x l1 /\ ~ In x l2) /\ (In (Right x) out <-> In x l2 /\ ~ In x l1).

(** Ascending in a key of the lines (in a dump: the identifier in front). *)
Fixpoint ascending (key : bytes -> N) (l : list bytes) : Prop :=
  match l with
  | [] => True
  | x :: l' => Forall (fun y => key x < key y) l' /\ ascending key l'
  end.

(** The lines of a text: each ends with a newline, the last one may lack it. *)
Inductive lines_of : bytes -> list bytes -> Prop :=
| lines_none : lines_of [] []
| lines_last x : x <> [] -> ~ In 10 x -> lines_of x [x]
| lines_more x t l : x <> [] -> ~ In 10 x -> lines_of t l -> lines_of (x ++ 10 :: t) (x :: l).

(** A list of lines as a source. *)
Definition from_list (l : list bytes) : bytes * list bytes := match l with [] => ([], []) | x :: l' => (x, l') end.
