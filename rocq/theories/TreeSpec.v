(** * TreeSpec: what a dictionary tree means, independently of the code.  SPECIFICATION ONLY. *)
From Verif Require Import Base WordTree.
Local Open Scope N_scope.

(** The child for a byte, as an association list. *)
Fixpoint assoc {B} (c : N) (l : list (N * B)) : option B :=
  match l with
  | [] => None
  | (c', b) :: l' => if c' =? c then Some b else assoc c l'
  end.

(** The partial map from keys to elements a tree stands for. *)
Fixpoint lookup {A} (key : bytes) (t : wtree A) : option A :=
  match key with
  | [] => p_data t
  | c :: key' => match assoc c (nested t) with Some t' => lookup key' t' | None => None end
  end.

(** Strictly descending bytes. *)
Fixpoint descending (l : list N) : Prop :=
  match l with
  | [] => True
  | c :: l' => Forall (fun c' => c' < c) l' /\ descending l'
  end.

(** Shape invariant of a tree: at every node the child bytes are bytes, strictly descending. *)
Inductive ordered {A} : wtree A -> Prop :=
| ordered_node l d :
    descending (map fst l) -> Forall (fun c => c < 256) (map fst l) ->
    (forall c t, In (c, t) l -> ordered t) -> ordered (WNode l d).

(** The tree can be dumped: an ordered tree whose counts fit the counter and whose subtree lengths fit 32 bits. *)
Inductive dumpable {A} (w : cwidth) (len : A -> N) : wtree A -> Prop :=
| dumpable_node l d :
    descending (map fst l) -> Forall (fun c => c < 256) (map fst l) ->
    N.of_nat (length l) < cflag w ->
    (forall c t, In (c, t) l -> dumpable w len t /\ getbuflen w len t < 2 ^ 32) ->
    dumpable w len (WNode l d).

(** All stored keys that are prefixes of [key], longest first, with the rest of [key]. *)
Definition prefix_hits {A} (t : wtree A) (key : bytes) : list (A * bytes) :=
  flat_map (fun n => match lookup (firstn n key) t with Some a => [(a, skipn n key)] | None => [] end)
           (rev (seq 0 (S (length key)))).

(** Calling a handler on each item in turn until one answers non-zero. *)
Fixpoint until_nonzero {St A} (h : St -> A -> res (St * Z)) (l : list A) (s : St) : res (St * Z) :=
  match l with
  | [] => Ok (s, 0%Z)
  | a :: l' => let! (s', r) := h s a in if Z.eqb r 0 then until_nonzero h l' s' else Ok (s', r)
  end.

(** All (key, element) pairs of a tree, in dump order (children first, then the node itself). *)
Fixpoint entries {A} (prefix : bytes) (t : wtree A) : list (bytes * A) :=
  match t with
  | WNode l d =>
      (fix go (l : list (N * wtree A)) : list (bytes * A) :=
         match l with [] => [] | (c, t') :: l' => entries (prefix ++ [c]) t' ++ go l' end) l
      ++ match d with Some a => [(prefix, a)] | None => [] end
  end.

(** No child for byte 0 anywhere in a tree (keys are C strings). *)
Inductive nonzero {A} : wtree A -> Prop :=
| nonzero_node l d : (forall c t, In (c, t) l -> c <> 0 /\ nonzero t) -> nonzero (WNode l d).

(** [P] holds of all elements of a tree. *)
Inductive all_data {A} (P : A -> Prop) : wtree A -> Prop :=
| all_data_node l d : (forall x, d = Some x -> P x) -> (forall c t, In (c, t) l -> all_data P t) -> all_data P (WNode l d).

(** No key of the tree is longer than [n] bytes. *)
Fixpoint within {A} (n : nat) (t : wtree A) : Prop :=
  match n with
  | O => nested t = []
  | S n' => forall c t', In (c, t') (nested t) -> within n' t'
  end.
