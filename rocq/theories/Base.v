(** * Base: outcomes, bytes, pointers.

    Shared vocabulary of the model.  No code of the repo is modelled here except the way C++ accesses memory.

    - a byte is an [N] below 256;
    - a pointer into a byte array is the list of bytes from that address to the end of the array, so reading
      beyond the array is visible as [Ub];
    - [res A] has an explicit undefined-behaviour outcome. *)
From Coq Require Export List NArith ZArith Lia Bool Arith.
From Coq Require Export ZifyBool ZifyNat ZifyN.
Export ListNotations.
Ltac Zify.zify_post_hook ::= Z.div_mod_to_equations.

Inductive res (A : Type) : Type :=
| Ok (a : A)
| Ub.
Arguments Ok {A} a.
Arguments Ub {A}.

Definition bind {A B : Type} (m : res A) (k : A -> res B) : res B :=
  match m with Ok a => k a | Ub => Ub end.

Notation "'let!' x := m 'in' k" := (bind m (fun x => k))
  (at level 200, x pattern, m at level 100, k at level 200, right associativity).

Definition bytes := list N.

(** [*p++] *)
Definition rd (p : bytes) : res (N * bytes) :=
  match p with [] => Ub | b :: p' => Ok (b, p') end.

(** [p += n]: forming an address beyond the end of the array is undefined. *)
Definition advance (n : N) (p : bytes) : res bytes :=
  if (N.of_nat (length p) <? n)%N then Ub else Ok (skipn (N.to_nat n) p).

(** [size_t] is 64 bits wide. *)
Definition size_max1 : N := (2 ^ 64)%N.

(** A byte string: every element is a byte. *)
Definition is_bytes (l : bytes) : Prop := Forall (fun b => (b < 256)%N) l.

Lemma advance_app (a b : bytes) n :
  n = N.of_nat (length a) -> advance n (a ++ b) = Ok b.
Proof.
  intros ->. unfold advance. rewrite app_length.
  destruct (N.ltb_spec (N.of_nat (length a + length b)) (N.of_nat (length a))); [lia|].
  rewrite Nnat.Nat2N.id, skipn_app, skipn_all, Nat.sub_diag. reflexivity.
Qed.

Lemma bind_ok_inv {A B} (m : res A) (k : A -> res B) b :
  bind m k = Ok b -> exists a, m = Ok a /\ k a = Ok b.
Proof. destruct m as [a|]; simpl; [eauto|discriminate]. Qed.

Lemma is_bytes_app a b : is_bytes (a ++ b) <-> is_bytes a /\ is_bytes b.
Proof. apply Forall_app. Qed.
