(** * EngWildSpec: what the English search by pattern should deliver.  SPECIFICATION ONLY.  [glob], [deliver]: see WildSpec. *)
From Verif Require Import Base WordTree TreeSpec Stems StemSpec CharTables CapScheme CapSpec RusSpec WildSpec EngRuntime EngSpec EngCompileSpec.
Local Open Scope N_scope.

(** Record [e] under stem [key] has the form [str] with identifier [id], made with the changing part [part]. *)
Definition ehas_form (L : elexicon) (key : bytes) (e : entry) (part : bytes) (str : bytes) (id : N) : Prop :=
  has_record (ewords L) key e /\
  exists st c, eclass_of L (oclass e) = Some (st, c) /\ eform_part c part id /\ str = key ++ part ++ stpost e.

(** Lexeme [lid] has a form [str], identifier [id]. *)
Definition elexeme_form (L : elexicon) (lid : N) (str : bytes) (id : N) : Prop :=
  exists key e part, ehas_form L key e part str id /\ nlexid e = lid.

(** No stem and no form is longer than [n]. *)
Definition estrings_within (n : nat) (L : elexicon) : Prop :=
  within n (ewords L) /\ forall key e part str id, ehas_form L key e part str id -> (length str <= n)%nat.

(** No lexeme has more than [n] different (form, identifier) pairs. *)
Definition eforms_at_most (n : nat) (L : elexicon) : Prop :=
  forall lid ms, NoDup ms -> (forall str id, In (str, id) ms -> elexeme_form L lid str id) -> (length ms <= n)%nat.

(** Every lexeme id has one record. *)
Definition single_records (L : elexicon) : Prop :=
  forall key e key' e', has_record (ewords L) key e -> has_record (ewords L) key' e' -> nlexid e = nlexid e' -> key = key' /\ e = e'.

(** Calls next to each other are for different lexemes. *)
Fixpoint neighbours_differ (calls : list (N * list (bytes * N))) : Prop :=
  match calls with
  | c :: ((c' :: _) as rest) => fst c <> fst c' /\ neighbours_differ rest
  | _ => True
  end.

(** The postfix begins within the range of first letters of the endings of article [x] (or there is none). *)
Definition post_between (x : article) : Prop :=
  match a_post x with
  | [] => True
  | c :: _ => exists c1 r1 id1 c2 r2 id2, aform x (c1 :: r1) id1 /\ aform x (c2 :: r2) id2 /\ c1 <= c <= c2
  end.
