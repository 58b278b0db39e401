(** * CapSpec: what capitalisation means, independently of the code.  SPECIFICATION ONLY. *)
From Verif Require Import Base CapScheme.
Local Open Scope N_scope.

Section Spec.
  Variable cs : casing.
  Definition is_capital (c : N) : Prop := ctype cs c = 0.
  Definition is_regular (c : N) : Prop := ctype cs c = 1.
  Definition is_delim (c : N) : Prop := ctype cs c = 2.

  (** The parts of a word between its delimiters; there is always at least one. *)
  Fixpoint parts (w : bytes) : list bytes :=
    match w with
    | [] => [[]]
    | c :: w' =>
        if ctype cs c =? 2 then [] :: parts w'
        else match parts w' with [] => [[c]] | p :: ps => (c :: p) :: ps end
    end.

  (** The capitalisation of a part: 0 small letters, 1 a capital then small letters, 2 capitals. *)
  Inductive part_is : bytes -> N -> Prop :=
  | part_small p : p <> [] -> Forall is_regular p -> part_is p 0
  | part_first c p : is_capital c -> p <> [] -> Forall is_regular p -> part_is (c :: p) 1
  | part_caps p : p <> [] -> Forall is_capital p -> part_is p 2.

  (** Two bits per part, the first part lowest. *)
  Fixpoint pack (cls : list N) : N := match cls with [] => 0 | c :: cls' => c + 4 * pack cls' end.

  (** A letter of canonical words: small, its own lower-case image, with a capital of its own. *)
  Definition letter (c : N) : Prop := c < 256 /\ is_regular c /\ locase cs c = c /\ is_capital (upcase cs c).

  (** A character of a canonical word: a letter or a delimiter other than the terminator. *)
  Definition good_char (c : N) : Prop := letter c \/ (c < 256 /\ is_delim c /\ c <> 0).
End Spec.

(** Consistency of the tables. *)
Record casing_ok (cs : casing) : Prop := {
  ok_range : forall c, c < 256 -> ctype cs c < 4 /\ locase cs c < 256 /\ upcase cs c < 256;
  ok_nul : is_delim cs 0;
  ok_capital : forall c, c < 256 -> is_capital cs c -> is_regular cs (locase cs c);
  ok_regular : forall c, c < 256 -> is_regular cs c -> is_regular cs (locase cs c);
  ok_idem : forall c, c < 256 -> locase cs (locase cs c) = locase cs c;
  ok_delim : forall c, c < 256 -> is_delim cs c -> locase cs c = c /\ upcase cs c = c;
  ok_invalid : forall c, c < 256 -> ctype cs c = 3 -> ctype cs (locase cs c) = 3;
  ok_up : forall c, c < 256 -> is_regular cs c -> locase cs c = c -> locase cs (upcase cs c) = c;
}.

Section Spec2.
  Variable cs : casing.
  (** Parts of a word classified one by one; an empty last part (nothing after the last delimiter) counts as small. *)
  Inductive parts_are : list bytes -> list N -> Prop :=
  | parts_end : parts_are [[]] [0]
  | parts_last p c : part_is cs p c -> parts_are [p] [c]
  | parts_more p c ps cls : part_is cs p c -> parts_are ps cls -> parts_are (p :: ps) (c :: cls).
End Spec2.

(** Respelling a word of small letters in the capitalisation a lexeme requires: 0 none, 1 capitalised, 2 all capitals.  A word of
    one or two parts has every part so, a word of three has its middle part small unless all are capitals, longer words stay
    small. *)
Section Respell.
  Variable cs : casing.
  Definition pattern (nparts : nat) (min : N) : list N :=
    match nparts with
    | 1%nat => [min]
    | 2%nat => [min; min]
    | 3%nat => [min; if min =? 2 then 2 else 0; min]
    | _ => []
    end.
  (** [pat]: what the current and the following parts get; [start]: at the start of a part *)
  Fixpoint respell_by (pat : list N) (start : bool) (w : bytes) : bytes :=
    match w with
    | [] => []
    | c :: w' =>
        if ctype cs c =? 2 then c :: respell_by (tl pat) true w'
        else match hd 0 pat with
             | 0 => c
             | 1 => if start then upcase cs c else c
             | _ => upcase cs c
             end :: respell_by pat false w'
    end.
  Definition respell (min : N) (w : bytes) : bytes := respell_by (pattern (length (parts cs w)) min) true w.
End Respell.

(** ** Acceptable capitalisations of the parts of a word (0 small, 1 capitalised, 2 capitals) when at least [min] is required *)
Definition acceptable (min : N) : list (list N) :=
  let caps := [[2]; [2; 2]; [2; 2; 2]] in
  let names := [[1]; [1; 1]; [1; 0; 1]] in
  let small := [[0]; [0; 0]; [0; 0; 0]; [1; 0]; [1; 0; 0]] in
  match min with 0 => small ++ names ++ caps | 1 => names ++ caps | 2 => caps | _ => [] end.
