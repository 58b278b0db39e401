(** * ResolveSpec: conditions on the sources for finding stems and letter bounds.  SPECIFICATION ONLY. *)
From Verif Require Import Base Serial WordTree TreeSpec Stems StemSpec GramMap RusRuntime LevelSpec RusSpec Compile CompileSpec.
Local Open Scope N_scope.

(** Table [b] continues table [a], directly or through others. *)
Inductive linked (tables : bytes) : N -> N -> Prop :=
| linked_self a : linked tables a a
| linked_next a items it b : table_at tables a items -> In it items -> fi_next it <> 0 -> linked tables (fi_next it) b -> linked tables a b.

(** Table [b] continues [a] through empty elements: a word may have its first letter after the stem from table [b]. *)
Inductive begins (tables : bytes) : N -> N -> Prop :=
| begins_self a : begins tables a a
| begins_next a items it b : table_at tables a items -> In it items -> fi_text it = [] -> fi_next it <> 0 -> begins tables (fi_next it) b -> begins tables a b.

(** Tables with first letters have less than 128 elements, and an empty element of theirs that may end a word has no continuation. *)
Definition plain_links (tables : bytes) (off : N) : Prop :=
  forall o items, begins tables off o -> table_at tables o items ->
    (length items < 128)%nat /\ forall it, In it items -> fi_text it = [] -> N.testbit (fi_flags it) 7 = false -> fi_next it = 0.

(** Every alternation has a letter. *)
Definition letters_alternate (mx : list (N * bytes)) : Prop := Forall (fun ma => exists c rest, snd ma = c :: rest /\ 0 < c < 256) mx.
(** If one of the strings is empty: some ending is, or begins with a letter not above those of the other strings; and the letters that endings
    begin with are not above all of those. *)
Definition mixed_letters (ftable : bytes) (off : N) (mx : list (N * bytes)) : Prop :=
  letters_alternate mx \/
  (forall mask c r, In (mask, c :: r) mx -> 0 < c < 256 /\ exists s g f, ending ftable off s g f /\ match s with [] => True | c' :: _ => c' <= c end) /\
  (forall c rest g f, ending ftable off (c :: rest) g f -> exists mask c' r, In (mask, c' :: r) mx /\ c <= c').

(** A table without continued elements, with endings of at most 15 letters and less than 128 elements. *)
Definition simple_table (tables : bytes) (off : N) : Prop :=
  exists items, table_at tables off items /\ (length items < 128)%nat /\
    Forall (fun it => N.testbit (fi_flags it) 7 = false /\ (length (fi_text it) < 16)%nat) items.
