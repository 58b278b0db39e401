(** * TasksSpec: words for the game of five letters.  SPECIFICATION ONLY. *)
From Verif Require Import Base Letters LettersSpec Tasks.
Local Open Scope N_scope.

(** A dictionary says which words are forms (by number) of which lexemes. *)
Definition forms := N -> wstring -> N -> Prop.
(** FindMatch is exact, the words of five letters are of letters а to я. *)
Definition find_exact (find : wstring -> list (N * list (wstring * N))) (d : forms) : Prop :=
  (forall pattern, pattern_ok pattern -> forall lex w id, (exists ms, In (lex, ms) (find pattern) /\ In (w, id) ms) <-> d lex w id /\ fits pattern w) /\
  (forall lex w id, d lex w id -> five w -> Forall is_letter w).
(** CheckHelp misses no next letter of a word, and writes at most 64 characters, no letters but а to я. *)
Definition help_complete (help : wstring -> wstring) (d : forms) : Prop :=
  forall p, (forall c rest lex id, d lex (p ++ c :: rest) id -> In c (help p)) /\ (length (help p) <= 64)%nat /\ Forall (fun c => c < 1072 \/ is_letter c) (help p).

(** A word for the game: five letters, the dictionary form of a noun that is none of the ruled out ones. *)
Definition task_word (d : forms) (wd : N -> N) (w : wstring) : Prop :=
  five w /\ exists lex id, d lex w id /\ 7 <= wd lex <= 23 /\ ~ (192512 <= lex <= 192641) /\ (id = 0 \/ id = 255).
