(** * LettersSpec: the game of five letters.  SPECIFICATION ONLY. *)
From Verif Require Import Base Letters.
Local Open Scope N_scope.

(** The letters а to я. *)
Definition is_letter (c : N) : Prop := 1072 <= c <= 1103.
Definition five (w : wstring) : Prop := length w = 5%nat.

(** A word fits a pattern of letters and question marks. *)
Definition fits (pattern w : wstring) : Prop := Forall2 (fun q c => q = 63 \/ q = c) pattern w.
Definition pattern_ok (pattern : wstring) : Prop := five pattern /\ Forall (fun q => q = 63 \/ is_letter q) pattern.

(** The dictionary: for every pattern of letters and question marks the search gives exactly the nouns in dictionary form that fit. *)
Definition noun_found (find : wstring -> list (N * list (wstring * N))) (wd : N -> N) (pattern w : wstring) : Prop :=
  exists lex ms id, In (lex, ms) (find pattern) /\ 7 <= wd lex <= 23 /\ In (w, id) ms /\ (id = 0 \/ id = 255).
Definition dictionary_of (find : wstring -> list (N * list (wstring * N))) (wd : N -> N) (nouns : list wstring) : Prop :=
  forall pattern, pattern_ok pattern -> forall w, noun_found find wd pattern w <-> In w nouns /\ fits pattern w.

(** The marks: the letter itself in its place, a plus if the word to be guessed has it elsewhere, a minus if it has not. *)
Definition mark (sample : wstring) (s c : N) : N := if s =? c then c else if in_dec N.eq_dec c sample then 43 else 45.
Definition marks (sample w : wstring) : wstring := map (fun sc => mark sample (fst sc) (snd sc)) (combine sample w).

(** A later guess makes use of the marks of an earlier one: letters in place stay, letters of the word to be guessed are there, the others are not. *)
Definition respects (sample earlier later : wstring) : Prop :=
  forall i s c, nth_error sample i = Some s -> nth_error earlier i = Some c ->
    (s = c -> nth_error later i = Some c) /\ (s <> c -> (In c sample -> In c later) /\ (~ In c sample -> ~ In c later)).

(** The weight of a word: the sum of the ranks of its letters. *)
Definition weight (w : wstring) : N := fold_right (fun c sum => nth (N.to_nat (c - 1072)) char_rank 0 + sum) 0 w.
(** The words still possible after some guesses: nouns that fit the pattern, not yet guessed, in agreement with all marks; at first also without the letters
    ruled out. *)
Definition possible (nouns : list wstring) (sample pattern unused : wstring) (guessed : list wstring) (x : wstring) : Prop :=
  In x nouns /\ fits pattern x /\ ~ In x guessed /\ (forall t, In t guessed -> respects sample t x) /\ (guessed = [] -> forall c, In c x -> ~ In c unused).
(** Each guess is a heaviest of the words still possible, and the game is given up only if there are none. *)
Record greedy_game (nouns : list wstring) (sample pattern unused : wstring) (lines : list (wstring * wstring)) (v : verdict) : Prop := {
  gg_heaviest : forall before w m after x, lines = before ++ (w, m) :: after -> possible nouns sample pattern unused (map fst before) x -> weight x <= weight w;
  gg_gives_up : v = Not_guessed -> forall x, ~ possible nouns sample pattern unused (map fst lines) x;
}.

(** What is told of a game. *)
Record fair_game (nouns : list wstring) (sample : wstring) (lines : list (wstring * wstring)) (v : verdict) : Prop := {
  fg_ended : v <> Unfinished;
  fg_words : Forall (fun l => In (fst l) nouns /\ snd l = marks sample (fst l)) lines;
  fg_once : NoDup (map fst lines);
  fg_uses : ForallOrdPairs (fun a b => respects sample (fst a) (fst b)) lines;
  fg_guessed : v = Guessed <-> In sample (map fst lines);
}.
