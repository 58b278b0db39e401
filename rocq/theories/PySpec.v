(** * PySpec: what the Python modules promise, independently of their code.  SPECIFICATION ONLY. *)
From Coq Require Import Permutation.
From Verif Require Import Base Serial WordTree TreeSpec FlatScan Stems StemSpec CharTables CapScheme CapSpec GramMap RusRuntime LevelSpec RusSpec
  RusBuild RusBuildSpec RusReadings RusLemmaSpec EngRuntime EngSpec EngFormsSpec EngLemmaSpec Fuzzy FuzzySpec Codepage CodepageSpec WideApi WideSpec Guess GuessSpec PyApi.
Local Open Scope N_scope.

(** ** Settings: IGNORE_CAPITALS is 2, NO_LEMMA_STRING is 4, NO_GRAMMAR_DATA is 8. *)
Definition ignores_capitals (dwsets : N) : bool := N.testbit dwsets 1.
Definition wants_lemma (dwsets : N) : bool := negb (N.testbit dwsets 2).
Definition wants_grammar (dwsets : N) : bool := negb (N.testbit dwsets 3).

(** ** Lists *)

(** The rows if there is room for all of them, otherwise - silently - no rows. *)
Definition listed {X} (rows : list X) (room : Prop) (r : res (list X)) : Prop := (room -> r = Ok rows) /\ (~ room -> r = Ok []).

(** What is told of a lexeme: the lemma if wanted; the descriptions if wanted, [None] when there are none. *)
Definition told_grams (wanted : bool) (gs : list gram) : option (list gram) := if wanted then match gs with [] => None | _ => Some gs end else None.
Definition told_lemma (wanted : bool) (l : list N) : option (list N) := if wanted then Some l else None.

(** Lexemes with their normal forms, written by [code]. *)
Definition rus_row (dwsets : N) (code : bytes -> list N) (gl : lexeme * bytes) : py_lemm :=
  PyLemm (rd_id (lx_first (fst gl))) (told_lemma (wants_lemma dwsets) (code (snd gl))) (told_grams (wants_grammar dwsets) (rd_shown (lx_first (fst gl)))).
Definition eng_row (dwsets : N) (code : bytes -> list N) (gl : elexeme * bytes) : py_lemm :=
  PyLemm (er_id (ex_first (fst gl))) (told_lemma (wants_lemma dwsets) (code (snd gl))) (told_grams (wants_grammar dwsets) (er_shown (ex_first (fst gl)))).

(** Room: 32 lexemes; if lemmas are wanted, they [fits]; if descriptions are wanted, 512 of them. *)
Definition rus_room (dwsets : N) (gs : list lexeme) (fits : Prop) : Prop :=
  (length gs <= 32)%nat /\
  (wants_lemma dwsets = true -> Forall (fun g => small (rd_dict_forms 0 (lx_first g))) gs /\ fits) /\
  (wants_grammar dwsets = true -> grams_fit 512 (flat_map stored gs)).
Definition eng_room (dwsets : N) (gs : list elexeme) (fits : Prop) : Prop :=
  (length gs <= 32)%nat /\
  (wants_lemma dwsets = true -> Forall (fun g => small (er_dict_forms (ex_first g))) gs /\ fits) /\
  (wants_grammar dwsets = true -> grams_fit 512 (flat_map estored gs)).

(** What the dictionary has to ensure (C21, C22): lexemes have dictionary forms; the 32nd lexeme has one reading. *)
Definition rus_safe (dwsets : N) (gs : list lexeme) : Prop :=
  (wants_lemma dwsets = true -> Forall (fun g => rd_dict_forms 0 (lx_first g) <> []) gs) /\
  (wants_grammar dwsets = true -> forall g, nth_error gs 31 = Some g -> lx_more g = []).
Definition eng_safe (dwsets : N) (gs : list elexeme) : Prop :=
  (wants_lemma dwsets = true -> Forall (fun g => er_dict_forms (ex_first g) <> []) gs) /\
  (wants_grammar dwsets = true -> forall g, nth_error gs 31 = Some g -> ex_more g = []).

(** ** Matches *)

(** A Python function that reads, in every call, the texts of the matches it is given; what reading one gives is visible to it. *)
Definition py_reads {U} (f : U -> N -> list (res bytes * N) -> U * py_result) (u : U) (lid : N) (ms : list py_match) (sforms : bytes) : U * py_result :=
  f u lid (map (fun m => (py_match_text sforms m, pm_form m)) ms).

(** The calls such a function gets and the value returned to the program: after a result that is no number it is called no more and the
    value is -1; otherwise the results of all calls but the last one have no effect; an exception counts as -1. *)
Fixpoint py_session {U} (f : U -> N -> list (res bytes * N) -> U * py_result) (calls : list (N * list (bytes * N))) (u : U) : U * Z :=
  match calls with
  | [] => (u, 0%Z)
  | (lid, ms) :: calls' =>
      match f u lid (map (fun m => (Ok (fst m), snd m)) ms) with
      | (u', PyOther) => (u', (-1)%Z)
      | (u', PyInt z) => match calls' with [] => (u', z) | _ => py_session f calls' u' end
      | (u', PyRaised) => match calls' with [] => (u', (-1)%Z) | _ => py_session f calls' u' end
      end
  end.

(** ** Guesses *)

(** What is told of a guess [r], its normal form written by [code]. *)
Definition py_guess_row (T : tongue) (P : page) (code : bytes -> list N) (cls : N -> class_src) (rank : N -> N -> N -> N -> bool -> Z) (low : bytes) (dwsets : N)
  (r : list (nat * class_ref)) : py_stem :=
  PyStem (stem_size P low (wants_lemma dwsets) r) (class_no r) (weight_of cls rank low r)
    (told_lemma (wants_lemma dwsets) (code (normal_in T cls low r))) (told_grams (wants_grammar dwsets) (descriptions cls r)).

(** Room: 32 guesses; if lemmas are wanted, 63 characters each and altogether what [fits]; if descriptions are wanted, 512. *)
Definition py_guess_room (T : tongue) (cls : N -> class_src) (low : bytes) (dwsets : N) (rs : list (list (nat * class_ref))) (fits : Prop) : Prop :=
  (length rs <= 32)%nat /\
  (wants_lemma dwsets = true -> Forall (fun r => (length (normal_in T cls low r) <= 63)%nat) rs /\ fits) /\
  (wants_grammar dwsets = true -> (length (flat_map (descriptions cls) rs) <= 512)%nat).

(** By decreasing weight. *)
Fixpoint weights_fall (rows : list py_stem) : Prop :=
  match rows with
  | [] => True
  | a :: rows' => Forall (fun b => (ps_weight b <= ps_weight a)%Z) rows' /\ weights_fall rows'
  end.

(** The guesses in some order of decreasing weight, or nothing. *)
Definition guessed (rows : list py_stem) (room : Prop) (r : res (list py_stem)) : Prop :=
  (room -> exists rows', r = Ok rows' /\ Permutation rows rows' /\ weights_fall rows') /\ (~ room -> r = Ok []).
