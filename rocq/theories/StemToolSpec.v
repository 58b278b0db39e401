(** * StemToolSpec: what the program stematize tells.  SPECIFICATION ONLY. *)
From Coq Require Import String.
From Verif Require Import Base GramMap RusRuntime RusBuild CodepageSpec Codepage Fuzzy FuzzySpec Guess GuessSpec Api Dump DumpSpec LemmToolSpec.
Local Open Scope N_scope.
Local Open Scope list_scope.
Notation length := List.length.

(** A number with a point: digits in front, digits behind. *)
Definition decimal (t : bytes) (n : N) (d : bytes) : Prop :=
  exists whole, t = whole ++ 46 :: d /\ forallb is_digit whole = true /\ natural whole = Some n /\ d <> [] /\ forallb is_digit d = true.

(** What is told of a guess (a run of acceptable entries of one class): normal form in the code page, weight, class, part of speech, forms.
    [shows] is the number the weight is printed as. *)
Definition told_guess (T : tongue) (P : page) (cls : N -> class_src) (low : bytes) (shows : N * bytes) (r : list (nat * class_ref)) : json :=
  JObj [(text "lemma", JStr (encode (coding P) (normal_in T cls low r))); (text "score", JDec (fst shows) (snd shows));
        (text "class", JNum (class_no r)); (text "psp", JNum (c_partsp (cls (class_no r)))); (text "forms", JArr (map (fun g => JNum (r_form (snd g))) r))].

(** The heaviest first. *)
Fixpoint best_first {X} (weight : X -> Z) (l : list X) : Prop :=
  match l with [] => True | a :: l' => Forall (fun b => (weight b <= weight a)%Z) l' /\ best_first weight l' end.

(** Room: 64 guesses, normal forms of at most 63 characters that fit 256 bytes, 64 descriptions. *)
Definition stem_room (T : tongue) (P : page) (cls : N -> class_src) (low : bytes) (rs : list (list (nat * class_ref))) : Prop :=
  (length rs <= 64)%nat /\ Forall (fun r => (length (normal_in T cls low r) <= 63)%nat) rs /\ fit_in (coding P) 256 (map (normal_in T cls low) rs) /\
  (length (concat rs) <= 64)%nat.
