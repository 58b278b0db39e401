(** * GuessWideSpec: the wide-character guessers, independently of their code.  SPECIFICATION ONLY. *)
From Verif Require Import Base Serial CharTables CapScheme CapSpec GramMap RusRuntime LevelSpec RusSpec RusBuild RusBuildSpec Codepage CodepageSpec
  WideApi WideSpec Fuzzy FuzzySpec Guess GuessSpec GuessWide.
Local Open Scope N_scope.

(** Forms: one character more than they and their terminators need, and never more than 95. *)
Definition guess_fit (size : nat) (fs : list bytes) : Prop := fs = [] \/ (total fs + 1 <= Nat.min size 95)%nat.
Definition guess_delivered (W : wide) (mem : list N) (fs : list bytes) (r : res (Z * option (list N))) : Prop :=
  (mem = [] -> r = Ok ((-5)%Z, Some [])) /\
  (mem <> [] -> guess_fit (length mem) fs -> r = Ok (Z.of_nat (length fs), Some (widened W (joined fs) ++ skipn (total fs) mem))) /\
  (mem <> [] -> ~ guess_fit (length mem) fs -> r = Ok ((-1)%Z, Some mem)).

(** The stem fits the local array; given with a terminator it must leave room for one. *)
Definition short_stem (W : wide) (w : list N) (cch : N) : Prop :=
  (length w + wslack W <= 64)%nat /\ (cch = 2 ^ 64 - 1 -> (length w < 64)%nat).

(** Lemmatising: 32 stems, 240 characters of normal forms of 63 each. *)
Definition wide_room (T : tongue) (cls : N -> class_src) (low : bytes) (output : option (list stem_info)) (plemma : option (list N))
  (pgrams : option (list gram)) (rs : list (list (nat * class_ref))) : Prop :=
  (length rs <= 64)%nat /\
  match output with None => True | Some m => (length rs <= Nat.min (length m) 32)%nat end /\
  match plemma with
  | None => True
  | Some m => Forall (fun r => (length (normal_in T cls low r) <= 63)%nat) rs /\ fit (Nat.min (length m) 240) (map (normal_in T cls low) rs)
  end /\
  match pgrams with None => True | Some m => (length (flat_map (descriptions cls) rs) <= length m)%nat end.

(** The samples that fit. *)
Definition wide_samples (modlen : N) (c : class_src) : list bytes := fitting (N.to_nat (N.min 1024 modlen)) (map m_sample (c_models c)).
