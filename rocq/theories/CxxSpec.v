(** * CxxSpec: what the C++ wrappers promise, independently of their code.  SPECIFICATION ONLY. *)
From Coq Require Import Permutation.
From Verif Require Import Base Serial WordTree TreeSpec FlatScan Stems StemSpec CharTables CapScheme CapSpec GramMap RusRuntime LevelSpec RusSpec
  RusBuild RusBuildSpec RusReadings RusLemmaSpec EngRuntime EngSpec EngFormsSpec EngLemmaSpec Fuzzy FuzzySpec CxxApi.
Local Open Scope N_scope.

(** ** Vectors of strings *)

(** All the strings if they keep the [limits] and fit the array of [size] bytes, otherwise - silently - none. *)
Definition all_or_none (size : nat) (fs : list bytes) (limits : Prop) (r : res (list bytes)) : Prop :=
  (limits /\ fit size fs -> r = Ok fs) /\ (~ (limits /\ fit size fs) -> r = Ok []).

(** ** Vectors of lexemes *)

(** What the user sees of a lexeme. *)
Definition seen {X} (x : cxx_lexeme X) : X * bytes * list gram := (i_rest (x_info x), x_lemma x, x_grams x).
(** Its pointers point to what it owns, and the count is right. *)
Definition self_contained {X} (x : cxx_lexeme X) : Prop :=
  i_plemma (x_info x) = POwn /\ i_pgrams (x_info x) = POwn /\ i_ngrams (x_info x) = length (x_grams x).

(** What is to be reported of lexemes with their normal forms: identifier, normal form, descriptions. *)
Definition report (gl : lexeme * bytes) : N * bytes * list gram := (rd_id (lx_first (fst gl)), snd gl, rd_shown (lx_first (fst gl))).
Definition ereport (gl : elexeme * bytes) : N * bytes * list gram := (er_id (ex_first (fst gl)), snd gl, er_shown (ex_first (fst gl))).

(** The outcome: a vector of what is to be reported if there is room for it, an exception about room otherwise. *)
Definition reported {X} (rows : list (X * bytes * list gram)) (room : Prop) (r : res (outcome X)) : Prop :=
  (room -> exists xs, r = Ok (Returned xs) /\ map seen xs = rows /\ Forall self_contained xs) /\
  (~ room -> r = Ok (Thrown NoFormsSpace) \/ r = Ok (Thrown NoStemsSpace) \/ r = Ok (Thrown NoGramsSpace)).

(** Room for the lexemes [gs] with the normal forms [ls]: 32 lexemes, 256 bytes, 64 descriptions. *)
Definition lexemes_fit (dwsets : N) (gs : list lexeme) (ls : list bytes) : Prop :=
  (length gs <= 32)%nat /\ Forall (fun g => small (rd_dict_forms dwsets (lx_first g))) gs /\ fit 256 ls /\ grams_fit 64 (flat_map stored gs).
Definition elexemes_fit (gs : list elexeme) (ls : list bytes) : Prop :=
  (length gs <= 32)%nat /\ Forall (fun g => small (er_dict_forms (ex_first g))) gs /\ fit 256 ls /\ grams_fit 64 (flat_map estored gs).

(** What is to be reported of a guess: the length of its stem, its class and weight, its normal form, its descriptions. *)
Definition guess_row (cls : N -> class_src) (rank : N -> N -> N -> N -> bool -> Z) (low : bytes) (r : list (nat * class_ref))
  : N * N * Z * bytes * list gram :=
  (N.of_nat (stem_len r), class_no r, weight_of cls rank low r, normal_of cls low r, descriptions cls r).
(** Room for guesses: 32 stems, normal forms of 63 characters each and 512 bytes altogether, 80 descriptions. *)
Definition guesses_fit (cls : N -> class_src) (low : bytes) (rs : list (list (nat * class_ref))) : Prop :=
  (length rs <= 32)%nat /\ Forall (fun r => (length (normal_of cls low r) <= 63)%nat) rs /\ fit 512 (map (normal_of cls low) rs) /\
  (length (flat_map (descriptions cls) rs) <= 80)%nat.
(** By decreasing weight. *)
Fixpoint by_falling_weight (rows : list (N * N * Z * bytes * list gram)) : Prop :=
  match rows with
  | [] => True
  | a :: rows' => Forall (fun b => (snd (fst (fst b)) <= snd (fst (fst a)))%Z) rows' /\ by_falling_weight rows'
  end.

(** ** Handles *)

(** How often an interface occurs. *)
Definition attached (i : nat) (evs : list event) : nat := length (filter (fun e => match e with Attach j => Nat.eqb j i | _ => false end) evs).
Definition detached (i : nat) (evs : list event) : nat := length (filter (fun e => match e with Detach j => Nat.eqb j i | _ => false end) evs).
Definition holders (i : nat) (s : handles) : nat := length (filter (fun x => match x with Some (Some j) => Nat.eqb j i | _ => false end) s).
Definition times (i : nat) (l : list nat) : nat := length (filter (Nat.eqb i) l).

(** Well-behaved programs.  [own]: the references the program itself has.  What is loaded is new; what is released is owned; a handle is
    made of an interface somebody holds; no handle is assigned to itself. *)
Inductive behaves (own : list nat) (s : handles) : pop -> list nat -> Prop :=
| be_load i : ~ In i own -> holders i s = 0%nat -> behaves own s (Load i) (i :: own)
| be_release i a b : own = a ++ i :: b -> behaves own s (Release i) (a ++ b)
| be_new : behaves own s (Use HNew) own
| be_null : behaves own s (Use (HFrom None)) own
| be_from i : In i own \/ (0 < holders i s)%nat -> behaves own s (Use (HFrom (Some i))) own
| be_copy m : behaves own s (Use (HCopy m)) own
| be_assign h m : h <> m -> behaves own s (Use (HAssign h m)) own
| be_destroy h : behaves own s (Use (HDestroy h)) own.

(** The histories of such programs: own references, handles and calls made in the end. *)
Inductive history : list pop -> list nat -> handles -> list event -> Prop :=
| hi_start : history [] [] [] []
| hi_step ps own s evs p own' s' evs' :
    history ps own s evs -> behaves own s p own' -> pstep s p = Some (evs', s') -> history (ps ++ [p]) own' s' (evs ++ evs').
