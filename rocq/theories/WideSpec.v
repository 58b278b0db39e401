(** * WideSpec: the wide-character interface, independently of the code.  SPECIFICATION ONLY. *)
From Verif Require Import Base Serial WordTree TreeSpec FlatScan Stems StemSpec CharTables CapScheme CapSpec GramMap RusRuntime RusSpec
  RusBuild RusBuildSpec RusReadings RusLemmaSpec EngRuntime EngSpec EngFormsSpec EngLemmaSpec WildSpec Codepage WideApi.
Local Open Scope N_scope.

(** What is expected of the converters: NUL and only NUL is wide NUL; text survives the way there and back; every wide character is read as
    some byte; at most one character is demanded behind the output. *)
Record wide_ok (W : wide) : Prop := {
  wd_nul : to_wide W 0 = 0;
  wd_letters : forall c, c <> 0 -> to_wide W c <> 0;
  wd_back : forall c, c < 256 -> of_wide W (to_wide W c) = c;
  wd_bytes : forall c, of_wide W c < 256;
  wd_slack : (wslack W <= 1)%nat;
}.

(** The text in windows-1251 meant by wide characters, and the wide characters of a text. *)
Definition narrowed (W : wide) (w : list N) : bytes := map (of_wide W) w.
Definition widened (W : wide) (t : bytes) : list N := map (to_wide W) t.

(** [size] wide characters are enough for the strings [fs]: two more than their characters and terminators (unless there are none), and
    never more than 98. *)
Definition wide_fit (size : nat) (fs : list bytes) : Prop := fs = [] \/ (total fs + 2 <= Nat.min size 98)%nat.

(** The answer when the strings [fs] are returned in the array [mem], unless [limits] are exceeded or they do not fit; an array
    without room for a character is an argument error. *)
Definition delivered_wide (W : wide) (mem : list N) (fs : list bytes) (limits : Prop) (r : res (Z * option (list N))) : Prop :=
  ((length mem <= 1)%nat -> r = Ok ((-5)%Z, Some mem)) /\
  ((2 <= length mem)%nat -> limits /\ wide_fit (length mem) fs ->
     r = Ok (Z.of_nat (length fs), Some (widened W (joined fs) ++ skipn (total fs) mem))) /\
  ((2 <= length mem)%nat -> ~ (limits /\ wide_fit (length mem) fs) -> r = Ok ((-1)%Z, Some mem)).

(** FindForms: the converter is offered as much room as the caller counts characters, at most 98, and the word and what the converter
    demands behind it fit. *)
Definition convertible (W : wide) (w : list N) (cch : N) : Prop := (length w + wslack W <= N.to_nat (N.min cch 98))%nat.

(** ** Lemmatize: at most 32 lexemes, at most 240 characters of normal forms. *)
Definition wide_all_fit (dwsets : N) (gs : list lexeme) (ls : list bytes)
  (output : option (list lemm)) (plemma : option (list N)) (pgrams : option (list gram)) : Prop :=
  (forall mem, output = Some mem -> (length gs <= Nat.min (length mem) 32)%nat) /\
  (forall mem, plemma = Some mem -> Forall (fun g => small (rd_dict_forms dwsets (lx_first g))) gs /\ fit (Nat.min (length mem) 240) ls) /\
  (forall mem, output <> None -> pgrams = Some mem -> grams_fit (length mem) (flat_map stored gs)).
Definition ewide_all_fit (gs : list elexeme) (ls : list bytes)
  (output : option (list lemm)) (plemma : option (list N)) (pgrams : option (list gram)) : Prop :=
  (forall mem, output = Some mem -> (length gs <= Nat.min (length mem) 32)%nat) /\
  (forall mem, plemma = Some mem -> Forall (fun g => small (er_dict_forms (ex_first g))) gs /\ fit (Nat.min (length mem) 240) ls) /\
  (forall mem, output <> None -> pgrams = Some mem -> grams_fit (length mem) (flat_map estored gs)).

(** The arrays afterwards; [cell i g] is the element for lexeme [g], [stored] its descriptions.  Nothing else is written. *)
Definition wide_described {G} (W : wide) (cell : nat -> G -> lemm) (st : list gram) (gs : list G) (ls : list bytes)
  (output : option (list lemm)) (plemma : option (list N)) (pgrams : option (list gram))
  (output' : option (list lemm)) (plemma' : option (list N)) (pgrams' : option (list gram)) : Prop :=
  (forall mem, output = Some mem -> exists cells, output' = Some (cells ++ skipn (length gs) mem) /\ length cells = length gs /\
     forall i g, nth_error gs i = Some g -> nth_error cells i = Some (cell i g)) /\
  (forall mem, plemma = Some mem -> plemma' = Some (widened W (joined ls) ++ skipn (total ls) mem)) /\
  (forall mem, pgrams = Some mem -> pgrams' = Some (if output then st ++ skipn (length st) mem else mem)).

Definition wide_answer (W : wide) (dwsets : N) (hs : list reading) (output : option (list lemm)) (plemma : option (list N))
  (pgrams : option (list gram)) (r : res (Z * (option (list lemm) * option (list N) * option (list gram)))) : Prop :=
  let gs := lexemes_of output hs in
  exists ls z output' plemma' pgrams', length ls = length gs /\
    (plemma <> None -> Forall2 (fun g l => lemma_of dwsets (lx_first g) l) gs ls) /\
    r = Ok (z, (output', plemma', pgrams')) /\
    same_size output' output /\ same_size plemma' plemma /\ same_size pgrams' pgrams /\
    (wide_all_fit dwsets gs ls output plemma pgrams -> z = Z.of_nat (length gs) /\
       wide_described W (lemm_cell gs ls plemma pgrams) (concat (flat_map stored gs)) gs ls output plemma pgrams output' plemma' pgrams') /\
    (~ wide_all_fit dwsets gs ls output plemma pgrams -> (z = (-1)%Z \/ z = (-2)%Z \/ z = (-3)%Z) /\ output' = output /\ plemma' = plemma).
Definition ewide_answer (W : wide) (hs : list ereading) (output : option (list lemm)) (plemma : option (list N))
  (pgrams : option (list gram)) (r : res (Z * (option (list lemm) * option (list N) * option (list gram)))) : Prop :=
  let gs := elexemes_of output hs in
  exists ls z output' plemma' pgrams', length ls = length gs /\
    (plemma <> None -> Forall2 (fun g l => elemma_of (ex_first g) l) gs ls) /\
    r = Ok (z, (output', plemma', pgrams')) /\
    same_size output' output /\ same_size plemma' plemma /\ same_size pgrams' pgrams /\
    (ewide_all_fit gs ls output plemma pgrams -> z = Z.of_nat (length gs) /\
       wide_described W (elemm_cell gs ls plemma pgrams) (concat (flat_map estored gs)) gs ls output plemma pgrams output' plemma' pgrams') /\
    (~ ewide_all_fit gs ls output plemma pgrams -> (z = (-1)%Z \/ z = (-2)%Z \/ z = (-3)%Z) /\ output' = output /\ plemma' = plemma).

(** What the caller has to ensure, as [safe_call], the array of lexemes being cut to 32. *)
Definition wide_safe (dwsets : N) (gs : list lexeme) (output : option (list lemm)) (plemma : option (list N)) (pgrams : option (list gram)) : Prop :=
  (plemma <> None -> Forall (fun g => rd_dict_forms dwsets (lx_first g) <> []) gs) /\
  (forall mem g, output = Some mem -> pgrams <> None -> mem <> [] -> nth_error gs (Nat.min (length mem) 32 - 1) = Some g -> lx_more g = []).
Definition ewide_safe (gs : list elexeme) (output : option (list lemm)) (plemma : option (list N)) (pgrams : option (list gram)) : Prop :=
  (plemma <> None -> Forall (fun g => er_dict_forms (ex_first g) <> []) gs) /\
  (forall mem g, output = Some mem -> pgrams <> None -> mem <> [] -> nth_error gs (Nat.min (length mem) 32 - 1) = Some g -> ex_more g = []).

(** The collector as the narrow search sees it: its strings become wide. *)
Definition wide_calls {U} (W : wide) (add : U -> N -> list (list N * N) -> U * Z) (u : U) (lid : N) (ms : list (bytes * N)) : U * Z :=
  add u lid (map (fun m => (widened W (fst m), snd m)) ms).
