(** * EngLemmaSpec: what the English Lemmatize reports about the readings of a word, independently of the code.  SPECIFICATION ONLY.
    Descriptions of arrays ([grams_fit], [same_size]) are those of [RusLemmaSpec]. *)
From Verif Require Import Base Serial WordTree TreeSpec FlatScan Stems StemSpec CharTables CapScheme CapSpec GramMap RusRuntime RusSpec
  RusBuild RusBuildSpec RusReadings RusLemmaSpec EngRuntime EngSpec EngFormsSpec.
Local Open Scope N_scope.

(** ** Descriptions *)

(** The description shown to the user for form [id]: word type and form identifier (255 for a fixed word). *)
Definition eshown (c : eclass) (id : N) : gram :=
  match k_ends c with
  | None => Gram (N.ldiff (k_word c) 0xe000) 255 0 0
  | Some _ => Gram (k_word c mod 128) id 0 0
  end.
Definition er_shown (r : ereading) : list gram := map (eshown (er_class r)) (er_ids r).
Definition er_id (r : ereading) : N := nlexid (er_entry r).

(** ** Normal forms *)

(** The dictionary forms: those of the least identifier below 16 that has any. *)
Definition edict_forms (c : eclass) (key post : bytes) : list bytes :=
  match find nonempty (map (fun n => eraw_forms c key post (N.of_nat n)) (seq 0 16)) with Some fs => fs | None => [] end.
Definition er_dict_forms (r : ereading) : list bytes := edict_forms (er_class r) (er_key r) (stpost (er_entry r)).

(** The normal form of a reading: the first of its dictionary forms, in the lexeme's capitalisation. *)
Definition elemma_of (r : ereading) (s : bytes) : Prop :=
  exists x more, er_dict_forms r = x :: more /\ s = respell eng_casing (ecase (er_class r)) x.

(** ** Lexemes: readings of the same lexeme that follow one another are reported together. *)
Record elexeme := ELexeme { ex_first : ereading; ex_more : list ereading }.
Fixpoint egrouped (hs : list ereading) : list elexeme :=
  match hs with
  | [] => []
  | r :: hs' =>
      match egrouped hs' with
      | g :: gs => if er_id (ex_first g) =? er_id r then ELexeme r (ex_first g :: ex_more g) :: gs else ELexeme r [] :: g :: gs
      | [] => [ELexeme r []]
      end
  end.
(** ... provided the caller wants to know the lexemes. *)
Definition elexemes_of {X} (plemma : option X) (hs : list ereading) : list elexeme :=
  match plemma with None => map (fun r => ELexeme r []) hs | Some _ => egrouped hs end.

(** ** Descriptions stored for a lexeme: those of the first reading; of a further reading those follow whose form identifier
    (0 standing for that of a fixed word) the first reading does not have. *)
Definition ecompared (c : eclass) (id : N) : N := match k_ends c with None => 0 | Some _ => id end.
Definition eadded (first r : ereading) : list (list gram) :=
  map (fun id => if existsb (fun g => gidForm g =? ecompared (er_class r) id) (er_shown first) then [] else [eshown (er_class r) id]) (er_ids r).
Definition estored (g : elexeme) : list (list gram) := er_shown (ex_first g) :: flat_map (eadded (ex_first g)) (ex_more g).

(** ** The answer *)

(** All results fit the arrays given ([None] is a null pointer); [ls] are the normal forms. *)
Definition eall_fit (gs : list elexeme) (ls : list bytes)
  (plemma : option (list lemm)) (pforms : option bytes) (pgrams : option (list gram)) : Prop :=
  (forall mem, plemma = Some mem -> (length gs <= length mem)%nat) /\
  (forall mem, pforms = Some mem -> Forall (fun g => small (er_dict_forms (ex_first g))) gs /\ fit (length mem) ls) /\
  (forall mem, plemma <> None -> pgrams = Some mem -> grams_fit (length mem) (flat_map estored gs)).

(** The arrays afterwards: element [i] describes lexeme [i]. *)
Definition elemm_cell (gs : list elexeme) (ls : list bytes) (pforms : option bytes) (pgrams : option (list gram)) (i : nat) (g : elexeme) : lemm :=
  Lemm (er_id (ex_first g))
       (match pforms with None => None | Some _ => Some (total (firstn i ls)) end)
       (match pgrams with None => 0 | Some _ => N.of_nat (length (concat (flat_map estored (firstn i gs)))) end)
       (match pgrams with None => 0 | Some _ => N.of_nat (length (er_shown (ex_first g))) end).
Definition edescribed (gs : list elexeme) (ls : list bytes) (plemma : option (list lemm)) (pforms : option bytes) (pgrams : option (list gram))
  (plemma' : option (list lemm)) (pforms' : option bytes) (pgrams' : option (list gram)) : Prop :=
  (forall mem, plemma = Some mem -> exists mem', plemma' = Some mem' /\
     (forall i g, nth_error gs i = Some g -> nth_error mem' i = Some (elemm_cell gs ls pforms pgrams i g)) /\
     skipn (S (length gs)) mem' = skipn (S (length gs)) mem) /\
  (forall mem, pforms = Some mem -> pforms' = Some (filled ls mem)) /\
  (forall mem, pgrams = Some mem -> pgrams' = Some (if plemma then concat (flat_map estored gs) ++ skipn (length (concat (flat_map estored gs))) mem else mem)).

(** What the caller has to ensure: every lexeme has its dictionary form (otherwise the code skips the lexeme), and the lexeme filling
    the array of lexemes has one reading only (otherwise the code writes behind the array). *)
Definition esafe_call (gs : list elexeme) (plemma : option (list lemm)) (pforms : option bytes) (pgrams : option (list gram)) : Prop :=
  (pforms <> None -> Forall (fun g => er_dict_forms (ex_first g) <> []) gs) /\
  (forall mem g, plemma = Some mem -> pgrams <> None -> mem <> [] -> nth_error gs (length mem - 1) = Some g -> ex_more g = []).

(** The answer as a whole. *)
Definition eanswer (hs : list ereading) (plemma : option (list lemm)) (pforms : option bytes) (pgrams : option (list gram))
  (r : res (Z * (option (list lemm) * option bytes * option (list gram)))) : Prop :=
  let gs := elexemes_of plemma hs in
  exists ls z plemma' pforms' pgrams', length ls = length gs /\
    (pforms <> None -> Forall2 (fun g l => elemma_of (ex_first g) l) gs ls) /\
    r = Ok (z, (plemma', pforms', pgrams')) /\
    same_size plemma' plemma /\ same_size pforms' pforms /\ same_size pgrams' pgrams /\
    (eall_fit gs ls plemma pforms pgrams -> z = Z.of_nat (length gs) /\ edescribed gs ls plemma pforms pgrams plemma' pforms' pgrams') /\
    (~ eall_fit gs ls plemma pforms pgrams -> z = (-1)%Z \/ z = (-2)%Z \/ z = (-3)%Z).
