(** * RusLemmaSpec: what Lemmatize reports about the readings of a word, independently of the code.  SPECIFICATION ONLY. *)
From Verif Require Import Base Serial WordTree TreeSpec FlatScan Stems StemSpec CharTables CapScheme CapSpec GramMap RusRuntime RusSpec
  RusBuild RusBuildSpec RusReadings.
Local Open Scope N_scope.

(** ** Descriptions *)

(** The description shown to the user for (g, f): word type, form identifier (255 for a fixed word), grammar and flags. *)
Definition shown (c : aclass) (gf : N * N) : gram :=
  match c_flex c with
  | None => Gram (N.ldiff (c_word c) 0xe000) 255 (fst gf) (snd gf)
  | Some _ => let wd := N.ldiff (c_word c) 0xf800 in Gram wd (MapWordInfo wd (fst gf) (snd gf)) (fst gf) (snd gf)
  end.
Definition rd_shown (r : reading) : list gram := map (shown (rd_class r)) (rd_descs r).
Definition rd_id (r : reading) : N := nlexid (rd_entry r).

(** ** Normal forms *)

(** The grammar of the dictionary form: the infinitive (1) of a verb - or, when asked for by setting 8, the full adjective of the
    participle -, the full form (0x200) of an adjective, and the plural (0x800) of a word used in the plural only. *)
Definition dict_gramm (c : aclass) (dwsets : N) (gf : N * N) : N :=
  if IsVerb (c_word c)
  then if N.testbit dwsets 8 && IsParticiple (fst gf) then N.lor (N.land (fst gf) 0x67) 0x200 else 1
  else (if IsAdjective (c_word c) then 0x200 else 0) + (if N.testbit (c_word c) 6 then 0x800 else 0).

(** The dictionary forms: those of that grammar, else (verbs and adjectives) those with bit 15 added. *)
Definition dict_forms (c : aclass) (key post : bytes) (dwsets : N) (gf : N * N) : list bytes :=
  let g := dict_gramm c dwsets gf in
  match raw_forms c key post (Flexinfo g 3) with
  | [] => if IsVerb (c_word c) || IsAdjective (c_word c) then raw_forms c key post (Flexinfo (N.lor g 0x8000) 3) else []
  | fs => fs
  end.
Definition rd_dict_forms (dwsets : N) (r : reading) : list bytes :=
  dict_forms (rd_class r) (rd_key r) (stpost (rd_entry r)) dwsets (hd (0, 0) (rd_descs r)).

(** The normal form of a reading: the least of its dictionary forms, in the lexeme's capitalisation. *)
Definition lemma_of (dwsets : N) (r : reading) (s : bytes) : Prop :=
  exists x, In x (rd_dict_forms dwsets r) /\ Forall (fun y => lex_lt x y \/ x = y) (rd_dict_forms dwsets r) /\
    s = respell rus_casing (min_case (rd_class r)) x.

(** ** Lexemes: readings of the same lexeme that follow one another are reported together. *)
Record lexeme := Lexeme { lx_first : reading; lx_more : list reading }.
Fixpoint grouped (hs : list reading) : list lexeme :=
  match hs with
  | [] => []
  | r :: hs' =>
      match grouped hs' with
      | g :: gs => if rd_id (lx_first g) =? rd_id r then Lexeme r (lx_first g :: lx_more g) :: gs else Lexeme r [] :: g :: gs
      | [] => [Lexeme r []]
      end
  end.
(** ... provided the caller wants to know the lexemes. *)
Definition lexemes_of {X} (plemma : option X) (hs : list reading) : list lexeme :=
  match plemma with None => map (fun r => Lexeme r []) hs | Some _ => grouped hs end.

(** ** Descriptions stored for a lexeme: those of the first reading; those of a further reading follow, unless the first reading
    has a description with form identifier 0. *)
Definition added (first r : reading) : list gram :=
  if existsb (fun g => gidForm g =? 0) (rd_shown first) then [] else rd_shown r.
Definition stored (g : lexeme) : list (list gram) := rd_shown (lx_first g) :: map (added (lx_first g)) (lx_more g).

(** They fit an array of [size] elements; a free element is wanted for every reading, even if it adds nothing. *)
Fixpoint grams_fit (size : nat) (steps : list (list gram)) : Prop :=
  match steps with
  | [] => True
  | x :: xs => (Nat.max 1 (length x) <= size)%nat /\ grams_fit (size - length x) xs
  end.

(** ** The answer *)

(** All results fit the arrays given ([None] is a null pointer); [ls] are the normal forms. *)
Definition all_fit (dwsets : N) (gs : list lexeme) (ls : list bytes)
  (plemma : option (list lemm)) (pforms : option bytes) (pgrams : option (list gram)) : Prop :=
  (forall mem, plemma = Some mem -> (length gs <= length mem)%nat) /\
  (forall mem, pforms = Some mem -> Forall (fun g => small (rd_dict_forms dwsets (lx_first g))) gs /\ fit (length mem) ls) /\
  (forall mem, plemma <> None -> pgrams = Some mem -> grams_fit (length mem) (flat_map stored gs)).

(** The arrays afterwards: element [i] describes lexeme [i]. *)
Definition lemm_cell (gs : list lexeme) (ls : list bytes) (pforms : option bytes) (pgrams : option (list gram)) (i : nat) (g : lexeme) : lemm :=
  Lemm (rd_id (lx_first g))
       (match pforms with None => None | Some _ => Some (total (firstn i ls)) end)
       (match pgrams with None => 0 | Some _ => N.of_nat (length (concat (flat_map stored (firstn i gs)))) end)
       (match pgrams with None => 0 | Some _ => N.of_nat (length (rd_shown (lx_first g))) end).
Definition described (gs : list lexeme) (ls : list bytes) (plemma : option (list lemm)) (pforms : option bytes) (pgrams : option (list gram))
  (plemma' : option (list lemm)) (pforms' : option bytes) (pgrams' : option (list gram)) : Prop :=
  (forall mem, plemma = Some mem -> exists mem', plemma' = Some mem' /\
     (forall i g, nth_error gs i = Some g -> nth_error mem' i = Some (lemm_cell gs ls pforms pgrams i g)) /\
     skipn (S (length gs)) mem' = skipn (S (length gs)) mem) /\
  (forall mem, pforms = Some mem -> pforms' = Some (filled ls mem)) /\
  (forall mem, pgrams = Some mem -> pgrams' = Some (if plemma then concat (flat_map stored gs) ++ skipn (length (concat (flat_map stored gs))) mem else mem)).

(** The arrays keep their sizes, null pointers stay null. *)
Definition same_size {X} (a b : option (list X)) : Prop := option_map (@length X) a = option_map (@length X) b.

(** What the caller has to ensure: every lexeme has its dictionary form (otherwise the code reads a local array of a function that
    has returned), and the lexeme filling the array of lexemes has one reading only (otherwise the code writes behind the array). *)
Definition safe_call (dwsets : N) (gs : list lexeme) (plemma : option (list lemm)) (pforms : option bytes) (pgrams : option (list gram)) : Prop :=
  (pforms <> None -> Forall (fun g => rd_dict_forms dwsets (lx_first g) <> []) gs) /\
  (forall mem g, plemma = Some mem -> pgrams <> None -> mem <> [] -> nth_error gs (length mem - 1) = Some g -> lx_more g = []).

(** The answer as a whole. *)
Definition answer (dwsets : N) (hs : list reading) (plemma : option (list lemm)) (pforms : option bytes) (pgrams : option (list gram))
  (r : res (Z * (option (list lemm) * option bytes * option (list gram)))) : Prop :=
  let gs := lexemes_of plemma hs in
  exists ls z plemma' pforms' pgrams', length ls = length gs /\
    (pforms <> None -> Forall2 (fun g l => lemma_of dwsets (lx_first g) l) gs ls) /\
    r = Ok (z, (plemma', pforms', pgrams')) /\
    same_size plemma' plemma /\ same_size pforms' pforms /\ same_size pgrams' pgrams /\
    (all_fit dwsets gs ls plemma pforms pgrams -> z = Z.of_nat (length gs) /\ described gs ls plemma pforms pgrams plemma' pforms' pgrams') /\
    (~ all_fit dwsets gs ls plemma pforms pgrams -> z = (-1)%Z \/ z = (-2)%Z \/ z = (-3)%Z).
