(** * CodepageSpec: strings in the caller's code page, independently of the code.  SPECIFICATION ONLY. *)
From Verif Require Import Base Serial WordTree TreeSpec FlatScan Stems StemSpec CharTables CapScheme CapSpec GramMap RusRuntime RusSpec
  RusBuild RusBuildSpec RusReadings RusLemmaSpec Codepage.
Local Open Scope N_scope.

(** What is expected of a code page: NUL and only NUL is written with a zero byte, and text survives the way there and back. *)
Record encoding_ok (E : encoding) : Prop := {
  enc_nul : enc E 0 = [0];
  enc_letters : forall c, c <> 0 -> enc E c <> [] /\ ~ In 0 (enc E c);
  dec_enc : forall s, is_bytes s -> ~ In 0 s -> dec E (encode E s) = s;
}.

(** The bytes [w] are the text [t] (windows-1251) in the code page. *)
Definition spells (E : encoding) (w t : bytes) : Prop := w <> [] /\ dec E w = t.

(** The strings [fs] (windows-1251) fit [size] bytes when written in the code page, each with its terminator, followed by the
    slack the converters ask for. *)
Definition fit_in (E : encoding) (size : nat) (fs : list bytes) : Prop :=
  fs = [] \/ (total (map (encode E) fs) + slack E <= size)%nat.

(** Memory behind [n] bytes that were written with the terminator of a string: one more terminator, if there is room. *)
Definition behind (n : nat) (mem : bytes) : bytes := match skipn n mem with [] => [] | _ :: rest => 0 :: rest end.
Definition after_in (E : encoding) (fs : list bytes) (mem : bytes) : bytes :=
  match fs with [] => mem | _ => behind (total (map (encode E) fs)) mem end.
(** The buffer with the strings one after another, each in the code page and terminated. *)
Definition filled_in (E : encoding) (fs : list bytes) (mem : bytes) : bytes := joined (map (encode E) fs) ++ after_in E fs mem.

(** As [delivered]. *)
Definition delivered_in (E : encoding) (mem : bytes) (fs : list bytes) (limits : Prop) (r : res (Z * option bytes)) : Prop :=
  (limits /\ fit_in E (length mem) fs -> r = Ok (Z.of_nat (length fs), Some (filled_in E fs mem))) /\
  (~ (limits /\ fit_in E (length mem) fs) -> exists mem', length mem' = length mem /\ r = Ok ((-1)%Z, Some mem')).

(** As [all_fit], [described] and [answer]; [ls] are the normal forms in windows-1251. *)
Definition all_fit_in (E : encoding) (dwsets : N) (gs : list lexeme) (ls : list bytes)
  (plemma : option (list lemm)) (pforms : option bytes) (pgrams : option (list gram)) : Prop :=
  (forall mem, plemma = Some mem -> (length gs <= length mem)%nat) /\
  (forall mem, pforms = Some mem -> Forall (fun g => small (rd_dict_forms dwsets (lx_first g))) gs /\ fit_in E (length mem) ls) /\
  (forall mem, plemma <> None -> pgrams = Some mem -> grams_fit (length mem) (flat_map stored gs)).

Definition described_in (E : encoding) (gs : list lexeme) (ls : list bytes) (plemma : option (list lemm)) (pforms : option bytes)
  (pgrams : option (list gram)) (plemma' : option (list lemm)) (pforms' : option bytes) (pgrams' : option (list gram)) : Prop :=
  (forall mem, plemma = Some mem -> exists mem', plemma' = Some mem' /\
     (forall i g, nth_error gs i = Some g -> nth_error mem' i = Some (lemm_cell gs (map (encode E) ls) pforms pgrams i g)) /\
     skipn (S (length gs)) mem' = skipn (S (length gs)) mem) /\
  (forall mem, pforms = Some mem -> pforms' = Some (filled_in E ls mem)) /\
  (forall mem, pgrams = Some mem -> pgrams' = Some (if plemma then concat (flat_map stored gs) ++ skipn (length (concat (flat_map stored gs))) mem else mem)).

Definition answer_in (E : encoding) (dwsets : N) (hs : list reading) (plemma : option (list lemm)) (pforms : option bytes)
  (pgrams : option (list gram)) (r : res (Z * (option (list lemm) * option bytes * option (list gram)))) : Prop :=
  let gs := lexemes_of plemma hs in
  exists ls z plemma' pforms' pgrams', length ls = length gs /\
    (pforms <> None -> Forall2 (fun g l => lemma_of dwsets (lx_first g) l) gs ls) /\
    r = Ok (z, (plemma', pforms', pgrams')) /\
    same_size plemma' plemma /\ same_size pforms' pforms /\ same_size pgrams' pgrams /\
    (all_fit_in E dwsets gs ls plemma pforms pgrams -> z = Z.of_nat (length gs) /\ described_in E gs ls plemma pforms pgrams plemma' pforms' pgrams') /\
    (~ all_fit_in E dwsets gs ls plemma pforms pgrams -> z = (-1)%Z \/ z = (-2)%Z \/ z = (-3)%Z).

(** The matches of a call, their strings in the code page. *)
Definition told_in (E : encoding) (ev : N * bytes * N) : N * bytes * N := (fst (fst ev), encode E (snd (fst ev)), snd ev).
