(** * MakeichSpec: what the text of alternation tables means.  SPECIFICATION ONLY. *)
From Coq Require Import String.
From Verif Require Import Base Serial WordTree TreeSpec Stems StemSpec GramMap RusRuntime LevelSpec RusSpec Compile CompileSpec Api EngCompileSpec Utf8 RusText Tfc TfcSpec Makeich.
Local Open Scope N_scope.
Local Open Scope list_scope.
Notation length := List.length.

(** ** Text *)

(** An alternation: a condition and the strings that alternate, that of the first level first. *)
Record mixline := MixLine { ml_cond : bytes; ml_strings : list bytes }.
(** The fields of a line; an empty one at its end (behind a comma) is none.  Two apostrophes stand for the empty string. *)
Definition unquoted (s : bytes) : bytes := if list_eq_dec N.eq_dec s (text "''") then [] else s.
Definition mix_says (s : bytes) (x : mixline) : Prop :=
  exists fs one two more, fields s fs /\ (fs = ml_cond x :: one :: two :: more /\ last fs [] <> [] \/ fs = (ml_cond x :: one :: two :: more) ++ [[]]) /\
    ml_cond x <> [] /\ one <> [] /\ two <> [] /\ ml_strings x = map unquoted (one :: two :: more).
Record mixdef := MixDef { md_names : list bytes; md_lines : list mixline }.
Definition mix_declares (s : bytes) (names : list bytes) : Prop :=
  exists rest, commanded [".таблица"; ".table"]%string s rest /\ ~ white rest /\ names_written rest names.
(** The definitions in file [name], included files in their places; at most [depth] files are open at a time. *)
Inductive mixes_defined (fs : bytes -> option bytes) (conv : N -> N) : nat -> bytes -> list mixdef -> Prop :=
| md_file depth name file ss ds : fs name = Some file -> file_says conv file ss -> mixes_listed fs conv depth name ss ds -> mixes_defined fs conv (S depth) name ds
with mixes_listed (fs : bytes -> option bytes) (conv : N -> N) : nat -> bytes -> list bytes -> list mixdef -> Prop :=
| mll_nil depth name : mixes_listed fs conv depth name [] []
| mll_include depth name s sub path ss ds ds' : includes s sub -> beside name sub path -> mixes_defined fs conv depth path ds ->
    mixes_listed fs conv depth name ss ds' -> mixes_listed fs conv depth name (s :: ss) (ds ++ ds')
| mll_table depth name header names body xs ss ds : mix_declares header names -> Forall (fun s => s <> [125]) body -> Forall2 mix_says body xs ->
    mixes_listed fs conv depth name ss ds -> mixes_listed fs conv depth name (header :: [123] :: body ++ [125] :: ss) (MixDef names xs :: ds).

(** ** Meaning *)

(** The string of level 1, 2, 3 (k = 0, 1, 2): a level that is not given is like the first. *)
Definition level_string (strings : list bytes) (k : nat) : bytes := nth k strings (nth 0 strings []).
(** The stored strings [mx] alternate like that: on each level there is exactly the string of that level. *)
Definition mix_tells (strings : list bytes) (mx : list (N * bytes)) : Prop :=
  (forall k s, (k < 3)%nat -> ((exists mask, In (mask, s) mx /\ N.testbit mask (N.of_nat k) = true) <-> s = level_string strings k)) /\
  (forall s, In s (map snd mx) <-> In s strings).
Definition alternates_as (b : bytes) (off : N) (strings : list bytes) : Prop := exists mx, mix_at b off mx /\ mix_tells strings mx.

(** The alternations of a name, in order. *)
Definition mixes_of (ds : list mixdef) (name : bytes) : list mixline :=
  flat_map (fun d => if in_dec (list_eq_dec N.eq_dec) name (md_names d) then md_lines d else []) ds.
(** Definitions have names; two of them have the same names or no common one.  (Empty ones do not matter.) *)
Definition consistent (ds : list mixdef) : Prop :=
  (forall d, In d ds -> md_lines d <> [] -> md_names d <> []) /\
  forall d d', In d ds -> In d' ds -> md_lines d <> [] -> md_lines d' <> [] ->
    (forall n, In n (md_names d) <-> In n (md_names d')) \/ (forall n, In n (md_names d) -> ~ In n (md_names d')).
(** The format: strings of less than 16 bytes, at most four levels; 64 KB. *)
Definition mix_fits (d : mixdef) : Prop := Forall (fun x => (length (ml_strings x) <= 4)%nat /\ Forall (fun s => is_bytes s /\ (length s < 16)%nat) (ml_strings x)) (md_lines d).
Definition mix_size (x : mixline) : N := 1 + fold_right (fun s n => 1 + N.of_nat (length s) + n) 0 (ml_strings x).
Definition mixes_size (ds : list mixdef) : N := 6 + fold_right (fun d n => fold_right (fun x n => mix_size x + n) 0 (md_lines d) + n) 0 ds.
(** A reference (offset, condition) and the alternation it stands for. *)
Definition refers (b : bytes) (oc : N * bytes) (x : mixline) : Prop := 0 < fst oc < 2 ^ 16 /\ snd oc = ml_cond x /\ alternates_as b (fst oc) (ml_strings x).
Definition mixes_mean (ds : list mixdef) (b : bytes) (ix : list (bytes * list (N * bytes))) : Prop :=
  is_bytes b /\ (forall name, lookup name ix = None <-> mixes_of ds name = []) /\
  forall name refs, lookup name ix = Some refs -> Forall2 (refers b) refs (mixes_of ds name).

(** ** Definitions that share names without having the same *)

(** Two names of one definition are related, and so are names related to a third. *)
Inductive related (ds : list mixdef) : bytes -> bytes -> Prop :=
| rel_refl n : related ds n n
| rel_step n m k d : In d ds -> md_lines d <> [] -> In n (md_names d) -> In m (md_names d) -> related ds m k -> related ds n k.
(** The alternations of all definitions with a name like that. *)
Inductive group (like : bytes -> Prop) : list mixdef -> list mixline -> Prop :=
| gr_nil : group like [] []
| gr_in d ds xs n : In n (md_names d) -> like n -> group like ds xs -> group like (d :: ds) (md_lines d ++ xs)
| gr_out d ds xs : (forall n, In n (md_names d) -> ~ like n) -> group like ds xs -> group like (d :: ds) xs.
Definition mixes_grouped (ds : list mixdef) (b : bytes) (ix : list (bytes * list (N * bytes))) : Prop :=
  is_bytes b /\ (forall name, lookup name ix = None <-> mixes_of ds name = []) /\
  forall name refs, lookup name ix = Some refs -> exists xs, group (related ds name) ds xs /\ Forall2 (refers b) refs xs.
