(** * WildSpec: what patterns mean.  SPECIFICATION ONLY. *)
From Verif Require Import Base WordTree TreeSpec Stems StemSpec CapScheme GramMap RusRuntime RusSpec.
Local Open Scope N_scope.

(** Pattern [p] describes string [s]: '?' (63) stands for one letter, '*' (42) for any number of letters, any other
    letter for itself. *)
Inductive glob : bytes -> bytes -> Prop :=
| glob_end : glob [] []
| glob_same c p s : c <> 42 -> c <> 63 -> glob p s -> glob (c :: p) (c :: s)
| glob_one c p s : glob p s -> glob (63 :: p) (c :: s)
| glob_none p s : glob p s -> glob (42 :: p) s
| glob_more c p s : glob (42 :: p) s -> glob (42 :: p) (c :: s).

(** The identifier reported for a form: words without inflexion have none. *)
Definition form_id (c : aclass) (g f : N) : N :=
  match c_flex c with None => 255 | Some _ => MapWordInfo (c_word c) g f end.

(** Record [e] under stem [key] has the form [str] with identifier [id], made with the changing part [part]. *)
Definition has_form (L : lexicon) (key : bytes) (e : entry) (part : bytes) (str : bytes) (id : N) : Prop :=
  has_record (words L) key e /\
  exists st c g f, class_of L (oclass e) = Some (st, c) /\ form_part c part g f /\
                   str = key ++ part ++ stpost e /\ id = form_id c g f.

(** Lexeme [lid] has a form [str], identifier [id], described by [pat]. *)
Definition matching (L : lexicon) (pat : bytes) (lid : N) (str : bytes) (id : N) : Prop :=
  exists key e part, has_form L key e part str id /\ nlexid e = lid /\ glob pat str.

(** A list of (lexeme, string, identifier) cut into runs of the same lexeme: the calls that deliver it. *)
Fixpoint runs (evs : list (N * bytes * N)) : list (N * list (bytes * N)) :=
  match evs with
  | [] => []
  | (lid, str, id) :: evs' =>
      match runs evs' with
      | (lid', ms) :: rest => if lid =? lid' then (lid, (str, id) :: ms) :: rest else (lid, [(str, id)]) :: (lid', ms) :: rest
      | [] => [(lid, [(str, id)])]
      end
  end.

(** Making the calls in turn; the value is that of the last one, 0 when there is none. *)
Fixpoint deliver {U} (add : U -> N -> list (bytes * N) -> U * Z) (calls : list (N * list (bytes * N))) (u : U) : U * Z :=
  match calls with
  | [] => (u, 0%Z)
  | [(lid, ms)] => add u lid ms
  | (lid, ms) :: calls' => deliver add calls' (fst (add u lid ms))
  end.

(** A call fits the arrays of the search: 512 matches, 24576 bytes of strings with their terminators. *)
Definition call_fits (call : N * list (bytes * N)) : Prop :=
  (length (snd call) <= 512)%nat /\ fold_right (fun m n => N.of_nat (length (fst m)) + 1 + n) 0 (snd call) <= 24576.

(** No string the search can walk through is longer than [n]: stems, and stem + alternation + ending + postfix. *)
Definition strings_within (n : nat) (L : lexicon) : Prop :=
  within n (words L) /\
  forall key e st c ft, has_record (words L) key e -> class_of L (oclass e) = Some (st, c) -> c_flex c = Some ft ->
    exists h a, within h ft /\ (forall mx, c_mix c = Some mx -> Forall (fun ma => (length (snd ma) <= a)%nat) mx) /\
      (length key + a + h + length (stpost e) <= n)%nat.

(** The letters of the dictionary are not wildcards. *)
Definition plain_letters (L : lexicon) : Prop :=
  forall key e part str id, has_form L key e part str id -> ~ In 42 str /\ ~ In 63 str.

(** Words without inflexion have no postfix. *)
Definition fixed_plain (L : lexicon) : Prop :=
  forall key e st c, has_record (words L) key e -> class_of L (oclass e) = Some (st, c) -> c_flex c = None -> stpost e = [].
