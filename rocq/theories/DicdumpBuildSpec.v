(** * DicdumpBuildSpec: what a dump says.  SPECIFICATION ONLY. *)
From Coq Require Import Sorted.
From Verif Require Import Base WordTree TreeSpec Stems StemSpec RusRuntime RusSpec RusBuildSpec Dump DumpSpec Dicdump DicdumpBuild.
Local Open Scope N_scope.

(** The interface answers with these forms; those that do not fit an array of 256 bytes count as none. *)
Record answers (build : bytes -> N -> N -> res (Z * bytes)) (info : N -> res Z) (forms : N -> N -> list bytes) : Prop := {
  an_build : forall mem n fid, length mem = 256%nat -> n <= 0x3ffff -> fid < 256 -> exists z mem',
    build mem n fid = Ok (z, mem') /\ length mem' = 256%nat /\
    (forms n fid = [] -> (z <= 0)%Z) /\
    (forms n fid <> [] -> z = Z.of_nat (length (forms n fid)) /\ exists rest, mem' = joined (forms n fid) ++ rest);
  an_text : forall n fid f, fid < 256 -> In f (forms n fid) -> ~ In 0 f /\ ~ In 10 f /\ (length f <= 251)%nat;
  an_info : forall n, n <= 0x3ffff -> exists z, info n = Ok z /\ (z = 0%Z -> forall fid, fid < 256 -> forms n fid = []) }.

(** The first form of each identifier from 0 to 255 that has one. *)
Definition entries (forms : N -> N -> list bytes) (n : N) : list (N * bytes) :=
  flat_map (fun k => match forms n (N.of_nat k) with [] => [] | f :: _ => [(N.of_nat k, f)] end) (seq 0 256).

(** The longest beginning common to all the words. *)
Definition begins (p w : bytes) : Prop := exists t, w = p ++ t.
Definition longest_common (p : bytes) (ws : list bytes) : Prop :=
  Forall (begins p) ws /\ forall q, Forall (begins q) ws -> (length q <= length p)%nat.

(** A line: the identifier in hexadecimal, a tab, and the forms joined by a slash, each followed by | and its identifier in two
    hexadecimal digits; all but the first without the common beginning. *)
Fixpoint shown_rest (stem : bytes) (es : list (N * bytes)) (t : bytes) : Prop :=
  match es with
  | [] => t = []
  | (id, w) :: es' => exists tail t', w = stem ++ tail /\ t = [47] ++ tail ++ [124] ++ print_hex 2 id ++ t' /\ shown_rest stem es' t'
  end.
Definition dumped_line (n : N) (es : list (N * bytes)) (line : bytes) : Prop :=
  match es with
  | [] => False
  | (id, w) :: es' => exists stem rest, longest_common stem (map snd es) /\ shown_rest stem es' rest /\
                        line = print_hex 0 n ++ [9] ++ w ++ [124] ++ print_hex 2 id ++ rest
  end.

(** The dump of the lexemes from [from] to 0x3ffff that have forms, in ascending order. *)
Definition dump_of (forms : N -> N -> list bytes) (from : N) (lines : list bytes) : Prop :=
  exists ids, StronglySorted N.lt ids /\ (forall n, In n ids <-> from <= n <= 0x3ffff /\ entries forms n <> []) /\
    Forall2 (fun n line => dumped_line n (entries forms n) line) ids lines.

(** The text of these lines, and the identifier in front of a line. *)
Definition as_text (lines : list bytes) : bytes := flat_map (fun l => l ++ [10]) lines.
Fixpoint before_tab (t : bytes) : bytes := match t with [] => [] | c :: t' => if c =? 9 then [] else c :: before_tab t' end.
Definition line_id (line : bytes) : N := match number 16 0 (before_tab line) with Some n => n | None => 0 end.

(** The forms of the records of a dictionary; those that do not fit an array of 256 bytes with their terminators and one more are not built. *)
Definition describes (L : lexicon) (forms : N -> N -> list bytes) : Prop :=
  (forall key e st c fid, has_record (words L) key e -> nlexid e <= 0x3ffff -> fid < 256 -> class_of L (oclass e) = Some (st, c) ->
     let fs := requested c key (stpost e) fid in
     ((total fs < 256)%nat -> forms (nlexid e) fid = fs) /\ ((256 <= total fs)%nat -> forms (nlexid e) fid = [])) /\
  (forall n fid, n <= 0x3ffff -> (forall key e, has_record (words L) key e -> nlexid e <> n) -> forms n fid = []).
Definition plain_forms (L : lexicon) : Prop := forall key e st c fid f, has_record (words L) key e -> class_of L (oclass e) = Some (st, c) -> fid < 256 ->
  In f (requested c key (stpost e) fid) -> ~ In 0 f /\ ~ In 10 f /\ (length f <= 251)%nat.
Definition unique_ids (L : lexicon) : Prop :=
  forall key e key' e', has_record (words L) key e -> has_record (words L) key' e' -> nlexid e' = nlexid e -> key' = key /\ e' = e.
