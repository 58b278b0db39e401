(** * EngSpec: what a compiled English dictionary means, independently of the code.  SPECIFICATION ONLY. *)
From Verif Require Import Base Serial WordTree TreeSpec FlatScan Stems StemSpec CharTables CapScheme CapSpec RusRuntime RusBuild RusSpec
  RusBuildSpec EngRuntime.
Local Open Scope N_scope.

(** ** Layout *)

(** A table of endings: count, then for each its form identifier, length and letters. *)
Definition table_ser (t : list (N * bytes)) : bytes :=
  N.of_nat (length t) :: flat_map (fun ie => fst ie :: N.of_nat (length (snd ie)) :: snd ie) t.

(** The endings with their form identifiers, in ascending order of the endings. *)
Definition ids_of (t : list (N * bytes)) (part : bytes) : list N :=
  map fst (filter (fun ie => if list_eq_dec N.eq_dec (snd ie) part then true else false) t).
Definition etable_ok (t : list (N * bytes)) : Prop :=
  (length t < 256)%nat /\ Forall (fun ie => fst ie < 256 /\ (length (snd ie) < 256)%nat) t /\ ascending (map snd t) /\
  (forall part, (length (ids_of t part) <= 64)%nat).

(** A word class: its type and required capitalisation, and its endings if its words change. *)
Record eclass := EClass { k_word : N; k_ends : option (list (N * bytes)) }.

(** [c] is stored in the arrays as described by the fields [st]. *)
Definition eclass_repr (A : earrays) (st : estem) (c : eclass) : Prop :=
  e_wdinfo st = k_word c /\ e_tfoffs st < 2 ^ 16 /\
  match k_ends c with
  | None => e_tfoffs st = 0
  | Some t => e_tfoffs st <> 0 /\ etable_ok t /\
              exists pre rest, e_flex A = pre ++ table_ser t ++ rest /\ N.of_nat (length pre) = e_tfoffs st
  end.
Definition eclass_at (A : earrays) (off : N) (st : estem) : Prop :=
  e_wdinfo st < 2 ^ 16 /\
  exists pre rest, e_class A = pre ++ (putword16 (e_wdinfo st) ++ putword16 (e_tfoffs st)) ++ rest /\ N.of_nat (length pre) = off.

(** ** The lexicon *)
Record elexicon := ELexicon { ewords : wtree (list entry); eclass_of : N -> option (estem * eclass) }.

Record eholds (A : earrays) (L : elexicon) : Prop := {
  eh_stems : exists rest, e_stems A = stemtree_bytes (ewords L) ++ rest;
  eh_dump : dumpable C8 stems_len (ewords L);
  eh_nonzero : nonzero (ewords L);
  eh_lists : forall key l, lookup key (ewords L) = Some l -> stems_ok l /\ max_descending l;
  eh_classes : forall key e, has_record (ewords L) key e ->
    exists st c, eclass_of L (oclass e) = Some (st, c) /\ eclass_at A (oclass e) st /\ eclass_repr A st c;
}.

(** ** Forms *)

(** [part] is the changing part of a form with identifier [id]; a fixed word has the identifier 255 only. *)
Inductive eform_part (c : eclass) : bytes -> N -> Prop :=
| eform_fixed : k_ends c = None -> eform_part c [] 255
| eform_listed t part id : k_ends c = Some t -> In (id, part) t -> eform_part c part id.

(** Required capitalisation: bits 7 and 8; 0 none, 1 capitalised, 2 all capitals. *)
Definition ecase (c : eclass) : N := (k_word c / 128) mod 4.

(** The capitalisation of spelling [w] suits a class that requires [min]. *)
Definition esuits (w : bytes) (min : N) : Prop :=
  exists cls, parts_are eng_casing (parts eng_casing w) cls /\ In cls (acceptable min).

(** Record [e] stored under [key], with changing part [part], gives spelling [w] up to case, as form [id]. *)
Definition eanalysis (L : elexicon) (w key : bytes) (e : entry) (part : bytes) (id : N) : Prop :=
  map (locase eng_casing) w = key ++ part ++ stpost e /\ has_record (ewords L) key e /\
  exists st c, eclass_of L (oclass e) = Some (st, c) /\ eform_part c part id.

(** ... in acceptable capitalisation, unless capitals are ignored. *)
Definition eword_of (L : elexicon) (ignore : bool) (w key : bytes) (e : entry) (part : bytes) (id : N) : Prop :=
  eanalysis L w key e part id /\
  (ignore = false -> exists st c, eclass_of L (oclass e) = Some (st, c) /\ esuits w (ecase c)).

(** The first-letter bounds of every record cover the changing parts of its class. *)
Definition ebounds_ok (L : elexicon) : Prop :=
  forall key e st c part id, has_record (ewords L) key e -> eclass_of L (oclass e) = Some (st, c) -> eform_part c part id -> admits e part.

(** The lexeme index belongs to the lexicon; ids take at most three bytes. *)
Record eindexed (A : earrays) (L : elexicon) : Prop := {
  ei_bytes : exists rest, e_lids A = lidstree_bytes (create_lids (ewords L)) ++ rest;
  ei_fits : getbuflen C16 seriallen (create_lids (ewords L)) < 2 ^ 32;
  ei_size : getbuflen C8 stems_len (ewords L) < 2 ^ 32;
  ei_ids : forall key e, has_record (ewords L) key e -> nlexid e < 2 ^ 24;
}.
