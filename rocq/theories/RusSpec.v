(** * RusSpec: what a compiled Russian dictionary means, independently of the search code.  SPECIFICATION ONLY. *)
From Verif Require Import Base Serial WordTree TreeSpec FlatScan Stems StemSpec CharTables CapScheme CapSpec GramMap RusRuntime LevelSpec.
Local Open Scope N_scope.

(** ** Layout of the compiled tables *)

(** A node of an inflexion tree: the number of descriptions, then (gramm, flags) each. *)
Definition flex_ser (l : list (N * N)) : bytes :=
  N.of_nat (length l) :: flat_map (fun gf => putword16 (fst gf) ++ [snd gf]) l.
Definition flex_len (l : list (N * N)) : N := 1 + 3 * N.of_nat (length l).

(** The descriptions of one inflexion fit their storage and the search buffer. *)
Definition descs_ok (l : list (N * N)) : Prop :=
  (length l <= 64)%nat /\ Forall (fun gf => fst gf < 2 ^ 16 /\ snd gf < 256) l.

Definition flex_ok (ft : wtree (list (N * N))) : Prop :=
  dumpable C8 flex_len ft /\ nonzero ft /\ all_data descs_ok ft.

(** A table of alternations: count, then for each its levels (high half-byte), length (low half-byte) and letters. *)
Definition mix_ser (mx : list (N * bytes)) : bytes :=
  N.of_nat (length mx) :: flat_map (fun ma => fst ma * 16 + N.of_nat (length (snd ma)) :: snd ma) mx.

(** ... in ascending order. *)
Fixpoint ascending (l : list bytes) : Prop :=
  match l with
  | [] => True
  | a :: l' => Forall (fun b => lex_lt a b \/ a = b) l' /\ ascending l'
  end.
Definition mix_ok (mx : list (N * bytes)) : Prop :=
  N.of_nat (length mx) < 256 /\ Forall (fun ma => fst ma < 16 /\ (length (snd ma) < 16)%nat) mx /\
  ascending (map snd mx).

(** A word class: its type and attributes, what a word without inflexion governs, its endings, its alternations. *)
Record aclass := AClass {
  c_word : N; c_case : N; c_flex : option (wtree (list (N * N))); c_mix : option (list (N * bytes)) }.

(** [c] is stored in the arrays as described by the fields [st]. *)
Definition class_repr (A : arrays) (st : steminfo) (c : aclass) : Prop :=
  wdinfo st = c_word c /\ tfoffs st < 2 ^ 16 /\ mtoffs st < 2 ^ 16 /\
  match c_flex c with
  | None => (tfoffs st = 0 \/ N.land (c_word c) 63 = 51) /\ c_case c = tfoffs st
  | Some ft => tfoffs st <> 0 /\ N.land (c_word c) 63 <> 51 /\ flex_ok ft /\
               exists pre rest, flexTree A = pre ++ serialize C8 flex_ser flex_len ft ++ rest /\
                                N.of_nat (length pre) = 16 * tfoffs st
  end /\
  match c_mix c with
  | None => mtoffs st = 0
  | Some mx => mtoffs st <> 0 /\ mix_ok mx /\
               exists pre rest, mxTables A = pre ++ mix_ser mx ++ rest /\ N.of_nat (length pre) = mtoffs st
  end.

(** The class description at offset [off] of the class table. *)
Definition class_ser (st : steminfo) : bytes :=
  putword16 (wdinfo st)
  ++ (if bit 13 (wdinfo st) || (N.land (wdinfo st) 63 =? 51) then putword16 (tfoffs st) else [])
  ++ (if bit 14 (wdinfo st) then putword16 (mtoffs st) else []).
Definition class_at (A : arrays) (off : N) (st : steminfo) : Prop :=
  wdinfo st < 2 ^ 16 /\
  (bit 13 (wdinfo st) || (N.land (wdinfo st) 63 =? 51) = false -> tfoffs st = 0) /\
  (bit 14 (wdinfo st) = false -> mtoffs st = 0) /\
  exists pre rest, classmap A = pre ++ class_ser st ++ rest /\ N.of_nat (length pre) = off.

(** ** The lexicon *)
Record lexicon := Lexicon { words : wtree (list entry); class_of : N -> option (steminfo * aclass) }.

(** The arrays hold the lexicon. *)
Record holds (A : arrays) (L : lexicon) : Prop := {
  holds_stems : exists rest, stemtree A = stemtree_bytes (words L) ++ rest;
  holds_dump : dumpable C8 stems_len (words L);
  holds_nonzero : nonzero (words L);
  holds_lists : forall key l, lookup key (words L) = Some l -> stems_ok l /\ max_descending l;
  holds_classes : forall key e, has_record (words L) key e ->
    exists st c, class_of L (oclass e) = Some (st, c) /\ class_at A (oclass e) st /\ class_repr A st c;
}.

(** ** Forms *)

(** Ending [e] is listed with description (g, f). *)
Definition listed (ft : wtree (list (N * N))) (e : bytes) (g f : N) : Prop :=
  exists l, lookup e ft = Some l /\ In (g, f) l.

(** A word used in the plural only (bit 6) has no singular forms (bit 11 of the description). *)
Definition number_ok (c : aclass) (g : N) : Prop := N.testbit (c_word c) 6 = true -> N.testbit g 11 = true.

(** [part] is the changing part (alternation, then ending) of a form described by (g, f). *)
Inductive form_part (c : aclass) : bytes -> N -> N -> Prop :=
| form_fixed : c_flex c = None -> form_part c [] (c_case c) 0
| form_plain ft e g f :
    c_flex c = Some ft -> c_mix c = None -> listed ft e g f -> number_ok c g -> form_part c e g f
| form_mixed ft mx mask alt e g f :
    c_flex c = Some ft -> c_mix c = Some mx -> In (mask, alt) mx ->
    N.testbit mask (alternation_level (c_word c) g f - 1) = true ->
    listed ft e g f -> number_ok c g -> form_part c (alt ++ e) g f.

(** The capitalisation of spelling [w] suits a class that requires [min]. *)
Definition suits (w : bytes) (min : N) : Prop :=
  exists cls, parts_are rus_casing (parts rus_casing w) cls /\
    In cls (acceptable min).

(** The required capitalisation of a class. *)
Definition min_case (c : aclass) : N := required_case (c_word c).

(** Record [e] with changing part [part] gives spelling [w] up to case, as a form (g, f). *)
Definition analysis_of (L : lexicon) (w : bytes) (key : bytes) (e : entry) (part : bytes) (g f : N) : Prop :=
  map (locase rus_casing) w = key ++ part ++ stpost e /\ has_record (words L) key e /\
  exists st c, class_of L (oclass e) = Some (st, c) /\ form_part c part g f.

(** ... in acceptable capitalisation, unless capitals are ignored. *)
Definition word_of (L : lexicon) (ignore : bool) (w : bytes) (key : bytes) (e : entry) (part : bytes) (g f : N) : Prop :=
  analysis_of L w key e part g f /\
  (ignore = false -> exists st c, class_of L (oclass e) = Some (st, c) /\ suits w (min_case c)).

(** The first-letter bounds of every record cover the changing parts of its class. *)
Definition bounds_ok (L : lexicon) : Prop :=
  forall key e st c part g f, has_record (words L) key e -> class_of L (oclass e) = Some (st, c) ->
  form_part c part g f -> admits e part.

(** ** Arguments of the API *)

(** The word [w] given as a pointer and a length, or as a terminated string with length (size_t)-1. *)
Inductive given : bytes -> option bytes -> N -> Prop :=
| given_counted w after : N.of_nat (length w) < 2 ^ 64 - 1 -> given w (Some (w ++ after)) (N.of_nat (length w))
| given_terminated w after : ~ In 0 w -> given w (Some (w ++ 0 :: after)) (2 ^ 64 - 1).

(** The lexeme index belongs to the lexicon; ids take at most three bytes. *)
Record indexed (A : arrays) (L : lexicon) : Prop := {
  idx_bytes : exists rest, lidstree A = lidstree_bytes (create_lids (words L)) ++ rest;
  idx_fits : getbuflen C16 seriallen (create_lids (words L)) < 2 ^ 32;
  idx_size : getbuflen C8 stems_len (words L) < 2 ^ 32;
  idx_ids : forall key e, has_record (words L) key e -> nlexid e < 2 ^ 24;
}.
