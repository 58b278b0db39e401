(** * EngFormsSpec: the forms and readings of English lexemes, independently of the code.  SPECIFICATION ONLY. *)
From Verif Require Import Base Serial WordTree TreeSpec FlatScan Stems StemSpec CharTables CapScheme CapSpec RusRuntime RusBuild RusSpec
  RusBuildSpec RusReadings EngRuntime EngSpec.
Local Open Scope N_scope.

(** ** Forms *)

(** The changing parts of form [id], in the order of the table; a fixed word has one, which is empty. *)
Definition etails (c : eclass) (id : N) : list bytes :=
  match k_ends c with
  | None => [[]]
  | Some t => map snd (filter (fun ie => fst ie =? id) t)
  end.

(** Form identifiers of a class: a fixed word has 255 only, other words have any but 255. *)
Definition etakes (c : eclass) (id : N) : bool :=
  match k_ends c with None => id =? 255 | Some _ => negb (id =? 255) end.

(** The forms as stored (small letters) and in the capitalisation of the class. *)
Definition eraw_forms (c : eclass) (key post : bytes) (id : N) : list bytes := map (fun t => key ++ t ++ post) (etails c id).
Definition erequested (c : eclass) (key post : bytes) (id : N) : list bytes :=
  if etakes c id then map (respell eng_casing (ecase c)) (eraw_forms c key post id) else [].

(** Dictionaries forms can be built from: the walk buffer is long enough, no string contains a NUL, the required capitalisation is
    one of three, and fixed words have no postfix (which would be lost). *)
Record ebuildable (L : elexicon) : Prop := {
  eb_stems : within 48 (ewords L);
  eb_post : forall key e, has_record (ewords L) key e -> ~ In 0 (stpost e);
  eb_ends : forall key e st c t id part, has_record (ewords L) key e -> eclass_of L (oclass e) = Some (st, c) -> k_ends c = Some t ->
    In (id, part) t -> ~ In 0 part;
  eb_case : forall key e st c, has_record (ewords L) key e -> eclass_of L (oclass e) = Some (st, c) -> ecase c <= 2;
  eb_fixed : forall key e st c, has_record (ewords L) key e -> eclass_of L (oclass e) = Some (st, c) -> k_ends c = None -> stpost e = [];
}.

(** ** Readings *)

(** The forms a class gives a changing part: the identifiers, in one list. *)
Definition epart_readings (c : eclass) (part : bytes) : list (list N) :=
  match k_ends c with
  | None => match part with [] => [[255]] | _ => [] end
  | Some t => filter nonempty [ids_of t part]
  end.

Record ereading := EReading { er_key : bytes; er_entry : entry; er_class : eclass; er_part : bytes; er_ids : list N }.

Definition erecord_readings (L : elexicon) (key rest : bytes) (e : entry) : list ereading :=
  match eclass_of L (oclass e), cut_back (stpost e) rest with
  | Some (_, c), Some part => map (EReading key e c part) (epart_readings c part)
  | _, _ => []
  end.

(** All readings of a word of small letters: longer stems first, records in their order. *)
Definition ereadings (L : elexicon) (w : bytes) : list ereading :=
  flat_map (fun n => flat_map (erecord_readings L (firstn n w) (skipn n w)) (records (ewords L) (firstn n w)))
           (rev (seq 0 (S (length w)))).

(** No reading has an empty changing part before a postfix above the bound (such readings may be missed, see C11). *)
Definition eno_bare_postfix (L : elexicon) (w : bytes) : Prop :=
  forall r, In r (ereadings L w) -> reachable (er_entry r) (er_part r).

(** [hits] are the readings of spelling [w] found with the settings: in order, in acceptable capitalisation, and none is missed. *)
Record efound (L : elexicon) (ignore : bool) (w : bytes) (hits : list ereading) : Prop := {
  ef_sound : exists suitable : N -> bool, (forall m, suitable m = true <-> esuits w m) /\
    let good r := ignore || suitable (ecase (er_class r)) in
    let all := filter good (ereadings L (map (locase eng_casing) w)) in
    sublist hits all /\
    (ebounds_ok L -> eno_bare_postfix L (map (locase eng_casing) w) -> hits = all);
}.

(** The forms a reading is given for an identifier. *)
Definition ereading_forms (id : N) (r : ereading) : list bytes := erequested (er_class r) (er_key r) (stpost (er_entry r)) id.

(** ** Dictionaries whose forms are all recognised *)

(** Characters of stored words: delimiters other than the terminator, and characters that are their own small letters. *)
Definition eplain (c : N) : Prop := c < 256 /\ c <> 0 /\ (is_delim eng_casing c \/ is_regular eng_casing c /\ locase eng_casing c = c).
Record erecognisable (L : elexicon) : Prop := {
  err_bounds : ebounds_ok L;
  (** a postfix follows a changing part that is not empty, or starts with a letter within the bound (see C11) *)
  err_postfix : forall key e st c id, has_record (ewords L) key e -> eclass_of L (oclass e) = Some (st, c) ->
    Forall (reachable e) (etails c id);
  err_letters : forall key e st c id, has_record (ewords L) key e -> eclass_of L (oclass e) = Some (st, c) ->
    Forall (Forall eplain) (eraw_forms c key (stpost e) id);
}.

(** Spellings whose capitalisation is accepted for a lexeme requiring [min]: at most three parts, none empty; if words are to start with
    a capital, every part starts with a letter and several parts have two letters each; if they are to be all capitals, there are
    letters only (the apostrophe, for one, has no capital). *)
Definition ecasable (min : N) (w : bytes) : Prop :=
  Forall (fun p => p <> []) (parts eng_casing w) /\ (length (parts eng_casing w) <= 3)%nat /\
  (min = 1 -> Forall (fun p => forall c r, p = c :: r -> is_capital eng_casing (upcase eng_casing c)) (parts eng_casing w) /\
              (length (parts eng_casing w) = 1%nat \/ Forall (fun p => 2 <= length p)%nat (parts eng_casing w))) /\
  (min = 2 -> Forall (fun c => is_delim eng_casing c \/ is_capital eng_casing (upcase eng_casing c)) w).
