(** * RusReadings: the readings of a spelling as a list, independently of the search code.  SPECIFICATION ONLY. *)
From Verif Require Import Base Serial WordTree TreeSpec FlatScan Stems StemSpec CharTables CapScheme CapSpec GramMap RusRuntime LevelSpec RusSpec
  RusBuildSpec.
Local Open Scope N_scope.

(** [w] without its beginning [a], without its end [p]. *)
Definition cut_front (a w : bytes) : option bytes :=
  if list_eq_dec N.eq_dec (firstn (length a) w) a then Some (skipn (length a) w) else None.
Definition cut_back (p w : bytes) : option bytes :=
  if list_eq_dec N.eq_dec (skipn (length w - length p) w) p then Some (firstn (length w - length p) w) else None.

Definition number_fits (c : aclass) (g : N) : bool := implb (N.testbit (c_word c) 6) (N.testbit g 11).

(** The descriptions a class gives a changing part: one list for each way to split it into alternation and ending. *)
Definition part_readings (c : aclass) (part : bytes) : list (list (N * N)) :=
  match c_flex c with
  | None => match part with [] => [[(c_case c, 0)]] | _ => [] end
  | Some ft =>
      let descs e := match lookup e ft with Some l => l | None => [] end in
      filter nonempty
        (match c_mix c with
         | None => [filter (fun gf => number_fits c (fst gf)) (descs part)]
         | Some mx =>
             flat_map (fun ma => match cut_front (snd ma) part with
                                 | None => []
                                 | Some e => [filter (fun gf => N.testbit (fst ma) (alternation_level (c_word c) (fst gf) (snd gf) - 1)
                                                                && number_fits c (fst gf)) (descs e)]
                                 end) mx
         end)
  end.

Record reading := Reading { rd_key : bytes; rd_entry : entry; rd_class : aclass; rd_part : bytes; rd_descs : list (N * N) }.

Definition records (t : wtree (list entry)) (key : bytes) : list entry := match lookup key t with Some l => l | None => [] end.

Definition record_readings (L : lexicon) (key rest : bytes) (e : entry) : list reading :=
  match class_of L (oclass e), cut_back (stpost e) rest with
  | Some (_, c), Some part => map (Reading key e c part) (part_readings c part)
  | _, _ => []
  end.

(** All readings of a word of small letters: longer stems first, records in their order, alternations in theirs. *)
Definition readings (L : lexicon) (w : bytes) : list reading :=
  flat_map (fun n => flat_map (record_readings L (firstn n w) (skipn n w)) (records (words L) (firstn n w)))
           (rev (seq 0 (S (length w)))).

(** No reading has an empty changing part before a postfix above the bound (such readings may be missed, see C11). *)
Definition no_bare_postfix (L : lexicon) (w : bytes) : Prop :=
  forall r, In r (readings L w) -> reachable (rd_entry r) (rd_part r).

(** [hits] are the readings of spelling [w] found with the settings: in order, in acceptable capitalisation, and none is missed. *)
Record found (L : lexicon) (ignore : bool) (w : bytes) (hits : list reading) : Prop := {
  f_sound : exists suitable : N -> bool, (forall m, suitable m = true <-> suits w m) /\
    let good r := ignore || suitable (min_case (rd_class r)) in
    let all := filter good (readings L (map (locase rus_casing) w)) in
    sublist hits all /\
    (bounds_ok L -> no_bare_postfix L (map (locase rus_casing) w) -> hits = all);
}.

(** The forms a reading is given for an identifier. *)
Definition reading_forms (id : N) (r : reading) : list bytes := found_forms (rd_class r) (rd_key r) (stpost (rd_entry r)) id.
