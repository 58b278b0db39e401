(** * Properties C23-C25, C31: building forms.  STATEMENTS ONLY.
    The vocabulary is in RusSpec.v, RusBuildSpec.v ([requested], [delivered], ...) and RusReadings.v ([readings], [found], ...). *)
From Verif Require Import Base Serial WordTree TreeSpec FlatScan Stems StemSpec CharTables CapScheme CapSpec GramMap RusRuntime RusSpec RusDemo
  RusProofs3 RusBuild RusBuildSpec RusReadings RusDemo2 PropBuildLemmas PropBuildLemmas2.
Local Open Scope N_scope.

(** ** C23 *)
Theorem C23_build_form_exact : forall A L, holds A L -> buildable L -> indexed A L -> forall junk mem key e st c idform,
  mem <> [] -> has_record (words L) key e -> class_of L (oclass e) = Some (st, c) ->
  (forall key' e', has_record (words L) key' e' -> nlexid e' = nlexid e -> key' = key /\ e' = e) ->
  (length (lexkeylen (nlexid e) ++ junk) = 16)%nat ->
  let fs := requested c key (stpost e) idform in delivered mem fs (small fs) (build_form A junk (Some mem) (nlexid e) idform).
Proof. exact build_exact. Qed.
Print Assumptions C23_build_form_exact.

(** when several records share the identifier, those of one of them *)
Theorem C23_build_form_shared : forall A L, holds A L -> buildable L -> indexed A L -> forall junk mem id idform,
  mem <> [] -> id < 2 ^ 32 -> (length (lexkeylen id ++ junk) = 16)%nat ->
  (exists key e, has_record (words L) key e /\ nlexid e = id) ->
  exists key e st c, has_record (words L) key e /\ nlexid e = id /\ class_of L (oclass e) = Some (st, c) /\
    let fs := requested c key (stpost e) idform in delivered mem fs (small fs) (build_form A junk (Some mem) id idform).
Proof. exact build_some. Qed.
Print Assumptions C23_build_form_shared.

Theorem C23_build_form_unknown : forall A L, holds A L -> buildable L -> indexed A L -> forall junk mem id idform,
  mem <> [] -> id < 2 ^ 32 -> (length (lexkeylen id ++ junk) = 16)%nat ->
  (forall key e, has_record (words L) key e -> nlexid e <> id) ->
  build_form A junk (Some mem) id idform = Ok (0%Z, Some mem).
Proof. exact build_unknown. Qed.
Print Assumptions C23_build_form_unknown.

Theorem C23_build_form_no_buffer : forall A junk id idform,
  build_form A junk None id idform = Ok ((-5)%Z, None) /\ build_form A junk (Some []) id idform = Ok ((-5)%Z, Some []).
Proof. exact build_nowhere. Qed.
Print Assumptions C23_build_form_no_buffer.

(** сна, and снами missing from the table; Ивана with its capital; eight bytes do not fit seven *)
Example C23_case : holds demo2_arrays demo2_lexicon /\ buildable demo2_lexicon /\ indexed demo2_arrays demo2_lexicon /\
  build_form demo2_arrays (repeat 9 15) (Some (repeat 1 9)) 2 1 = Ok (1%Z, Some [241; 237; 224; 0; 0; 1; 1; 1; 1]) /\
  build_form demo2_arrays (repeat 9 13) (Some (repeat 1 9)) 65540 1 = Ok (1%Z, Some [200; 226; 224; 237; 224; 0; 0; 1; 1]) /\
  build_form demo2_arrays (repeat 9 13) (Some (repeat 1 6)) 65540 1 = Ok ((-1)%Z, Some [200; 226; 224; 237; 224; 0]).
Proof.
  split; [apply demo2_holds|]. split; [apply demo2_buildable|]. split; [apply demo2_indexed|]. repeat split; vm_compute; reflexivity.
Qed.

(** ** C24 *)
Theorem C24_find_forms_exact : forall A L, holds A L -> buildable L -> forall w dwsets,
  is_bytes w -> w <> [] -> (length w < 48)%nat -> (length (parts rus_casing w) <= 8)%nat ->
  exists hs, found L (bit 1 dwsets) w hs /\
    forall psz cch mem idform junk, given w psz cch -> mem <> [] ->
      delivered mem (flat_map (reading_forms idform) hs) (Forall (fun r => small (reading_forms idform r)) hs)
        (find_forms A junk (Some mem) psz cch idform dwsets).
Proof. exact find_found. Qed.
Print Assumptions C24_find_forms_exact.

(** no array, no word, a word too long: the answer without a search, and the array is left as it was *)
Theorem C24_degenerate : forall A junk psz cch idform dwsets,
  (psz = None \/ given [] psz cch -> forall mem, mem <> [] -> find_forms A junk (Some mem) psz cch idform dwsets = Ok (0%Z, Some mem)) /\
  (forall w, given w psz cch -> (length (parts rus_casing w) <= 16)%nat -> (48 <= length w)%nat -> forall mem, mem <> [] ->
     find_forms A junk (Some mem) psz cch idform dwsets = Ok ((-4)%Z, Some mem)) /\
  (forall w, psz = None \/ given w psz cch /\ (length w = 0 \/ 48 <= length w)%nat /\ (length (parts rus_casing w) <= 16)%nat ->
     find_forms A junk None psz cch idform dwsets = Ok ((-5)%Z, None) /\ find_forms A junk (Some []) psz cch idform dwsets = Ok ((-5)%Z, Some [])).
Proof.
  intros A junk psz cch idform dwsets.
  assert (Hlong : forall w, given w psz cch -> (length (parts rus_casing w) <= 16)%nat -> (48 <= length w)%nat -> exists x, to_canonic psz cch = Ok x).
  { intros w Hg Hp Hl. assert (Hne : w <> []) by (destruct w; [cbn in Hl; lia|discriminate]). rewrite (to_canonic_given w psz cch Hg Hne). unfold cap_get.
    destruct (get_loop_nofit' rus_casing w (S (length w)) 48 0 0 true []) as (out & ->); [lia|lia|lia|]. eexists. reflexivity. }
  split; [|split].
  - intros H mem Hm. destruct mem as [|m mem]; [congruence|]. unfold find_forms, prologue. rewrite (to_canonic_empty psz cch H). reflexivity.
  - intros w Hg Hp Hl mem Hm. destruct mem as [|m mem]; [congruence|]. unfold find_forms. destruct (Hlong w Hg Hp Hl) as (x & ->). cbn [bind].
    apply (prologue_long w psz cch dwsets junk (fun r => (r, Some (m :: mem)))); assumption.
  - intros w H.
    assert (Hc : exists x, to_canonic psz cch = Ok x).
    { destruct H as [->|(Hg & [H0|Hl] & Hp)]; [eexists; reflexivity| |exact (Hlong w Hg Hp Hl)]. destruct w; [|discriminate]. rewrite (to_canonic_empty psz cch (or_intror Hg)). eexists. reflexivity. }
    destruct Hc as (x & Hc). unfold find_forms. rewrite Hc. split; reflexivity.
Qed.
Print Assumptions C24_degenerate.

(** the two builders disagree about prepositions and form 255: BuildForm has no form, FindForms has one *)
Theorem C24_preposition_refuted : exists A L id w, holds A L /\ buildable L /\ indexed A L /\ is_bytes w /\
  (exists key e, has_record (words L) key e /\ nlexid e = id /\ key = w) /\
  (forall junk mem, length junk = 14%nat -> mem <> [] -> build_form A junk (Some mem) id 255 = Ok (0%Z, Some mem)) /\
  find_forms A (repeat 7 48) (Some (repeat 0 20)) (Some w) (N.of_nat (length w)) 255 0 = Ok (1%Z, Some (filled [w] (repeat 0 20))).
Proof. exact prep_differs. Qed.
Print Assumptions C24_preposition_refuted.

(** Сна has one reading; its genitive *)
Example C24_case : holds demo2_arrays demo2_lexicon /\ buildable demo2_lexicon /\
  length (readings demo2_lexicon [241; 237; 224]) = 1%nat /\
  find_forms demo2_arrays (repeat 7 48) (Some (repeat 1 9)) (Some [209; 237; 224]) 3 1 0 = Ok (1%Z, Some [241; 237; 224; 0; 0; 1; 1; 1; 1]).
Proof. split; [apply demo2_holds|]. split; [apply demo2_buildable|]. split; vm_compute; reflexivity. Qed.

(** ** C25: in dictionaries that are [recognisable] and for forms that are [casable] or with capitals ignored *)
Theorem C25_built_recognised_partial : forall A L, holds A L -> buildable L -> indexed A L -> recognisable L ->
  forall junk mem id idform n mem', mem <> [] -> id < 2 ^ 32 -> (length (lexkeylen id ++ junk) = 16)%nat ->
  build_form A junk (Some mem) id idform = Ok (n, Some mem') -> (0 < n)%Z ->
  exists key e st c fs, has_record (words L) key e /\ nlexid e = id /\ class_of L (oclass e) = Some (st, c) /\
    n = Z.of_nat (length fs) /\ mem' = filled fs mem /\
    forall form, In form fs -> form <> [] -> (length form < 48)%nat -> forall psz cch dwsets junk', given form psz cch ->
      bit 1 dwsets = true /\ (length (parts rus_casing form) <= 8)%nat \/ casable (min_case c) (map (locase rus_casing) form) ->
      check_word A junk' psz cch dwsets = Ok 1%Z.
Proof. exact build_recognised. Qed.
Print Assumptions C25_built_recognised_partial.

(** a form that ends with a postfix right after the stem is built and never recognised: как-то *)
Theorem C25_postfix_refuted : exists A L id form, holds A L /\ buildable L /\ indexed A L /\ bounds_ok L /\ is_bytes form /\ (length form < 48)%nat /\
  build_form A (repeat 9 15) (Some (repeat 1 20)) id 255 = Ok (1%Z, Some (filled [form] (repeat 1 20))) /\
  forall dwsets junk, check_word A junk (Some form) (N.of_nat (length form)) dwsets = Ok 0%Z.
Proof. exact postfix_unrecognised. Qed.
Print Assumptions C25_postfix_refuted.

(** a capitalised form with a part of one letter is built and not recognised: И-Ивана *)
Theorem C25_initial_refuted : exists A L id idform form, holds A L /\ buildable L /\ indexed A L /\ recognisable L /\ is_bytes form /\ (length form < 48)%nat /\
  build_form A (repeat 9 15) (Some (repeat 1 20)) id idform = Ok (1%Z, Some (filled [form] (repeat 1 20))) /\
  check_word A (repeat 7 48) (Some form) (N.of_nat (length form)) 0 = Ok 0%Z.
Proof. exact initial_unrecognised. Qed.
Print Assumptions C25_initial_refuted.

Example C25_case : recognisable demo2_lexicon /\ casable 0 [241; 237; 224; 45; 242; 238] /\
  build_form demo2_arrays (repeat 9 15) (Some (repeat 1 9)) 6 1 = Ok (1%Z, Some [241; 237; 224; 45; 242; 238; 0; 0; 1]) /\
  check_word demo2_arrays (repeat 7 48) (Some [241; 237; 224; 45; 242; 238]) 6 0 = Ok 1%Z.
Proof.
  split; [apply demo2_recognisable|]. split; [|split; vm_compute; reflexivity].
  split; [repeat constructor; discriminate|]. split; [vm_compute; repeat constructor|discriminate].
Qed.

(** ** C31 *)
Theorem C31_append : forall mem pos s, (pos <= length mem)%nat ->
  coder_append (Coder mem pos) s =
  Ok (if Nat.ltb (pos + length s) (length mem)
      then Some (Coder (firstn pos mem ++ s ++ 0 :: skipn (pos + length s + 1) mem) (pos + length s)) else None).
Proof. exact append_one. Qed.
Print Assumptions C31_append.

Theorem C31_append_sequence : forall mem ss, ss <> [] ->
  append_all (Coder mem 0) ss =
  Ok (if Nat.ltb (length (concat ss)) (length mem)
      then Some (Coder (concat ss ++ 0 :: skipn (S (length (concat ss))) mem) (length (concat ss))) else None).
Proof. exact append_sequence. Qed.
Print Assumptions C31_append_sequence.

Example C31_case : append_all (Coder [9; 9; 9; 9; 9] 0) [[1; 2]; []; [3]] = Ok (Some (Coder [1; 2; 3; 0; 9] 3)) /\
  append_all (Coder [9; 9; 9] 0) [[1; 2]; []; [3]] = Ok None.
Proof. split; reflexivity. Qed.
