(** * PropBuildLemmas2: C25 and the refutations of C24 and C25. *)
From Verif Require Import Base Serial SerialProofs WordTree TreeSpec FlatScan Stems StemSpec LidsProofs DictProofs CharTables CapScheme CapSpec CapProofs2
  GramMap RusRuntime RusSpec RusProofs RusProofs3 RusDemo RusBuild RusBuildSpec RusBuildProofs RusBuildProofs2 RusBuildProofs3 RusBuildProofs4
  RusReadings RusReadingsProofs PropBuildLemmas RusDemo2.
Local Open Scope N_scope.

Lemma build_recognised A L : holds A L -> buildable L -> indexed A L -> recognisable L ->
  forall junk mem id idform n mem', mem <> [] -> id < 2 ^ 32 -> (length (lexkeylen id ++ junk) = 16)%nat ->
  build_form A junk (Some mem) id idform = Ok (n, Some mem') -> (0 < n)%Z ->
  exists key e st c fs, has_record (words L) key e /\ nlexid e = id /\ class_of L (oclass e) = Some (st, c) /\
    n = Z.of_nat (length fs) /\ mem' = filled fs mem /\
    forall form, In form fs -> form <> [] -> (length form < 48)%nat -> forall psz cch dwsets junk', given form psz cch ->
      bit 1 dwsets = true /\ (length (parts rus_casing form) <= 8)%nat \/ casable (min_case c) (map (locase rus_casing) form) ->
      check_word A junk' psz cch dwsets = Ok 1%Z.
Proof.
  intros HL HB HI HR junk mem id idform n mem' Hm Hid Hj Hb Hn.
  destruct (build_form_eq A L HL HB HI junk mem id idform Hm Hid Hj) as [(E & _)|(key & e & st & c & n' & mem2 & Hr & He & Ec & E & Ha)].
  - rewrite E in Hb. injection Hb as <- _. lia.
  - pose proof (answered_delivered _ _ _ _ _ E Ha) as [D1 D2]. exists key, e, st, c, (requested c key (stpost e) idform).
    assert (Hlim : small (requested c key (stpost e) idform) /\ fit (length mem) (requested c key (stpost e) idform)).
    { assert (Hdec : {small (requested c key (stpost e) idform) /\ fit (length mem) (requested c key (stpost e) idform)} +
                     {~ (small (requested c key (stpost e) idform) /\ fit (length mem) (requested c key (stpost e) idform))}).
      { unfold small, fit. destruct (le_dec (total (requested c key (stpost e) idform)) 256) as [H|H]; [|right; tauto].
        destruct (requested c key (stpost e) idform) as [|f fs]; [left; auto|].
        destruct (le_dec (total (f :: fs) + 1) (length mem)) as [H'|H']; [left; auto|right; intros [_ [H2|H2]]; [discriminate|contradiction]]. }
      destruct Hdec as [H|H]; [exact H|]. destruct (D2 H) as (m3 & _ & E3). rewrite E3 in Hb. injection Hb as <- _. lia. }
    rewrite (D1 Hlim) in Hb. injection Hb as <- <-.
    repeat match goal with |- _ /\ _ => split end; try assumption; try reflexivity.
    intros form Hin Hne Hlen psz cch dwsets junk' Hg Hcase.
    exact (built_recognised A L HL HR key e st c idform form psz cch dwsets junk' Hr Ec Hin Hg Hne Hlen Hcase).
Qed.

(** ** Refutations *)
Lemma prep_differs : exists A L id w, holds A L /\ buildable L /\ indexed A L /\ is_bytes w /\
  (exists key e, has_record (words L) key e /\ nlexid e = id /\ key = w) /\
  (forall junk mem, length junk = 14%nat -> mem <> [] -> build_form A junk (Some mem) id 255 = Ok (0%Z, Some mem)) /\
  find_forms A (repeat 7 48) (Some (repeat 0 20)) (Some w) (N.of_nat (length w)) 255 0 = Ok (1%Z, Some (filled [w] (repeat 0 20))).
Proof.
  exists demo_arrays, demo_lexicon, 300, [239; 238; 228].
  split; [apply demo_holds|]. split; [apply demo_buildable|]. split; [apply demo_indexed|]. split; [repeat constructor|].
  assert (Hr : has_record (words demo_lexicon) [239; 238; 228] (Entry 0 0 300 12 [])) by (eexists; split; [vm_compute; reflexivity|left; reflexivity]).
  split; [eexists _, _; split; [exact Hr|split; reflexivity]|]. split; [|vm_compute; reflexivity].
  intros junk mem Hj Hm.
  assert (Hu : forall key' e', has_record (words demo_lexicon) key' e' -> nlexid e' = nlexid (Entry 0 0 300 12 []) -> key' = [239; 238; 228] /\ e' = Entry 0 0 300 12 []).
  { intros key' e' (l & Hl & Hin) He.
    assert (H : keysb (fun k => match lookup k demo_words with
       | Some l => forallb (fun e => negb (nlexid e =? 300) || ((if list_eq_dec N.eq_dec k [239; 238; 228] then true else false) && (chrmin e =? 0) && (chrmax e =? 0) && (oclass e =? 12) && negb (nonempty (stpost e)))) l
       | None => true end) 9 [] demo_words = true) by (vm_compute; reflexivity).
    pose proof (keysb_ok _ _ _ _ H key' l Hl) as H1. cbn beta in H1. rewrite app_nil_l in H1. change (words demo_lexicon) with demo_words in Hl. rewrite Hl in H1. rewrite forallb_forall in H1.
    specialize (H1 e' Hin). cbn [nlexid] in He. rewrite He in H1. cbn [N.eqb Pos.eqb negb orb] in H1.
    rewrite !andb_true_iff, !N.eqb_eq in H1. destruct H1 as ((((H1 & H2) & H3) & H4) & H5).
    destruct (list_eq_dec N.eq_dec key' [239; 238; 228]) as [->|]; [|discriminate]. split; [reflexivity|].
    destruct e' as [a b i o p]. cbn [chrmin chrmax nlexid oclass stpost] in *. subst. destruct p; [reflexivity|discriminate]. }
  pose proof (build_exact demo_arrays demo_lexicon demo_holds demo_buildable demo_indexed junk mem _ _ st_prep cl_prep 255 Hm Hr eq_refl Hu) as H.
  cbn zeta in H. cbn [nlexid] in H. destruct H as [H _]; [rewrite app_length, Hj; reflexivity|].
  change (requested cl_prep [239; 238; 228] (stpost (Entry 0 0 300 12 [])) 255) with (@nil bytes) in H.
  apply H. split; [unfold small; cbn; lia|left; reflexivity].
Qed.

Lemma postfix_unrecognised : exists A L id form, holds A L /\ buildable L /\ indexed A L /\ bounds_ok L /\ is_bytes form /\ (length form < 48)%nat /\
  build_form A (repeat 9 15) (Some (repeat 1 20)) id 255 = Ok (1%Z, Some (filled [form] (repeat 1 20))) /\
  forall dwsets junk, check_word A junk (Some form) (N.of_nat (length form)) dwsets = Ok 0%Z.
Proof.
  exists demo_arrays, demo_lexicon, 4, [234; 224; 234; 45; 242; 238].
  split; [apply demo_holds|]. split; [apply demo_buildable|]. split; [apply demo_indexed|]. split; [apply demo_bounds|].
  split; [repeat constructor|]. split; [cbn; lia|]. split; [vm_compute; reflexivity|]. intros dwsets junk.
  reflexivity.
Qed.

(** и-иван: a name with a part of one letter *)
Definition demo3_items : list (bytes * entry) := [ ([232; 45; 232; 226; 224; 237], Entry 224 251 1 16 []) ].
Lemma demo3_ok : itemsb demo3_items = true.
Proof. vm_compute. reflexivity. Qed.

Lemma initial_unrecognised : exists A L id idform form, holds A L /\ buildable L /\ indexed A L /\ recognisable L /\ is_bytes form /\ (length form < 48)%nat /\
  build_form A (repeat 9 15) (Some (repeat 1 20)) id idform = Ok (1%Z, Some (filled [form] (repeat 1 20))) /\
  check_word A (repeat 7 48) (Some form) (N.of_nat (length form)) 0 = Ok 0%Z.
Proof.
  exists (arrays_of (words_of demo3_items)), (lexicon_of (words_of demo3_items)), 1, 1, [200; 45; 200; 226; 224; 237; 224].
  split; [exact (small_holds _ demo3_ok)|]. split; [apply small_buildable; [apply demo3_ok|repeat constructor]|]. split; [exact (small_indexed _ demo3_ok)|].
  split; [apply small_recognisable; [apply demo3_ok|vm_compute; reflexivity]|].
  split; [repeat constructor|]. split; [cbn; lia|]. split; vm_compute; reflexivity.
Qed.
