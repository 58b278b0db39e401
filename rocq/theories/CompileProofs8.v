(** * CompileProofs8: analyses and searches in compiled Russian dictionaries.  PROOFS. *)
From Verif Require Import Base Serial SerialProofs WordTree TreeSpec WordTreeProofs FlatScan LidsProofs TreeWalk Stems StemSpec StemsProofs DictProofs CharTables CapScheme CapSpec GramMap RusRuntime LevelSpec LevelProofs
  RusSpec RusProofs RusProofs2 RusProofs3 PropRusLemmas RusBuild RusBuildSpec RusBuildProofs4 RusReadings RusReadingsProofs RusLemmaSpec RusLemmaProofs5 Wild WildSpec WildProofs4
  Compile CompileSpec CompileProofs CompileProofs2 CompileProofs3 CompileProofs4 CompileProofs5 CompileFormsSpec CompileProofs6 CompileProofs7
  PropBuildLemmas PropBuildLemmas2 PropLemmasLemmas PropWildLemmas.
Local Open Scope N_scope.

Lemma part_readings_complete c part g f : form_part c part g f -> exists ds, In ds (part_readings c part) /\ In (g, f) ds.
Proof.
  intros H. destruct (class_hits_complete c (Steminfo 0 0 0) part g f H) as (st' & gs & H1 & H2). rewrite class_hits_readings in H1.
  apply in_map_iff in H1 as (ds & E & Hds). injection E as _ <-. exists ds. split; [exact Hds|]. apply in_map_iff in H2 as ([g' f'] & E & H2). injection E as -> ->. exact H2.
Qed.

Section Tell.
  Variables ftable mtable : bytes.
  Variable xs : list Compile.lexeme.
  Variable A : arrays.
  Variable L : lexicon.
  Hypothesis HL : holds A L.
  Hypothesis HC : compiled_from ftable mtable xs L.
  Hypothesis Hw16 : forall key e st c, has_record (words L) key e -> class_of L (oclass e) = Some (st, c) -> c_word c < 2 ^ 16.

  Lemma ldiff13 a b : a < 2 ^ 16 -> a mod 2 ^ 13 = b -> N.ldiff a 0xe000 = b.
  Proof using Type.
    clear. intros Ha <-. apply N.bits_inj. intros i. rewrite N.ldiff_spec. rewrite <- (N.mod_small a (2 ^ 16)) at 1 by exact Ha.
    destruct (N.ltb_spec i 13) as [H|H].
    - rewrite !N.mod_pow2_bits_low by lia. replace (N.testbit 0xe000 i) with false; [apply andb_true_r|]. symmetry.
      change 0xe000 with (7 * 2 ^ 13). rewrite N.mul_pow2_bits_low by exact H. reflexivity.
    - rewrite (N.mod_pow2_bits_high a 13) by exact H. destruct (N.ltb_spec i 16) as [H'|H'].
      + assert (E : i = 13 \/ i = 14 \/ i = 15) by lia. destruct E as [->|[->| ->]]; apply andb_false_r.
      + rewrite N.mod_pow2_bits_high by exact H'. reflexivity.
  Qed.
  Lemma ldiff11 a b : a < 2 ^ 16 -> a mod 2 ^ 13 = b -> N.ldiff a 0xf800 = N.ldiff b 0xf800.
  Proof using Type.
    clear. intros Ha <-. apply N.bits_inj. intros i. rewrite !N.ldiff_spec. rewrite <- (N.mod_small a (2 ^ 16)) at 1 by exact Ha.
    destruct (N.ltb_spec i 13) as [H|H]; [rewrite !N.mod_pow2_bits_low by lia; reflexivity|].
    rewrite (N.mod_pow2_bits_high a 13) by exact H. destruct (N.ltb_spec i 16) as [H'|H'].
    + assert (E : i = 13 \/ i = 14 \/ i = 15) by lia. destruct E as [->|[->| ->]]; apply andb_false_r.
    + rewrite N.mod_pow2_bits_high by exact H'. reflexivity.
  Qed.

  Lemma raw_asked x c fx s : class_means ftable mtable (l_class x) c -> (forall ft, c_flex c = Some ft -> ordered ft) ->
    In s (raw_forms c (l_stem x) (l_post x) fx) <-> exists p, asked_part ftable mtable (l_class x) fx p /\ s = l_stem x ++ p ++ l_post x.
  Proof using Type.
    clear. intros Hm Ho. unfold raw_forms. rewrite in_map_iff. split; intros (p & H1 & H2); exists p.
    - split; [apply (tails_asked _ _ _ _ Hm Ho), H2|auto].
    - split; [auto|]. apply (tails_asked _ _ _ _ Hm Ho), H1.
  Qed.
  Lemma dict_asked x c dwsets gf s : class_means ftable mtable (l_class x) c -> (forall ft, c_flex c = Some ft -> ordered ft) ->
    In s (dict_forms c (l_stem x) (l_post x) dwsets gf) <-> exists p, dict_part ftable mtable (l_class x) dwsets gf p /\ s = l_stem x ++ p ++ l_post x.
  Proof using Type.
    clear. intros Hm Ho. unfold dict_forms, dict_part.
    assert (Eg : dict_gramm c dwsets gf = class_gramm (l_class x) dwsets gf) by (unfold dict_gramm, class_gramm; rewrite (means_verb _ _ _ _ Hm), (means_adj _ _ _ _ Hm), (means_plural _ _ _ _ Hm); reflexivity).
    rewrite Eg, (means_verb _ _ _ _ Hm), (means_adj _ _ _ _ Hm). set (g := class_gramm (l_class x) dwsets gf). cbv zeta.
    pose proof (fun s => raw_asked x c (Flexinfo g 3) s Hm Ho) as R1. destruct (raw_forms c (l_stem x) (l_post x) (Flexinfo g 3)) as [|w ws].
    - assert (Hn : forall p, ~ asked_part ftable mtable (l_class x) (Flexinfo g 3) p) by (intros p Hp; apply (proj2 (R1 (l_stem x ++ p ++ l_post x))); exists p; auto).
      destruct (IsVerb (m_wdinfo (l_class x)) || IsAdjective (m_wdinfo (l_class x))) eqn:Ev.
      + rewrite (raw_asked x c _ s Hm Ho). split; intros (p & H1 & H2); exists p; (split; [|exact H2]).
        * right. apply orb_true_iff in Ev. auto.
        * destruct H1 as [H1|(_ & _ & H1)]; [destruct (Hn p H1)|exact H1].
      + split; [intros []|]. intros (p & [H1|(H1 & _)] & _); [destruct (Hn p H1)|]. apply orb_false_iff in Ev. destruct Ev, H1; congruence.
    - rewrite R1. split; intros (p & H1 & H2); exists p; (split; [|exact H2]); [left; exact H1|].
      destruct H1 as [H1|(_ & Hn & _)]; [exact H1|]. destruct (proj1 (R1 w) (or_introl eq_refl)) as (q & Hq & _). destruct (Hn q Hq).
  Qed.

  Lemma tells_of ignore w x e st c part ds : In x xs -> has_record (words L) (l_stem x) e -> class_of L (oclass e) = Some (st, c) -> nlexid e = l_id x -> stpost e = l_post x ->
    class_means ftable mtable (l_class x) c -> (forall ft, c_flex c = Some ft -> ordered ft) -> In ds (part_readings c part) ->
    map (locase rus_casing) w = l_stem x ++ part ++ l_post x -> (ignore = false -> suits w (required_case (m_wdinfo (l_class x)))) ->
    tells ftable mtable xs ignore w (Reading (l_stem x) e c part ds) x.
  Proof using Hw16.
    intros Hx Hr Hc Ei Ep Hm Ho Hds Ew Hs. destruct (part_readings_form _ _ _ Hds) as [Hne Hf]. constructor; cbn [rd_descs rd_part].
    - split; [exact Hne|]. intros g f Hgf. split; [exact Hx|]. split; [split; [apply (cm_forms _ _ _ _ Hm), Hf, Hgf|exact Ew]|]. exact Hs.
    - exact Ei.
    - unfold rd_shown. cbn [rd_class rd_descs]. apply map_ext. intros [g f]. unfold shown, source_shown. pose proof (cm_table _ _ _ _ Hm) as Ht. pose proof (Hw16 _ _ _ _ Hr Hc) as H16.
      destruct (c_flex c) as [ft|]; destruct Ht as [Hi _]; rewrite Hi.
      + cbv zeta. rewrite (ldiff11 (c_word c) (m_wdinfo (l_class x)) H16 (cm_word _ _ _ _ Hm)). reflexivity.
      + rewrite (ldiff13 (c_word c) (m_wdinfo (l_class x)) H16 (cm_word _ _ _ _ Hm)). reflexivity.
    - intros dwsets s. unfold lemma_of, source_lemma, rd_dict_forms. cbn [rd_class rd_key rd_entry rd_descs]. rewrite Ep, (means_case _ _ _ _ Hm). split.
      + intros (y & Hy & Hle & ->). apply (dict_asked x c dwsets _ _ Hm Ho) in Hy as (p & Hp & ->). exists p. split; [exact Hp|]. split; [|reflexivity].
        intros q Hq. cbv zeta. rewrite Forall_forall in Hle. apply (Hle (l_stem x ++ q ++ l_post x)). apply (dict_asked x c dwsets _ _ Hm Ho). exists q. auto.
      + intros (p & Hp & Hle & ->). exists (l_stem x ++ p ++ l_post x). split; [apply (dict_asked x c dwsets _ _ Hm Ho); exists p; auto|]. split; [|reflexivity].
        apply Forall_forall. intros y Hy. apply (dict_asked x c dwsets _ _ Hm Ho) in Hy as (q & Hq & ->). exact (Hle q Hq).
    - intros dwsets. unfold rd_dict_forms. cbn [rd_class rd_key rd_entry rd_descs]. rewrite Ep. split.
      + intros H. destruct (dict_forms c (l_stem x) (l_post x) dwsets (hd (0, 0) ds)) as [|y ys] eqn:E; [contradiction|].
        destruct (proj1 (dict_asked x c dwsets (hd (0, 0) ds) y Hm Ho)) as (p & Hp & _); [rewrite E; left; reflexivity|]. exists p. exact Hp.
      + intros (p & Hp) E. pose proof (proj2 (dict_asked x c dwsets (hd (0, 0) ds) (l_stem x ++ p ++ l_post x) Hm Ho)) as K. rewrite E in K. apply K. exists p. auto.
    - intros id s. unfold reading_forms, found_forms. cbn [rd_class rd_key rd_entry]. rewrite Ep. pose proof (finds_number _ _ _ _ Hm id) as Hn.
      destruct (match c_flex c with None => id =? 255 | Some _ => takes_id c id end).
      + unfold forms_of. rewrite in_map_iff, (means_case _ _ _ _ Hm), (means_info _ _ _ _ Hm). split.
        * intros (y & <- & Hy). apply (raw_asked x c _ _ Hm Ho) in Hy as (p & Hp & ->). split; [apply Hn; reflexivity|]. exists p. split; [exact Hp|reflexivity].
        * intros (_ & p & Hp & ->). exists (l_stem x ++ p ++ l_post x). split; [reflexivity|]. apply (raw_asked x c _ _ Hm Ho). exists p. auto.
      + split; [intros []|]. intros [H _]. apply Hn in H. discriminate.
  Qed.

  Lemma reading_tells ignore w r : (ignore = false -> suits w (min_case (rd_class r))) -> In r (readings L (map (locase rus_casing) w)) ->
    exists x, In x xs /\ tells ftable mtable xs ignore w r x /\ stpost (rd_entry r) = l_post x /\ chrmax (rd_entry r) = l_max x.
  Proof using HL HC Hw16.
    intros Hs Hin. apply readings_in in Hin as (rest & Ew & Hr & Hin). apply record_readings_in in Hin as (st & c & Hc & Er & Erest & Hds).
    destruct r as [key e c0 part ds]. cbn [rd_key rd_entry rd_class rd_part rd_descs] in *. injection Er as ->.
    destruct (class_source _ _ _ _ _ HL HC _ _ _ _ Hr Hc) as (x & Hx & -> & Ei & Ep & _ & Em & Hm & Ho).
    exists x. split; [exact Hx|]. split; [|split; assumption]. rewrite Ep in Erest. subst rest.
    eapply tells_of; try eassumption. intros Hi. rewrite <- (means_case _ _ _ _ Hm). apply Hs, Hi.
  Qed.

  (** the readings found, in terms of the sources *)
  Lemma found_tells ignore w hs : found L ignore w hs ->
    (forall r, In r hs -> exists x, In x xs /\ tells ftable mtable xs ignore w r x) /\
    (Forall (bounds_cover ftable mtable) xs -> no_bare_word ftable mtable xs w -> forall x part g f, source_word ftable mtable xs ignore w x part g f ->
       exists r, In r hs /\ tells ftable mtable xs ignore w r x /\ rd_part r = part /\ In (g, f) (rd_descs r)).
  Proof using HL HC Hw16.
    intros [(suitable & Hsu & H)]. cbv zeta in H. destruct H as [Hsub Hall]. split.
    - intros r Hin. apply (sublist_in _ _ r Hsub) in Hin. apply filter_In in Hin as [Hin Hg]. destruct (reading_tells ignore w r) as (x & Hx & Ht & _); [|exact Hin|exists x; auto].
      intros ->. cbn [orb] in Hg. apply Hsu, Hg.
    - intros Hb Hbare x part g f (Hx & [Hch Ew] & Hs).
      assert (Hhs : hs = filter (fun r => ignore || suitable (min_case (rd_class r))) (readings L (map (locase rus_casing) w))).
      { apply Hall; [apply (from_bounds _ _ _ _ HC Hb)|]. intros r Hin. destruct (reading_tells true w r) as (y & Hy & Ht & Ep & Em); [discriminate|exact Hin|].
        destruct (te_words _ _ _ _ _ _ _ Ht) as [Hne Hw]. destruct (rd_descs r) as [|[g' f'] ds]; [contradiction|]. specialize (Hw g' f' (or_introl eq_refl)). apply Hbare in Hw.
        unfold reachable. rewrite Ep, Em. exact Hw. }
      destruct (source_class _ _ _ _ _ HL HC x Hx) as (e & st & c & Hr & Hc & Ei & Ep & _ & Em & Hm & Ho).
      destruct (part_readings_complete c part g f) as (ds & Hds & Hgf); [apply (cm_forms _ _ _ _ Hm), Hch|].
      set (r := Reading (l_stem x) e c part ds). assert (Hin : In r (readings L (map (locase rus_casing) w))).
      { apply readings_in. exists (part ++ stpost e). cbn [rd_key rd_entry r]. split; [rewrite Ep; exact Ew|]. split; [exact Hr|]. apply record_readings_in. exists st, c. cbn [rd_part rd_descs r]. auto. }
      assert (Hgood : ignore = false -> suits w (min_case (rd_class r))).
      { intros Hi. cbn [rd_class r]. rewrite (means_case _ _ _ _ Hm). apply Hs, Hi. }
      exists r. split; [rewrite Hhs; apply filter_In; split; [exact Hin|]|].
      + destruct ignore; [reflexivity|]. cbn [orb]. apply Hsu. apply Hgood. reflexivity.
      + split; [|split; [reflexivity|exact Hgf]]. eapply tells_of; eassumption.
  Qed.
End Tell.
