(** * CompileProofs7: answers from compiled Russian dictionaries.  PROOFS. *)
From Verif Require Import Base Serial SerialProofs WordTree TreeSpec WordTreeProofs FlatScan LidsProofs TreeWalk Stems StemSpec StemsProofs DictProofs CharTables CapScheme CapSpec GramMap RusRuntime LevelSpec LevelProofs
  RusSpec RusProofs RusProofs2 RusProofs3 PropRusLemmas RusBuild RusBuildSpec RusBuildProofs4 RusReadings RusReadingsProofs RusLemmaSpec RusLemmaProofs5 Wild WildSpec WildProofs4
  Compile CompileSpec CompileProofs CompileProofs2 CompileProofs3 CompileProofs4 CompileProofs5 CompileFormsSpec CompileProofs6
  PropBuildLemmas PropBuildLemmas2 PropLemmasLemmas EngCompileProofs7.
Local Open Scope N_scope.

Section Answers.
  Variables ftable mtable : bytes.
  Variable xs : list Compile.lexeme.
  Variable A : arrays.
  Variable L : lexicon.
  Hypothesis HL : holds A L.
  Hypothesis HC : compiled_from ftable mtable xs L.
  Hypothesis Hlids : lidstree A = lidstree_bytes (create_lids (words L)).
  Hypothesis Hstems : stemtree A = stemtree_bytes (words L).

  Lemma class_source key e st c : has_record (words L) key e -> class_of L (oclass e) = Some (st, c) ->
    exists x, In x xs /\ key = l_stem x /\ nlexid e = l_id x /\ stpost e = l_post x /\ chrmin e = l_min x /\ chrmax e = l_max x /\ class_means ftable mtable (l_class x) c /\
      (forall ft, c_flex c = Some ft -> ordered ft).
  Proof using HL HC.
    intros Hr Hc. destruct (cf_only _ _ _ _ HC key e Hr) as (x & st' & c' & Hx & Ek & Ee & Hc' & Hm). rewrite Hc in Hc'. injection Hc' as <- <-. exists x.
    split; [exact Hx|]. split; [exact Ek|]. split; [rewrite Ee; reflexivity|]. split; [rewrite Ee; reflexivity|]. split; [rewrite Ee; reflexivity|]. split; [rewrite Ee; reflexivity|]. split; [exact Hm|].
    intros ft Ef. destruct (holds_classes A L HL key e Hr) as (st'' & c'' & Hc'' & _ & Hrep). rewrite Hc in Hc''. injection Hc'' as <- <-.
    destruct Hrep as (_ & _ & _ & Hf & _). rewrite Ef in Hf. destruct Hf as (_ & _ & (Hd & _) & _). eapply dumpable_ordered, Hd.
  Qed.
  Lemma source_class x : In x xs -> exists e st c, has_record (words L) (l_stem x) e /\ class_of L (oclass e) = Some (st, c) /\ nlexid e = l_id x /\ stpost e = l_post x /\
    chrmin e = l_min x /\ chrmax e = l_max x /\ class_means ftable mtable (l_class x) c /\ (forall ft, c_flex c = Some ft -> ordered ft).
  Proof using HL HC.
    intros Hx. destruct (cf_all _ _ _ _ HC x Hx) as (off & st & c & Hr & Hc & Hm). exists (Entry (l_min x) (l_max x) (l_id x) off (l_post x)), st, c.
    split; [exact Hr|]. split; [exact Hc|]. do 4 (split; [reflexivity|]). split; [exact Hm|].
    destruct (class_source _ _ _ _ Hr Hc) as (_ & _ & _ & _ & _ & _ & _ & _ & H). exact H.
  Qed.

  Lemma compiled_rus_buildable : Forall (lexeme_buildable ftable mtable) xs -> buildable L.
  Proof using HL HC.
    intros Hb. pose proof Hb as Hb'. rewrite Forall_forall in Hb'. constructor.
    - apply (cf_deep _ _ _ _ HC). eapply Forall_impl; [|exact Hb]. intros x H. apply (lb_stem _ _ _ H).
    - intros key e Hr. destruct (cf_only _ _ _ _ HC key e Hr) as (x & st & c & Hx & _ & -> & _). cbn [stpost]. apply (lb_post _ _ _ (Hb' x Hx)).
    - intros key e st c ft Hr Hc Ef. destruct (class_source _ _ _ _ Hr Hc) as (x & Hx & _ & _ & _ & _ & _ & Hm & _). pose proof (cm_table _ _ _ _ Hm) as Ht. rewrite Ef in Ht. destruct Ht as (Hi & _ & Hd).
      apply Hd. apply (lb_endings _ _ _ (Hb' x Hx) Hi).
    - intros key e st c mx Hr Hc Em. destruct (class_source _ _ _ _ Hr Hc) as (x & Hx & _ & _ & _ & _ & _ & Hm & _). pose proof (cm_mix _ _ _ _ Hm) as Ht. rewrite Em in Ht. destruct Ht as [Hz Hmx].
      apply (lb_mix _ _ _ (Hb' x Hx) mx Hz Hmx).
  Qed.
  Lemma compiled_rus_indexed : Forall (lexeme_buildable ftable mtable) xs -> N.of_nat (length (lidstree A)) < 2 ^ 32 -> N.of_nat (length (stemtree A)) < 2 ^ 32 -> indexed A L.
  Proof using HL HC Hlids Hstems.
    intros Hb Hlen Hfit. rewrite Forall_forall in Hb. constructor.
    - exists []. rewrite app_nil_r. exact Hlids.
    - rewrite Hlids, lids_size in Hlen. exact Hlen.
    - rewrite Hstems in Hfit. unfold stemtree_bytes in Hfit. rewrite sized_len in Hfit; [exact Hfit|].
      apply lookup_all_data; [apply (holds_ordered A L HL)|]. intros k l E. apply stems_ser_len, (holds_lists A L HL k l E).
    - intros key e Hr. destruct (cf_only _ _ _ _ HC key e Hr) as (x & st & c & Hx & _ & -> & _). cbn [nlexid]. apply (lb_id _ _ _ (Hb x Hx)).
  Qed.
  Lemma compiled_rus_recognisable : Forall (lexeme_recognisable ftable mtable) xs -> recognisable L.
  Proof using HL HC.
    intros Hb. pose proof Hb as Hb'. rewrite Forall_forall in Hb'. constructor.
    - apply (from_bounds _ _ _ _ HC). eapply Forall_impl; [|exact Hb]. intros x H. apply (lr_bounds _ _ _ H).
    - intros key e st c Hr Hc H6. destruct (class_source _ _ _ _ Hr Hc) as (x & Hx & _ & _ & _ & _ & _ & Hm & _). rewrite (means_plural _ _ _ _ Hm) in H6.
      rewrite (means_verb _ _ _ _ Hm), (means_adj _ _ _ _ Hm). apply (lr_number _ _ _ (Hb' x Hx) H6).
    - intros key e st c ft t g f Hr Hc Hty Ef Hl. destruct (class_source _ _ _ _ Hr Hc) as (x & Hx & _ & _ & _ & _ & _ & Hm & _). pose proof (cm_table _ _ _ _ Hm) as Ht. rewrite Ef in Ht. destruct Ht as (Hi & He & _).
      apply (lr_animacy _ _ _ (Hb' x Hx)) with (s := t); [|exact Hi|apply He, Hl]. rewrite <- (means_type _ _ _ _ Hm), mod64. exact Hty.
    - intros key e st c fx Hr Hc. destruct (class_source _ _ _ _ Hr Hc) as (x & Hx & _ & _ & Ep & _ & Emx & Hm & Ho). apply Forall_forall. intros t Ht. apply (tails_asked _ _ _ _ Hm Ho) in Ht.
      unfold reachable. destruct t as [|c' t]; [right|left; discriminate]. rewrite Ep, Emx. exact (lr_postfix _ _ _ (Hb' x Hx) fx Ht).
    - intros key e st c fx Hr Hc. destruct (class_source _ _ _ _ Hr Hc) as (x & Hx & Ek & _ & Ep & _ & _ & Hm & Ho). apply Forall_forall. intros w Hw. unfold raw_forms in Hw.
      apply in_map_iff in Hw as (t & <- & Ht). apply (tails_asked _ _ _ _ Hm Ho) in Ht. rewrite Ek, Ep. exact (lr_letters _ _ _ (Hb' x Hx) fx t Ht).
  Qed.

  (** *** by id *)
  Lemma requested_spelled x c id : class_means ftable mtable (l_class x) c -> (forall ft, c_flex c = Some ft -> ordered ft) ->
    exists ps, NoDup ps /\ (forall p, In p ps <-> has_number (l_class x) id /\ asked_part ftable mtable (l_class x) (GetGramInfo (m_wdinfo (l_class x)) id) p) /\
      requested c (l_stem x) (l_post x) id = map (spelled x) ps.
  Proof using Type.
    clear. intros Hm Ho. unfold requested. destruct (takes_id c id) eqn:Et.
    - apply (takes_number _ _ _ _ Hm) in Et. exists (tails c (GetGramInfo (m_wdinfo (l_class x)) id)). split; [apply (tails_nodup _ _ _ _ Hm Ho)|]. split.
      + intros p. rewrite (tails_asked _ _ _ _ Hm Ho). intuition.
      + unfold forms_of, raw_forms, spelled. rewrite map_map, (means_info _ _ _ _ Hm), (means_case _ _ _ _ Hm). reflexivity.
    - exists []. split; [constructor|]. split; [|reflexivity]. intros p. split; [intros []|]. intros [H _]. apply (takes_number _ _ _ _ Hm) in H. congruence.
  Qed.
  Lemma compiled_rus_build x id junk mem : Forall (lexeme_buildable ftable mtable) xs -> N.of_nat (length (lidstree A)) < 2 ^ 32 -> N.of_nat (length (stemtree A)) < 2 ^ 32 ->
    In x xs -> (forall y, In y xs -> l_id y = l_id x -> y = x) -> mem <> [] -> (length (lexkeylen (l_id x) ++ junk) = 16)%nat ->
    exists ps, NoDup ps /\ (forall p, In p ps <-> has_number (l_class x) id /\ asked_part ftable mtable (l_class x) (GetGramInfo (m_wdinfo (l_class x)) id) p) /\
      let fs := map (spelled x) ps in delivered mem fs (small fs) (build_form A junk (Some mem) (l_id x) id).
  Proof using HL HC Hlids Hstems.
    intros Hb Hl Hs Hx Hu Hm Hj. assert (Hid : l_id x < 2 ^ 32) by (rewrite Forall_forall in Hb; pose proof (lb_id _ _ _ (Hb x Hx)); lia).
    destruct (build_some A L HL (compiled_rus_buildable Hb) (compiled_rus_indexed Hb Hl Hs) junk mem (l_id x) id Hm Hid Hj) as (key & e & st & c & Hr & Ei & Hc & Hd).
    { destruct (source_class x Hx) as (e & st & c & Hr & _ & Ei & _). eauto. }
    destruct (class_source _ _ _ _ Hr Hc) as (y & Hy & -> & Ey & Ep & _ & _ & Hmn & Ho). rewrite Ei in Ey. rewrite (Hu y Hy (eq_sym Ey)) in *. rewrite Ep in Hd.
    destruct (requested_spelled x c id Hmn Ho) as (ps & P1 & P2 & E). rewrite E in Hd. exists ps. auto.
  Qed.
  Lemma compiled_rus_wd_info x junk : Forall (lexeme_buildable ftable mtable) xs -> N.of_nat (length (lidstree A)) < 2 ^ 32 -> N.of_nat (length (stemtree A)) < 2 ^ 32 ->
    In x xs -> (forall y, In y xs -> l_id y = l_id x -> m_wdinfo (l_class y) mod 64 = m_wdinfo (l_class x) mod 64) -> (length (lexkeylen (l_id x) ++ junk) = 16)%nat ->
    get_wd_info A junk (l_id x) = Ok (1%Z, Some (m_wdinfo (l_class x) mod 64)).
  Proof using HL HC Hlids Hstems.
    intros Hb Hl Hs Hx Hu Hj. destruct (source_class x Hx) as (e & st & c & Hr & Hc & Ei & _ & _ & _ & Hm & _). rewrite mod64, <- (means_land _ _ _ _ Hm), <- Ei in *.
    eapply wd_info_found; try eassumption; [apply compiled_rus_indexed; assumption|].
    intros key' e' st' c' Hr' Ei' Hc'. destruct (class_source _ _ _ _ Hr' Hc') as (y & Hy & _ & Ey & _ & _ & _ & Hm' & _).
    rewrite <- (Hu y Hy) by congruence. rewrite <- mod64. apply (means_type _ _ _ _ Hm').
  Qed.
  Lemma compiled_rus_absent id idform junk mem : Forall (lexeme_buildable ftable mtable) xs -> N.of_nat (length (lidstree A)) < 2 ^ 32 -> N.of_nat (length (stemtree A)) < 2 ^ 32 ->
    id < 2 ^ 32 -> (forall y, In y xs -> l_id y <> id) -> mem <> [] -> (length (lexkeylen id ++ junk) = 16)%nat ->
    get_wd_info A junk id = Ok (0%Z, None) /\ build_form A junk (Some mem) id idform = Ok (0%Z, Some mem).
  Proof using HL HC Hlids Hstems.
    intros Hb Hl Hs Hid Hn Hm Hj. assert (Hn' : forall key e, has_record (words L) key e -> nlexid e <> id).
    { intros key e Hr. destruct (cf_only _ _ _ _ HC key e Hr) as (y & _ & _ & Hy & _ & -> & _). apply Hn, Hy. }
    split; [eapply wd_info_none|eapply build_unknown]; try eassumption; try (apply compiled_rus_indexed; assumption). apply compiled_rus_buildable, Hb.
  Qed.
  Lemma compiled_rus_recognised x id n mem mem' junk : Forall (lexeme_buildable ftable mtable) xs -> N.of_nat (length (lidstree A)) < 2 ^ 32 -> N.of_nat (length (stemtree A)) < 2 ^ 32 ->
    Forall (lexeme_recognisable ftable mtable) xs -> In x xs -> (forall y, In y xs -> l_id y = l_id x -> y = x) -> mem <> [] -> (length (lexkeylen (l_id x) ++ junk) = 16)%nat ->
    build_form A junk (Some mem) (l_id x) id = Ok (n, Some mem') -> (0 < n)%Z ->
    exists fs, n = Z.of_nat (length fs) /\ mem' = filled fs mem /\
      forall form, In form fs -> form <> [] -> (length form < 48)%nat -> forall psz cch dwsets junk', given form psz cch ->
        bit 1 dwsets = true /\ (length (parts rus_casing form) <= 8)%nat \/ casable (required_case (m_wdinfo (l_class x))) (map (locase rus_casing) form) ->
        check_word A junk' psz cch dwsets = Ok 1%Z.
  Proof using HL HC Hlids Hstems.
    intros Hb Hl Hs Hrec Hx Hu Hm Hj Eb Hn. assert (Hid : l_id x < 2 ^ 32) by (rewrite Forall_forall in Hb; pose proof (lb_id _ _ _ (Hb x Hx)); lia).
    destruct (build_recognised A L HL (compiled_rus_buildable Hb) (compiled_rus_indexed Hb Hl Hs) (compiled_rus_recognisable Hrec) junk mem (l_id x) id n mem' Hm Hid Hj Eb Hn)
      as (key & e & st & c & fs & Hr & Ei & Hc & E1 & E2 & H). exists fs. split; [exact E1|]. split; [exact E2|].
    destruct (class_source _ _ _ _ Hr Hc) as (y & Hy & _ & Ey & _ & _ & _ & Hmn & _). rewrite (Hu y Hy) in * by congruence. rewrite <- (means_case _ _ _ _ Hmn). exact H.
  Qed.
End Answers.
