(** * CompileProofs6: the forms of compiled Russian dictionaries.  PROOFS. *)
From Verif Require Import Base Serial SerialProofs WordTree TreeSpec WordTreeProofs FlatScan LidsProofs TreeWalk Stems StemSpec StemsProofs DictProofs CharTables CapScheme CapSpec GramMap RusRuntime LevelSpec LevelProofs
  RusSpec RusProofs RusProofs2 RusProofs3 PropRusLemmas RusBuild RusBuildSpec RusReadings RusReadingsProofs RusLemmaSpec Wild WildSpec Compile CompileSpec CompileProofs CompileProofs2 CompileProofs3 CompileProofs4 CompileProofs5 CompileFormsSpec
  PropBuildLemmas.
Local Open Scope N_scope.

(** ** The numbers of a tree are distinct *)
Lemma entries_prefix {X} : forall (t : wtree X) p x y, In (x, y) (entries p t) -> exists z, x = p ++ z.
Proof.
  apply (wtree_ind' (fun t => forall p (x : bytes) (y : X), In (x, y) (entries p t) -> exists z, x = p ++ z)).
  intros l d IH p x y. rewrite entries_eq, in_app_iff. intros [H|H].
  - unfold entriess in H. apply in_flat_map in H as ([c t] & Hin & H). rewrite Forall_forall in IH.
    apply (IH (c, t) Hin) in H as (z & ->). cbn [fst]. exists (c :: z). rewrite <- app_assoc. reflexivity.
  - destruct d; [|destruct H]. destruct H as [H|[]]. injection H as <- <-. exists []. symmetry. apply app_nil_r.
Qed.
Lemma nodup_app {X} (a b : list X) : NoDup a -> NoDup b -> (forall x, In x a -> ~ In x b) -> NoDup (a ++ b).
Proof.
  induction 1 as [|x a Hx Ha IH]; intros Hb H; [exact Hb|]. cbn [app]. constructor.
  - rewrite in_app_iff. intros [K|K]; [contradiction|]. apply (H x (or_introl eq_refl)), K.
  - apply IH; [exact Hb|]. intros y Hy. apply H. right. exact Hy.
Qed.
Lemma entries_nodup {X} : forall (t : wtree X) p, ordered t -> NoDup (map fst (entries p t)).
Proof.
  apply (wtree_ind' (fun t : wtree X => forall p, ordered t -> NoDup (map fst (entries p t)))).
  intros l d IH p Ho. rewrite entries_eq, map_app. inversion Ho as [l0 d0 Hdesc Hb Hsub]; subst. rewrite Forall_forall in IH. apply nodup_app.
  - clear Ho. induction l as [|[c t] l IHl]; [constructor|]. cbn [entriess flat_map fst snd]. rewrite map_app. apply nodup_app.
    + apply (IH (c, t) (or_introl eq_refl)). apply (Hsub c t (or_introl eq_refl)).
    + apply IHl.
      * intros ct Hin. apply IH. right. exact Hin.
      * cbn in Hdesc. destruct Hdesc; assumption.
      * inversion Hb; assumption.
      * intros c' t' Hin. apply (Hsub c' t'). right. exact Hin.
    + intros x H1 H2. apply in_map_iff in H1 as ([x1 y1] & <- & H1). apply in_map_iff in H2 as ([x2 y2] & E & H2). cbn [fst] in *. subst x2.
      apply entries_prefix in H1 as (z1 & ->). unfold entriess in H2. apply in_flat_map in H2 as ([c' t'] & Hin & H2). cbn [fst snd] in H2.
      apply entries_prefix in H2 as (z2 & E). rewrite <- !app_assoc in E. apply app_inv_head in E. injection E as E _. subst c'.
      cbn in Hdesc. destruct Hdesc as [Hd _]. rewrite Forall_forall in Hd. specialize (Hd c (in_map fst _ _ Hin)). lia.
  - destruct d; repeat constructor. intros [].
  - intros x H1 H2. destruct d as [a|]; [|destruct H2]. destruct H2 as [<-|[]]. cbn [fst] in H1. apply in_map_iff in H1 as ([x y] & E & H1). cbn [fst] in E. subst x.
    unfold entriess in H1. apply in_flat_map in H1 as ([c t] & Hin & H1). cbn [fst snd] in H1. apply entries_prefix in H1 as (z & E).
    rewrite <- app_assoc in E. rewrite <- (app_nil_r p) in E at 1. apply app_inv_head in E. discriminate.
Qed.
Lemma filter_nodup {X Y} (f : X -> Y) (p : X -> bool) l : NoDup (map f l) -> NoDup (map f (filter p l)).
Proof.
  induction l as [|x l IH]; intros H; [constructor|]. cbn [map] in H. inversion H as [|? ? H1 H2]; subst. cbn [filter]. destruct (p x); [|auto].
  cbn [map]. constructor; [|auto]. intros K. apply H1. apply in_map_iff in K as (y & E & K). apply filter_In in K as [K _]. apply in_map_iff. exists y. auto.
Qed.

Lemma endings_for_in ft fx s : ordered ft -> In s (endings_for ft fx) <-> exists f, listed ft s (gramm fx) f /\ N.land f (flags fx) <> 0.
Proof.
  intros Ho. unfold endings_for. rewrite in_map_iff. split.
  - intros ([k l] & <- & Hin). apply filter_In in Hin as [Hin Hex]. cbn [fst snd] in *. apply existsb_exists in Hex as ([g f] & Hl & Hf). unfold fits_desc in Hf. cbn [fst snd] in Hf.
    apply andb_true_iff in Hf as [H1 H2]. apply N.eqb_eq in H1. apply negb_true_iff, N.eqb_neq in H2. subst g. exists f. split; [|exact H2].
    exists l. split; [|exact Hl]. apply (entries_spec ft k l [] Ho), Hin.
  - intros (f & (l & El & Hl) & Hf). exists (s, l). split; [reflexivity|]. apply filter_In. split; [apply (entries_spec ft s l [] Ho), El|]. cbn [snd].
    apply existsb_exists. exists (gramm fx, f). split; [exact Hl|]. unfold fits_desc. cbn [fst snd]. rewrite N.eqb_refl. apply N.eqb_neq in Hf. rewrite Hf. reflexivity.
Qed.
Lemma endings_for_nodup ft fx : ordered ft -> NoDup (endings_for ft fx).
Proof. intros Ho. apply filter_nodup, entries_nodup, Ho. Qed.

Section Means.
  Variables (ftable mtable : bytes) (m : morphclass) (c : aclass).
  Hypothesis HM : class_means ftable mtable m c.
  Hypothesis Hord : forall ft, c_flex c = Some ft -> ordered ft.

  Lemma means_type : c_word c mod 64 = m_wdinfo m mod 64.
  Proof using HM. apply mod13_type. apply (cm_word _ _ _ _ HM). Qed.
  Lemma means_level g f : alternation_level (c_word c) g f = alternation_level (m_wdinfo m) g f.
  Proof using HM. rewrite <- level_mod13, (cm_word _ _ _ _ HM). reflexivity. Qed.
  Lemma means_case : min_case c = required_case (m_wdinfo m).
  Proof using HM. unfold min_case. rewrite <- required_mod13, (cm_word _ _ _ _ HM). reflexivity. Qed.
  Lemma means_info id : GetGramInfo (c_word c) id = GetGramInfo (m_wdinfo m) id.
  Proof using HM.
    rewrite <- (cm_word _ _ _ _ HM). unfold GetGramInfo, u8. replace (c_word c mod 2 ^ 13 mod 256) with (c_word c mod 256); [reflexivity|].
    change (2 ^ 13) with (256 * 32). rewrite N.mod_mul_r by discriminate. rewrite (N.mul_comm 256), N.mod_add by discriminate. symmetry. apply N.mod_mod. discriminate.
  Qed.
  Lemma means_land : N.land (c_word c) 63 = N.land (m_wdinfo m) 63.
  Proof using HM. change 63 with (N.ones 6). rewrite !N.land_ones. exact means_type. Qed.
  Lemma means_verb : IsVerb (c_word c) = IsVerb (m_wdinfo m).
  Proof using HM. unfold IsVerb. change 0x3f with 63. rewrite means_land. reflexivity. Qed.
  Lemma means_adj : IsAdjective (c_word c) = IsAdjective (m_wdinfo m).
  Proof using HM. unfold IsAdjective. change 0x3f with 63. rewrite means_land. reflexivity. Qed.
  Lemma means_plural : N.testbit (c_word c) 6 = N.testbit (m_wdinfo m) 6.
  Proof using HM. rewrite <- (cm_word _ _ _ _ HM), N.mod_pow2_bits_low by reflexivity. reflexivity. Qed.

  Lemma tails_asked fx p : In p (tails c fx) <-> asked_part ftable mtable m fx p.
  Proof using HM Hord.
    pose proof (cm_table _ _ _ _ HM) as Ht. pose proof (cm_mix _ _ _ _ HM) as Hm. unfold tails. destruct (c_flex c) as [ft|] eqn:Ef.
    2:{ destruct Ht as [Hi _]. split; [intros [<-|[]]; apply asked_never, Hi|]. intros H. destruct H; try congruence. left. reflexivity. }
    destruct Ht as (Hi & Hl & _). specialize (Hord ft eq_refl). destruct (c_mix c) as [mx|] eqn:Em.
    2:{ rewrite endings_for_in by exact Hord. split.
        - intros (f & H1 & H2). eapply asked_ending; [exact Hi|exact Hm|apply Hl, H1|exact H2].
        - intros H. destruct H; try congruence. exists f. split; [apply Hl; assumption|assumption]. }
    destruct Hm as [Hz Hm]. unfold alternation_for. rewrite means_level. set (lv := alternation_level (m_wdinfo m) (gramm fx) (flags fx)). split.
    - destruct (find _ mx) as [[mask alt]|] eqn:Efind; cbn [option_map snd]; [|intros []]. intros H. apply in_map_iff in H as (s & <- & Hs).
      apply endings_for_in in Hs as (f & H1 & H2); [|exact Hord].
      assert (Hsplit : exists before behind, mx = before ++ (mask, alt) :: behind /\ N.testbit mask (lv - 1) = true /\ (forall mask' alt', In (mask', alt') before -> N.testbit mask' (lv - 1) = false)).
      { clear - Efind. induction mx as [|[mk al] mx IH]; [discriminate|]. cbn [find fst] in Efind. destruct (N.testbit mk (lv - 1)) eqn:E.
        - injection Efind as <- <-. exists [], mx. split; [reflexivity|]. split; [exact E|]. intros ? ? [].
        - destruct (IH Efind) as (b & bh & -> & K1 & K2). exists ((mk, al) :: b), bh. split; [reflexivity|]. split; [exact K1|]. intros mask' alt' [[= <- <-]|Hin]; [exact E|eauto]. }
      destruct Hsplit as (before & behind & -> & K1 & K2). eapply asked_mixed; try eassumption. apply Hl, H1.
    - intros H. destruct H as [?|?|before mask alt behind s f _ _ Hmx level Hb Hbef Hs Hf]; try congruence. rewrite (mix_unique _ _ _ _ Hm Hmx).
      assert (Ef' : find (fun ma => N.testbit (fst ma) (lv - 1)) (before ++ (mask, alt) :: behind) = Some (mask, alt)).
      { clear - Hb Hbef. induction before as [|[mk al] b IH]; cbn [app find fst]; [unfold level in Hb; fold lv in Hb; rewrite Hb; reflexivity|].
        specialize (Hbef mk al (or_introl eq_refl)) as E. unfold level in E. fold lv in E. rewrite E. apply IH. intros mask' alt' Hin. apply (Hbef mask' alt'). right. exact Hin. }
      rewrite Ef'. cbn [option_map snd]. apply in_map_iff. exists s. split; [reflexivity|]. apply endings_for_in; [exact Hord|]. exists f. split; [apply Hl, Hs|exact Hf].
  Qed.
  Lemma tails_nodup fx : NoDup (tails c fx).
  Proof using HM Hord.
    unfold tails. destruct (c_flex c) as [ft|] eqn:Ef; [|repeat constructor; intros []]. specialize (Hord ft eq_refl).
    destruct (c_mix c) as [mx|]; [|apply endings_for_nodup, Hord]. destruct (alternation_for _ mx fx) as [alt|]; [|constructor].
    apply FinFun.Injective_map_NoDup; [intros a b E; apply app_inv_head in E; exact E|apply endings_for_nodup, Hord].
  Qed.

  Lemma noflex_eq fx : flexinfo_eq fx noflex = true <-> fx = noflex.
  Proof using Type.
    clear. unfold flexinfo_eq. split.
    - intros H. apply andb_true_iff in H as [H1 H2]. apply N.eqb_eq in H1, H2. destruct fx, noflex. cbn in *. congruence.
    - intros ->. rewrite !N.eqb_refl. reflexivity.
  Qed.
  Lemma number_b m' id : negb (id =? 255) && negb (flexinfo_eq (GetGramInfo m' id) noflex) = true <-> id <> 255 /\ GetGramInfo m' id <> noflex.
  Proof using Type.
    clear. rewrite andb_true_iff, !negb_true_iff. rewrite N.eqb_neq, <- noflex_eq. destruct (flexinfo_eq _ noflex); intuition congruence.
  Qed.
  Lemma takes_number id : takes_id c id = true <-> has_number m id.
  Proof using HM.
    clear Hord. pose proof (cm_table _ _ _ _ HM) as Ht. unfold takes_id, has_number. rewrite means_info. destruct (c_flex c) as [ft|].
    - destruct Ht as [Hi _]. unfold inflected in Hi. apply andb_true_iff in Hi as [Hi _]. apply negb_true_iff in Hi. rewrite Hi. apply number_b.
    - destruct Ht as [_ ->]. destruct (m_tfoffs m =? 0); [apply N.eqb_eq|apply number_b].
  Qed.
  Lemma finds_number id : (match c_flex c with None => id =? 255 | Some _ => takes_id c id end) = true <-> found_number m id.
  Proof using HM.
    clear Hord. pose proof (cm_table _ _ _ _ HM) as Ht. unfold takes_id, found_number. rewrite means_info. destruct (c_flex c) as [ft|]; destruct Ht as [Hi _]; rewrite Hi; [apply number_b|apply N.eqb_eq].
  Qed.
End Means.
