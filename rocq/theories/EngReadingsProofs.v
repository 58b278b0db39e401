(** * EngReadingsProofs: the analyses delivered by the search of the English analyser are the readings; FindForms.  PROOFS. *)
From Verif Require Import Base Serial SerialProofs WordTree TreeSpec WordTreeProofs FlatScan FlatScanProofs LidsProofs TrackProofs
  TreeWalk Stems StemSpec StemsProofs DictProofs CharTables CapScheme CapSpec CapProofs CapProofs2 CapProofs3 PropCaseLemmas PropTreesLemmas
  GramMap RusRuntime RusBuild RusSpec RusProofs RusProofs2 RusProofs3 RusBuildSpec RusBuildProofs RusBuildProofs2 RusBuildProofs3 RusReadings
  RusReadingsProofs EngRuntime EngSpec EngProofs EngProofs2 EngFormsSpec EngBuildProofs.
Local Open Scope N_scope.

Definition eto_gram (c : eclass) (id : N) : gram := match k_ends c with None => Gram 0 0 0 0 | Some _ => mark (k_word c) id end.
Definition ehanded (c : eclass) (st : estem) : estem := match k_ends c with None => EStem (e_wdinfo st) 0 | Some _ => st end.

Lemma eclass_hits_readings c st part : ehits c st part = map (fun ds => (ehanded c st, map (eto_gram c) ds)) (epart_readings c part).
Proof.
  unfold ehits, epart_readings, ehanded, eto_gram. destruct (k_ends c) as [t|].
  - cbn [filter]. destruct (ids_of t part) as [|i l]; reflexivity.
  - destruct part; reflexivity.
Qed.

(** the ereadings behind the eanalyses *)
Definition eentry_hits (L : elexicon) (scheme dwsets : N) (key : bytes) (ei : entry * bytes) : list ereading :=
  match eclass_of L (oclass (fst ei)) with
  | Some (st, c) => if ecap_ok scheme dwsets c then map (EReading key (fst ei) c (snd ei)) (epart_readings c (snd ei)) else []
  | None => []
  end.
Definition eng_hits (L : elexicon) (scheme dwsets : N) (w : bytes) : list ereading :=
  flat_map (fun n => flat_map (eentry_hits L scheme dwsets (firstn n w)) (candidates (skipn n w) (records (ewords L) (firstn n w))))
           (rev (seq 0 (S (length w)))).

Definition to_eanal (L : elexicon) (r : ereading) : eanal :=
  EAnal (er_key r) (er_entry r) (er_part r)
    (match eclass_of L (oclass (er_entry r)) with Some (st, c) => ehanded c st | None => EStem 0 0 end) (map (eto_gram (er_class r)) (er_ids r)).



Lemma eanalyses_hits L scheme dwsets w : eanalyses L scheme dwsets w = map (to_eanal L) (eng_hits L scheme dwsets w).
Proof.
  unfold eanalyses, eng_hits, prefix_hits. rewrite flat_map_flat_map, map_flat_map. apply flat_map_ext_in. intros n Hn.
  apply in_rev, in_seq in Hn. unfold records. destruct (lookup (firstn n w) (ewords L)) as [l|]; [|reflexivity].
  cbn [flat_map fst snd]. rewrite app_nil_r, map_flat_map. rewrite skipn_length. replace (length w - (length w - n))%nat with n by lia.
  apply flat_map_ext. intros [e part]. unfold eentry_analyses, eentry_hits. cbn [fst snd].
  destruct (eclass_of L (oclass e)) as [[st c]|] eqn:Ec; [|reflexivity]. destruct (ecap_ok scheme dwsets c); [|reflexivity].
  rewrite eclass_hits_readings, !map_map. apply map_ext. intros ds. unfold to_eanal. cbn [er_key er_entry er_class er_part er_ids fst snd].
  rewrite Ec. reflexivity.
Qed.


Definition egood_case (scheme dwsets : N) (r : ereading) : bool := bit 1 dwsets || IsGoodSheme scheme (ecase (er_class r)).

Lemma eentry_hits_eq L scheme dwsets key e rest part : strip_post (stpost e) rest = Some part ->
  eentry_hits L scheme dwsets key (e, part) = filter (egood_case scheme dwsets) (erecord_readings L key rest e).
Proof.
  intros Es. unfold eentry_hits, erecord_readings. cbn [fst snd]. rewrite cut_back_strip, Es. destruct (eclass_of L (oclass e)) as [[st c]|]; [|reflexivity].
  assert (Hg : forall ds, egood_case scheme dwsets (EReading key e c part ds) = ecap_ok scheme dwsets c) by reflexivity.
  induction (epart_readings c part) as [|ds l IH]; cbn [map filter]; [destruct (ecap_ok scheme dwsets c); reflexivity|].
  rewrite Hg. destruct (ecap_ok scheme dwsets c); rewrite <- IH; reflexivity.
Qed.

Lemma ehits_sublist L scheme dwsets w : sublist (eng_hits L scheme dwsets w) (filter (egood_case scheme dwsets) (ereadings L w)).
Proof.
  unfold eng_hits, ereadings. rewrite filter_flat_map. apply sublist_flat_map. intros n _. generalize (records (ewords L) (firstn n w)) as l. generalize (firstn n w) as key.
  intros key l. rewrite filter_flat_map. induction l as [|e l IH]; [constructor|]. cbn [candidates flat_map].
  destruct (strip_post (stpost e) (skipn n w)) as [[|c part]|] eqn:Es.
  - cbn [flat_map]. rewrite (eentry_hits_eq _ _ _ _ _ _ _ Es). apply sublist_app; [apply sublist_refl|exact IH].
  - destruct (chrmax e <? c); [constructor|]. destruct (c <? chrmin e).
    + rewrite <- (app_nil_l (flat_map _ (candidates _ _))). apply sublist_app; [constructor|exact IH].
    + cbn [flat_map]. rewrite (eentry_hits_eq _ _ _ _ _ _ _ Es). apply sublist_app; [apply sublist_refl|exact IH].
  - rewrite <- (app_nil_l (flat_map _ (candidates _ _))). apply sublist_app; [constructor|exact IH].
Qed.

Lemma epart_readings_form c part ds : In ds (epart_readings c part) -> ds <> [] /\ forall id, In id ds -> eform_part c part id.
Proof.
  unfold epart_readings. destruct (k_ends c) as [t|] eqn:E.
  - cbn [filter]. destruct (ids_of t part) as [|i l] eqn:Ei; [intros []|]. intros [<-|[]]. split; [discriminate|]. intros id H.
    rewrite <- Ei in H. apply in_ids_of in H. eapply eform_listed; eassumption.
  - destruct part; [|intros []]. intros [<-|[]]. split; [discriminate|]. intros id [<-|[]]. constructor. exact E.
Qed.

Lemma erecord_readings_in L key rest e r : In r (erecord_readings L key rest e) <->
  exists st c, eclass_of L (oclass e) = Some (st, c) /\ r = EReading key e c (er_part r) (er_ids r) /\
    rest = er_part r ++ stpost e /\ In (er_ids r) (epart_readings c (er_part r)).
Proof.
  unfold erecord_readings. rewrite cut_back_strip. split.
  - destruct (eclass_of L (oclass e)) as [[st c]|]; [|intros []]. destruct (strip_post (stpost e) rest) as [part|] eqn:Es; [|intros []].
    intros H. apply in_map_iff in H as (ds & <- & Hds). exists st, c. cbn [er_part er_ids]. apply strip_post_some in Es.
    repeat match goal with |- _ /\ _ => split end; try reflexivity; assumption.
  - intros (st & c & -> & E & Hr & Hin). apply strip_post_some in Hr. rewrite Hr. apply in_map_iff. exists (er_ids r). split; [symmetry; exact E|exact Hin].
Qed.

Lemma ereadings_in L w r : In r (ereadings L w) <->
  exists rest, w = er_key r ++ rest /\ has_record (ewords L) (er_key r) (er_entry r) /\ In r (erecord_readings L (er_key r) rest (er_entry r)).
Proof.
  unfold ereadings. rewrite in_flat_map. split.
  - intros (n & Hn & H). apply in_flat_map in H as (e & He & H). pose proof H as H'. apply erecord_readings_in in H' as (st & c & _ & E & _).
    rewrite E in *. cbn [er_key er_entry er_part er_ids] in *. exists (skipn n w). split; [symmetry; apply firstn_skipn|]. split; [|exact H].
    unfold records in He. destruct (lookup (firstn n w) (ewords L)) as [l|] eqn:El; [|destruct He]. exists l. split; assumption.
  - intros (rest & Hw & (l & Hl & Hin) & H). exists (length (er_key r)). split.
    + apply in_rev. rewrite rev_involutive. apply in_seq. rewrite Hw, app_length. lia.
    + rewrite Hw, firstn_app, firstn_all, Nat.sub_diag, firstn_O, app_nil_r, skipn_app, skipn_all, Nat.sub_diag. cbn [app skipn].
      apply in_flat_map. exists (er_entry r). split; [|exact H]. unfold records. rewrite Hl. exact Hin.
Qed.

Lemma ehits_exact L scheme dwsets w : (forall key l, lookup key (ewords L) = Some l -> max_descending l) ->
  ebounds_ok L -> eno_bare_postfix L w -> eng_hits L scheme dwsets w = filter (egood_case scheme dwsets) (ereadings L w).
Proof.
  intros Hmax Hb Hbare. unfold eng_hits. unfold ereadings at 1. rewrite (filter_flat_map (egood_case scheme dwsets) _ (rev (seq 0 (S (length w))))).
  apply flat_map_ext_in. intros n Hn. rewrite filter_flat_map.
  assert (Hrec : forall e, In e (records (ewords L) (firstn n w)) -> has_record (ewords L) (firstn n w) e).
  { intros e He. unfold records in He. destruct (lookup (firstn n w) (ewords L)) as [l|] eqn:El; [|destruct He]. exists l. split; assumption. }
  assert (Hmx : max_descending (records (ewords L) (firstn n w))).
  { unfold records. destruct (lookup (firstn n w) (ewords L)) as [l|] eqn:El; [eapply Hmax, El|exact I]. }
  revert Hrec Hmx. generalize (records (ewords L) (firstn n w)) as l. intros l Hrec Hmx.
  assert (Hadm : forall e part, has_record (ewords L) (firstn n w) e -> strip_post (stpost e) (skipn n w) = Some part ->
             ~ admits e part -> filter (egood_case scheme dwsets) (erecord_readings L (firstn n w) (skipn n w) e) = []).
  { intros e part Hr Es Hn'. destruct (erecord_readings L (firstn n w) (skipn n w) e) as [|r rs] eqn:E; [reflexivity|]. exfalso. apply Hn'.
    assert (Hin : In r (erecord_readings L (firstn n w) (skipn n w) e)) by (rewrite E; left; reflexivity).
    apply erecord_readings_in in Hin as (st & c & Ec & _ & Hr' & Hd). apply strip_post_some in Es. rewrite Es in Hr'.
    apply app_inv_tail in Hr'. subst part. apply epart_readings_form in Hd as [Hne Hf]. destruct (er_ids r) as [|g ds] eqn:Ed; [congruence|].
    eapply Hb; try eassumption. apply (Hf g). left. reflexivity. }
  assert (Hbare' : forall e, has_record (ewords L) (firstn n w) e -> strip_post (stpost e) (skipn n w) = Some [] -> match skipn n w with [] => False | c :: _ => chrmax e < c end ->
             erecord_readings L (firstn n w) (skipn n w) e = []).
  { intros e Hr Es Hne. destruct (erecord_readings L (firstn n w) (skipn n w) e) as [|r rs] eqn:E; [reflexivity|]. exfalso.
    assert (Hin : In r (erecord_readings L (firstn n w) (skipn n w) e)) by (rewrite E; left; reflexivity).
    pose proof Hin as Hin'. apply erecord_readings_in in Hin' as (st & c & Ec & Er & Hr' & Hd). apply strip_post_some in Es.
    assert (Hp : er_part r = []). { rewrite Es in Hr'. cbn [app] in Hr'. apply (app_inv_tail (stpost e)). symmetry. exact Hr'. }
    assert (Hk : er_key r = firstn n w /\ er_entry r = e) by (rewrite Er; split; reflexivity). destruct Hk as [Hk He].
    assert (In r (ereadings L w)).
    { apply ereadings_in. exists (skipn n w). rewrite Hk, He. split; [symmetry; apply firstn_skipn|]. split; assumption. }
    pose proof (Hbare r H) as Hz. rewrite He, Hp in Hz. cbn [app] in Es. destruct Hz as [Hz|Hz]; [congruence|]. rewrite <- Es in Hz. destruct (skipn n w); [exact Hne|lia]. }
  induction l as [|e l IH]; [reflexivity|].
  cbn [max_descending] in Hmx. destruct Hmx as [Hm1 Hm2].
  assert (Hrec' : forall e, In e l -> has_record (ewords L) (firstn n w) e) by (intros; apply Hrec; right; assumption).
  specialize (IH Hrec' Hm2). pose proof (Hrec e (or_introl eq_refl)) as He. cbn [candidates flat_map].
  destruct (strip_post (stpost e) (skipn n w)) as [[|c part]|] eqn:Es.
  - cbn [flat_map]. rewrite (eentry_hits_eq _ _ _ _ _ _ _ Es), IH. reflexivity.
  - assert (Hrest : skipn n w = (c :: part) ++ stpost e) by (apply strip_post_some, Es).
    destruct (N.ltb_spec (chrmax e) c) as [Hlt|Hge].
    + rewrite (Hadm e (c :: part) He Es) by (intros H; specialize (H c part eq_refl); lia). cbn [app flat_map]. symmetry.
      clear IH. induction l as [|e' l IHl]; [reflexivity|]. cbn [flat_map].
      inversion Hm1 as [|? ? Hle Hm1']; subst. cbn [max_descending] in Hm2.
      pose proof (Hrec' e' (or_introl eq_refl)) as He'.
      assert (Hnil : filter (egood_case scheme dwsets) (erecord_readings L (firstn n w) (skipn n w) e') = []).
      { destruct (strip_post (stpost e') (skipn n w)) as [[|c' part']|] eqn:Es'.
        - rewrite (Hbare' e' He' Es'); [reflexivity|]. rewrite Hrest. cbn [app]. lia.
        - eapply Hadm; try eassumption. intros H. specialize (H c' part' eq_refl). apply strip_post_some in Es'. rewrite Hrest in Es'. injection Es' as -> _. lia.
        - unfold erecord_readings. rewrite cut_back_strip, Es'. destruct (eclass_of L (oclass e')) as [[? ?]|]; reflexivity. }
      rewrite Hnil. cbn [app]. apply IHl; try assumption; try apply Hm2; try (intros e0 He0; apply Hrec; destruct He0; [left|right; right]; assumption).
      intros e0 He0. apply Hrec'. right. exact He0.
    + destruct (N.ltb_spec c (chrmin e)) as [Hlt2|Hge2].
      * rewrite (Hadm e (c :: part) He Es) by (intros H; specialize (H c part eq_refl); lia). exact IH.
      * cbn [flat_map]. rewrite (eentry_hits_eq _ _ _ _ _ _ _ Es), IH. reflexivity.
  - rewrite IH. replace (erecord_readings L (firstn n w) (skipn n w) e) with (@nil ereading); [reflexivity|].
    unfold erecord_readings. rewrite cut_back_strip, Es. destruct (eclass_of L (oclass e)) as [[? ?]|]; reflexivity.
Qed.

Lemma ehits_found A L w scheme dwsets : eholds A L -> (forall m, IsGoodSheme scheme m = true <-> esuits w m) ->
  efound L (bit 1 dwsets) w (eng_hits L scheme dwsets (elow w)).
Proof.
  intros HL Hs. constructor. exists (IsGoodSheme scheme). split; [exact Hs|]. cbn zeta. split; [apply ehits_sublist|].
  intros Hb Hp. apply ehits_exact; try assumption. intros key l Hl. apply (eh_lists A L HL key l Hl).
Qed.

(** the settings and the word determine the hits *)
Lemma ehits_scheme L s s' dwsets w : (forall m, IsGoodSheme s m = true <-> IsGoodSheme s' m = true) -> eng_hits L s dwsets w = eng_hits L s' dwsets w.
Proof.
  intros H. unfold eng_hits. apply flat_map_ext. intros n. apply flat_map_ext. intros ei. unfold eentry_hits, ecap_ok.
  destruct (eclass_of L (oclass (fst ei))) as [[st c]|]; [|reflexivity].
  assert (E : IsGoodSheme s (ecase c) = IsGoodSheme s' (ecase c)).
  { destruct (IsGoodSheme s (ecase c)) eqn:E1, (IsGoodSheme s' (ecase c)) eqn:E2; try reflexivity; exfalso.
    - apply H in E1. congruence.
    - apply H in E2. congruence. }
  rewrite E. reflexivity.
Qed.

Lemma escheme_exists w : is_bytes w -> w <> [] -> (length w < 48)%nat -> (length (eparts w) <= 8)%nat ->
  exists scheme, forall m, IsGoodSheme scheme m = true <-> esuits w m.
Proof. intros H1 H2 H3 H4. destruct (ecanonic_facts w H1 H2 H3 H4) as (v & _ & _ & _ & _ & Hs & _). exists (N.land v 0xffff). exact Hs. Qed.

(** ** FindForms *)
Section EFind.
  Variables (A : earrays) (L : elexicon).
  Hypothesis HL : eholds A L.
  Hypothesis HB : ebuildable L.

  Definition ea_class (a : eanal) : eclass :=
    match eclass_of L (oclass (ea_entry a)) with Some (_, c) => c | None => EClass 0 None end.
  Definition ea_forms (id : N) (a : eanal) : list bytes := erequested (ea_class a) (ea_key a) (stpost (ea_entry a)) id.
  Definition etgt_of {St} (target : St -> N -> estem -> frag -> frag -> list gram -> res (St * Z))
    (s : St) (lid : N) (st : estem) (fr : frag) (post : bytes) (gr : list gram) := target s lid st fr (whole post) gr.
  Definition eall_forms (id : N) (l : list eanal) : list bytes := flat_map (ea_forms id) l.

  Lemma efind_steps scheme dwsets w tail id : forall l done rest n, (forall a, In a l -> In a (eanalyses L scheme dwsets w)) ->
    let r := until_nonzero (evisit (etgt_of (eform_build A (w ++ tail) id)) tail) l (Coder (done ++ rest) (length done), n) in
    (Forall (fun a => small (ea_forms id a)) l /\ fit (length rest) (eall_forms id l) ->
       r = Ok ((Coder ((done ++ joined (eall_forms id l)) ++ after (eall_forms id l) rest) (length (done ++ joined (eall_forms id l))),
               (n + Z.of_nat (length (eall_forms id l)))%Z), 0%Z)) /\
    (~ (Forall (fun a => small (ea_forms id a)) l /\ fit (length rest) (eall_forms id l)) ->
       exists c z, r = Ok ((c, z), (-1)%Z) /\ length (cmem c) = length (done ++ rest)).
  Proof.
    induction l as [|a l IH]; intros done rest n Hin; cbn [until_nonzero eall_forms flat_map].
    - split; [|intros H; exfalso; apply H; split; [constructor|left; reflexivity]]. intros _. cbn. rewrite app_nil_r, Z.add_0_r. reflexivity.
    - destruct (eanalyses_sound L scheme dwsets w a (Hin a (or_introl eq_refl))) as (Hw & Hrec & st0 & c & Ec & _ & _ & Hst).
      destruct (erecord_facts A L HL HB _ _ Hrec) as (st0' & c' & Ec' & Hat & Hrep & Hnn & Hcap & Hk & Hpost & Hlen & Hfix).
      rewrite Ec in Ec'. injection Ec' as <- <-.
      assert (Hstands : estands_for A (ea_stem a) c).
      { destruct (k_ends c) eqn:Ek; [destruct Hst as [_ ->]; left; exact Hrep|]. destruct Hst as (_ & _ & ->). right. split; [exact Ek|].
        destruct Hrep as (-> & _). reflexivity. }
      assert (Hc : ea_class a = c) by (unfold ea_class; rewrite Ec; reflexivity).
      assert (Haf : erequested c (ea_key a) (stpost (ea_entry a)) id = ea_forms id a) by (unfold ea_forms; rewrite Hc; reflexivity).
      change (evisit (etgt_of (eform_build A (w ++ tail) id)) tail (Coder (done ++ rest) (length done), n) a) with
        (eform_build A (w ++ tail) id (Coder (done ++ rest) (length done), n) (nlexid (ea_entry a)) (ea_stem a)
           (Frag (ea_part a ++ stpost (ea_entry a) ++ tail) (N.of_nat (length (ea_part a)))) (whole (stpost (ea_entry a))) (ea_grams a)).
      pose proof (eform_build_eq A (ea_stem a) c (ea_key a) (stpost (ea_entry a)) (ea_part a ++ stpost (ea_entry a) ++ tail) (whole (stpost (ea_entry a)))
                    (nlexid (ea_entry a)) (ea_grams a) id done rest n Hstands Hnn Hcap Hk Hpost Hfix (fbytes_whole _)
                    (Frag (ea_part a ++ stpost (ea_entry a) ++ tail) (N.of_nat (length (ea_part a)))) eq_refl) as Hfb.
      replace (ea_key a ++ ea_part a ++ stpost (ea_entry a) ++ tail) with (w ++ tail) in Hfb by (rewrite Hw, <- !app_assoc; reflexivity).
      assert (Htot : total (eid_forms c (ea_key a) (stpost (ea_entry a)) id) = total (ea_forms id a))
        by (rewrite <- Haf, erequested_eq; symmetry; apply etotal_respell).
      unfold built in Hfb. rewrite Htot, Haf in Hfb. destruct Hfb as [H1 H2]. fold (eall_forms id l).
      destruct (le_dec (total (ea_forms id a)) 256) as [Hle|Hgt].
      + destruct (H1 Hle) as [H3 H4]. destruct (fit_dec (length rest) (ea_forms id a)) as [Hfit|Hnf].
        * rewrite (H3 Hfit). cbn [bind]. cbn [Z.eqb].
          specialize (IH (done ++ joined (ea_forms id a)) (after (ea_forms id a) rest) (n + Z.of_nat (length (ea_forms id a)))%Z (fun b Hb => Hin b (or_intror Hb))).
          cbn zeta in IH. destruct IH as [IH1 IH2]. split.
          -- intros [Hs Hf]. inversion Hs as [|? ? _ Hs']; subst. rewrite (fit_app _ _ _ rest eq_refl) in Hf. rewrite IH1 by (split; [assumption|apply Hf]).
             rewrite joined_app, after_app, <- !app_assoc, !app_length, Nat2Z.inj_add. do 3 f_equal. lia.
          -- intros Hn. destruct IH2 as (c1 & z & E & Hl).
             { intros [Hs Hf]. apply Hn. split; [constructor; assumption|]. rewrite (fit_app _ _ _ rest eq_refl). split; assumption. }
             exists c1, z. split; [exact E|]. rewrite Hl, !app_length. pose proof (after_length _ _ Hfit). lia.
        * destruct (H4 Hnf) as (c1 & z & -> & Hl). cbn [bind]. cbn [Z.eqb]. split.
          -- intros [_ Hf]. rewrite (fit_app _ _ _ rest eq_refl) in Hf. tauto.
          -- intros _. exists c1, z. split; [reflexivity|exact Hl].
      + destruct (H2 ltac:(lia)) as (c1 & z & -> & Hl). cbn [bind]. cbn [Z.eqb]. split.
        * intros [Hs _]. inversion Hs; subst. contradiction.
        * intros _. exists c1, z. split; [reflexivity|exact Hl].
  Qed.

  Lemma efind_forms_eq junk mem w psz cch idform dwsets :
    mem <> [] -> given w psz cch -> is_bytes w -> w <> [] -> (length w < 48)%nat -> (length (eparts w) <= 8)%nat ->
    exists scheme, (forall m, IsGoodSheme scheme m = true <-> esuits w m) /\
      let l := eanalyses L scheme dwsets (elow w) in
      (Forall (fun a => small (ea_forms idform a)) l /\ fit (length mem) (eall_forms idform l) /\
        efind_forms A junk (Some mem) psz cch idform dwsets =
          Ok (Z.of_nat (length (eall_forms idform l)), Some (filled (eall_forms idform l) mem))) \/
      (~ (Forall (fun a => small (ea_forms idform a)) l /\ fit (length mem) (eall_forms idform l)) /\ exists mem', length mem' = length mem /\
        efind_forms A junk (Some mem) psz cch idform dwsets = Ok ((-1)%Z, Some mem')).
  Proof.
    intros Hne Hg Hb Hw Hlen Hp. unfold efind_forms. destruct mem as [|b mem0]; [contradiction|]. set (mem := b :: mem0) in *.
    rewrite (eto_canonic_given w psz cch Hg Hw).
    destruct (ecanonic_facts w Hb Hw Hlen Hp) as (v & Ev & _). rewrite Ev. cbn [bind].
    match goal with |- context [eprologue psz cch dwsets junk ?f ?g] => set (fl := f); set (go := g) end.
    destruct (eprologue_word w psz cch dwsets junk fl go Hg Hb Hw Hlen Hp) as (scheme & tail & Hs & E & Hff & Ht).
    exists scheme. split; [exact Hs|]. cbn zeta. rewrite E.
    destruct ((scheme mod 256 =? 255) && negb (bit 1 dwsets)) eqn:Eb.
    - apply andb_true_iff in Eb as [E1 E2]. apply N.eqb_eq in E1. apply negb_true_iff in E2.
      assert (Hnil : eanalyses L scheme dwsets (elow w) = []).
      { destruct (eanalyses L scheme dwsets (elow w)) as [|a l] eqn:Ea; [reflexivity|].
        destruct (eanalyses_sound L scheme dwsets (elow w) a) as (_ & _ & st & c & _ & Hcap & _); [rewrite Ea; left; reflexivity|].
        apply (ecap_ok_suits scheme dwsets w c Hs) in Hcap as [H|H]; [congruence|]. destruct (Hff E1 _ H). }
      rewrite Hnil. left. split; [constructor|]. split; [left; reflexivity|]. reflexivity.
    - unfold go. replace (length w) with (length (elow w)) by apply map_length.
      rewrite (escan_words_eq A L (eform_build A (elow w ++ tail) idform) (etgt_of (eform_build A (elow w ++ tail) idform)));
        [|intros; unfold etgt_of; apply eform_build_suffix, fbytes_post_whole|exact HL|replace (length (elow w)) with (length w) by (symmetry; apply map_length); lia].
      pose proof (efind_steps scheme dwsets (elow w) tail idform (eanalyses L scheme dwsets (elow w)) [] mem 0%Z (fun a H => H)) as Hst.
      cbn zeta in Hst. cbn [app length] in Hst. destruct Hst as [H1 H2].
      assert (Hdec : {Forall (fun a => small (ea_forms idform a)) (eanalyses L scheme dwsets (elow w))} +
                     {~ Forall (fun a => small (ea_forms idform a)) (eanalyses L scheme dwsets (elow w))})
        by (apply Forall_dec; intros a; apply le_dec).
      destruct Hdec as [Ha|Ha].
      + destruct (fit_dec (length mem) (eall_forms idform (eanalyses L scheme dwsets (elow w)))) as [Hf|Hf].
        * left. split; [exact Ha|]. split; [exact Hf|]. rewrite (H1 (conj Ha Hf)). reflexivity.
        * right. split; [tauto|]. destruct H2 as (c1 & z & -> & Hl); [tauto|]. exists (cmem c1). split; [exact Hl|reflexivity].
      + right. split; [tauto|]. destruct H2 as (c1 & z & -> & Hl); [tauto|]. exists (cmem c1). split; [exact Hl|reflexivity].
  Qed.
End EFind.
