(** * RusReadingsProofs: the analyses delivered by the search are the readings.  PROOFS. *)
From Verif Require Import Base Serial SerialProofs WordTree TreeSpec WordTreeProofs FlatScan FlatScanProofs LidsProofs TrackProofs
  TreeWalk Stems StemSpec StemsProofs DictProofs CharTables CapScheme CapSpec CapProofs CapProofs2 PropCaseLemmas GramMap RusRuntime LevelSpec LevelProofs RusSpec
  RusProofs RusProofs2 RusProofs3 RusBuild RusBuildSpec RusReadings.
Local Open Scope N_scope.

Lemma cut_front_strip a : forall w, cut_front a w = strip_prefix a w.
Proof.
  intros w. unfold cut_front. destruct (list_eq_dec N.eq_dec (firstn (length a) w) a) as [E|E].
  - symmetry. apply strip_prefix_some. rewrite <- E at 1. symmetry. apply firstn_skipn.
  - destruct (strip_prefix a w) as [r|] eqn:Es; [|reflexivity]. apply strip_prefix_some in Es. subst w. exfalso. apply E.
    rewrite firstn_app, firstn_all, Nat.sub_diag, firstn_O. apply app_nil_r.
Qed.
Lemma cut_back_strip p w : cut_back p w = strip_post p w.
Proof.
  unfold cut_back. destruct (list_eq_dec N.eq_dec (skipn (length w - length p) w) p) as [E|E].
  - symmetry. apply strip_post_some. rewrite <- E at 2. symmetry. apply firstn_skipn.
  - destruct (strip_post p w) as [r|] eqn:Es; [|reflexivity]. apply strip_post_some in Es. subst w. exfalso. apply E.
    rewrite app_length, skipn_app, skipn_all2 by lia. replace (length r + length p - length p - length r)%nat with 0%nat by lia. reflexivity.
Qed.

Definition to_gram (gf : N * N) : gram := Gram 0 0 (fst gf) (snd gf).
Definition handed (c : aclass) (st : steminfo) : steminfo := match c_flex c with None => Steminfo (wdinfo st) 0 0 | Some _ => st end.

Lemma pass_filter f l : pass f l = map to_gram (filter (fun gf => f (fst gf) (snd gf)) l).
Proof. unfold pass. induction l as [|[g y] l IH]; [reflexivity|]. cbn. destruct (f g y); cbn; rewrite IH; reflexivity. Qed.

Lemma filter_ext' {X} (f g : X -> bool) l : (forall x, f x = g x) -> filter f l = filter g l.
Proof. intros H. induction l as [|x l IH]; [reflexivity|]. cbn. rewrite H, IH. reflexivity. Qed.

Lemma filter_flat_map {X Y} (f : Y -> bool) (g : X -> list Y) l : filter f (flat_map g l) = flat_map (fun x => filter f (g x)) l.
Proof. induction l as [|x l IH]; [reflexivity|]. cbn. rewrite filter_app, IH. reflexivity. Qed.

Lemma map_flat_map {X Y Z} (f : Y -> Z) (g : X -> list Y) l : map f (flat_map g l) = flat_map (fun x => map f (g x)) l.
Proof. induction l as [|x l IH]; [reflexivity|]. cbn. rewrite map_app, IH. reflexivity. Qed.

Lemma number_fits_eq c g : number_okb c g = number_fits c g.
Proof. unfold number_okb, any_or_multiple, number_fits, bit. destruct (N.testbit (c_word c) 6); reflexivity. Qed.

Lemma class_hits_readings c st part : class_hits c st part = map (fun ds => (handed c st, map to_gram ds)) (part_readings c part).
Proof.
  unfold class_hits, part_readings, handed. destruct (c_flex c) as [ft|].
  2:{ destruct part; reflexivity. }
  destruct (c_mix c) as [mx|].
  - rewrite filter_flat_map, map_flat_map. apply flat_map_ext. intros ma. rewrite cut_front_strip.
    destruct (strip_prefix (snd ma) part) as [e|]; [|reflexivity].
    rewrite pass_filter. cbn [filter].
    rewrite (filter_ext' _ (fun gf => N.testbit (fst ma) (alternation_level (c_word c) (fst gf) (snd gf) - 1) && number_fits c (fst gf))).
    2:{ intros gf. rewrite number_fits_eq. unfold altlevel. rewrite level_eq. reflexivity. }
    destruct (filter _ _) as [|gf l]; reflexivity.
  - rewrite pass_filter. cbn [filter]. rewrite (filter_ext' _ (fun gf => number_fits c (fst gf))) by (intros; apply number_fits_eq).
    destruct (filter _ _) as [|gf l]; reflexivity.
Qed.

(** the readings behind the analyses *)
Definition entry_hits (L : lexicon) (scheme dwsets : N) (key : bytes) (ei : entry * bytes) : list reading :=
  match class_of L (oclass (fst ei)) with
  | Some (st, c) => if cap_ok scheme dwsets c then map (Reading key (fst ei) c (snd ei)) (part_readings c (snd ei)) else []
  | None => []
  end.
Definition hits (L : lexicon) (scheme dwsets : N) (w : bytes) : list reading :=
  flat_map (fun n => flat_map (entry_hits L scheme dwsets (firstn n w)) (candidates (skipn n w) (records (words L) (firstn n w))))
           (rev (seq 0 (S (length w)))).

Definition to_analysis (L : lexicon) (r : reading) : analysis :=
  Analysis (rd_key r) (rd_entry r) (rd_part r)
    (match class_of L (oclass (rd_entry r)) with Some (st, c) => handed c st | None => Steminfo 0 0 0 end) (map to_gram (rd_descs r)).

Lemma flat_map_ext_in {X Y} (f g : X -> list Y) l : (forall x, In x l -> f x = g x) -> flat_map f l = flat_map g l.
Proof. induction l as [|x l IH]; intros H; [reflexivity|]. cbn. rewrite (H x (or_introl eq_refl)), IH; [reflexivity|]. intros y Hy. apply H. right. exact Hy. Qed.

Lemma flat_map_flat_map {X Y Z} (f : Y -> list Z) (g : X -> list Y) l : flat_map f (flat_map g l) = flat_map (fun x => flat_map f (g x)) l.
Proof. induction l as [|x l IH]; [reflexivity|]. cbn. rewrite flat_map_app, IH. reflexivity. Qed.

Lemma analyses_hits L scheme dwsets w : analyses L scheme dwsets w = map (to_analysis L) (hits L scheme dwsets w).
Proof.
  unfold analyses, hits, prefix_hits. rewrite flat_map_flat_map, map_flat_map. apply flat_map_ext_in. intros n Hn.
  apply in_rev, in_seq in Hn. unfold records. destruct (lookup (firstn n w) (words L)) as [l|]; [|reflexivity].
  cbn [flat_map fst snd]. rewrite app_nil_r, map_flat_map. rewrite skipn_length. replace (length w - (length w - n))%nat with n by lia.
  apply flat_map_ext. intros [e part]. unfold entry_analyses, entry_hits. cbn [fst snd].
  destruct (class_of L (oclass e)) as [[st c]|] eqn:Ec; [|reflexivity]. destruct (cap_ok scheme dwsets c); [|reflexivity].
  rewrite class_hits_readings, !map_map. apply map_ext. intros ds. unfold to_analysis. cbn [rd_key rd_entry rd_part rd_descs fst snd].
  rewrite Ec. reflexivity.
Qed.

Lemma sublist_refl {X} (l : list X) : sublist l l.
Proof. induction l; constructor; assumption. Qed.
Lemma sublist_app {X} (a a' b b' : list X) : sublist a a' -> sublist b b' -> sublist (a ++ b) (a' ++ b').
Proof.
  intros Ha Hb. induction Ha as [l|x l l' H IH|x l l' H IH]; cbn.
  - induction l as [|x l IH]; cbn; [exact Hb|apply sub_skip, IH].
  - apply sub_keep, IH.
  - apply sub_skip, IH.
Qed.
Lemma sublist_flat_map {X Y} (f g : X -> list Y) l : (forall x, In x l -> sublist (f x) (g x)) -> sublist (flat_map f l) (flat_map g l).
Proof.
  induction l as [|x l IH]; intros H; [constructor|]. cbn. apply sublist_app; [apply H; left; reflexivity|apply IH]. intros y Hy. apply H. right. exact Hy.
Qed.

Definition good_case (scheme dwsets : N) (r : reading) : bool := bit 1 dwsets || IsGoodSheme scheme (min_case (rd_class r)).

Lemma entry_hits_eq L scheme dwsets key e rest part : strip_post (stpost e) rest = Some part ->
  entry_hits L scheme dwsets key (e, part) = filter (good_case scheme dwsets) (record_readings L key rest e).
Proof.
  intros Es. unfold entry_hits, record_readings. cbn [fst snd]. rewrite cut_back_strip, Es. destruct (class_of L (oclass e)) as [[st c]|]; [|reflexivity].
  assert (Hg : forall ds, good_case scheme dwsets (Reading key e c part ds) = cap_ok scheme dwsets c) by reflexivity.
  induction (part_readings c part) as [|ds l IH]; cbn [map filter]; [destruct (cap_ok scheme dwsets c); reflexivity|].
  rewrite Hg. destruct (cap_ok scheme dwsets c); rewrite <- IH; reflexivity.
Qed.

Lemma hits_sublist L scheme dwsets w : sublist (hits L scheme dwsets w) (filter (good_case scheme dwsets) (readings L w)).
Proof.
  unfold hits, readings. rewrite filter_flat_map. apply sublist_flat_map. intros n _. generalize (records (words L) (firstn n w)) as l. generalize (firstn n w) as key.
  intros key l. rewrite filter_flat_map. induction l as [|e l IH]; [constructor|]. cbn [candidates flat_map].
  destruct (strip_post (stpost e) (skipn n w)) as [[|c part]|] eqn:Es.
  - cbn [flat_map]. rewrite (entry_hits_eq _ _ _ _ _ _ _ Es). apply sublist_app; [apply sublist_refl|exact IH].
  - destruct (chrmax e <? c); [constructor|]. destruct (c <? chrmin e).
    + rewrite <- (app_nil_l (flat_map _ (candidates _ _))). apply sublist_app; [constructor|exact IH].
    + cbn [flat_map]. rewrite (entry_hits_eq _ _ _ _ _ _ _ Es). apply sublist_app; [apply sublist_refl|exact IH].
  - rewrite <- (app_nil_l (flat_map _ (candidates _ _))). apply sublist_app; [constructor|exact IH].
Qed.

Lemma part_readings_form c part ds : In ds (part_readings c part) -> ds <> [] /\ forall g f, In (g, f) ds -> form_part c part g f.
Proof.
  intros H. assert (Hin : In (handed c (Steminfo 0 0 0), map to_gram ds) (class_hits c (Steminfo 0 0 0) part)).
  { rewrite class_hits_readings. apply in_map_iff. exists ds. split; [reflexivity|exact H]. }
  apply class_hits_sound in Hin as (H1 & H2 & _). split; [intros ->; apply H1; reflexivity|].
  intros g f Hgf. destruct (H2 (to_gram (g, f))) as (g' & f' & E & Hf); [apply in_map, Hgf|]. injection E as <- <-. exact Hf.
Qed.

Lemma record_readings_in L key rest e r : In r (record_readings L key rest e) <->
  exists st c, class_of L (oclass e) = Some (st, c) /\ r = Reading key e c (rd_part r) (rd_descs r) /\
    rest = rd_part r ++ stpost e /\ In (rd_descs r) (part_readings c (rd_part r)).
Proof.
  unfold record_readings. rewrite cut_back_strip. split.
  - destruct (class_of L (oclass e)) as [[st c]|]; [|intros []]. destruct (strip_post (stpost e) rest) as [part|] eqn:Es; [|intros []].
    intros H. apply in_map_iff in H as (ds & <- & Hds). exists st, c. cbn [rd_part rd_descs]. apply strip_post_some in Es.
    repeat match goal with |- _ /\ _ => split end; try reflexivity; assumption.
  - intros (st & c & -> & E & Hr & Hin). apply strip_post_some in Hr. rewrite Hr. apply in_map_iff. exists (rd_descs r). split; [symmetry; exact E|exact Hin].
Qed.

Lemma readings_in L w r : In r (readings L w) <->
  exists rest, w = rd_key r ++ rest /\ has_record (words L) (rd_key r) (rd_entry r) /\ In r (record_readings L (rd_key r) rest (rd_entry r)).
Proof.
  unfold readings. rewrite in_flat_map. split.
  - intros (n & Hn & H). apply in_flat_map in H as (e & He & H). pose proof H as H'. apply record_readings_in in H' as (st & c & _ & E & _).
    rewrite E in *. cbn [rd_key rd_entry rd_part rd_descs] in *. exists (skipn n w). split; [symmetry; apply firstn_skipn|]. split; [|exact H].
    unfold records in He. destruct (lookup (firstn n w) (words L)) as [l|] eqn:El; [|destruct He]. exists l. split; assumption.
  - intros (rest & Hw & (l & Hl & Hin) & H). exists (length (rd_key r)). split.
    + apply in_rev. rewrite rev_involutive. apply in_seq. rewrite Hw, app_length. lia.
    + rewrite Hw, firstn_app, firstn_all, Nat.sub_diag, firstn_O, app_nil_r, skipn_app, skipn_all, Nat.sub_diag. cbn [app skipn].
      apply in_flat_map. exists (rd_entry r). split; [|exact H]. unfold records. rewrite Hl. exact Hin.
Qed.

Lemma hits_exact L scheme dwsets w : (forall key l, lookup key (words L) = Some l -> max_descending l) ->
  bounds_ok L -> no_bare_postfix L w -> hits L scheme dwsets w = filter (good_case scheme dwsets) (readings L w).
Proof.
  intros Hmax Hb Hbare. unfold hits. unfold readings at 1. rewrite (filter_flat_map (good_case scheme dwsets) _ (rev (seq 0 (S (length w))))).
  apply flat_map_ext_in. intros n Hn. rewrite filter_flat_map.
  assert (Hrec : forall e, In e (records (words L) (firstn n w)) -> has_record (words L) (firstn n w) e).
  { intros e He. unfold records in He. destruct (lookup (firstn n w) (words L)) as [l|] eqn:El; [|destruct He]. exists l. split; assumption. }
  assert (Hmx : max_descending (records (words L) (firstn n w))).
  { unfold records. destruct (lookup (firstn n w) (words L)) as [l|] eqn:El; [eapply Hmax, El|exact I]. }
  revert Hrec Hmx. generalize (records (words L) (firstn n w)) as l. intros l Hrec Hmx.
  assert (Hadm : forall e part, has_record (words L) (firstn n w) e -> strip_post (stpost e) (skipn n w) = Some part ->
             ~ admits e part -> filter (good_case scheme dwsets) (record_readings L (firstn n w) (skipn n w) e) = []).
  { intros e part Hr Es Hn'. destruct (record_readings L (firstn n w) (skipn n w) e) as [|r rs] eqn:E; [reflexivity|]. exfalso. apply Hn'.
    assert (Hin : In r (record_readings L (firstn n w) (skipn n w) e)) by (rewrite E; left; reflexivity).
    apply record_readings_in in Hin as (st & c & Ec & _ & Hr' & Hd). apply strip_post_some in Es. rewrite Es in Hr'.
    apply app_inv_tail in Hr'. subst part. apply part_readings_form in Hd as [Hne Hf]. destruct (rd_descs r) as [|[g f] ds] eqn:Ed; [congruence|].
    eapply Hb; try eassumption. apply (Hf g f). left. reflexivity. }
  assert (Hbare' : forall e, has_record (words L) (firstn n w) e -> strip_post (stpost e) (skipn n w) = Some [] -> match skipn n w with [] => False | c :: _ => chrmax e < c end ->
             record_readings L (firstn n w) (skipn n w) e = []).
  { intros e Hr Es Hne. destruct (record_readings L (firstn n w) (skipn n w) e) as [|r rs] eqn:E; [reflexivity|]. exfalso.
    assert (Hin : In r (record_readings L (firstn n w) (skipn n w) e)) by (rewrite E; left; reflexivity).
    pose proof Hin as Hin'. apply record_readings_in in Hin' as (st & c & Ec & Er & Hr' & Hd). apply strip_post_some in Es.
    assert (Hp : rd_part r = []). { rewrite Es in Hr'. cbn [app] in Hr'. apply (app_inv_tail (stpost e)). symmetry. exact Hr'. }
    assert (Hk : rd_key r = firstn n w /\ rd_entry r = e) by (rewrite Er; split; reflexivity). destruct Hk as [Hk He].
    assert (In r (readings L w)).
    { apply readings_in. exists (skipn n w). rewrite Hk, He. split; [symmetry; apply firstn_skipn|]. split; assumption. }
    pose proof (Hbare r H) as Hz. rewrite He, Hp in Hz. cbn [app] in Es. destruct Hz as [Hz|Hz]; [congruence|]. rewrite <- Es in Hz. destruct (skipn n w); [exact Hne|lia]. }
  induction l as [|e l IH]; [reflexivity|].
  cbn [max_descending] in Hmx. destruct Hmx as [Hm1 Hm2].
  assert (Hrec' : forall e, In e l -> has_record (words L) (firstn n w) e) by (intros; apply Hrec; right; assumption).
  specialize (IH Hrec' Hm2). pose proof (Hrec e (or_introl eq_refl)) as He. cbn [candidates flat_map].
  destruct (strip_post (stpost e) (skipn n w)) as [[|c part]|] eqn:Es.
  - cbn [flat_map]. rewrite (entry_hits_eq _ _ _ _ _ _ _ Es), IH. reflexivity.
  - assert (Hrest : skipn n w = (c :: part) ++ stpost e) by (apply strip_post_some, Es).
    destruct (N.ltb_spec (chrmax e) c) as [Hlt|Hge].
    + rewrite (Hadm e (c :: part) He Es) by (intros H; specialize (H c part eq_refl); lia). cbn [app flat_map]. symmetry.
      clear IH. induction l as [|e' l IHl]; [reflexivity|]. cbn [flat_map].
      inversion Hm1 as [|? ? Hle Hm1']; subst. cbn [max_descending] in Hm2.
      pose proof (Hrec' e' (or_introl eq_refl)) as He'.
      assert (Hnil : filter (good_case scheme dwsets) (record_readings L (firstn n w) (skipn n w) e') = []).
      { destruct (strip_post (stpost e') (skipn n w)) as [[|c' part']|] eqn:Es'.
        - rewrite (Hbare' e' He' Es'); [reflexivity|]. rewrite Hrest. cbn [app]. lia.
        - eapply Hadm; try eassumption. intros H. specialize (H c' part' eq_refl). apply strip_post_some in Es'. rewrite Hrest in Es'. injection Es' as -> _. lia.
        - unfold record_readings. rewrite cut_back_strip, Es'. destruct (class_of L (oclass e')) as [[? ?]|]; reflexivity. }
      rewrite Hnil. cbn [app]. apply IHl; try assumption; try apply Hm2; try (intros e0 He0; apply Hrec; destruct He0; [left|right; right]; assumption).
      intros e0 He0. apply Hrec'. right. exact He0.
    + destruct (N.ltb_spec c (chrmin e)) as [Hlt2|Hge2].
      * rewrite (Hadm e (c :: part) He Es) by (intros H; specialize (H c part eq_refl); lia). exact IH.
      * cbn [flat_map]. rewrite (entry_hits_eq _ _ _ _ _ _ _ Es), IH. reflexivity.
  - rewrite IH. replace (record_readings L (firstn n w) (skipn n w) e) with (@nil reading); [reflexivity|].
    unfold record_readings. rewrite cut_back_strip, Es. destruct (class_of L (oclass e)) as [[? ?]|]; reflexivity.
Qed.

Lemma hits_found A L w scheme dwsets : holds A L -> (forall m, IsGoodSheme scheme m = true <-> suits w m) ->
  found L (bit 1 dwsets) w (hits L scheme dwsets (rlow w)).
Proof.
  intros HL Hs. constructor. exists (IsGoodSheme scheme). split; [exact Hs|]. cbn zeta. split; [apply hits_sublist|].
  intros Hb Hp. apply hits_exact; try assumption. intros key l Hl. apply (holds_lists A L HL key l Hl).
Qed.

(** the settings and the word determine the hits *)
Lemma hits_scheme L s s' dwsets w : (forall m, IsGoodSheme s m = true <-> IsGoodSheme s' m = true) -> hits L s dwsets w = hits L s' dwsets w.
Proof.
  intros H. unfold hits. apply flat_map_ext. intros n. apply flat_map_ext. intros ei. unfold entry_hits, cap_ok.
  destruct (class_of L (oclass (fst ei))) as [[st c]|]; [|reflexivity].
  assert (E : IsGoodSheme s (min_case c) = IsGoodSheme s' (min_case c)).
  { destruct (IsGoodSheme s (min_case c)) eqn:E1, (IsGoodSheme s' (min_case c)) eqn:E2; try reflexivity; exfalso.
    - apply H in E1. congruence.
    - apply H in E2. congruence. }
  rewrite E. reflexivity.
Qed.

Lemma scheme_exists w : is_bytes w -> w <> [] -> (length w < 48)%nat -> (length (rparts w) <= 8)%nat ->
  exists scheme, forall m, IsGoodSheme scheme m = true <-> suits w m.
Proof. intros H1 H2 H3 H4. destruct (canonic_facts w H1 H2 H3 H4) as (v & _ & _ & _ & _ & Hs & _). exists (N.land v 0xffff). exact Hs. Qed.
