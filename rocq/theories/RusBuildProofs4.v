(** * RusBuildProofs4: built forms are recognised.  PROOFS. *)
From Verif Require Import Base Serial SerialProofs WordTree TreeSpec WordTreeProofs FlatScan FlatScanProofs LidsProofs TrackProofs
  TreeWalk Stems StemSpec StemsProofs DictProofs CharTables CapScheme CapSpec CapProofs CapProofs2 PropCaseLemmas GramMap RusRuntime LevelSpec LevelProofs RusSpec
  RusProofs RusProofs2 RusProofs3 RusBuild RusBuildSpec RusBuildProofs RusBuildProofs2 RusBuildProofs3.
Local Open Scope N_scope.

Lemma respell_facts w min : Forall (good_char rus_casing) w -> min <= 2 ->
  map (locase rus_casing) (respell rus_casing min w) = w /\ is_bytes (respell rus_casing min w) /\
  length (rparts (respell rus_casing min w)) = length (rparts w).
Proof.
  intros Hg Hm.
  assert (Hz : ~ In 0 w).
  { intros H. rewrite Forall_forall in Hg. destruct (Hg 0 H) as [(_ & Hr & _)|(_ & _ & Hn)]; [|congruence].
    unfold is_regular in Hr. vm_compute in Hr. discriminate. }
  destruct (set_changes_case rus_casing rus_ok w [] min Hg) as (w' & E & _ & H1 & H2 & _).
  rewrite (set_respell rus_casing rus_ok w [] min Hz Hm) in E. injection E as E. apply app_inj_tail in E as [<- _].
  split; [exact H1|]. split; [exact H2|]. rewrite <- (lower_parts _ H2), H1. reflexivity.
Qed.

Lemma respell_suits w min : Forall (good_char rus_casing) w -> min <= 2 -> w <> [] -> (length w < 48)%nat -> casable min w ->
  suits (respell rus_casing min w) min.
Proof.
  intros Hg Hm Hw Hl (H1 & H2 & H3).
  assert (Hz : ~ In 0 w).
  { intros H. rewrite Forall_forall in Hg. destruct (Hg 0 H) as [(_ & Hr & _)|(_ & _ & Hn)]; [|congruence].
    unfold is_regular in Hr. vm_compute in Hr. discriminate. }
  destruct (set_acceptable rus_casing rus_ok w [] min 48 Hg H1 H2 Hm H3 Hl ltac:(cbn; lia)) as (w' & v & E & _ & Eg & Hgood).
  rewrite (set_respell rus_casing rus_ok w [] min Hz Hm) in E. injection E as E. apply app_inj_tail in E as [<- _].
  destruct (respell_facts w min Hg Hm) as (F1 & F2 & F3).
  destruct (canonic_facts (respell rus_casing min w)) as (v' & Ev & _ & _ & _ & Hs & _); try assumption.
  - intros E. apply Hw. apply (f_equal (@length N)) in E. rewrite respell_length in E. destruct w; [reflexivity|discriminate].
  - rewrite respell_length. exact Hl.
  - rewrite F3. apply Nat.le_trans with 3%nat; [exact H2|lia].
  - rewrite Eg in Ev. injection Ev as -> _. apply Hs. rewrite land_ffff. exact Hgood.
Qed.

(** requested descriptions *)
Lemma noun_plural wd id : bit 6 wd = true -> IsVerb wd = false -> IsAdjective wd = false ->
  flexinfo_eq (GetGramInfo wd id) noflex = false -> N.testbit (gramm (GetGramInfo wd id)) 11 = true.
Proof.
  intros Hb Hv Ha. unfold GetGramInfo.
  assert (E : forall n, N.land (u8 n) 63 = N.land n 63).
  { intros n. unfold u8. change 256 with (2 ^ 8). rewrite <- N.land_ones. rewrite <- N.land_assoc. reflexivity. }
  assert (Hv' : IsVerb (u8 wd) = false) by (unfold IsVerb in *; change 0x3f with 63 in *; rewrite E; exact Hv).
  assert (Ha' : IsAdjective (u8 wd) = false) by (unfold IsAdjective in *; change 0x3f with 63 in *; rewrite E; exact Ha).
  assert (Hb' : bit 6 (u8 wd) = true).
  { unfold bit, u8 in *. change 256 with (2 ^ 8). rewrite <- N.land_ones, N.land_spec, Hb. reflexivity. }
  rewrite Hv', Ha', Hb'. cbn [andb]. destruct (N.ltb_spec id 10); [discriminate|]. unfold GetNounInfo. destruct (N.leb_spec id 17); [|discriminate].
  intros _. assert (Hid : id = 10 \/ id = 11 \/ id = 12 \/ id = 13 \/ id = 14 \/ id = 15 \/ id = 16 \/ id = 17) by lia.
  repeat (destruct Hid as [->|Hid]; [reflexivity|]). subst. reflexivity.
Qed.

Definition is_mixed (wd : N) : bool := existsb (N.eqb (N.land wd 63)) [9; 15; 18].
Lemma level_flags wd g f f' : is_mixed wd = false \/ N.testbit f 0 = N.testbit f' 0 \/ N.land g 0x7000 <> 0x3000 ->
  GetSwapLevel wd g f = GetSwapLevel wd g f'.
Proof.
  intros H. unfold GetSwapLevel, is_mixed in *. change 0x3f with 63. assert (Hr : N.land wd 63 < 64) by (change 63 with (N.ones 6); rewrite N.land_ones; apply N.mod_lt; discriminate).
  assert (Hm : In (N.land wd 63) (map N.of_nat (seq 0 64))).
  { apply in_map_iff. exists (N.to_nat (N.land wd 63)). split; [lia|]. apply in_seq. lia. }
  assert (Hc : forall m, N.land g 0x7000 <> 0x3000 -> N.testbit m 11 = true \/ N.testbit m 11 = false -> N.land g 0x7800 <> 0x3000 /\ N.land g 0x7800 <> 0x3800).
  { intros m Hg _. split; intros E; apply Hg; replace (N.land g 0x7000) with (N.land (N.land g 0x7800) 0x7000) by (rewrite <- N.land_assoc; reflexivity);
      rewrite E; reflexivity. }
  destruct H as [H|[H|H]].
  - revert H. cbn in Hm. repeat (destruct Hm as [<-|Hm]; [try (intros; reflexivity); try (intros H; discriminate H)|]). destruct Hm.
  - unfold MascMixedMixPower, FemnMixedMixPower, bit. rewrite H. reflexivity.
  - destruct (Hc 0 H (or_intror eq_refl)) as [H1 H2].
    assert (E1 : MascNotAnimMixPower g = MascAnimateMixPower g).
    { unfold MascNotAnimMixPower, MascAnimateMixPower. destruct (N.eqb_spec (N.land g 0x7800) 0x3000); [contradiction|]. rewrite orb_false_r. reflexivity. }
    assert (E2 : FemnNotAnimMixPower g = FemnAnimateMixPower g).
    { unfold FemnNotAnimMixPower, FemnAnimateMixPower. destruct (N.eqb_spec (N.land g 0x7800) 0x3800); [contradiction|]. rewrite orb_false_r. reflexivity. }
    unfold MascMixedMixPower, FemnMixedMixPower. rewrite E1, E2.
    destruct (bit 0 f), (bit 0 f'); reflexivity.
Qed.

Lemma noun_flags wd id : IsVerb wd = false -> IsAdjective wd = false -> flexinfo_eq (GetGramInfo wd id) noflex = false ->
  let fx := GetGramInfo wd id in
  flags fx = 1 \/ flags fx = 2 \/ flags fx = 3 /\ N.land (gramm fx) 0x7000 <> 0x3000.
Proof.
  intros Hv Ha. unfold GetGramInfo.
  assert (E : forall n, N.land (u8 n) 63 = N.land n 63).
  { intros n. unfold u8. change 256 with (2 ^ 8). rewrite <- N.land_ones. rewrite <- N.land_assoc. reflexivity. }
  assert (Hv' : IsVerb (u8 wd) = false) by (unfold IsVerb in *; change 0x3f with 63 in *; rewrite E; exact Hv).
  assert (Ha' : IsAdjective (u8 wd) = false) by (unfold IsAdjective in *; change 0x3f with 63 in *; rewrite E; exact Ha).
  rewrite Hv', Ha'. destruct (bit 6 (u8 wd) && (id <? 10)); [discriminate|]. unfold GetNounInfo. destruct (N.leb_spec id 17); [|discriminate].
  intros _. assert (Hin : In id (map N.of_nat (seq 0 18))).
  { apply in_map_iff. exists (N.to_nat id). split; [lia|]. apply in_seq. lia. }
  cbn in Hin. repeat (destruct Hin as [<-|Hin]; [vm_compute; first [left; reflexivity|right; left; reflexivity|right; right; split; [reflexivity|discriminate]]|]). destruct Hin.
Qed.

Lemma mixed_is_noun wd : is_mixed wd = true -> IsVerb wd = false /\ IsAdjective wd = false.
Proof.
  unfold is_mixed, IsVerb, IsAdjective. change 0x3f with 63. cbn [existsb]. rewrite !orb_true_iff, !N.eqb_eq. intros [->|[->|[->|H]]]; try discriminate; split; reflexivity.
Qed.

Section Recognise.
  Variables (A : arrays) (L : lexicon).
  Hypothesis HL : holds A L.
  Hypothesis HR : recognisable L.

  Lemma tail_part key e st c id t : has_record (words L) key e -> class_of L (oclass e) = Some (st, c) -> takes_id c id = true ->
    In t (tails c (GetGramInfo (c_word c) id)) -> exists g f, form_part c t g f.
  Proof.
    intros Hrec Ec Hid Hin. set (fx := GetGramInfo (c_word c) id) in *.
    destruct (holds_classes A L HL key e Hrec) as (st' & c' & Ec' & Hat & Hrep). rewrite Ec in Ec'. injection Ec' as <- <-.
    unfold takes_id in Hid. fold fx in Hid. unfold tails in Hin. destruct (c_flex c) as [ft|] eqn:Ef.
    2:{ destruct Hin as [<-|[]]. eexists _, _. apply form_fixed. exact Ef. }
    destruct Hrep as (_ & _ & _ & Hf & _). rewrite Ef in Hf. destruct Hf as (_ & _ & (Hd & _) & _).
    apply andb_true_iff in Hid as [_ Hfx]. apply negb_true_iff in Hfx.
    assert (He : forall t0, In t0 (endings_for ft fx) -> exists f, listed ft t0 (gramm fx) f /\ N.land f (flags fx) <> 0).
    { intros t0 Ht. unfold endings_for in Ht. apply in_map_iff in Ht as ([k l] & Ek & Ht). cbn [fst] in Ek. subst k.
      apply filter_In in Ht as [Ht Hex]. cbn [snd] in Hex. apply existsb_exists in Hex as ([g f] & Hl & Hfit).
      apply (entries_spec ft t0 l []) in Ht; [|eapply dumpable_ordered, Hd]. unfold fits_desc in Hfit. cbn [fst snd] in Hfit.
      apply andb_true_iff in Hfit as [H1 H2]. apply N.eqb_eq in H1. apply negb_true_iff, N.eqb_neq in H2. subst g.
      exists f. split; [exists l; split; assumption|exact H2]. }
    assert (Hno : number_ok c (gramm fx)).
    { intros H6. destruct (r_number L HR key e st c Hrec Ec H6) as [Hv Ha]. apply noun_plural; try assumption. }
    destruct (c_mix c) as [mx|] eqn:Em.
    - unfold alternation_for in Hin. destruct (find _ mx) as [[mask alt]|] eqn:Efind; cbn [option_map snd] in Hin; [|destruct Hin].
      apply in_map_iff in Hin as (t0 & <- & Ht). destruct (He t0 Ht) as (f & Hl & Hc). apply find_some in Efind as [Hma Hb]. cbn [fst] in Hb.
      exists (gramm fx), f. eapply form_mixed; try eassumption.
      replace (alternation_level (c_word c) (gramm fx) f) with (alternation_level (c_word c) (gramm fx) (flags fx)); [exact Hb|].
      rewrite <- !level_eq.
      apply level_flags. destruct (is_mixed (c_word c)) eqn:Emx; [right|left; reflexivity].
      destruct (mixed_is_noun _ Emx) as [Hv Ha]. destruct (noun_flags (c_word c) id Hv Ha Hfx) as [H|[H|[H H']]]; fold fx in H.
      + left. rewrite H in *. destruct (N.testbit f 0) eqn:Eb; [reflexivity|]. exfalso. apply Hc.
        apply N.bits_inj. intros i. rewrite N.land_spec, N.bits_0. destruct (N.eq_dec i 0) as [->|Hi]; [rewrite Eb; reflexivity|].
        change 1 with (2 ^ 0). rewrite N.pow2_bits_false by congruence. apply andb_false_r.
      + destruct (N.eq_dec (N.land (gramm fx) 0x7000) 0x3000) as [E|E]; [|right; exact E]. left. rewrite H in *. change (N.testbit 2 0) with false.
        symmetry. eapply (r_animacy L HR key e st c ft t0 (gramm fx) f); try eassumption.
        * unfold is_mixed in Emx. apply existsb_exists in Emx as (x & Hx & E'). apply N.eqb_eq in E'. rewrite E'. exact Hx.
        * destruct (N.testbit f 1) eqn:Eb; [reflexivity|]. exfalso. apply Hc.
          apply N.bits_inj. intros i. rewrite N.land_spec, N.bits_0. destruct (N.eq_dec i 1) as [->|Hi]; [rewrite Eb; reflexivity|].
          change 2 with (2 ^ 1). rewrite N.pow2_bits_false by congruence. apply andb_false_r.
      + right. exact H'.
    - destruct (He t Hin) as (f & Hl & _). exists (gramm fx), f. eapply form_plain; eassumption.
  Qed.

  Lemma built_recognised key e st c id form psz cch dwsets junk :
    has_record (words L) key e -> class_of L (oclass e) = Some (st, c) -> In form (requested c key (stpost e) id) ->
    given form psz cch -> form <> [] -> (length form < 48)%nat ->
    (bit 1 dwsets = true /\ (length (rparts form) <= 8)%nat) \/ casable (min_case c) (rlow form) ->
    check_word A junk psz cch dwsets = Ok 1%Z.
  Proof.
    intros Hrec Ec Hin Hg Hne Hlen Hcase. unfold requested in Hin. destruct (takes_id c id) eqn:Hid; [|destruct Hin].
    unfold forms_of in Hin. apply in_map_iff in Hin as (w & <- & Hw).
    pose proof (r_letters L HR key e st c (GetGramInfo (c_word c) id) Hrec Ec) as Hlet. rewrite Forall_forall in Hlet. specialize (Hlet w Hw).
    destruct (respell_facts w (min_case c) Hlet (min_case_le2 c)) as (F1 & F2 & F3).
    unfold raw_forms in Hw. apply in_map_iff in Hw as (t & <- & Ht).
    destruct (tail_part key e st c id t Hrec Ec Hid Ht) as (g & f & Hfp).
    assert (Hnz : key ++ t ++ stpost e <> []).
    { intros E. rewrite E in Hne. apply Hne. reflexivity. }
    assert (Hp8 : (length (rparts (respell rus_casing (min_case c) (key ++ t ++ stpost e))) <= 8)%nat).
    { destruct Hcase as [[_ H]|(_ & H & _)]; [exact H|]. rewrite F1 in H. rewrite F3. apply Nat.le_trans with 3%nat; [exact H|lia]. }
    eapply (check_word_complete A L HL) with (key := key) (e := e) (part := t) (g := g) (f := f); try eassumption.
    - apply (r_bounds L HR).
    - split.
      + split; [exact F1|]. split; [exact Hrec|]. exists st, c. split; assumption.
      + intros Hb. exists st, c. split; [exact Ec|]. destruct Hcase as [[H _]|H]; [congruence|].
        rewrite F1 in H. apply respell_suits; try assumption; [apply min_case_le2|]. rewrite respell_length in Hlen. exact Hlen.
    - pose proof (r_postfix L HR key e st c (GetGramInfo (c_word c) id) Hrec Ec) as H. rewrite Forall_forall in H. exact (H t Ht).
  Qed.
End Recognise.
