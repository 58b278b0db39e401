(** * LevelProofs: the alternation levels, required capitals and acceptable capitalisations of the code are those of the specification.  PROOFS. *)
From Verif Require Import Base CharTables CapScheme CapSpec GramMap RusRuntime LevelSpec.
Local Open Scope N_scope.

Lemma below64 (P : N -> bool) : forallb (fun k => P (N.of_nat k)) (seq 0 64) = true -> forall t, t < 64 -> P t = true.
Proof.
  intros H t Ht. rewrite forallb_forall in H. specialize (H (N.to_nat t)). rewrite Nnat.N2Nat.id in H. apply H. apply in_seq. lia.
Qed.
Definition byte_list : list N := Eval vm_compute in map N.of_nat (seq 0 256).
Lemma byte_list_in b : b < 256 -> In b byte_list.
Proof.
  intros H. change byte_list with (map N.of_nat (seq 0 256)). apply in_map_iff. exists (N.to_nat b). split; [apply Nnat.N2Nat.id|]. apply in_seq. lia.
Qed.
Definition all16 (P : N -> bool) : bool := forallb (fun a => forallb (fun b => P (a * 256 + b)) byte_list) byte_list.
Lemma by_check (P : N -> bool) : all16 P = true -> forall g, g < 2 ^ 16 -> P g = true.
Proof.
  unfold all16. intros H g Hg. change (2 ^ 16) with (256 * 256) in Hg.
  rewrite forallb_forall in H. assert (Ha : g / 256 < 256) by (apply N.div_lt_upper_bound; [discriminate|exact Hg]).
  specialize (H _ (byte_list_in _ Ha)). rewrite forallb_forall in H. assert (Hb : g mod 256 < 256) by (apply N.mod_lt; discriminate).
  specialize (H _ (byte_list_in _ Hb)). rewrite (N.div_mod g 256) by discriminate. rewrite (N.mul_comm 256). exact H.
Qed.

Lemma masc_inanimate g : g < 2 ^ 16 -> MascNotAnimMixPower g = if noun_alternates Masculine false g then 2 else 1.
Proof. intros H. apply N.eqb_eq. revert g H. apply by_check. vm_cast_no_check (eq_refl true). Qed.
Lemma masc_animate g : g < 2 ^ 16 -> MascAnimateMixPower g = if noun_alternates Masculine true g then 2 else 1.
Proof. intros H. apply N.eqb_eq. revert g H. apply by_check. vm_cast_no_check (eq_refl true). Qed.
Lemma femn_inanimate g : g < 2 ^ 16 -> FemnNotAnimMixPower g = if noun_alternates Feminine false g then 2 else 1.
Proof. intros H. apply N.eqb_eq. revert g H. apply by_check. vm_cast_no_check (eq_refl true). Qed.
Lemma femn_animate g : g < 2 ^ 16 -> FemnAnimateMixPower g = if noun_alternates Feminine true g then 2 else 1.
Proof. intros H. apply N.eqb_eq. revert g H. apply by_check. vm_cast_no_check (eq_refl true). Qed.

Lemma bit0_odd f : bit 0 f = N.odd f.
Proof. unfold bit. rewrite N.bit0_odd. reflexivity. Qed.

Lemma land63_lt wd : N.land wd 63 < 64.
Proof. change 63 with (N.ones 6). rewrite N.land_ones. apply N.mod_lt. discriminate. Qed.

Definition noun_code (k : noun_kind) (a : animacy) : N :=
  match k, a with
  | Masculine, Inanimate => 2 | Masculine, Animate => 3 | Masculine, ByFlag => 4
  | Feminine, Inanimate => 5 | Feminine, Animate => 6 | Feminine, ByFlag => 7
  end.
Lemma noun_table t k a : t < 64 -> noun_type t = Some (k, a) -> nth (N.to_nat t) mixTypes 0 = noun_code k a.
Proof.
  intros Ht E.
  pose (P := fun t => match noun_type t with Some (k, a) => nth (N.to_nat t) mixTypes 0 =? noun_code k a | None => true end).
  assert (H : P t = true) by (apply (below64 P); [vm_compute; reflexivity|exact Ht]).
  unfold P in H. rewrite E in H. apply N.eqb_eq in H. exact H.
Qed.

Lemma noun_level wd g f k a : g < 2 ^ 16 -> noun_type (N.land wd 63) = Some (k, a) ->
  GetSwapLevel wd g f = if noun_alternates k (is_animate a f) g then 2 else 1.
Proof.
  intros Hg Ht. unfold GetSwapLevel. change 0x3f with 63. rewrite (noun_table _ k a (land63_lt wd) Ht).
  pose proof (masc_inanimate g Hg) as M1. pose proof (masc_animate g Hg) as M2. pose proof (femn_inanimate g Hg) as F1. pose proof (femn_animate g Hg) as F2.
  destruct k, a; cbn [noun_code is_animate]; try assumption; unfold MascMixedMixPower, FemnMixedMixPower; rewrite bit0_odd; destruct (N.odd f); assumption.
Qed.

(** every other part of speech: no noun, no verb, no full adjective *)
Lemma other_level wd g f : noun_type (N.land wd 63) = None -> ~ (1 <= N.land wd 63 <= 6) -> N.land wd 63 <> 25 -> GetSwapLevel wd g f = 1.
Proof.
  intros Hn Hv Ha. unfold GetSwapLevel. change 0x3f with 63.
  pose (P := fun t => match noun_type t with Some _ => true | None => (((1 <=? t) && (t <=? 6)) || (t =? 25)) || (nth (N.to_nat t) mixTypes 0 =? 0) end).
  assert (H : P (N.land wd 63) = true) by (apply (below64 P); [vm_compute; reflexivity|apply land63_lt]).
  unfold P in H. rewrite Hn in H. apply orb_true_iff in H. destruct H as [H|H].
  - exfalso. apply orb_true_iff in H. destruct H as [H|H]; [apply andb_true_iff in H; destruct H as [H1 H2]; apply N.leb_le in H1, H2; auto|apply N.eqb_eq in H; auto].
  - apply N.eqb_eq in H. rewrite H. reflexivity.
Qed.

Lemma adjective_level wd g f : N.land wd 63 = 25 -> GetSwapLevel wd g f = if g =? 0x80 then 3 else if g =? 0x300 then 2 else 1.
Proof. intros H. unfold GetSwapLevel. change 0x3f with 63. rewrite H. reflexivity. Qed.

Lemma verb_level_0 g : g < 2 ^ 16 -> GetVerbMixPowerType1 g = verb_level 0 g.
Proof. intros H. apply N.eqb_eq. revert g H. apply by_check. vm_cast_no_check (eq_refl true). Qed.
Lemma verb_level_1 g : g < 2 ^ 16 -> GetVerbMixPowerType2 g = verb_level 1 g.
Proof. intros H. apply N.eqb_eq. revert g H. apply by_check. vm_cast_no_check (eq_refl true). Qed.
Lemma verb_level_2 g : g < 2 ^ 16 -> GetVerbMixPowerType3 g = verb_level 2 g.
Proof. intros H. apply N.eqb_eq. revert g H. apply by_check. vm_cast_no_check (eq_refl true). Qed.

Lemma kind_shift wd : N.shiftr (N.land wd 0x1800) 11 = (wd / 2048) mod 4.
Proof.
  change 0x1800 with (N.shiftl (N.ones 2) 11). apply N.bits_inj. intros n. rewrite N.shiftr_spec', N.land_spec.
  replace (wd / 2048) with (N.shiftr wd 11) by (rewrite N.shiftr_div_pow2; reflexivity).
  destruct (N.ltb_spec n 2) as [H|H].
  - change 4 with (2 ^ 2). rewrite N.mod_pow2_bits_low by assumption. rewrite N.shiftl_spec_high' by lia. replace (n + 11 - 11) with n by lia.
    rewrite N.ones_spec_low by assumption. rewrite andb_true_r, N.shiftr_spec'. reflexivity.
  - change 4 with (2 ^ 2). rewrite N.mod_pow2_bits_high by assumption. rewrite N.shiftl_spec_high' by lia. replace (n + 11 - 11) with n by lia.
    rewrite N.ones_spec_high by assumption. apply andb_false_r.
Qed.

Lemma verb_level_eq wd g f : g < 2 ^ 16 -> 1 <= N.land wd 63 <= 6 -> GetSwapLevel wd g f = verb_level ((wd / 2048) mod 4) g.
Proof.
  intros Hg Ht. unfold GetSwapLevel. change 0x3f with 63.
  assert (E : nth (N.to_nat (N.land wd 63)) mixTypes 0 = 1).
  { remember (N.land wd 63) as t eqn:Et. assert (K : t = 1 \/ t = 2 \/ t = 3 \/ t = 4 \/ t = 5 \/ t = 6) by lia.
    destruct K as [->|[->|[->|[->|[->| ->]]]]]; reflexivity. }
  rewrite E. cbn iota. unfold GetVerbMixPower. rewrite kind_shift.
  assert (K : (wd / 2048) mod 4 < 4) by (apply N.mod_lt; discriminate). remember ((wd / 2048) mod 4) as k eqn:Ek. clear Ek.
  assert (C : k = 0 \/ k = 1 \/ k = 2 \/ k = 3) by lia. destruct C as [->|[->|[->| ->]]]; [apply verb_level_0|apply verb_level_1|apply verb_level_2|reflexivity]; assumption.
Qed.

Lemma field_mod g k n : k + n <= 16 -> (g mod 2 ^ 16 / 2 ^ k) mod 2 ^ n = (g / 2 ^ k) mod 2 ^ n.
Proof.
  intros H. apply N.bits_inj. intros i. destruct (N.ltb_spec i n) as [Hi|Hi].
  - rewrite !N.mod_pow2_bits_low by assumption. rewrite <- !N.shiftr_div_pow2, !N.shiftr_spec'. rewrite N.mod_pow2_bits_low by lia. reflexivity.
  - rewrite !N.mod_pow2_bits_high by assumption. reflexivity.
Qed.
Lemma land_mod16 g m : m < 2 ^ 16 -> N.land (g mod 2 ^ 16) m = N.land g m.
Proof.
  intros H. rewrite <- N.land_ones, <- N.land_assoc. f_equal. rewrite N.land_comm, N.land_ones. apply N.mod_small. exact H.
Qed.
Lemma tense_mod g : tense_of (g mod 2 ^ 16) = tense_of g.
Proof. unfold tense_of. pose proof (field_mod g 0 3 ltac:(lia)) as H. change (2 ^ 0) with 1 in H. rewrite !N.div_1_r in H. exact H. Qed.
Lemma person_mod g : person_of (g mod 2 ^ 16) = person_of g.
Proof. exact (field_mod g 3 2 ltac:(lia)). Qed.
Lemma voice_mod g : voice_of (g mod 2 ^ 16) = voice_of g.
Proof. exact (field_mod g 5 2 ltac:(lia)). Qed.
Lemma case_mod g : case_no (g mod 2 ^ 16) = case_no g.
Proof. exact (field_mod g 12 3 ltac:(lia)). Qed.
Lemma odd_mod2 x : N.odd x = (x mod 2 =? 1).
Proof. rewrite <- N.bit0_odd, N.bit0_eqb. reflexivity. Qed.
Lemma plural_mod g : plural_of (g mod 2 ^ 16) = plural_of g.
Proof. unfold plural_of. rewrite !odd_mod2. pose proof (field_mod g 11 1 ltac:(lia)) as H. change (2 ^ 11) with 2048 in H. change (2 ^ 1) with 2 in H. rewrite H. reflexivity. Qed.
Lemma alternates_mod k a g : noun_alternates k a (g mod 2 ^ 16) = noun_alternates k a g.
Proof. unfold noun_alternates. rewrite plural_mod, case_mod. reflexivity. Qed.
Lemma verb_mod k g : verb_level k (g mod 2 ^ 16) = verb_level k g.
Proof. unfold verb_level. rewrite tense_mod, person_mod, voice_mod, plural_mod. reflexivity. Qed.
Lemma swap_mod wd g f : N.land wd 63 <> 25 -> GetSwapLevel wd (g mod 2 ^ 16) f = GetSwapLevel wd g f.
Proof.
  intros H. unfold GetSwapLevel, GetVerbMixPower, MascMixedMixPower, FemnMixedMixPower, GetVerbMixPowerType1, GetVerbMixPowerType2, GetVerbMixPowerType3,
    MascNotAnimMixPower, MascAnimateMixPower, FemnNotAnimMixPower, FemnAnimateMixPower. rewrite !land_mod16 by reflexivity.
  pose (P := fun t => (t =? 25) || negb (nth (N.to_nat t) mixTypes 0 =? 8)).
  assert (K : P (N.land wd 63) = true) by (apply (below64 P); [vm_compute; reflexivity|apply land63_lt]). unfold P in K.
  apply orb_true_iff in K as [K|K]; [apply N.eqb_eq in K; contradiction|]. change 0x3f with 63.
  destruct (nth (N.to_nat (N.land wd 63)) mixTypes 0) as [|[[[p|p|]|[p|p|]|]|[[p|p|]|[[p|p|]|[p|p|]|]|]|]]; try reflexivity. discriminate K.
Qed.

Lemma mod64 wd : wd mod 64 = N.land wd 63.
Proof. change 63 with (N.ones 6). rewrite N.land_ones. reflexivity. Qed.

Lemma level_eq wd g f : GetSwapLevel wd g f = alternation_level wd g f.
Proof.
  unfold alternation_level. cbv zeta. rewrite mod64.
  assert (Hr : g mod 2 ^ 16 < 2 ^ 16) by (apply N.mod_lt; discriminate).
  assert (H25 : N.land wd 63 <> 25 -> GetSwapLevel wd g f = GetSwapLevel wd (g mod 2 ^ 16) f) by (intros; symmetry; apply swap_mod; assumption).
  destruct (noun_type (N.land wd 63)) as [[k a]|] eqn:E.
  - rewrite H25 by (intros K; rewrite K in E; discriminate E). rewrite (noun_level _ _ f k a Hr E), alternates_mod. reflexivity.
  - destruct (N.leb_spec 1 (N.land wd 63)) as [H1|H1]; [destruct (N.leb_spec (N.land wd 63) 6) as [H6|H6]|]; cbn [andb];
      [rewrite H25 by lia; rewrite (verb_level_eq _ _ f Hr) by lia; apply verb_mod|..];
      (destruct (N.eqb_spec (N.land wd 63) 25) as [H|H]; [apply adjective_level; assumption|apply other_level; [assumption|lia|assumption]]).
Qed.

Lemma required_eq wd : nth (N.to_nat (N.land wd 63)) rus_pspMinCapValue 0 = required_case wd.
Proof.
  unfold required_case. cbv zeta. rewrite mod64.
  pose (P := fun t => nth (N.to_nat t) rus_pspMinCapValue 0 =? (if (37 <=? t) && (t <=? 47) then 1 else if t =? 59 then 2 else 0)).
  apply N.eqb_eq. apply (below64 P); [vm_compute; reflexivity|apply land63_lt].
Qed.
