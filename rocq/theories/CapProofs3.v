(** * CapProofs3: the accepted capitalisations are those of the specification.  PROOFS. *)
From Verif Require Import Base SerialProofs CharTables CapScheme CapSpec CapProofs CapProofs2.
Local Open Scope N_scope.

(** ** Capitalisations *)
Lemma good_list s min : IsGoodSheme s min = true <-> In s (map (fun cls => N.of_nat (length cls) * 256 + pack cls) (acceptable min)).
Proof.
  unfold IsGoodSheme. destruct (N.eqb_spec min 2) as [->|H2]; [|destruct (N.eqb_spec min 1) as [->|H1]; [|destruct (N.eqb_spec min 0) as [->|H0]]].
  - unfold IsGoodShemeMin2. rewrite !orb_true_iff, !N.eqb_eq. cbn. intuition congruence.
  - unfold IsGoodShemeMin1, IsGoodShemeMin2. rewrite !orb_true_iff, !N.eqb_eq. cbn. intuition congruence.
  - unfold IsGoodShemeMin0, IsGoodShemeMin1, IsGoodShemeMin2. rewrite !orb_true_iff, !N.eqb_eq. cbn. intuition congruence.
  - replace (acceptable min) with (@nil (list N)); [cbn; intuition discriminate|].
    destruct min as [|[[p|p|]|[p|p|]|]]; try contradiction; reflexivity.
Qed.

Lemma pack_inj : forall a b, length a = length b -> Forall (fun c => c < 4) a -> Forall (fun c => c < 4) b -> pack a = pack b -> a = b.
Proof.
  induction a as [|x a IH]; intros [|y b] Hl Ha Hb E; try discriminate; [reflexivity|]. inversion Ha; inversion Hb; subst. cbn [pack] in E.
  assert (x = y /\ pack a = pack b) as [-> E'].
  { assert (M : (x + 4 * pack a) mod 4 = (y + 4 * pack b) mod 4) by congruence.
    rewrite (N.mul_comm 4 (pack a)), (N.mul_comm 4 (pack b)), !N.mod_add in M by discriminate. rewrite !N.mod_small in M by assumption. subst y. split; [reflexivity|lia]. }
  f_equal. apply IH; try assumption. injection Hl as Hl. exact Hl.
Qed.

Lemma pack_bound cls : Forall (fun c => c < 4) cls -> pack cls < 4 ^ N.of_nat (length cls).
Proof.
  induction cls as [|c cls IH]; intros H; [reflexivity|]. inversion H; subst. specialize (IH ltac:(assumption)).
  cbn [pack length]. rewrite Nnat.Nat2N.inj_succ, N.pow_succ_r'. nia.
Qed.

Lemma acceptable_short cls min : In cls (acceptable min) -> Forall (fun c => c < 3) cls /\ (length cls <= 3)%nat.
Proof.
  intros Hin. destruct min as [|[[p|p|]|[p|p|]|]]; cbn in Hin; try contradiction; repeat (destruct Hin as [<-|Hin]; [split; [repeat constructor|cbn; lia]|]); contradiction.
Qed.

Lemma acceptable_exact cls min : Forall (fun c => c < 3) cls ->
  IsGoodSheme (N.of_nat (length cls) * 256 + pack cls) min = true <-> In cls (acceptable min).
Proof.
  intros Hc. rewrite good_list, in_map_iff.
  assert (W : forall l, Forall (fun c => c < 3) l -> Forall (fun c => c < 4) l) by (intros l Hl; eapply Forall_impl; [|exact Hl]; cbn beta; intros; lia).
  split; [|intros Hin; exists cls; auto].
  intros (cls' & E & Hin). destruct (acceptable_short _ _ Hin) as [Hs1 Hs2].
  assert (B : forall l : list N, Forall (fun c => c < 4) l -> (length l <= 3)%nat -> pack l < 64).
  { intros l Hl Hll. pose proof (pack_bound l Hl). assert (4 ^ N.of_nat (length l) <= 4 ^ 3) by (apply N.pow_le_mono_r; lia). change (4 ^ 3) with 64 in *. lia. }
  pose proof (B cls' (W _ Hs1) Hs2) as B1. assert (Hlen : (length cls <= 3)%nat) by lia. pose proof (B cls (W _ Hc) Hlen) as B2.
  assert (El : length cls = length cls') by lia. replace cls with cls'; [exact Hin|]. apply pack_inj; auto. rewrite El in E. lia.
Qed.

Lemma good_small s m : IsGoodSheme s m = true -> s < 0x32B /\ s mod 256 <> 255 /\ 256 <= s.
Proof.
  unfold IsGoodSheme, IsGoodShemeMin0, IsGoodShemeMin1, IsGoodShemeMin2. intros H.
  assert (H' : s = 0x0100 \/ s = 0x0200 \/ s = 0x0300 \/ s = 0x0201 \/ s = 0x0301 \/ s = 0x0101 \/ s = 0x0205 \/ s = 0x0311 \/
               s = 0x0102 \/ s = 0x020A \/ s = 0x032A).
  { destruct (m =? 2); [|destruct (m =? 1); [|destruct (m =? 0); [|discriminate]]];
    rewrite ?orb_true_iff, ?N.eqb_eq in H; tauto. }
  repeat (destruct H' as [->|H']; [repeat split; (reflexivity || discriminate)|]). subst. repeat split; (reflexivity || discriminate).
Qed.

Section Exact.
  Variable cs : casing.
  Hypothesis Hdlm : forall d, d < 256 -> is_delim cs d -> locase cs d = d.
  Lemma good_exact w outlen v out m : is_bytes w -> (length w < outlen)%nat -> N.of_nat outlen <= 2 ^ 16 -> (length (parts cs w) <= 16)%nat ->
    cap_get cs outlen w = Ok (v, out) ->
    IsGoodSheme (v mod 2 ^ 16) m = true <-> exists cls, parts_are cs (parts cs w) cls /\ In cls (acceptable m).
  Proof.
    intros Hb Hlen Ho Hp E. split.
    - intros Hg. destruct (Nat.le_gt_cases 4 (length (parts cs w))) as [H4|H4].
      + rewrite (many_parts_rejected cs Hdlm w outlen v _ m Hb Hlen ltac:(lia) E) in Hg. discriminate.
      + destruct (valids cs (parts cs w)) eqn:Ev.
        * apply (valids_classes cs) in Ev as (cls & Hcls); [|apply parts_nonnil|apply parts_all_nodelim].
          exists cls. split; [exact Hcls|].
          rewrite (cap_get_class cs Hdlm w outlen cls Hb Hlen Ho ltac:(lia) Hcls) in E.
          injection E as <- _. pose proof (parts_are_length _ _ _ Hcls) as Hpl.
          apply acceptable_exact; [exact (parts_are_class _ _ _ Hcls)|].
          replace (_ mod _) with (N.of_nat (length cls) * 256 + pack cls) in Hg; [exact Hg|].
          rewrite <- Hpl. pose proof (pack_lt cls (parts_are_class _ _ _ Hcls)) as Hpk.
          assert (4 ^ N.of_nat (length cls) <= 4 ^ 3) by (apply N.pow_le_mono_r; lia). change (4 ^ 3) with 64 in *.
          symmetry. rewrite <- N.add_assoc. change 65536 with (2 ^ 16). rewrite N.add_comm, N.mod_add by discriminate.
          apply N.mod_small. lia.
        * exfalso. rewrite (cap_get_invalid cs Hdlm w outlen Hb Hlen Ho ltac:(lia)) in E.
          -- injection E as <- _. apply good_small in Hg as (_ & Hg & _). apply Hg. clear. lia.
          -- intros cls Hcls. assert (valids cs (parts cs w) = true); [|congruence].
             apply valids_classes; [apply parts_nonnil|apply parts_all_nodelim|]. exists cls. exact Hcls.
    - intros (cls & Hcls & Hg). apply acceptable_exact in Hg; [|exact (parts_are_class _ _ _ Hcls)]. pose proof (parts_are_length _ _ _ Hcls) as Hpl.
      pose proof (good_small _ _ Hg) as (Hs & _). assert (length cls <= 3)%nat by lia.
      rewrite (cap_get_class cs Hdlm w outlen cls Hb Hlen Ho ltac:(lia) Hcls) in E.
      injection E as <- _. replace (_ mod _) with (N.of_nat (length cls) * 256 + pack cls); [exact Hg|].
      rewrite <- Hpl. rewrite <- Hpl in Hs.
      symmetry. rewrite <- N.add_assoc. change 65536 with (2 ^ 16). rewrite N.add_comm, N.mod_add by discriminate.
      apply N.mod_small. lia.
  Qed.
End Exact.
