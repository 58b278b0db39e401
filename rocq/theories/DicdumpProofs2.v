(** * DicdumpProofs2: the comparison ends on ascending dumps, and tells the difference of short ones. *)
From Coq Require Import Sorted.
From Verif Require Import Base Dicdump DicdumpSpec DicdumpProofs.
Local Open Scope N_scope.

(** ** consequences of an edit script *)
Lemma edit_nothing l1 l2 : edit l1 l2 [] -> l1 = l2.
Proof. intros H. remember [] as o eqn:E. induction H; try discriminate; [reflexivity|]. rewrite IHedit by exact E. reflexivity. Qed.
Lemma edit_lines l1 l2 out : edit l1 l2 out ->
  ~ In Too_big out /\ (forall x, x <> [] -> In (Left x) out -> In x l1) /\ (forall x, x <> [] -> In (Right x) out -> In x l2) /\
  (forall x, In x l1 -> In (Left x) out \/ In x l2) /\ (forall x, In x l2 -> In (Right x) out \/ In x l1).
Proof.
  induction 1 as [|x l1 l2 out H (IH0 & IH1 & IH2 & IH3 & IH4)|x l1 l2 out H (IH0 & IH1 & IH2 & IH3 & IH4)|x l1 l2 out H (IH0 & IH1 & IH2 & IH3 & IH4)|
    l1 l2 out H (IH0 & IH1 & IH2 & IH3 & IH4)|l1 l2 out H (IH0 & IH1 & IH2 & IH3 & IH4)].
  - repeat split; cbn; intuition.
  - repeat split; intros; cbn [In] in *; auto; intuition.
    + destruct (IH3 x0 H1); intuition. + destruct (IH4 x0 H1); intuition.
  - repeat split; intros; cbn [In] in *.
    + intros [E|E]; [discriminate|auto]. + destruct H1 as [E|E]; [inversion E; auto|auto]. + destruct H1 as [E|E]; [discriminate|auto].
    + destruct H0 as [->|H0]; [auto|destruct (IH3 x0 H0); auto]. + destruct (IH4 x0 H0); auto.
  - repeat split; intros; cbn [In] in *.
    + intros [E|E]; [discriminate|auto]. + destruct H1 as [E|E]; [discriminate|auto]. + destruct H1 as [E|E]; [inversion E; auto|auto].
    + destruct (IH3 x0 H0); auto. + destruct H0 as [->|H0]; [auto|destruct (IH4 x0 H0); auto].
  - repeat split; intros; cbn [In] in *.
    + intros [E|E]; [discriminate|auto]. + destruct H1 as [E|E]; [inversion E; congruence|auto]. + destruct H1 as [E|E]; [discriminate|auto].
    + destruct (IH3 x H0); auto. + destruct (IH4 x H0); auto.
  - repeat split; intros; cbn [In] in *.
    + intros [E|E]; [discriminate|auto]. + destruct H1 as [E|E]; [discriminate|auto]. + destruct H1 as [E|E]; [inversion E; congruence|auto].
    + destruct (IH3 x H0); auto. + destruct (IH4 x H0); auto.
Qed.

Section Order.
  Variable key : bytes -> N.
  (** the empty line counts as the last *)
  Definition below (x y : bytes) : Prop := x <> [] /\ (y = [] \/ key x < key y).
  Lemma ascending_sorted l : ascending key l -> Forall (fun x => x <> []) l -> StronglySorted below l.
  Proof.
    induction l as [|x l IH]; intros H Hn; [constructor|]. destruct H as (Hx & H). inversion Hn; subst. constructor; [apply IH; assumption|].
    refine (Forall_impl _ _ Hx). intros y Hy. split; [assumption|right; exact Hy].
  Qed.
  Lemma sorted_suffix a b : StronglySorted below (a ++ b) -> StronglySorted below b.
  Proof. induction a as [|x a IH]; [auto|]. intros H. inversion H; subst. auto. Qed.
  Lemma no_crossing x v1 y v2 : StronglySorted below (x :: v1) -> StronglySorted below (y :: v2) -> In x (y :: v2) -> In y (x :: v1) -> x = y.
  Proof.
    intros H1 H2 [E|Ix] Iy; [auto|]. destruct Iy as [E|Iy]; [auto|]. inversion H1 as [|? ? _ F1]; subst. inversion H2 as [|? ? _ F2]; subst.
    rewrite Forall_forall in F1, F2. specialize (F1 y Iy). specialize (F2 x Ix). destruct F1 as (N1 & [->|L1]), F2 as (N2 & [->|L2]); try congruence. lia.
  Qed.

  Section Diff.
    Context {S1 S2 : Type} (get1 : S1 -> bytes * S1) (get2 : S2 -> bytes * S2).
    Notation compare := (compare_lists get1 get2).
    Notation diff := (dump_diff get1 get2).

    Lemma compare_ends fuel : forall v1 v2 s1 s2 l1 l2, gives get1 s1 l1 -> gives get2 s2 l2 ->
      StronglySorted below (v1 ++ l1) -> StronglySorted below (v2 ++ l2) -> (length (v1 ++ l1) + length (v2 ++ l2) <= fuel)%nat ->
      compare fuel v1 v2 s1 s2 <> None.
    Proof.
      induction fuel as [|fuel IH]; intros v1 v2 s1 s2 l1 l2 G1 G2 O1 O2 Hf; destruct v1 as [|x v1], v2 as [|y v2]; try (cbn; discriminate);
        [rewrite !app_length in Hf; cbn [length] in Hf; lia|].
      destruct (compare_round get1 get2 fuel x v1 y v2 s1 s2 l1 l2 G1 G2) as (c & a & b & r1 & r2 & n & m & t1 & t2 & G1' & G2' & E1 & E2 & _ & _ & Hr & E).
      rewrite E. assert (HN : compare fuel (r1 ++ firstn n l1) (r2 ++ firstn m l2) t1 t2 <> None).
      { apply (IH _ _ _ _ _ _ G1' G2').
        - rewrite <- app_assoc, firstn_skipn. rewrite E1, <- !app_assoc in O1. apply (sorted_suffix (c ++ a)). rewrite <- app_assoc. exact O1.
        - rewrite <- app_assoc, firstn_skipn. rewrite E2, <- !app_assoc in O2. apply (sorted_suffix (c ++ b)). rewrite <- app_assoc. exact O2.
        - rewrite <- !app_assoc, !firstn_skipn. rewrite E1, E2 in Hf. rewrite !app_length in *.
          assert (length c + length a + length b > 0)%nat; [|lia].
          destruct Hr as [(-> & -> & _)|(x1 & y1 & r1' & r2' & -> & -> & I1 & I2 & Hd)].
          + rewrite app_nil_r in E1. destruct c, a; cbn; try lia. discriminate.
          + destruct c; [|cbn; lia]. destruct a; [|cbn; lia]. destruct b; [|cbn; lia]. exfalso. cbn [app] in E1, E2. apply Hd; auto.
            rewrite E1 in O1. rewrite E2 in O2. apply (no_crossing x1 (r1' ++ l1) y1 (r2' ++ l2)); try assumption.
            * change (In x1 ((y1 :: r2') ++ l2)). apply in_or_app. left. exact I1.
            * change (In y1 ((x1 :: r1') ++ l1)). apply in_or_app. left. exact I2. }
      destruct (compare fuel _ _ t1 t2) as [[[[[o w1] w2] u1] u2]|]; [discriminate|congruence].
    Qed.

    Lemma diff_step fuel s1 s2 l1 l2 : gives get1 s1 l1 -> gives get2 s2 l2 -> l1 <> [] \/ l2 <> [] ->
      exists s1' s2', 
        (exists x, l1 = x :: tl l1 /\ l2 = x :: tl l2 /\ gives get1 s1' (tl l1) /\ gives get2 s2' (tl l2) /\ diff (S fuel) s1 s2 = diff fuel s1' s2') \/
        (hd [] l1 <> hd [] l2 /\ exists v1 v2 r1 r2 : list bytes, v1 = hd [] l1 :: firstn 1023 (tl l1) /\ v2 = hd [] l2 :: firstn 1023 (tl l2) /\
          r1 = skipn 1023 (tl l1) /\ r2 = skipn 1023 (tl l2) /\ v1 ++ r1 = hd [] l1 :: tl l1 /\ v2 ++ r2 = hd [] l2 :: tl l2 /\ gives get1 s1' r1 /\ gives get2 s2' r2 /\
          diff (S fuel) s1 s2 = match compare (S fuel) v1 v2 s1' s2' with
                                | None => None
                                | Some (out, _, _, s1, s2) => option_map (app out) (diff fuel s1 s2)
                                end).
    Proof.
      intros G1 G2 Hn. destruct (diff_round get1 get2 fuel s1 s2 l1 l2 G1 G2) as (t1 & t2 & HR).
      assert (HR' : if same_line (hd [] l1) (hd [] l2)
          then gives get1 t1 (tl l1) /\ gives get2 t2 (tl l2) /\ diff (S fuel) s1 s2 = diff fuel t1 t2
          else let v1 := hd [] l1 :: firstn 1023 (tl l1) in let v2 := hd [] l2 :: firstn 1023 (tl l2) in
               gives get1 t1 (skipn 1023 (tl l1)) /\ gives get2 t2 (skipn 1023 (tl l2)) /\
               diff (S fuel) s1 s2 =
                 match compare (S fuel) v1 v2 t1 t2 with
                 | None => None
                 | Some (out, _, _, s1, s2) => option_map (app out) (diff fuel s1 s2)
                 end) by (destruct l1, l2; [destruct Hn; congruence|exact HR..]). clear HR. exists t1, t2.
      pose proof (proj1 G1) as N1. pose proof (proj1 G2) as N2.
      destruct (same_line (hd [] l1) (hd [] l2)) eqn:Es.
      - left. apply same_line_iff in Es. destruct HR' as (K1 & K2 & E). destruct l1 as [|x l1], l2 as [|y l2]; cbn [hd tl] in *.
        + destruct Hn; congruence.
        + inversion N2; congruence.
        + inversion N1; congruence.
        + subst. exists y. split; [reflexivity|]. split; [reflexivity|]. split; [exact K1|]. split; [exact K2|exact E].
      - right. cbv zeta in HR'. destruct HR' as (K1 & K2 & E). split; [intros E2; apply same_line_iff in E2; congruence|].
        eexists _, _, _, _. do 4 (split; [reflexivity|]). rewrite <- !app_comm_cons, !firstn_skipn. do 2 (split; [reflexivity|]). split; [exact K1|]. split; [exact K2|exact E].
    Qed.

    Lemma sorted_tl l : StronglySorted below l -> StronglySorted below (tl l).
    Proof. destruct 1; [constructor|assumption]. Qed.
    Lemma sorted_hd l : StronglySorted below l -> StronglySorted below (hd [] l :: tl l).
    Proof. destruct l; [intros _; repeat constructor|auto]. Qed.

    Lemma diff_ends fuel : forall s1 s2 l1 l2, gives get1 s1 l1 -> gives get2 s2 l2 ->
      StronglySorted below l1 -> StronglySorted below l2 -> (length l1 + length l2 < fuel)%nat -> diff fuel s1 s2 <> None.
    Proof.
      induction fuel as [|fuel IH]; intros s1 s2 l1 l2 G1 G2 O1 O2 Hf; [lia|].
      assert (Hd : (l1 = [] /\ l2 = []) \/ (l1 <> [] \/ l2 <> [])) by (destruct l1, l2; [left; auto|right; right; discriminate|right; left; discriminate|right; left; discriminate]).
      destruct Hd as [(-> & ->)|Hd].
      { destruct (diff_round get1 get2 fuel s1 s2 [] [] G1 G2) as (t1 & t2 & E). rewrite E. discriminate. }
      destruct (diff_step fuel s1 s2 l1 l2 G1 G2 Hd) as (t1 & t2 & [(x & E1 & E2 & K1 & K2 & E)|(Hne & v1 & v2 & r1 & r2 & Ev1 & Ev2 & _ & _ & F1 & F2 & K1 & K2 & E)]); rewrite E.
      - apply (IH _ _ _ _ K1 K2); [apply sorted_tl; exact O1|apply sorted_tl; exact O2|]. rewrite E1, E2 in Hf. cbn [length] in Hf. lia.
      - assert (Hlen : (length (v1 ++ r1) + length (v2 ++ r2) <= S fuel)%nat).
        { rewrite F1, F2. clear - Hf Hd. unfold bytes in *. destruct l1, l2; cbn [tl length] in *; try lia. destruct Hd; congruence. }
        assert (HC := compare_ends (S fuel) v1 v2 t1 t2 r1 r2 K1 K2 ltac:(rewrite F1; apply sorted_hd; exact O1) ltac:(rewrite F2; apply sorted_hd; exact O2) Hlen).
        assert (V1 : v1 <> []) by (intros X; rewrite Ev1 in X; discriminate X). assert (V2 : v2 <> []) by (intros X; rewrite Ev2 in X; discriminate X).
        assert (L1 : (0 < length v1)%nat) by (destruct v1; [congruence|cbn [length]; lia]). assert (L2 : (0 < length v2)%nat) by (destruct v2; [congruence|cbn [length]; lia]). clear Ev1 Ev2.
        destruct (compare (S fuel) v1 v2 t1 t2) as [[[[[o w1] w2] u1] u2]|] eqn:EC; [|congruence].
        destruct (compare_edit get1 get2 _ _ _ _ _ _ _ _ _ _ _ _ K1 K2 (or_introl (conj V1 V2)) EC)
          as (_ & _ & a & b & l1' & l2' & A1 & A2 & M1 & M2 & _ & La & Lb).
        assert (HD : diff fuel u1 u2 <> None); [|destruct (diff fuel u1 u2); [discriminate|congruence]].
        assert (La' : (0 < length a)%nat) by lia. assert (Lb' : (0 < length b)%nat) by lia.
        rewrite F1 in A1. rewrite F2 in A2. destruct a as [|a0 a]; [cbn in La'; lia|]. destruct b as [|b0 b]; [cbn in Lb'; lia|]. cbn [app] in A1, A2.
        injection A1 as _ A1. injection A2 as _ A2.
        apply (IH _ _ _ _ M1 M2).
        + apply (sorted_suffix a). rewrite <- A1. apply sorted_tl. exact O1.
        + apply (sorted_suffix b). rewrite <- A2. apply sorted_tl. exact O2.
        + apply (f_equal (@length _)) in A1, A2. rewrite app_length in A1, A2. clear - A1 A2 Hf Hd. unfold bytes in *. destruct l1, l2; cbn [tl length] in *; try lia. destruct Hd; congruence.
    Qed.
  End Diff.
End Order.

Section Exact.
  Context {S1 S2 : Type} (get1 : S1 -> bytes * S1) (get2 : S2 -> bytes * S2).
  Notation compare := (compare_lists get1 get2).
  Notation diff := (dump_diff get1 get2).

  Definition exactly (v1 v2 : list bytes) (out : list printed) : Prop :=
    forall x, (In (Left x) out <-> In x v1 /\ ~ In x v2) /\ (In (Right x) out <-> In x v2 /\ ~ In x v1).
  Lemma in_lefts x a : In (Left x) (map Left a) <-> In x a.
  Proof. rewrite in_map_iff. split; [intros (y & E & H); inversion E; subst; exact H|eauto]. Qed.
  Lemma in_rights x a : In (Right x) (map Right a) <-> In x a.
  Proof. rewrite in_map_iff. split; [intros (y & E & H); inversion E; subst; exact H|eauto]. Qed.
  Lemma not_lefts x a : ~ In (Right x) (map Left a).
  Proof. rewrite in_map_iff. intros (y & E & _). discriminate. Qed.
  Lemma not_rights x a : ~ In (Left x) (map Right a).
  Proof. rewrite in_map_iff. intros (y & E & _). discriminate. Qed.

  Lemma nodup_parts {X} (a b : list X) : NoDup (a ++ b) -> NoDup b /\ forall x, In x a -> ~ In x b.
  Proof.
    induction a as [|y a IH]; [intros H; split; [exact H|intros x []]|]. cbn [app]. intros H. inversion H as [|? ? Hn Hd]; subst. destruct (IH Hd) as (H1 & H2). split; [exact H1|].
    intros x [->|Hx]; [intros Hb; apply Hn, in_or_app; right; exact Hb|apply H2; exact Hx].
  Qed.

  Lemma round_exact c a b r1 r2 out : NoDup (c ++ a ++ r1) -> NoDup (c ++ b ++ r2) -> (forall x, In x a -> ~ In x (b ++ r2)) -> (forall x, In x b -> ~ In x r1) ->
    exactly r1 r2 out -> exactly (c ++ a ++ r1) (c ++ b ++ r2) (map Left a ++ map Right b ++ out).
  Proof.
    intros H1 H2 Ha Hb He x. destruct (nodup_parts _ _ H1) as (D1 & P1). destruct (nodup_parts _ _ H2) as (D2 & P2). destruct (nodup_parts _ _ D1) as (_ & Q1). destruct (nodup_parts _ _ D2) as (_ & Q2).
    specialize (He x). specialize (Ha x). specialize (Hb x). specialize (P1 x). specialize (P2 x). specialize (Q1 x). specialize (Q2 x).
    pose proof (not_lefts x a). pose proof (not_rights x b). rewrite !in_app_iff, in_lefts, in_rights in *. tauto.
  Qed.

  Lemma compare_exact fuel : forall v1 v2 s1 s2 out w1 w2 u1 u2, gives get1 s1 [] -> gives get2 s2 [] -> NoDup v1 -> NoDup v2 ->
    v1 <> [] /\ v2 <> [] \/ v1 = [] /\ v2 = [] ->
    compare fuel v1 v2 s1 s2 = Some (out, w1, w2, u1, u2) -> exactly v1 v2 out.
  Proof.
    induction fuel as [|fuel IH]; intros v1 v2 s1 s2 out w1 w2 u1 u2 G1 G2 D1 D2 Hv H.
    - destruct Hv as [(N1 & N2)|(-> & ->)]; [destruct v1, v2; try congruence; discriminate|]. cbn in H. inversion H; subst. intros x. cbn. tauto.
    - destruct Hv as [(N1 & N2)|(-> & ->)]; [|cbn in H; inversion H; subst; intros x; cbn; tauto]. destruct v1 as [|x v1], v2 as [|y v2]; try congruence.
      destruct (compare_round get1 get2 fuel x v1 y v2 s1 s2 [] [] G1 G2) as (c & a & b & r1 & r2 & n & m & t1 & t2 & G1' & G2' & E1 & E2 & Ha & Hb & Hr & E).
      rewrite E in H. rewrite !firstn_nil, !app_nil_r, !skipn_nil in *. destruct (compare fuel r1 r2 t1 t2) as [[[[[o z1] z2] q1] q2]|] eqn:EC; [|discriminate]. inversion H; subst.
      rewrite E1, E2 in *. apply round_exact; auto. destruct (nodup_parts _ _ D1) as (D1' & _). destruct (nodup_parts _ _ D2) as (D2' & _).
      apply (IH _ _ _ _ _ _ _ _ _ G1' G2' (proj1 (nodup_parts _ _ D1')) (proj1 (nodup_parts _ _ D2'))) in EC; [exact EC|].
      destruct Hr as [(-> & -> & _)|(x1 & y1 & r1' & r2' & -> & -> & _)]; [right; auto|left; split; discriminate].
  Qed.

  Lemma diff_exact fuel : forall s1 s2 l1 l2 out, gives get1 s1 l1 -> gives get2 s2 l2 -> NoDup l1 -> NoDup l2 -> (length l1 <= 1024)%nat -> (length l2 <= 1024)%nat ->
    diff fuel s1 s2 = Some out ->
    forall x, x <> [] -> (In (Left x) out <-> In x l1 /\ ~ In x l2) /\ (In (Right x) out <-> In x l2 /\ ~ In x l1).
  Proof.
    induction fuel as [|fuel IH]; intros s1 s2 l1 l2 out G1 G2 D1 D2 B1 B2 H x Hx; [discriminate|].
    assert (Hd : (l1 = [] /\ l2 = []) \/ (l1 <> [] \/ l2 <> [])) by (destruct l1, l2; [left; auto|right; right; discriminate|right; left; discriminate|right; left; discriminate]).
    destruct Hd as [(-> & ->)|Hd].
    { destruct (diff_round get1 get2 fuel s1 s2 [] [] G1 G2) as (t1 & t2 & E). rewrite E in H. inversion H; subst. cbn. tauto. }
    destruct (diff_step get1 get2 fuel s1 s2 l1 l2 G1 G2 Hd) as (t1 & t2 & [(z & E1 & E2 & K1 & K2 & E)|(Hne & v1 & v2 & r1 & r2 & Ev1 & Ev2 & Er1 & Er2 & F1 & F2 & K1 & K2 & E)]); rewrite E in H.
    - rewrite E1 in D1, B1. rewrite E2 in D2, B2. inversion D1; subst. inversion D2; subst. cbn [length] in B1, B2.
      specialize (IH _ _ _ _ _ K1 K2 ltac:(assumption) ltac:(assumption) ltac:(lia) ltac:(lia) H x Hx). rewrite E1, E2. cbn [In].
      assert (z = x -> ~ In x (tl l1) /\ ~ In x (tl l2)) by (intros ->; auto). tauto.
    - assert (Hr1 : r1 = []) by (subst r1; apply skipn_all2; destruct l1; cbn [tl length] in *; lia). assert (Hr2 : r2 = []) by (subst r2; apply skipn_all2; destruct l2; cbn [tl length] in *; lia).
      clear Er1 Er2. subst r1 r2. rewrite app_nil_r in F1, F2.
      assert (V1' : v1 <> []) by (intros X; rewrite Ev1 in X; discriminate X). assert (V2' : v2 <> []) by (intros X; rewrite Ev2 in X; discriminate X). clear Ev1 Ev2.
      pose proof (or_introl (conj V1' V2') : v1 <> [] /\ v2 <> [] \/ v1 = [] /\ v2 = []) as Hv.
      destruct (compare (S fuel) v1 v2 t1 t2) as [[[[[o w1] w2] u1] u2]|] eqn:EC; [|discriminate].
      destruct (compare_edit get1 get2 _ _ _ _ _ _ _ _ _ _ _ _ K1 K2 Hv EC) as (_ & _ & a & b & l1' & l2' & A1 & A2 & M1 & M2 & _ & La & Lb).
      assert (El : l1' = []) by (apply (f_equal (@length _)) in A1; rewrite !app_length in A1; cbn [length] in A1; destruct l1'; [reflexivity|cbn [length] in A1; lia]).
      assert (El2 : l2' = []) by (apply (f_equal (@length _)) in A2; rewrite !app_length in A2; cbn [length] in A2; destruct l2'; [reflexivity|cbn [length] in A2; lia]).
      subst l1' l2'. destruct (diff fuel u1 u2) as [o2|] eqn:ED; [|discriminate]. cbn in H. inversion H; subst out.
      assert (Eo2 : o2 = []). { destruct fuel as [|fuel]; [discriminate|]. destruct (diff_round get1 get2 fuel u1 u2 [] [] M1 M2) as (p1 & p2 & E'). rewrite E' in ED. congruence. }
      subst o2. rewrite app_nil_r.
      assert (V1 : NoDup v1) by (rewrite F1; destruct l1; [repeat constructor; intros []|exact D1]).
      assert (V2 : NoDup v2) by (rewrite F2; destruct l2; [repeat constructor; intros []|exact D2]).
      pose proof (compare_exact _ _ _ _ _ _ _ _ _ _ K1 K2 V1 V2 Hv EC x) as HX.
      assert (I1 : In x v1 <-> In x l1) by (rewrite F1; destruct l1; cbn [hd tl In]; [split; [intros [Ex|[]]; congruence|intros []]|reflexivity]).
      assert (I2 : In x v2 <-> In x l2) by (rewrite F2; destruct l2; cbn [hd tl In]; [split; [intros [Ex|[]]; congruence|intros []]|reflexivity]).
      tauto.
  Qed.
End Exact.
