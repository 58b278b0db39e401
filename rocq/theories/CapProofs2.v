(** * CapProofs2: the value of [Get], and [Set]. *)
From Verif Require Import Base SerialProofs CharTables CapScheme CapSpec CapProofs.
Local Open Scope N_scope.

Lemma lor_split a b k : a < 2 ^ k -> N.lor a (b * 2 ^ k) = a + b * 2 ^ k.
Proof. intros Ha. pose proof (lor_shift_add a b k Ha) as H. rewrite N.shiftl_mul_pow2 in H. exact H. Qed.

Section P.
  Variable cs : casing.
  Notation dlm c := (ctype cs c =? 2).
  Notation parts := (parts cs).
  Notation good_char := (good_char cs).

  Lemma parts_all_nodelim w : Forall (nodelim cs) (parts w).
  Proof.
    pattern w. apply (parts_ind cs).
    - intros p Hp. rewrite parts_nodelim by assumption. repeat constructor; assumption.
    - intros p d w' Hp Hd IH. rewrite parts_app by assumption. constructor; assumption.
  Qed.

  Lemma count_parts_length w : count_parts cs w = length (parts w).
  Proof.
    induction w as [|c w IH]; [reflexivity|]. cbn. destruct (dlm c); cbn; [congruence|].
    rewrite IH. destruct (parts w) eqn:E; [exfalso; apply (parts_nonnil cs w); assumption|reflexivity].
  Qed.

  Lemma shifted_le ps : shifted ps <= N.of_nat (length ps).
  Proof. induction ps as [|p ps IH]; [cbn; lia|]. cbn [shifted]. destruct p, ps; cbn [length] in *; lia. Qed.

  Lemma parts_are_class ps cls : parts_are cs ps cls -> Forall (fun c => c < 3) cls.
  Proof.
    induction 1 as [|p c H|p c ps cls H _ IH]; repeat constructor; auto; inversion H; lia.
  Qed.
  Lemma parts_are_length ps cls : parts_are cs ps cls -> length ps = length cls.
  Proof. induction 1; cbn; auto. Qed.

  Lemma pack_lt cls : Forall (fun c => c < 3) cls -> pack cls < 4 ^ N.of_nat (length cls).
  Proof.
    induction 1 as [|c cls Hc H IH]; [reflexivity|]. cbn [pack length].
    rewrite Nnat.Nat2N.inj_succ, N.pow_succ_r'. lia.
  Qed.

  Lemma valids_classes ps : ps <> [] -> Forall (nodelim cs) ps -> valids cs ps = true <-> exists cls, parts_are cs ps cls.
  Proof.
    intros Hn Hd. induction Hd as [|p ps Hp Hps IH]; [congruence|].
    destruct ps as [|q ps].
    - destruct p as [|c p].
      + split; [intros _; exists [0]; constructor|reflexivity].
      + cbn [valids]. rewrite andb_true_r. split.
        * intros H. exists [fin cs (c :: p) - 1]. apply parts_last. apply fin_part_is; [assumption|]. intros E. rewrite E in H. discriminate.
        * intros [cls H]. inversion H as [|? cl Hc|? ? ? ? ? Hf]; subst; [|inversion Hf].
          destruct (part_is_fin cs _ _ Hp Hc) as [-> Hlt]. destruct (N.eqb_spec (cl + 1) 5); [lia|reflexivity].
    - rewrite valids_cons by discriminate. rewrite andb_true_iff, IH by discriminate. split.
      + intros [H [cls Hc]]. exists (fin cs p - 1 :: cls). apply parts_more; [|assumption]. apply fin_part_is; [assumption|].
        intros E. rewrite E in H. discriminate.
      + intros [cls H]. inversion H as [|? cl Hc|? cl ? cls' Hc Hrest]; subst. split; [|eauto].
        destruct (part_is_fin cs _ _ Hp Hc) as [-> Hlt]. destruct (N.eqb_spec (cl + 1) 5); [lia|reflexivity].
  Qed.

  Lemma schs_pack ps cls : parts_are cs ps cls -> Forall (nodelim cs) ps -> forall i, i + N.of_nat (length ps) <= 16 ->
    schs cs i ps = pack cls * 2 ^ (2 * i).
  Proof.
    assert (Hone : forall c i, c < 3 -> i < 16 -> N.shiftl c (2 * i) mod 2 ^ 32 = c * 2 ^ (2 * i)).
    { intros c i Hc Hi. rewrite N.shiftl_mul_pow2, N.mod_small; [reflexivity|].
      assert (2 ^ (2 * i) <= 2 ^ 30) by (apply N.pow_le_mono_r; lia). change (2 ^ 32) with (4 * 2 ^ 30). nia. }
    induction 1 as [|p c H|p c ps cls H Hps IH]; intros Hd i Hi.
    - reflexivity.
    - inversion Hd; subst. destruct (part_is_fin cs p c) as [Hf Hlt]; [assumption|assumption|].
      cbn [pack length] in *. assert (Hp : p <> []) by (inversion H; congruence).
      destruct p as [|x p]; [congruence|]. cbn [schs]. rewrite N.lor_0_r, Hf.
      replace (c + 1 - 1) with c by lia. rewrite Hone by lia. lia.
    - inversion Hd; subst. destruct (part_is_fin cs p c) as [Hf Hlt]; [assumption|assumption|].
      rewrite schs_cons by (inversion Hps; discriminate). cbn [length pack] in *. rewrite Hf, IH by (auto; lia).
      replace (c + 1 - 1) with c by lia. rewrite Hone by lia.
      replace (2 * (i + 1)) with (2 * i + 2) by lia. rewrite N.pow_add_r. change (2 ^ 2) with 4.
      replace (pack cls * (2 ^ (2 * i) * 4)) with (pack cls * 2 ^ (2 * i + 2)) by (rewrite N.pow_add_r; change (2 ^ 2) with 4; lia).
      rewrite lor_split; [rewrite N.pow_add_r; change (2 ^ 2) with 4; lia|].
      rewrite N.pow_add_r. change (2 ^ 2) with 4. nia.
  Qed.

  Lemma answer_sum len n s v : len < 2 ^ 16 -> n < 2 ^ 8 -> (if v : bool then s else 255) < 2 ^ 8 ->
    answer len n s v = len * 65536 + n * 256 + (if v then s else 255).
  Proof.
    intros Hl Hn Hs. unfold answer. rewrite !N.shiftl_mul_pow2. rewrite !N.mod_small by lia.
    rewrite (N.lor_comm (len * 2 ^ 16)), (lor_split (n * 2 ^ 8)) by lia.
    replace (n * 2 ^ 8 + len * 2 ^ 16) with ((n + len * 2 ^ 8) * 2 ^ 8) by lia.
    rewrite N.lor_comm, lor_split by assumption. lia.
  Qed.

  Hypothesis Hdlm : forall d, d < 256 -> is_delim cs d -> locase cs d = d.
  Lemma Hdlm' : forall d, dlm d = true -> d < 256 -> locase cs d = d.
  Proof. intros d H Hl. apply Hdlm; [assumption|]. unfold is_delim. apply N.eqb_eq. assumption. Qed.

  Lemma cap_get_eq w outlen : is_bytes w -> (length w < outlen)%nat -> (length (parts w) <= 16)%nat ->
    cap_get cs outlen w = Ok (answer (N.of_nat (length w)) (N.of_nat (length (parts w)))
                                     (schs cs 0 (parts w)) (valids cs (parts w)), map (locase cs) w ++ [0]).
  Proof.
    intros Hb Hl Hp. unfold cap_get. rewrite (get_loop_eq cs Hdlm') by (auto; pose proof (shifted_le (parts w)); lia).
    reflexivity.
  Qed.

  (** the class of a word of up to four parts *)
  Lemma cap_get_class w outlen cls : is_bytes w -> (length w < outlen)%nat -> N.of_nat outlen <= 2 ^ 16 ->
    (length (parts w) <= 4)%nat -> parts_are cs (parts w) cls ->
    cap_get cs outlen w = Ok (N.of_nat (length w) * 65536 + N.of_nat (length (parts w)) * 256 + pack cls,
                              map (locase cs) w ++ [0]).
  Proof.
    intros Hb Hl Ho Hp Hc. rewrite cap_get_eq by (auto; lia).
    assert (Hv : valids cs (parts w) = true) by (apply valids_classes; [apply parts_nonnil|apply parts_all_nodelim|eauto]).
    rewrite Hv, (schs_pack _ _ Hc) by (auto using parts_all_nodelim; lia).
    change (2 ^ (2 * 0)) with 1. rewrite N.mul_1_r. rewrite answer_sum; [reflexivity|lia|lia|].
    pose proof (pack_lt cls (parts_are_class _ _ Hc)) as Hk. rewrite <- (parts_are_length _ _ Hc) in Hk.
    assert (4 ^ N.of_nat (length (parts w)) <= 4 ^ 4) by (apply N.pow_le_mono_r; lia). change (4 ^ 4) with 256 in *. lia.
  Qed.

  Lemma cap_get_invalid w outlen : is_bytes w -> (length w < outlen)%nat -> N.of_nat outlen <= 2 ^ 16 ->
    (length (parts w) <= 16)%nat -> (forall cls, ~ parts_are cs (parts w) cls) ->
    cap_get cs outlen w = Ok (N.of_nat (length w) * 65536 + N.of_nat (length (parts w)) * 256 + 255,
                              map (locase cs) w ++ [0]).
  Proof.
    intros Hb Hl Ho Hp Hc. rewrite cap_get_eq by (auto; lia).
    destruct (valids cs (parts w)) eqn:Hv.
    - exfalso. apply valids_classes in Hv; [|apply parts_nonnil|apply parts_all_nodelim]. destruct Hv as [cls Hv]. eapply Hc, Hv.
    - rewrite answer_sum; [reflexivity|lia|lia|reflexivity].
  Qed.

  (** the reported length, up to eight parts *)
  Lemma cap_get_length w outlen : is_bytes w -> (length w < outlen)%nat -> N.of_nat outlen <= 2 ^ 16 ->
    (length (parts w) <= 8)%nat ->
    exists v, cap_get cs outlen w = Ok (v, map (locase cs) w ++ [0]) /\ N.shiftr v 16 = N.of_nat (length w).
  Proof.
    intros Hb Hl Ho Hp. rewrite cap_get_eq by (auto; lia). eexists. split; [reflexivity|].
    assert (Hs : (if valids cs (parts w) then schs cs 0 (parts w) else 255) < 2 ^ 16).
    { destruct (valids cs (parts w)) eqn:Hv; [|reflexivity].
      apply valids_classes in Hv; [|apply parts_nonnil|apply parts_all_nodelim]. destruct Hv as [cls Hv].
      rewrite (schs_pack _ _ Hv) by (auto using parts_all_nodelim; lia). change (2 ^ (2 * 0)) with 1. rewrite N.mul_1_r.
      pose proof (pack_lt cls (parts_are_class _ _ Hv)) as Hk. rewrite <- (parts_are_length _ _ Hv) in Hk.
      assert (4 ^ N.of_nat (length (parts w)) <= 4 ^ 8) by (apply N.pow_le_mono_r; lia). change (4 ^ 8) with (2 ^ 16) in *. lia. }
    unfold answer. rewrite !N.shiftr_lor. rewrite !N.shiftl_mul_pow2, !N.mod_small by lia.
    rewrite !N.shiftr_div_pow2. rewrite N.div_mul by lia.
    rewrite (N.div_small (N.of_nat (length (parts w)) * 2 ^ 8)) by lia. rewrite (N.div_small _ _ Hs). rewrite !N.lor_0_r. reflexivity.
  Qed.

  (** words of four parts or more have no acceptable scheme *)
  Lemma many_parts_rejected w outlen v out min : is_bytes w -> (length w < outlen)%nat ->
    (4 <= length (parts w) <= 16)%nat ->
    cap_get cs outlen w = Ok (v, out) -> IsGoodSheme (v mod 2 ^ 16) min = false.
  Proof.
    intros Hb Hl Hp. rewrite cap_get_eq by (auto; lia). intros [= <- _].
    set (x := if valids cs (parts w) then schs cs 0 (parts w) else 255).
    assert (Hbig : 1024 <= answer (N.of_nat (length w)) (N.of_nat (length (parts w))) (schs cs 0 (parts w)) (valids cs (parts w)) mod 2 ^ 16).
    { unfold answer. fold x. rewrite <- N.land_ones, !N.land_lor_distr_l.
      set (a := N.land (N.shiftl (N.of_nat (length w)) 16 mod 2 ^ 32) (N.ones 16)).
      set (b := N.land x (N.ones 16)).
      replace (N.land (N.shiftl (N.of_nat (length (parts w))) 8 mod 2 ^ 32) (N.ones 16)) with (N.of_nat (length (parts w)) * 2 ^ 8)
        by (rewrite N.land_ones, N.shiftl_mul_pow2, !N.mod_small by lia; reflexivity).
      assert (Hge : forall p q, p <= N.lor q p).
      { intros p q.
        replace (N.lor q p) with (p + N.ldiff q p); [lia|].
        rewrite N.add_nocarry_lxor, N.lxor_lor.
        - apply N.bits_inj. intros n. rewrite !N.lor_spec, N.ldiff_spec. destruct (N.testbit p n), (N.testbit q n); reflexivity.
        - apply N.bits_inj_0. intros n. rewrite N.land_spec, N.ldiff_spec. destruct (N.testbit p n), (N.testbit q n); reflexivity.
        - apply N.bits_inj_0. intros n. rewrite N.land_spec, N.ldiff_spec. destruct (N.testbit p n), (N.testbit q n); reflexivity. }
      pose proof (Hge (N.of_nat (length (parts w)) * 2 ^ 8) a).
      pose proof (Hge (N.lor a (N.of_nat (length (parts w)) * 2 ^ 8)) b). rewrite (N.lor_comm _ b). lia. }
    revert Hbig. generalize (answer (N.of_nat (length w)) (N.of_nat (length (parts w))) (schs cs 0 (parts w)) (valids cs (parts w)) mod 2 ^ 16).
    intros s Hs. unfold IsGoodSheme, IsGoodShemeMin0, IsGoodShemeMin1, IsGoodShemeMin2.
    repeat match goal with |- context [s =? ?k] => replace (s =? k) with false by (symmetry; apply N.eqb_neq; lia) end.
    destruct (min =? 2), (min =? 1), (min =? 0); reflexivity.
  Qed.

  (** ** Set *)
  Fixpoint recap (s : N) (p : bytes) : bytes :=
    match p with [] => [] | c :: p' => (if s =? 0 then c else upcase cs c) :: recap (N.land s (2 ^ 32 - 2)) p' end.

  Inductive recased : N -> bytes -> bytes -> Prop :=
  | recased_last sch p : nodelim cs p -> recased sch p (recap (N.land sch 3) p)
  | recased_more sch p d w w' : nodelim cs p -> dlm d = true -> recased (N.shiftr sch 2) w w' ->
      recased sch (p ++ d :: w) (recap (N.land sch 3) p ++ d :: w').

  Lemma set_part_eq p d rest : forall s, nodelim cs p -> ~ In 0 p -> (d = 0 \/ dlm d = true) ->
    set_part cs (p ++ d :: rest) s = Ok (recap s p, d :: rest).
  Proof.
    induction p as [|c p IH]; intros s Hp H0 Hd; cbn [app set_part recap].
    - replace ((d =? 0) || dlm d) with true; [reflexivity|]. symmetry. apply orb_true_iff. destruct Hd as [->|Hd]; [left; reflexivity|right; assumption].
    - inversion Hp as [|? ? Hc Hp']; subst.
      replace ((c =? 0) || dlm c) with false.
      + rewrite IH; [reflexivity|assumption|intros Hi; apply H0; right; assumption|assumption].
      + rewrite Hc. symmetry. rewrite orb_false_r. apply N.eqb_neq. intros ->. apply H0. left; reflexivity.
  Qed.

  Hypothesis Hnul : is_delim cs 0.

  Lemma set_loop_recased w : ~ In 0 w -> forall sch tail,
    exists w', recased sch w w' /\ set_loop cs (length (parts w)) (w ++ 0 :: tail) sch = Ok (w' ++ 0 :: tail).
  Proof.
    pattern w. apply (parts_ind cs); clear w.
    - intros p Hp H0 sch tail. exists (recap (N.land sch 3) p). split; [constructor; assumption|].
      rewrite parts_nodelim by assumption. cbn [length set_loop].
      destruct p as [|c p]; [reflexivity|]. cbn [app].
      replace (c =? 0) with false by (symmetry; apply N.eqb_neq; intros ->; apply H0; left; reflexivity).
      change (c :: p ++ 0 :: tail) with ((c :: p) ++ 0 :: tail). rewrite set_part_eq by auto. cbn [bind rd].
      rewrite Hnul. cbn [N.eqb]. change (Pos.eqb 2 2) with true. cbn [bind set_loop]. reflexivity.
    - intros p d w Hp Hd IH H0 sch tail.
      destruct (IH (fun Hi => H0 (in_or_app p (d :: w) 0 (or_intror (or_intror Hi)))) (N.shiftr sch 2) tail) as (w' & Hw & E).
      exists (recap (N.land sch 3) p ++ d :: w'). split; [constructor; assumption|].
      rewrite parts_app by assumption. cbn [length set_loop]. rewrite <- !app_assoc. cbn [app].
      assert (Hd0 : d <> 0) by (intros ->; apply H0, in_or_app; right; left; reflexivity).
      assert (Hne : exists x y, p ++ d :: w ++ 0 :: tail = x :: y /\ x <> 0).
      { destruct p as [|x p]; cbn; do 2 eexists; (split; [reflexivity|]); [assumption|]. intros ->. apply H0. left; reflexivity. }
      destruct Hne as (x & y & Hxy & Hx). rewrite Hxy. replace (x =? 0) with false by (symmetry; apply N.eqb_neq; assumption).
      rewrite <- Hxy. rewrite set_part_eq; [|assumption|intros Hi; apply H0, in_or_app; left; assumption|right; assumption].
      cbn [bind rd]. rewrite Hd. rewrite E. cbn [bind]. reflexivity.
  Qed.

  Hypothesis Hup : forall c, c < 256 -> is_regular cs c -> locase cs c = c -> locase cs (upcase cs c) = c.
  Hypothesis Hrange : forall c, c < 256 -> upcase cs c < 256.

  Lemma good_part p : nodelim cs p -> Forall good_char p -> Forall (letter cs) p.
  Proof.
    intros Hp Hg. rewrite Forall_forall in *. intros c Hin. unfold nodelim in Hp. rewrite Forall_forall in Hp.
    destruct (Hg c Hin) as [H|(_ & H & _)]; [assumption|]. specialize (Hp c Hin). unfold is_delim in H. rewrite H in Hp. discriminate.
  Qed.

  Lemma letter_nodelim p : Forall (letter cs) p -> nodelim cs p.
  Proof. unfold nodelim. apply Forall_impl. intros c (_ & Hr & _). unfold is_regular in Hr. rewrite Hr. reflexivity. Qed.

  Lemma recap_nodelim p : Forall (letter cs) p -> forall s, nodelim cs (recap s p) /\ is_bytes (recap s p) /\
    map (locase cs) (recap s p) = p /\ length (recap s p) = length p.
  Proof.
    induction 1 as [|c p Hc Hp IH]; intros s; [repeat split; constructor|]. cbn [recap map length].
    destruct Hc as (Hb & Hr & Hl & Hu). destruct (IH (N.land s (2 ^ 32 - 2))) as (H1 & H2 & H3 & H4). rewrite H3, H4.
    unfold is_regular, is_capital in *.
    destruct (s =? 0).
    - repeat split; [constructor; [rewrite Hr; reflexivity|assumption]|constructor; assumption|congruence].
    - repeat split; [constructor; [rewrite Hu; reflexivity|assumption]|constructor; auto|rewrite Hup by assumption; reflexivity].
  Qed.

  Lemma recap_0 p : recap 0 p = p.
  Proof. induction p as [|c p IH]; [reflexivity|]. cbn. f_equal. exact IH. Qed.
  Lemma recap_2 p : recap 2 p = map (upcase cs) p.
  Proof. induction p as [|c p IH]; [reflexivity|]. cbn [recap map]. change (2 =? 0) with false. cbn iota. f_equal. exact IH. Qed.
  Lemma recap_1 c p : recap 1 (c :: p) = upcase cs c :: p.
  Proof. cbn [recap]. change (1 =? 0) with false. cbn iota. change (N.land 1 (2 ^ 32 - 2)) with 0. rewrite recap_0. reflexivity. Qed.

  Lemma recap_class s p : Forall (letter cs) p -> p <> [] -> s <= 2 -> (s = 1 -> (2 <= length p)%nat) -> part_is cs (recap s p) s.
  Proof.
    clear Hdlm Hnul Hup Hrange. intros Hp Hn Hs H1. assert (Hcase : s = 0 \/ s = 1 \/ s = 2) by lia. destruct Hcase as [->|[->| ->]].
    - rewrite recap_0. apply part_small; [assumption|]. eapply Forall_impl; [|exact Hp]. intros ? (? & ? & ?); assumption.
    - destruct p as [|c [|d p]]; [congruence|cbn in H1; lia|]. rewrite recap_1. inversion Hp as [|? ? Hc Hp']; subst.
      apply part_first; [apply Hc|discriminate|]. eapply Forall_impl; [|exact Hp']. intros ? (? & ? & ?); assumption.
    - rewrite recap_2. apply part_caps; [destruct p; [congruence|discriminate]|]. rewrite Forall_map.
      eapply Forall_impl; [|exact Hp]. intros ? (? & ? & ? & ?); assumption.
  Qed.
  Lemma recap_single c : letter cs c -> part_is cs (recap 1 [c]) 2.
  Proof. intros Hc. rewrite recap_1. apply part_caps; [discriminate|]. repeat constructor. apply Hc. Qed.

  Fixpoint recaps (sch : N) (ps : list bytes) : list bytes :=
    match ps with [] => [] | p :: ps' => recap (N.land sch 3) p :: recaps (N.shiftr sch 2) ps' end.

  Lemma recased_facts sch w w' : recased sch w w' -> Forall good_char w ->
    length w' = length w /\ map (locase cs) w' = w /\ is_bytes w' /\ parts w' = recaps sch (parts w).
  Proof.
    induction 1 as [sch p Hp|sch p d w w' Hp Hd Hr IH]; intros Hg.
    - pose proof (good_part p Hp Hg) as Hl. destruct (recap_nodelim p Hl (N.land sch 3)) as (H1 & H2 & H3 & H4).
      rewrite (parts_nodelim cs p), (parts_nodelim cs _ H1) by assumption. cbn [recaps]. auto.
    - apply Forall_app in Hg as [Hgp Hgw]. inversion Hgw as [|? ? Hgd Hgw']; subst.
      pose proof (good_part p Hp Hgp) as Hl. destruct (recap_nodelim p Hl (N.land sch 3)) as (H1 & H2 & H3 & H4).
      destruct (IH Hgw') as (I1 & I2 & I3 & I4).
      assert (Hdd : d < 256 /\ locase cs d = d).
      { destruct Hgd as [(? & ? & ?)|(Hb & Hdl & _)]; [tauto|]. split; [assumption|apply Hdlm; assumption]. }
      rewrite !parts_app by assumption. cbn [recaps]. rewrite !app_length, map_app. cbn [length map].
      rewrite H3, H4, I1, I2, I4. destruct Hdd as [Hdb ->]. repeat split; auto. apply is_bytes_app. split; [assumption|].
      constructor; assumption.
  Qed.
End P.
