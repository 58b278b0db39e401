(** * CapProofs4: exactly when the length of a word comes back. *)
From Verif Require Import Base SerialProofs CharTables CapScheme CapSpec CapLengthSpec CapProofs CapProofs2.
Local Open Scope N_scope.

Section P.
  Variable cs : casing.
  Notation dlm c := (ctype cs c =? 2).
  Notation parts := (parts cs).

  Lemma shifted_counted w : shifted (parts w) = N.of_nat (counted cs w).
  Proof.
    unfold counted. generalize (parts_nonnil cs w). generalize (parts w). clear w. intros ps. induction ps as [|p ps IH]; [congruence|]. intros _.
    destruct ps as [|q ps]; [destruct p; reflexivity|]. rewrite shifted_cons by discriminate. rewrite IH by discriminate. cbn [rev]. 
    destruct (rev ps ++ [q]) as [|a l] eqn:E; [destruct (rev ps); discriminate|]. cbn [app]. destruct a; cbn [length]; rewrite ?app_length; cbn [length]; lia.
  Qed.

  Lemma get_loop_ub w : forall fuel room cdefis scheme bvalid out,
    (length w < fuel)%nat -> (length w < room)%nat -> 16 < cdefis + shifted (parts w) -> 0 < shifted (parts w) ->
    get_loop cs fuel w room cdefis scheme bvalid out = Ub.
  Proof.
    pattern w. apply (parts_ind cs); clear w.
    - intros p Hp fuel room cdefis scheme bvalid out Hf Hr Hs Hs0. rewrite (parts_nodelim cs p Hp) in *. destruct p as [|c p]; [cbn in Hs0; lia|].
      destruct fuel as [|fuel]; [lia|]. cbn [get_loop]. destruct room as [|room]; [cbn in Hr; lia|].
      rewrite (get_part_all cs (c :: p)) by (auto; lia). destruct (S room - length (c :: p))%nat as [|room'] eqn:Er; [cbn in *; lia|].
      cbn [shifted] in Hs. assert (Hlt : (32 <=? 2 * cdefis) = true) by lia. rewrite Hlt. reflexivity.
    - intros p d w Hp Hd IH fuel room cdefis scheme bvalid out Hf Hr Hs Hs0. rewrite (parts_app cs p d w Hp Hd) in *. rewrite app_length in *. cbn [length] in *.
      rewrite shifted_cons in * by apply parts_nonnil. destruct fuel as [|fuel]; [lia|]. cbn [get_loop].
      assert (Hne : exists x y, p ++ d :: w = x :: y) by (destruct p; cbn; eauto). destruct Hne as (x & y & Hxy). rewrite Hxy.
      destruct room as [|room]; [lia|]. rewrite <- Hxy. rewrite (get_part_stop cs p d w) by (auto; lia).
      destruct (S room - length p)%nat as [|room'] eqn:Er; [lia|]. destruct (N.leb_spec 32 (2 * cdefis)); [reflexivity|]. rewrite Hd. apply IH; lia.
  Qed.

  Lemma schs_pack_shifted ps cls : parts_are cs ps cls -> Forall (nodelim cs) ps -> forall i, i + shifted ps <= 16 -> schs cs i ps = pack cls * 2 ^ (2 * i).
  Proof.
    assert (Hone : forall c i, c < 3 -> i < 16 -> N.shiftl c (2 * i) mod 2 ^ 32 = c * 2 ^ (2 * i)).
    { intros c i Hc Hi. rewrite N.shiftl_mul_pow2, N.mod_small; [reflexivity|].
      assert (2 ^ (2 * i) <= 2 ^ 30) by (apply N.pow_le_mono_r; lia). change (2 ^ 32) with (4 * 2 ^ 30). nia. }
    induction 1 as [|p c H|p c ps cls H Hps IH]; intros Hd i Hi.
    - reflexivity.
    - inversion Hd; subst. destruct (part_is_fin cs p c) as [Hf Hlt]; [assumption|assumption|].
      cbn [pack length] in *. assert (Hp : p <> []) by (inversion H; congruence).
      destruct p as [|x p]; [congruence|]. cbn [schs shifted] in *. rewrite N.lor_0_r, Hf.
      replace (c + 1 - 1) with c by lia. rewrite Hone by lia. lia.
    - inversion Hd; subst. destruct (part_is_fin cs p c) as [Hf Hlt]; [assumption|assumption|].
      assert (Hn : ps <> []) by (inversion Hps; discriminate). rewrite schs_cons by assumption. rewrite shifted_cons in Hi by assumption. cbn [length pack] in *. rewrite Hf, IH by (auto; lia).
      replace (c + 1 - 1) with c by lia. rewrite Hone by lia.
      replace (2 * (i + 1)) with (2 * i + 2) by lia. rewrite N.pow_add_r. change (2 ^ 2) with 4.
      replace (pack cls * (2 ^ (2 * i) * 4)) with (pack cls * 2 ^ (2 * i + 2)) by (rewrite N.pow_add_r; change (2 ^ 2) with 4; lia).
      rewrite lor_split; [rewrite N.pow_add_r; change (2 ^ 2) with 4; lia|].
      rewrite N.pow_add_r. change (2 ^ 2) with 4. nia.
  Qed.
  Lemma pack_skipn cls : Forall (fun c => c < 3) cls -> forall k, N.shiftr (pack cls) (2 * N.of_nat k) = pack (skipn k cls).
  Proof.
    induction 1 as [|c cls Hc H IH]; intros k; [rewrite skipn_nil; cbn [pack]; apply N.shiftr_0_l|]. destruct k as [|k]; [cbn [skipn]; apply N.shiftr_0_r|].
    cbn [skipn pack]. rewrite <- IH. replace (2 * N.of_nat (S k)) with (2 + 2 * N.of_nat k) by lia. rewrite <- N.shiftr_shiftr. f_equal.
    rewrite N.shiftr_div_pow2. change (2 ^ 2) with 4. rewrite N.add_comm, N.mul_comm, N.div_add_l by discriminate. rewrite N.div_small by lia. apply N.add_0_r.
  Qed.
  Lemma counted_length w : (length (parts w) <= S (counted cs w))%nat.
  Proof. unfold counted. rewrite <- rev_length. destruct (rev (parts w)) as [|[|c p] ps]; cbn [length]; lia. Qed.

  Hypothesis Hdlm : forall d, d < 256 -> is_delim cs d -> locase cs d = d.
  Lemma length_back w outlen : is_bytes w -> (length w < outlen)%nat -> N.of_nat outlen <= 2 ^ 16 ->
    ((16 < counted cs w)%nat -> cap_get cs outlen w = Ub) /\
    ((counted cs w <= 16)%nat -> exists v, cap_get cs outlen w = Ok (v, map (locase cs) w ++ [0]) /\
      (N.shiftr v 16 = N.of_nat (length w) <-> forall cls, parts_are cs (parts w) cls -> N.lor (N.of_nat (length w)) (pack (skipn 8 cls)) = N.of_nat (length w))).
  Proof.
    intros Hb Hl Ho. pose proof (shifted_counted w) as Hsc. split.
    - intros Hc. unfold cap_get. apply get_loop_ub; lia.
    - intros Hc. unfold cap_get. rewrite (get_loop_eq cs (Hdlm' cs Hdlm)) by (auto; lia). eexists. split; [reflexivity|]. cbn [app].
      unfold answer. rewrite !N.shiftr_lor, !N.shiftl_mul_pow2, N.lor_0_l, andb_true_l. rewrite !N.mod_small by (pose proof (counted_length w); lia).
      rewrite !N.shiftr_div_pow2. rewrite N.div_mul by lia. rewrite (N.div_small ((0 + N.of_nat (length (parts w))) * 2 ^ 8)) by (pose proof (counted_length w); lia). rewrite N.lor_0_r.
      rewrite <- N.shiftr_div_pow2. split.
      + intros E cls Hcls. assert (Hv : valids cs (parts w) = true) by (apply valids_classes; [apply parts_nonnil|apply parts_all_nodelim|eauto]). rewrite Hv in E.
        rewrite (schs_pack_shifted _ _ Hcls) in E by (auto using parts_all_nodelim; lia). change (2 ^ (2 * 0)) with 1 in E. rewrite N.mul_1_r in E.
        rewrite <- (pack_skipn cls (parts_are_class _ _ _ Hcls) 8). exact E.
      + intros H. destruct (valids cs (parts w)) eqn:Hv; [|apply N.lor_0_r].
        apply valids_classes in Hv; [|apply parts_nonnil|apply parts_all_nodelim]. destruct Hv as [cls Hcls].
        rewrite (schs_pack_shifted _ _ Hcls) by (auto using parts_all_nodelim; lia). change (2 ^ (2 * 0)) with 1. rewrite N.mul_1_r.
        change 16 with (2 * N.of_nat 8). rewrite (pack_skipn cls (parts_are_class _ _ _ Hcls) 8). apply H. assumption.
  Qed.
End P.
