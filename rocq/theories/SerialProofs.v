(** Proofs about Serial.v *)
From Verif Require Import Base Serial.
Local Open Scope N_scope.

Lemma land127 n : N.land n 127 = n mod 128.
Proof. change 127 with (N.ones 7). rewrite N.land_ones. reflexivity. Qed.

Lemma testbit7_small b : b < 128 -> N.testbit b 7 = false.
Proof.
  intros H. destruct (N.eq_dec b 0) as [->|Hn]; [reflexivity|].
  apply N.bits_above_log2. apply N.log2_lt_pow2; [lia|]. exact H.
Qed.

Lemma lor128 a : a < 128 -> N.lor a 128 = a + 128.
Proof.
  intros H. symmetry. rewrite N.add_nocarry_lxor.
  - rewrite N.lxor_lor; [reflexivity|].
    apply N.bits_inj_0. intros n. rewrite N.land_spec.
    destruct (N.eq_dec n 7) as [->|Hn].
    + rewrite testbit7_small by assumption. reflexivity.
    + change 128 with (2^7). rewrite N.pow2_bits_false by congruence. apply andb_false_r.
  - apply N.bits_inj_0. intros n. rewrite N.land_spec.
    destruct (N.eq_dec n 7) as [->|Hn].
    + rewrite testbit7_small by assumption. reflexivity.
    + change 128 with (2^7). rewrite N.pow2_bits_false by congruence. apply andb_false_r.
Qed.

Lemma testbit7_big b : 128 <= b < 256 -> N.testbit b 7 = true.
Proof.
  intros H. rewrite N.testbit_true. change (2^7) with 128.
  replace (b / 128) with 1; [reflexivity|].
  apply N.div_unique with (r := b - 128); lia.
Qed.

(** disjoint or is addition *)
Lemma lor_shift_add a b k : a < 2 ^ k -> N.lor a (N.shiftl b k) = a + b * 2 ^ k.
Proof.
  intros H. rewrite N.shiftl_mul_pow2.
  assert (Hl : N.land a (b * 2 ^ k) = 0).
  { apply N.bits_inj_0. intros n. rewrite N.land_spec.
    destruct (N.lt_ge_cases n k) as [Hn|Hn].
    - rewrite N.mul_pow2_bits_low by assumption. apply andb_false_r.
    - replace (N.testbit a n) with false; [reflexivity|]. symmetry.
      destruct (N.eq_dec a 0) as [->|Ha]; [apply N.bits_0|].
      apply N.bits_above_log2. apply N.lt_le_trans with k; [|assumption].
      apply N.log2_lt_pow2; lia. }
  rewrite N.add_nocarry_lxor by assumption. rewrite N.lxor_lor by assumption. reflexivity.
Qed.

(** The reader's loop undoes the writer's loop. *)
Lemma getserial_rest_put g : forall nshift serial n rest,
  1 <= nshift -> serial < 2 ^ (7 * nshift) ->
  n < 2 ^ (7 * N.of_nat g) -> n <> 0 \/ nshift * 7 < 32 -> serial + n * 2 ^ (7 * nshift) < 2 ^ 32 ->
  getserial_rest nshift serial (putserial_loop g n ++ rest)
  = if (Nat.eqb g 0) then getserial_rest nshift serial rest else Ok (serial + n * 2 ^ (7 * nshift), rest).
Proof.
  induction g as [|g IH]; intros nshift serial n rest Hs Hser Hn Hok Hb; [reflexivity|].
  cbn [putserial_loop Nat.eqb].
  assert (Hsh : nshift * 7 < 32).
  { destruct Hok as [Hok|Hok]; [|assumption].
    destruct (N.lt_ge_cases (nshift * 7) 32) as [?|Hge]; [assumption|].
    assert (2 ^ 32 <= 2 ^ (7 * nshift)) by (apply N.pow_le_mono_r; lia).
    assert (1 * 2 ^ (7 * nshift) <= n * 2 ^ (7 * nshift)) by (apply N.mul_le_mono_r; lia). lia. }
  destruct (N.ltb_spec n 128) as [Hlt|Hge].
  - cbn [getserial_rest app].
    destruct (N.leb_spec 32 (nshift * 7)) as [?|_]; [lia|].
    rewrite testbit7_small by assumption.
    rewrite land127, (N.mod_small n 128) by assumption.
    rewrite N.mod_small.
    + rewrite (N.mul_comm nshift 7), lor_shift_add by assumption. reflexivity.
    + rewrite (N.mul_comm nshift 7), N.shiftl_mul_pow2. lia.
  - cbn [getserial_rest app].
    destruct (N.leb_spec 32 (nshift * 7)) as [?|_]; [lia|].
    rewrite land127.
    assert (Hm : n mod 128 < 128) by (apply N.mod_lt; discriminate).
    rewrite lor128 by assumption.
    rewrite testbit7_big by lia.
    rewrite land127.
    replace ((n mod 128 + 128) mod 128) with (n mod 128)
      by (rewrite <- N.add_mod_idemp_r by discriminate; rewrite N.mod_same, N.add_0_r by discriminate;
          rewrite N.mod_mod by discriminate; reflexivity).
    assert (Hd : n = 128 * (n / 128) + n mod 128) by (apply N.div_mod; discriminate).
    assert (Hdn : 0 < n / 128) by (apply N.div_str_pos; lia).
    rewrite (N.mul_comm nshift 7).
    remember (2 ^ (7 * nshift)) as P eqn:HP.
    assert (HP0 : 0 < P) by (subst P; apply N.neq_0_lt_0, N.pow_nonzero; discriminate).
    assert (Hle : (n mod 128) * P <= n * P) by (apply N.mul_le_mono_r; lia).
    rewrite (N.mod_small (N.shiftl (n mod 128) (7 * nshift)))
      by (rewrite N.shiftl_mul_pow2, <- HP; lia).
    rewrite lor_shift_add by (rewrite <- HP; assumption). rewrite <- HP.
    rewrite N.shiftr_div_pow2. change (2 ^ 7) with 128.
    assert (HP' : 2 ^ (7 * (nshift + 1)) = 128 * P).
    { replace (7 * (nshift + 1)) with (7 + 7 * nshift) by lia. rewrite N.pow_add_r, <- HP. reflexivity. }
    assert (Hg : g <> 0%nat).
    { intros ->. change (2 ^ (7 * N.of_nat 1)) with 128 in Hn. lia. }
    rewrite IH.
    + destruct (Nat.eqb_spec g 0) as [?|_]; [contradiction|].
      rewrite HP'. f_equal. f_equal.
      rewrite <- N.add_assoc. f_equal. rewrite Hd at 3. nia.
    + lia.
    + rewrite HP'. nia.
    + apply N.div_lt_upper_bound; [discriminate|].
      replace (7 * N.of_nat (S g)) with (7 + 7 * N.of_nat g) in Hn by lia.
      rewrite N.pow_add_r in Hn. exact Hn.
    + left. lia.
    + rewrite HP'. replace (serial + n mod 128 * P + n / 128 * (128 * P)) with (serial + n * P); [assumption|].
      rewrite Hd at 1. nia.
Qed.

Lemma getserial_putserial n rest :
  n < 2 ^ 32 -> getserial (putserial n ++ rest) = Ok (n, rest).
Proof.
  intros Hn. unfold putserial. cbn [putserial_loop].
  destruct (N.ltb_spec n 128) as [Hlt|Hge].
  - cbn [getserial app]. rewrite testbit7_small by assumption.
    rewrite land127, N.mod_small by assumption. reflexivity.
  - change (if N.shiftr n 7 <? 128 then _ else _) with (putserial_loop 9 (N.shiftr n 7)).
    cbn [getserial app].
    rewrite !land127.
    assert (Hm : n mod 128 < 128) by (apply N.mod_lt; discriminate).
    rewrite lor128 by assumption. rewrite testbit7_big by lia.
    replace ((n mod 128 + 128) mod 128) with (n mod 128)
      by (rewrite <- N.add_mod_idemp_r by discriminate; rewrite N.mod_same, N.add_0_r by discriminate;
          rewrite N.mod_mod by discriminate; reflexivity).
    rewrite N.shiftr_div_pow2. change (2 ^ 7) with 128.
    assert (Hd : n = 128 * (n / 128) + n mod 128) by (apply N.div_mod; discriminate).
    rewrite getserial_rest_put.
    + cbn [Nat.eqb]. f_equal. f_equal. change (2 ^ (7 * 1)) with 128. lia.
    + lia.
    + change (2 ^ (7 * 1)) with 128. assumption.
    + apply N.div_lt_upper_bound; [discriminate|].
      apply N.lt_trans with (2 ^ 32); [assumption|]. reflexivity.
    + right. reflexivity.
    + change (2 ^ (7 * 1)) with 128. lia.
Qed.

Lemma putserial_loop_len g n : N.of_nat (length (putserial_loop g n)) = seriallen_loop g n.
Proof.
  revert n. induction g as [|g IH]; intros n; [reflexivity|].
  cbn [putserial_loop seriallen_loop]. destruct (n <? 128); [reflexivity|].
  cbn [length]. rewrite <- IH. lia.
Qed.

Lemma putserial_len n : N.of_nat (length (putserial n)) = seriallen n.
Proof. apply putserial_loop_len. Qed.

Lemma putserial_loop_bytes g n : is_bytes (putserial_loop g n).
Proof.
  revert n. induction g as [|g IH]; intros n; [constructor|]. cbn [putserial_loop].
  destruct (N.ltb_spec n 128).
  - repeat constructor. lia.
  - constructor; [|apply IH]. rewrite land127.
    assert (n mod 128 < 128) by (apply N.mod_lt; discriminate). rewrite lor128 by assumption. lia.
Qed.

Lemma putserial_bytes n : is_bytes (putserial n).
Proof. apply putserial_loop_bytes. Qed.

Lemma getword16_put n rest :
  n < 2 ^ 16 -> getword16 (putword16 n ++ rest) = Ok (n, rest).
Proof.
  intros Hn. unfold putword16, getword16. cbn [rd bind app].
  f_equal. f_equal.
  rewrite N.shiftr_div_pow2. change (2 ^ 8) with 256.
  assert (n mod 256 < 256) by (apply N.mod_lt; discriminate).
  assert (n / 256 < 256) by (apply N.div_lt_upper_bound; [discriminate|exact Hn]).
  rewrite (N.mod_small (n / 256)) by assumption.
  rewrite (N.mod_small (N.shiftl (n / 256) 8))
    by (rewrite N.shiftl_mul_pow2; change (2 ^ 16) with 65536; change (2 ^ 8) with 256; lia).
  rewrite lor_shift_add by assumption. change (2 ^ 8) with 256.
  assert (n = 256 * (n / 256) + n mod 256) by (apply N.div_mod; discriminate). lia.
Qed.

Lemma putword16_bytes n : is_bytes (putword16 n).
Proof. repeat constructor; apply N.mod_lt; discriminate. Qed.

(** ** keys *)
Lemma land_hi_zero k id : id < 2 ^ 32 -> k <= 32 ->
  (N.land id (N.shiftl (N.ones (32 - k)) k) =? 0) = (id <? 2 ^ k).
Proof.
  intros Hid Hk.
  assert (He : N.land id (N.shiftl (N.ones (32 - k)) k) = id / 2 ^ k * 2 ^ k).
  { rewrite <- N.shiftr_div_pow2, <- N.shiftl_mul_pow2.
    apply N.bits_inj. intros n. rewrite N.land_spec.
    destruct (N.lt_ge_cases n k) as [Hn|Hn].
    - rewrite !N.shiftl_spec_low by assumption. apply andb_false_r.
    - rewrite !N.shiftl_spec_high' by assumption. rewrite N.shiftr_spec by lia.
      replace (n - k + k) with n by lia.
      destruct (N.lt_ge_cases (n - k) (32 - k)) as [H|H].
      + rewrite N.ones_spec_low by assumption. apply andb_true_r.
      + rewrite N.ones_spec_high by assumption. rewrite andb_false_r. symmetry.
        destruct (N.eq_dec id 0) as [->|Hz]; [apply N.bits_0|].
        apply N.bits_above_log2. apply N.lt_le_trans with 32; [|lia].
        apply N.log2_lt_pow2; [lia|assumption]. }
  rewrite He.
  assert (H2 : 0 < 2 ^ k) by (apply N.neq_0_lt_0, N.pow_nonzero; discriminate).
  destruct (N.ltb_spec id (2 ^ k)) as [H|H].
  - rewrite N.div_small by assumption. reflexivity.
  - assert (0 < id / 2 ^ k) by (apply N.div_str_pos; lia).
    apply N.eqb_neq. nia.
Qed.

(** [lexkeylen] in arithmetic form *)
Lemma lexkeylen_arith id : id < 2 ^ 32 ->
  lexkeylen id =
  if id <? 256 then [id]
  else if id <? 65536 then [id / 256; id mod 256]
  else if id <? 16777216 then [id / 65536; id / 256 mod 256; id mod 256]
  else [id / 16777216; id / 65536 mod 256; id / 256 mod 256; id mod 256].
Proof.
  intros Hid. unfold lexkeylen.
  change 0xffffff00 with (N.shiftl (N.ones (32 - 8)) 8).
  change 0xffff0000 with (N.shiftl (N.ones (32 - 16)) 16).
  change 0xff000000 with (N.shiftl (N.ones (32 - 24)) 24).
  rewrite !land_hi_zero by (assumption || lia).
  rewrite !N.shiftr_div_pow2.
  change (2 ^ 8) with 256. change (2 ^ 16) with 65536. change (2 ^ 24) with 16777216.
  change (2 ^ 32) with 4294967296 in Hid.
  destruct (N.ltb_spec id 256); [rewrite N.mod_small by assumption; reflexivity|].
  destruct (N.ltb_spec id 65536).
  { rewrite (N.mod_small (id / 256)) by (apply N.div_lt_upper_bound; lia). reflexivity. }
  destruct (N.ltb_spec id 16777216).
  { rewrite (N.mod_small (id / 65536)) by (apply N.div_lt_upper_bound; lia). reflexivity. }
  rewrite (N.mod_small (id / 16777216)) by (apply N.div_lt_upper_bound; lia). reflexivity.
Qed.

(** big-endian value of a key *)
Definition keyval (k : bytes) : N := fold_left (fun a b => a * 256 + b) k 0.

Lemma keyval_lexkeylen id : id < 2 ^ 32 -> keyval (lexkeylen id) = id.
Proof.
  intros Hid. rewrite lexkeylen_arith by assumption. change (2 ^ 32) with 4294967296 in Hid.
  destruct (N.ltb_spec id 256); [cbn; lia|].
  destruct (N.ltb_spec id 65536); [cbn -[N.mul N.div N.modulo N.add]; lia|].
  destruct (N.ltb_spec id 16777216); cbn -[N.mul N.div N.modulo N.add].
  - assert (Ha : id = 256 * (id / 256) + id mod 256) by (apply N.div_mod; discriminate).
    assert (Hb : id / 256 = 256 * (id / 256 / 256) + (id / 256) mod 256) by (apply N.div_mod; discriminate).
    rewrite N.div_div in Hb by discriminate. change (256 * 256) with 65536 in Hb. lia.
  - assert (Ha : id = 256 * (id / 256) + id mod 256) by (apply N.div_mod; discriminate).
    assert (Hb : id / 256 = 256 * (id / 256 / 256) + (id / 256) mod 256) by (apply N.div_mod; discriminate).
    rewrite N.div_div in Hb by discriminate. change (256 * 256) with 65536 in Hb.
    assert (Hc : id / 65536 = 256 * (id / 65536 / 256) + (id / 65536) mod 256) by (apply N.div_mod; discriminate).
    rewrite N.div_div in Hc by discriminate. change (65536 * 256) with 16777216 in Hc. lia.
Qed.

Lemma lexkeylen_inj a b : a < 2 ^ 32 -> b < 2 ^ 32 -> lexkeylen a = lexkeylen b -> a = b.
Proof.
  intros Ha Hb H. rewrite <- (keyval_lexkeylen a Ha), <- (keyval_lexkeylen b Hb), H. reflexivity.
Qed.

Lemma lexkey_agree id : id < 2 ^ 24 -> lexkeybuf id = lexkeylen id.
Proof.
  intros H. unfold lexkeybuf, lexkeylen.
  destruct (N.land id 4294967040 =? 0); [reflexivity|].
  destruct (N.land id 4294901760 =? 0); [reflexivity|].
  change 0xff000000 with (N.shiftl (N.ones (32 - 24)) 24).
  rewrite land_hi_zero by (lia || (apply N.lt_trans with (2 ^ 24); [assumption|reflexivity])).
  destruct (N.ltb_spec id (2 ^ 24)) as [_|?]; [reflexivity|lia].
Qed.

Lemma lexkeylen_bytes id : is_bytes (lexkeylen id).
Proof.
  unfold lexkeylen.
  repeat match goal with |- context [if ?b then _ else _] => destruct b end;
    repeat constructor; apply N.mod_lt; discriminate.
Qed.

Lemma lexkeylen_length id : (1 <= length (lexkeylen id) <= 4)%nat.
Proof.
  unfold lexkeylen.
  repeat match goal with |- context [if ?b then _ else _] => destruct b end;
    cbn; lia.
Qed.
