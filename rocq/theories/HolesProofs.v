(** * HolesProofs: the bits of the map, least, greatest, next hole. *)
From Coq Require Import String Sorting.Sorted.
From Verif Require Import Base Api EngCompile Dump Holes HolesSpec.
Local Open Scope N_scope.
Local Open Scope list_scope.
Notation length := List.length.

Definition bitof (map : lexid_map) (n : N) : bool := match nth_error map (N.to_nat (n / 32)) with Some w => N.testbit w (n mod 32) | None => false end.
Lemma land_bit w k : (N.land w (2 ^ k) =? 0) = negb (N.testbit w k).
Proof.
  destruct (N.testbit w k) eqn:E; cbn [negb].
  - apply N.eqb_neq. intros H. apply (f_equal (fun x => N.testbit x k)) in H. rewrite N.land_spec, N.pow2_bits_true, E, N.bits_0 in H. discriminate.
  - apply N.eqb_eq. apply N.bits_inj. intros j. rewrite N.land_spec, N.bits_0. destruct (N.eq_dec k j) as [<-|H]; [rewrite E; reflexivity|].
    rewrite N.pow2_bits_false by congruence. apply andb_false_r.
Qed.
Lemma test_lex_eq map n : test_lex map n = bitof map n.
Proof. unfold test_lex, bitof. destruct (nth_error map (N.to_nat (n / 32))); [|reflexivity]. rewrite land_bit, negb_involutive. reflexivity. Qed.

(** ** Insertion *)

Lemma set_word_nth map : forall i v j, (i < length map)%nat -> nth_error (set_word map i v) j = if Nat.eqb j i then Some v else nth_error map j.
Proof.
  induction map as [|w map IH]; intros i v j H; cbn [length] in H; [lia|]. destruct i as [|i]; cbn [set_word].
  - destruct j; reflexivity.
  - destruct j as [|j]; [reflexivity|]. cbn [nth_error Nat.eqb]. apply IH. lia.
Qed.
Lemma set_word_length map : forall i v, length (set_word map i v) = length map.
Proof. induction map as [|w map IH]; intros [|i] v; cbn [set_word length]; try reflexivity. f_equal. apply IH. Qed.

Definition grown (map : lexid_map) (uindex : nat) : lexid_map := if Nat.leb (length map) uindex then map ++ repeat 0 (S uindex - length map) else map.
Lemma grown_length map u : length (grown map u) = Nat.max (length map) (S u).
Proof. unfold grown. destruct (Nat.leb_spec (length map) u); [rewrite app_length, repeat_length; lia|lia]. Qed.
Lemma grown_nth map u i : match nth_error (grown map u) i with Some w => w | None => 0 end = match nth_error map i with Some w => w | None => 0 end.
Proof.
  unfold grown. destruct (Nat.leb_spec (length map) u) as [H|H]; [|reflexivity]. destruct (Nat.lt_ge_cases i (length map)) as [Hi|Hi].
  - rewrite nth_error_app1 by assumption. reflexivity.
  - rewrite nth_error_app2 by assumption. rewrite (proj2 (nth_error_None map i) Hi).
    destruct (nth_error (repeat 0 (S u - length map)) (i - length map)) as [w|] eqn:E; [|reflexivity]. apply nth_error_In, repeat_spec in E. assumption.
Qed.
Lemma bitof_word map n : bitof map n = N.testbit (match nth_error map (N.to_nat (n / 32)) with Some w => w | None => 0 end) (n mod 32).
Proof. unfold bitof. destruct (nth_error map (N.to_nat (n / 32))); [reflexivity|]. rewrite N.bits_0. reflexivity. Qed.
Lemma grown_bit map u n : bitof (grown map u) n = bitof map n.
Proof. rewrite !bitof_word, grown_nth. reflexivity. Qed.

Definition words_ok (map : lexid_map) : Prop := Forall (fun w => w < 2 ^ 32) map.
Lemma testbit_small w n : w < 2 ^ 32 -> 32 <= n -> N.testbit w n = false.
Proof. intros H Hn. destruct (N.eq_dec w 0) as [->|Hw]; [apply N.bits_0|]. apply N.bits_above_log2. eapply N.lt_le_trans; [|exact Hn]. apply N.log2_lt_pow2; lia. Qed.
Lemma lor_small a b : a < 2 ^ 32 -> b < 2 ^ 32 -> N.lor a b < 2 ^ 32.
Proof.
  intros Ha Hb. destruct (N.eq_dec (N.lor a b) 0) as [E|E]; [rewrite E; reflexivity|]. apply N.log2_lt_pow2; [lia|]. rewrite N.log2_lor.
  apply N.max_lub_lt; [destruct (N.eq_dec a 0) as [->|]|destruct (N.eq_dec b 0) as [->|]]; try (cbn; lia); apply N.log2_lt_pow2; lia.
Qed.
Lemma same_place n m : n / 32 = m / 32 -> n mod 32 = m mod 32 -> n = m.
Proof. intros H1 H2. rewrite (N.div_mod n 32), (N.div_mod m 32) by discriminate. congruence. Qed.

Lemma insert_eq map lex : insert_lex map lex = let g := grown map (N.to_nat (lex / 32)) in
  match nth_error g (N.to_nat (lex / 32)) with
  | Some w => if N.testbit w (lex mod 32) then (g, true) else (set_word g (N.to_nat (lex / 32)) (N.lor w (2 ^ (lex mod 32))), false)
  | None => insert_lex map lex
  end.
Proof.
  cbv zeta. destruct (nth_error (grown map (N.to_nat (lex / 32))) (N.to_nat (lex / 32))) as [w|] eqn:Ew; [|reflexivity].
  unfold insert_lex. cbv zeta. change (if Nat.leb (length map) (N.to_nat (lex / 32)) then map ++ repeat 0 (S (N.to_nat (lex / 32)) - length map) else map) with (grown map (N.to_nat (lex / 32))).
  rewrite (nth_error_nth (grown map (N.to_nat (lex / 32))) _ 0 Ew), land_bit, negb_involutive. reflexivity.
Qed.
Lemma insert_bit map lex n : bitof (fst (insert_lex map lex)) n = bitof map n || (n =? lex).
Proof.
  rewrite insert_eq. cbv zeta. set (u := N.to_nat (lex / 32)). set (g := grown map u).
  assert (Hu : (u < length g)%nat) by (unfold g, u; rewrite grown_length; lia).
  destruct (nth_error g u) as [w|] eqn:Ew; [|apply nth_error_None in Ew; lia].
  destruct (N.testbit w (lex mod 32)) eqn:Eb; cbn [fst].
  - unfold g. rewrite grown_bit. destruct (N.eqb_spec n lex) as [->|]; [|rewrite orb_false_r; reflexivity]. rewrite orb_true_r.
    rewrite <- (grown_bit map u). fold g. unfold bitof. fold u. rewrite Ew. assumption.
  - rewrite <- (grown_bit map u n). fold g. unfold bitof. rewrite set_word_nth by assumption. destruct (Nat.eqb_spec (N.to_nat (n / 32)) u) as [E|E].
    + rewrite E, Ew, N.lor_spec. destruct (N.eqb_spec n lex) as [->|Hn]; [rewrite N.pow2_bits_true; rewrite !orb_true_r; reflexivity|].
      rewrite N.pow2_bits_false; [reflexivity|]. intros H. apply Hn. apply same_place; [|congruence]. unfold u in E. lia.
    + destruct (N.eqb_spec n lex) as [->|Hn]; [unfold u in E; congruence|]. rewrite orb_false_r. reflexivity.
Qed.
Lemma insert_again map lex : snd (insert_lex map lex) = bitof map lex.
Proof.
  rewrite insert_eq. cbv zeta. set (u := N.to_nat (lex / 32)). set (g := grown map u).
  assert (Hu : (u < length g)%nat) by (unfold g, u; rewrite grown_length; lia).
  destruct (nth_error g u) as [w|] eqn:Ew; [|apply nth_error_None in Ew; lia].
  rewrite <- (grown_bit map u). fold g. unfold bitof. fold u. rewrite Ew. destruct (N.testbit w (lex mod 32)); reflexivity.
Qed.
Lemma insert_length map lex : length (fst (insert_lex map lex)) = Nat.max (length map) (S (N.to_nat (lex / 32))).
Proof.
  rewrite insert_eq. cbv zeta. set (u := N.to_nat (lex / 32)). set (g := grown map u). assert (Hu : length g = Nat.max (length map) (S u)) by (unfold g; apply grown_length).
  destruct (nth_error g u) as [w|] eqn:Ew; [|apply nth_error_None in Ew; lia].
  destruct (N.testbit w (lex mod 32)); cbn [fst]; rewrite ?set_word_length; assumption.
Qed.
Lemma set_word_ok map : forall i v, words_ok map -> v < 2 ^ 32 -> words_ok (set_word map i v).
Proof.
  unfold words_ok. induction map as [|w map IH]; intros [|i] v H Hv; cbn [set_word]; try assumption; inversion H; subst; constructor; auto.
Qed.
Lemma grown_ok map u : words_ok map -> words_ok (grown map u).
Proof.
  unfold words_ok, grown. intros H. destruct (Nat.leb _ _); [|assumption]. apply Forall_app. split; [assumption|].
  apply Forall_forall. intros x Hx. apply repeat_spec in Hx. subst. reflexivity.
Qed.
Lemma insert_ok map lex : words_ok map -> words_ok (fst (insert_lex map lex)).
Proof.
  intros H. rewrite insert_eq. cbv zeta. pose proof (grown_ok map (N.to_nat (lex / 32)) H) as G. pose proof (grown_length map (N.to_nat (lex / 32))) as L. revert G L.
  set (u := N.to_nat (lex / 32)). set (g := grown map u). intros G L.
  destruct (nth_error g u) as [w|] eqn:Ew; [|apply nth_error_None in Ew; lia].
  destruct (N.testbit w (lex mod 32)); cbn [fst]; [assumption|]. apply set_word_ok; [assumption|]. apply lor_small.
  - unfold words_ok in G. rewrite Forall_forall in G. apply G. eapply nth_error_In. exact Ew.
  - apply N.pow_lt_mono_r; [lia|]. apply N.mod_lt. discriminate.
Qed.

(** ** The map of a set of ids *)

Record maps (map : lexid_map) (ids : list N) : Prop := {
  mp_ok : words_ok map;
  mp_bit : forall n, bitof map n = true <-> In n ids;
  mp_last : map = [] \/ exists id, In id ids /\ length map = S (N.to_nat (id / 32));
}.
Lemma maps_nil : maps [] [].
Proof. constructor; [constructor| |left; reflexivity]. intros n. unfold bitof. destruct (N.to_nat (n / 32)); cbn; split; try discriminate; intros []. Qed.
Lemma maps_insert map ids lex : maps map ids -> maps (fst (insert_lex map lex)) (lex :: ids).
Proof.
  intros [M1 M2 M3]. constructor.
  - apply insert_ok. assumption.
  - intros n. rewrite insert_bit, orb_true_iff, M2, N.eqb_eq. cbn [In]. intuition congruence.
  - right. rewrite insert_length. destruct M3 as [->|(id & Hid & E)]; [exists lex; split; [left; reflexivity|cbn [length]; lia]|].
    destruct (Nat.le_gt_cases (length map) (S (N.to_nat (lex / 32)))) as [H|H]; [exists lex; split; [left; reflexivity|lia]|exists id; split; [right; assumption|lia]].
Qed.

(** ** Least and greatest *)

Lemma div_mod_le a b : a / 32 < b / 32 -> a < b.
Proof. intros H. destruct (N.lt_ge_cases a b) as [|G]; [assumption|]. exfalso. pose proof (N.div_le_mono b a 32 ltac:(discriminate) G). lia. Qed.
Lemma at_place q r : r < 32 -> (q * 32 + r) / 32 = q /\ (q * 32 + r) mod 32 = r.
Proof. intros H. split; [rewrite N.div_add_l by discriminate; rewrite N.div_small by assumption; lia|rewrite N.add_comm, N.mod_add by discriminate; apply N.mod_small; assumption]. Qed.
Lemma bitof_at map q r w : r < 32 -> nth_error map (N.to_nat q) = Some w -> bitof map (q * 32 + r) = N.testbit w r.
Proof. intros H E. unfold bitof. destruct (at_place q r H) as [-> ->]. rewrite E. reflexivity. Qed.

Lemma first_word_spec map : forall i, match first_word map i with
  | None => Forall (fun w => w = 0) map
  | Some (j, w) => exists k, j = i + N.of_nat k /\ nth_error map k = Some w /\ w <> 0 /\ forall k', (k' < k)%nat -> nth_error map k' = Some 0
  end.
Proof.
  induction map as [|w map IH]; intros i; cbn [first_word]; [constructor|]. destruct (N.eqb_spec w 0) as [->|Hw].
  - specialize (IH (i + 1)). destruct (first_word map (i + 1)) as [[j v]|]; [|constructor; [reflexivity|assumption]].
    destruct IH as (k & -> & E & Hv & Hk). exists (S k). split; [lia|]. split; [assumption|]. split; [assumption|]. intros [|k'] H; [reflexivity|]. apply Hk. lia.
  - exists O. split; [lia|]. split; [reflexivity|]. split; [assumption|]. intros k' H. lia.
Qed.
Lemma last_word_spec map : forall i, match last_word map i with
  | None => Forall (fun w => w = 0) map
  | Some (j, w) => exists k, j = i + N.of_nat k /\ nth_error map k = Some w /\ w <> 0 /\ forall k' v, (k < k')%nat -> nth_error map k' = Some v -> v = 0
  end.
Proof.
  induction map as [|w map IH]; intros i; cbn [last_word]; [constructor|]. specialize (IH (i + 1)). destruct (last_word map (i + 1)) as [[j v]|].
  - destruct IH as (k & -> & E & Hv & Hk). exists (S k). split; [lia|]. split; [assumption|]. split; [assumption|]. intros [|k'] x H Hx; [lia|]. apply (Hk k'); [lia|assumption].
  - destruct (N.eqb_spec w 0) as [->|Hw]; [constructor; [reflexivity|assumption]|]. exists O. split; [lia|]. split; [reflexivity|]. split; [assumption|].
    intros [|k'] x H Hx; [lia|]. rewrite Forall_forall in IH. apply IH. eapply nth_error_In. exact Hx.
Qed.
Lemma min_bit_odd n : forall off w, min_bit (S n) off w = if N.testbit w 0 then Some off else None.
Proof.
  induction n as [|n IH]; intros off w.
  - cbn [min_bit]. change 1 with (2 ^ 0) at 1. rewrite land_bit, negb_involutive. reflexivity.
  - change (min_bit (S (S n)) off w) with (if negb (N.land w 1 =? 0) then Some off else min_bit (S n) (off + 1) w). rewrite IH.
    change 1 with (2 ^ 0) at 1. rewrite land_bit, negb_involutive. destruct (N.testbit w 0); reflexivity.
Qed.
Lemma max_bit_spec n : forall w, match max_bit n w with
  | Some k => k < N.of_nat n /\ N.testbit w k = true /\ forall j, k < j < N.of_nat n -> N.testbit w j = false
  | None => forall j, j < N.of_nat n -> N.testbit w j = false
  end.
Proof.
  induction n as [|n IH]; intros w; cbn [max_bit]; [intros j H; lia|]. rewrite land_bit, negb_involutive. destruct (N.testbit w (N.of_nat n)) eqn:E.
  - split; [lia|]. split; [assumption|]. intros j H. lia.
  - specialize (IH w). destruct (max_bit n w) as [k|].
    + destruct IH as (H1 & H2 & H3). split; [lia|]. split; [assumption|]. intros j H. destruct (N.eq_dec j (N.of_nat n)) as [->|]; [assumption|]. apply H3. lia.
    + intros j H. destruct (N.eq_dec j (N.of_nat n)) as [->|]; [assumption|]. apply IH. lia.
Qed.
Lemma nonzero_bit w : w < 2 ^ 32 -> w <> 0 -> exists k, k < 32 /\ N.testbit w k = true.
Proof.
  intros H Hw. exists (N.log2 w). split; [apply N.log2_lt_pow2; lia|]. apply N.bit_log2. assumption.
Qed.

Lemma get_max_spec map ids m : maps map ids -> greatest ids m -> m < 2 ^ 32 -> get_max map = m.
Proof.
  intros [M1 M2 _] [Hm Hg] Hs. unfold get_max. pose proof (last_word_spec map 0) as L. destruct (last_word map 0) as [[j w]|].
  - destruct L as (k & -> & E & Hw & Hk). rewrite N.add_0_l. unfold words_ok in M1. rewrite Forall_forall in M1. pose proof (M1 w (nth_error_In _ _ E)) as Hw2.
    destruct (nonzero_bit w Hw2 Hw) as (b & Hb & Eb). pose proof (max_bit_spec 32 w) as S. destruct (max_bit 32 w) as [o|]; [|rewrite S in Eb by exact Hb; discriminate].
    destruct S as (S1 & S2 & S3). change (N.of_nat 32) with 32 in *.
    assert (Hin : In (N.of_nat k * 32 + o) ids). { apply M2. rewrite (bitof_at map (N.of_nat k) o w); [assumption|assumption|rewrite Nat2N.id; assumption]. }
    assert (m = N.of_nat k * 32 + o); [|rewrite N.mod_small by lia; lia]. specialize (Hg _ Hin).
    apply M2 in Hm. unfold bitof in Hm. destruct (nth_error map (N.to_nat (m / 32))) as [v|] eqn:Ev; [|discriminate].
    destruct (Nat.lt_trichotomy (N.to_nat (m / 32)) k) as [H|[H|H]].
    + exfalso. assert (m < N.of_nat k * 32 + o); [|lia]. apply div_mod_le. rewrite (proj1 (at_place (N.of_nat k) o S1)). lia.
    + rewrite H, E in Ev. injection Ev as <-. pose proof (N.mod_lt m 32 ltac:(discriminate)) as Hr. destruct (N.lt_ge_cases o (m mod 32)) as [G|G].
      * rewrite S3 in Hm by lia. discriminate.
      * assert (m / 32 = N.of_nat k) by lia. pose proof (N.div_mod m 32 ltac:(discriminate)). lia.
    + rewrite (Hk _ _ H Ev), N.bits_0 in Hm. discriminate.
  - exfalso. apply M2 in Hm. unfold bitof in Hm. destruct (nth_error map (N.to_nat (m / 32))) as [v|] eqn:Ev; [|discriminate].
    rewrite Forall_forall in L. rewrite (L v (nth_error_In _ _ Ev)), N.bits_0 in Hm. discriminate.
Qed.
Lemma get_min_spec map ids m : maps map ids -> least ids m -> m < 2 ^ 32 -> get_min map = if m mod 32 =? 0 then m else none.
Proof.
  intros [M1 M2 _] [Hm Hg] Hs. unfold get_min. pose proof (first_word_spec map 0) as L. pose proof Hm as Hm'. apply M2 in Hm. unfold bitof in Hm.
  destruct (nth_error map (N.to_nat (m / 32))) as [v|] eqn:Ev; [|discriminate]. destruct (first_word map 0) as [[j w]|].
  - destruct L as (k & -> & E & Hw & Hk). rewrite N.add_0_l. unfold words_ok in M1. rewrite Forall_forall in M1. pose proof (M1 w (nth_error_In _ _ E)) as Hw2.
    destruct (nonzero_bit w Hw2 Hw) as (b & Hb & Eb).
    assert (HB : forall b, b < 32 -> N.testbit w b = true -> m <= N.of_nat k * 32 + b).
    { intros b' Hb' E'. apply Hg. apply M2. rewrite (bitof_at map (N.of_nat k) b' w); [assumption|assumption|rewrite Nat2N.id; assumption]. }
    destruct (Nat.lt_trichotomy (N.to_nat (m / 32)) k) as [H|[H|H]].
    + rewrite (Hk _ H) in Ev. injection Ev as <-. rewrite N.bits_0 in Hm. discriminate.
    + rewrite H, E in Ev. injection Ev as <-. rewrite min_bit_odd. assert (m / 32 = N.of_nat k) by lia. pose proof (N.div_mod m 32 ltac:(discriminate)) as D.
      destruct (N.testbit w 0) eqn:E0.
      * specialize (HB 0 eq_refl E0). assert (Z : m mod 32 = 0) by lia. rewrite Z. rewrite N.mod_small by lia. cbn [N.eqb]. lia.
      * destruct (N.eqb_spec (m mod 32) 0) as [Z|Z]; [rewrite Z in Hm; congruence|reflexivity].
    + exfalso. specialize (HB b Hb Eb). assert (N.of_nat k * 32 + b < m); [|lia]. apply div_mod_le. rewrite (proj1 (at_place (N.of_nat k) b Hb)). lia.
  - exfalso. rewrite Forall_forall in L. rewrite (L v (nth_error_In _ _ Ev)), N.bits_0 in Hm. discriminate.
Qed.

(** ** The next hole *)

Lemma zero_bit_spec n : forall s w, match zero_bit n s w with
  | Some k => s <= k < s + N.of_nat n /\ N.testbit w k = false /\ forall j, s <= j < k -> N.testbit w j = true
  | None => forall j, s <= j < s + N.of_nat n -> N.testbit w j = true
  end.
Proof.
  induction n as [|n IH]; intros s w; cbn [zero_bit]; [intros j H; lia|]. rewrite land_bit. destruct (N.testbit w s) eqn:E; cbn [negb].
  - specialize (IH (s + 1) w). destruct (zero_bit n (s + 1) w) as [k|].
    + destruct IH as (H1 & H2 & H3). split; [lia|]. split; [assumption|]. intros j H. destruct (N.eq_dec j s) as [->|]; [assumption|]. apply H3. lia.
    + intros j H. destruct (N.eq_dec j s) as [->|]; [assumption|]. apply IH. lia.
  - split; [lia|]. split; [assumption|]. intros j H. lia.
Qed.
Lemma ones_bit j : j < 32 -> N.testbit (2 ^ 32 - 1) j = true.
Proof. intros H. change (2 ^ 32 - 1) with (N.ones 32). apply N.ones_spec_low. assumption. Qed.

(** From place [q] of the map on. *)
Definition hole_from (map : lexid_map) (lex v : N) : Prop :=
  (v = none /\ forall n, lex <= n < 32 * N.of_nat (length map) -> bitof map n = true) \/
  (lex <= v < 32 * N.of_nat (length map) /\ bitof map v = false /\ forall n, lex <= n < v -> bitof map n = true).
Lemma hole_words_spec map : 32 * N.of_nat (length map) <= 2 ^ 32 -> forall k q, (q + k = length map)%nat -> hole_from map (N.of_nat q * 32) (hole_words (skipn q map) (N.of_nat q)).
Proof.
  intros HL. induction k as [|k IH]; intros q Hq.
  - rewrite skipn_all2 by lia. left. split; [reflexivity|]. intros n H. lia.
  - destruct (nth_error map q) as [w|] eqn:Ew; [|apply nth_error_None in Ew; lia].
    assert (ES : skipn q map = w :: skipn (S q) map).
    { revert Ew. clear. revert map. induction q as [|q IH]; intros [|x map] H; try discriminate; [cbn in H; injection H as ->; reflexivity|]. cbn [skipn]. apply IH. exact H. }
    rewrite ES. cbn [hole_words]. specialize (IH (S q) ltac:(lia)). replace (N.of_nat q + 1) with (N.of_nat (S q)) by lia.
    assert (AT : forall r, r < 32 -> bitof map (N.of_nat q * 32 + r) = N.testbit w r) by (intros r Hr; apply bitof_at; [assumption|rewrite Nat2N.id; assumption]).
    assert (FULL : (forall r, r < 32 -> N.testbit w r = true) -> hole_from map (N.of_nat q * 32) (hole_words (skipn (S q) map) (N.of_nat (S q)))).
    { intros F. assert (F' : forall n, N.of_nat q * 32 <= n < N.of_nat (S q) * 32 -> bitof map n = true).
      { intros n Hn. replace n with (N.of_nat q * 32 + (n - N.of_nat q * 32)) by lia. rewrite AT by lia. apply F. lia. }
      destruct IH as [[E H]|(H1 & H2 & H3)].
      - left. split; [assumption|]. intros n Hn. destruct (N.lt_ge_cases n (N.of_nat (S q) * 32)); [apply F'; lia|apply H; lia].
      - right. split; [lia|]. split; [assumption|]. intros n Hn. destruct (N.lt_ge_cases n (N.of_nat (S q) * 32)); [apply F'; lia|apply H3; lia]. }
    destruct (N.eqb_spec w (2 ^ 32 - 1)) as [->|Hw]; [apply FULL; intros; apply ones_bit; assumption|].
    pose proof (zero_bit_spec 32 0 w) as Z. destruct (zero_bit 32 0 w) as [s|].
    + destruct Z as (Z1 & Z2 & Z3). change (N.of_nat 32) with 32 in *. rewrite N.mod_small by lia. right. rewrite (N.add_comm s). split; [lia|]. split; [rewrite AT by lia; assumption|].
      intros n Hn. replace n with (N.of_nat q * 32 + (n - N.of_nat q * 32)) by lia. rewrite AT by lia. apply Z3. lia.
    + apply FULL. intros r Hr. apply Z. lia.
Qed.
Lemma next_hole_spec map lex : 32 * N.of_nat (length map) <= 2 ^ 32 -> lex < 32 * N.of_nat (length map) -> exists v, next_hole map lex = Ok v /\ hole_from map lex v.
Proof.
  intros HL H. unfold next_hole. pose proof (N.div_mod lex 32 ltac:(discriminate)) as D. pose proof (N.mod_lt lex 32 ltac:(discriminate)) as R.
  set (q := lex / 32) in *. set (r := lex mod 32) in *.
  destruct (nth_error map (N.to_nat q)) as [w|] eqn:Ew; [|apply nth_error_None in Ew; lia].
  assert (Hq : (N.to_nat q < length map)%nat) by (apply nth_error_Some; congruence).
  assert (AT : forall r, r < 32 -> bitof map (q * 32 + r) = N.testbit w r) by (intros x Hx; apply bitof_at; assumption).
  pose proof (zero_bit_spec (N.to_nat (32 - r)) r w) as Z. destruct (zero_bit (N.to_nat (32 - r)) r w) as [s|].
  - destruct Z as (Z1 & Z2 & Z3). rewrite N.mod_small by lia. eexists. split; [reflexivity|]. right. rewrite (N.add_comm s). split; [lia|]. split; [rewrite AT by lia; assumption|].
    intros n Hn. replace n with (q * 32 + (n - q * 32)) by lia. rewrite AT by lia. apply Z3. lia.
  - eexists. split; [reflexivity|]. pose proof (hole_words_spec map HL (length map - S (N.to_nat q)) (S (N.to_nat q)) ltac:(lia)) as HW.
    replace (N.of_nat (S (N.to_nat q))) with (q + 1) in HW by lia.
    assert (F : forall n, lex <= n < (q + 1) * 32 -> bitof map n = true).
    { intros n Hn. replace n with (q * 32 + (n - q * 32)) by lia. rewrite AT by lia. apply Z. lia. }
    destruct HW as [[E W]|(W1 & W2 & W3)].
    + left. split; [assumption|]. intros n Hn. destruct (N.lt_ge_cases n ((q + 1) * 32)); [apply F; lia|apply W; lia].
    + right. split; [lia|]. split; [assumption|]. intros n Hn. destruct (N.lt_ge_cases n ((q + 1) * 32)); [apply F; lia|apply W3; lia].
Qed.
