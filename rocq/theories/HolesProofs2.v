(** * HolesProofs2: the loop over the holes. *)
From Coq Require Import String Sorting.Sorted.
From Verif Require Import Base Api EngCompile Dump Holes HolesSpec HolesProofs.
Local Open Scope N_scope.
Local Open Scope list_scope.
Notation length := List.length.

Lemma hole_end_spec map max : forall fuel h, (N.to_nat (max - h) <= fuel)%nat -> h <= max ->
  let e := hole_end fuel map max h in h <= e <= max /\ (forall n, h <= n < e -> bitof map n = false) /\ (e = max \/ bitof map e = true).
Proof.
  induction fuel as [|fuel IH]; intros h Hf Hh; cbv zeta.
  - cbn [hole_end]. split; [lia|]. split; [intros n Hn; lia|left; lia].
  - cbn [hole_end]. rewrite test_lex_eq. destruct (N.ltb_spec h max) as [H|H]; cbn [andb].
    + destruct (bitof map h) eqn:E; cbn [negb].
      * split; [lia|]. split; [intros n Hn; lia|right; assumption].
      * destruct (IH (h + 1) ltac:(lia) ltac:(lia)) as (H1 & H2 & H3). split; [lia|]. split; [|assumption].
        intros n Hn. destruct (N.eq_dec n h) as [->|]; [assumption|apply H2; lia].
    + split; [lia|]. split; [intros n Hn; lia|left; lia].
Qed.
Lemma hole_end_past map max : forall fuel h, max <= h -> hole_end fuel map max h = h.
Proof. intros [|fuel] h H; cbn [hole_end]; [reflexivity|]. destruct (N.ltb_spec h max); [lia|reflexivity]. Qed.

Lemma map_length map ids m : maps map ids -> greatest ids m -> length map = S (N.to_nat (m / 32)).
Proof.
  intros [M1 M2 M3] [Hm Hg]. destruct M3 as [->|(id & Hid & E)].
  - apply M2 in Hm. unfold bitof in Hm. destruct (N.to_nat (m / 32)); discriminate.
  - apply M2 in Hm. unfold bitof in Hm. destruct (nth_error map (N.to_nat (m / 32))) eqn:Ew; [|discriminate].
    assert (N.to_nat (m / 32) < length map)%nat by (apply nth_error_Some; congruence).
    pose proof (N.div_le_mono id m 32 ltac:(discriminate) (Hg _ Hid)). lia.
Qed.

(** The hole printed behind the greatest id. *)
Definition beyond (ids : list N) (lo hi : N) : list (N * N) :=
  if (lo <? hi) && existsb (N.eqb (hi - 1)) ids && negb ((hi + 1) mod 32 =? 0) then [(hi + 1, hi + 1)] else [].
Lemma mem_in ids n : existsb (N.eqb n) ids = true <-> In n ids.
Proof. rewrite existsb_exists. split; [intros (x & Hx & E); apply N.eqb_eq in E; subst; assumption|intros H; exists n; split; [assumption|apply N.eqb_refl]]. Qed.
Lemma mem_out ids n : ~ In n ids -> existsb (N.eqb n) ids = false.
Proof. intros H. destruct (existsb (N.eqb n) ids) eqn:E; [apply mem_in in E; contradiction|reflexivity]. Qed.

Lemma gaps_last ids m : In m ids -> gaps ids m m [].
Proof. intros H. constructor; [constructor|intros a b []|]. intros n Hn Hni. exfalso. apply Hni. replace n with m by lia. assumption. Qed.
Lemma gaps_full ids lo hi : (forall n, lo <= n <= hi -> In n ids) -> gaps ids lo hi [].
Proof. intros H. constructor; [constructor|intros a b []|]. intros n Hn Hni. exfalso. auto. Qed.

Lemma gaps_cons ids lo l e hi gs : (forall n, lo <= n < l -> In n ids) -> lo < l -> l < e -> e <= hi -> (forall n, l <= n < e -> ~ In n ids) -> In e ids ->
  gaps ids e hi gs -> gaps ids lo hi ((l, e - 1) :: gs).
Proof.
  intros HI Hl He Hh HO Hin [G1 G2 G3]. constructor.
  - constructor; [assumption|]. apply Forall_forall. intros [a b] Hab. cbn [fst snd]. apply G2 in Hab. lia.
  - intros a b [E|H].
    + injection E as <- <-. split; [lia|]. split; [lia|]. split; [lia|]. split; [apply HI; lia|]. split; [replace (e - 1 + 1) with e by lia; assumption|]. intros n Hn. apply HO. lia.
    + destruct (G2 _ _ H) as (A & B & C & D). split; [lia|]. split; [lia|]. split; [lia|]. exact D.
  - intros n Hn Hni. destruct (N.lt_ge_cases n l) as [H|H]; [exfalso; apply Hni, HI; lia|]. destruct (N.lt_ge_cases n e) as [H'|H'].
    + exists l, (e - 1). split; [left; reflexivity|lia].
    + destruct (G3 n ltac:(lia) Hni) as (a & b & Hab & Hr). exists a, b. split; [right; assumption|assumption].
Qed.

Lemma holes_spec map ids hi : maps map ids -> greatest ids hi -> hi + 1 < none ->
  forall fuel lo, In lo ids -> (N.to_nat (hi - lo) < fuel)%nat -> exists gs, holes fuel map lo hi = Ok (gs ++ beyond ids lo hi) /\ gaps ids lo hi gs.
Proof.
  intros M G Hn. pose proof (map_length _ _ _ M G) as L. destruct G as [Hhi Hg].
  pose proof (N.div_mod hi 32 ltac:(discriminate)) as D. pose proof (N.mod_lt hi 32 ltac:(discriminate)) as R.
  assert (HL : 32 * N.of_nat (length map) <= 2 ^ 32).
  { rewrite L. unfold none in Hn. assert (hi / 32 < 2 ^ 27); [|change (2 ^ 32) with (32 * 2 ^ 27); lia]. apply N.div_lt_upper_bound; [discriminate|]. change (32 * 2 ^ 27) with (2 ^ 32). lia. }
  induction fuel as [|fuel IH]; intros lo Hlo Hf; [lia|]. pose proof (Hg _ Hlo) as Hle. cbn [holes]. unfold beyond. destruct (N.ltb_spec lo hi) as [H|H].
  2:{ exists []. split; [reflexivity|]. replace lo with hi by lia. apply gaps_last. assumption. }
  cbn [andb]. destruct (next_hole_spec map (lo + 1) HL) as (l & -> & HF); [rewrite L; lia|]. cbn [bind].
  destruct HF as [[-> HF]|(H1 & H2 & H3)].
  - rewrite N.eqb_refl. exists []. rewrite app_nil_l.
    assert (Z : (hi + 1) mod 32 = 0).
    { destruct (N.eq_dec (hi mod 32) 31) as [E|E]; [replace (hi + 1) with (0 + (hi / 32 + 1) * 32) by lia; rewrite N.mod_add by discriminate; reflexivity|]. exfalso.
      assert (B : bitof map (hi + 1) = true) by (apply HF; rewrite L; lia). apply (mp_bit _ _ M) in B. apply Hg in B. lia. }
    rewrite Z, andb_false_r. split; [reflexivity|]. apply gaps_full. intros n Hnn. destruct (N.eq_dec n lo) as [->|]; [assumption|]. apply (mp_bit _ _ M), HF. rewrite L. lia.
  - assert (Hln : l <> none). { intros ->. rewrite L in H1. assert (hi / 32 < 2 ^ 27) by (apply N.div_lt_upper_bound; [discriminate|]; change (32 * 2 ^ 27) with (2 ^ 32); unfold none in Hn; lia).
      assert (hi mod 32 < 31 \/ hi mod 32 = 31) as [X|X] by lia.
      - assert (bitof map (hi + 1) = true) as B by (apply H3; lia). apply (mp_bit _ _ M) in B. apply Hg in B. lia.
      - unfold none in *. assert (hi <= 2 ^ 32 - 1 - 32 + 0 \/ hi = 2 ^ 32 - 1) as [Y|Y].
        { assert (hi / 32 = 2 ^ 27 - 1 \/ hi / 32 < 2 ^ 27 - 1) as [Q|Q] by lia; [right; rewrite D, Q, X; reflexivity|left; change (2 ^ 32) with (32 * 2 ^ 27); lia]. }
        + assert (32 * N.of_nat (S (N.to_nat (hi / 32))) = hi + 1) by lia. lia.
        + lia. }
    destruct (N.eqb_spec l none) as [|_]; [contradiction|].
    assert (Hl2 : (l + 1) mod 2 ^ 32 = l + 1). { apply N.mod_small. unfold none in Hln. lia. }
    rewrite Hl2. destruct (N.lt_ge_cases l hi) as [Hlh|Hlh].
    + destruct (hole_end_spec map hi (N.to_nat hi) (l + 1) ltac:(lia) ltac:(lia)) as (E1 & E2 & E3). set (e := hole_end (N.to_nat hi) map hi (l + 1)) in *.
      assert (He : In e ids) by (destruct E3 as [->|E3]; [assumption|apply (mp_bit _ _ M); assumption]).
      assert (HO : forall n, l <= n < e -> ~ In n ids). { intros n Hnn Hin. apply (mp_bit _ _ M) in Hin. destruct (N.eq_dec n l) as [->|]; [congruence|]. rewrite E2 in Hin by lia. discriminate. }
      destruct (IH e He ltac:(lia)) as (gs & -> & GS). cbn [bind]. exists ((l, e - 1) :: gs). split.
      * cbn [app]. do 3 f_equal. unfold beyond. destruct (N.ltb_spec e hi) as [Y|Y]; [reflexivity|]. rewrite mem_out; [reflexivity|]. apply HO. lia.
      * apply gaps_cons; try assumption; try lia. intros n Hnn. destruct (N.eq_dec n lo) as [->|]; [assumption|]. apply (mp_bit _ _ M), H3. lia.
    + assert (l <> hi) by (intros ->; apply (mp_bit _ _ M) in Hhi; congruence).
      assert (l = hi + 1). { destruct (N.lt_ge_cases (hi + 1) l) as [Y|Y]; [|lia]. assert (B : bitof map (hi + 1) = true) by (apply H3; lia). apply (mp_bit _ _ M), Hg in B. lia. }
      subst l. rewrite hole_end_past by lia.
      destruct fuel as [|fuel']; [lia|]. cbn [holes]. destruct (N.ltb_spec (hi + 1 + 1) hi) as [Y|_]; [lia|]. cbn [bind]. exists []. split.
      * assert (B : existsb (N.eqb (hi - 1)) ids = true). { apply mem_in. destruct (N.eq_dec (hi - 1) lo) as [->|]; [assumption|]. apply (mp_bit _ _ M), H3. lia. }
        rewrite B. cbn [andb]. assert (Z : (hi + 1) mod 32 <> 0).
        { rewrite L in H1. assert (hi mod 32 <> 31) by lia. replace (hi + 1) with ((hi mod 32 + 1) + (hi / 32) * 32) by lia. rewrite N.mod_add by discriminate. rewrite N.mod_small by lia. lia. }
        destruct (N.eqb_spec ((hi + 1) mod 32) 0) as [|_]; [contradiction|]. cbn [negb app]. do 3 f_equal. lia.
      * apply gaps_full. intros n Hnn. destruct (N.eq_dec n lo) as [->|]; [assumption|]. apply (mp_bit _ _ M), H3. lia.
Qed.

Theorem print_map_spec map ids lo hi : maps map ids -> least ids lo -> greatest ids hi -> hi + 1 < none ->
  if lo mod 32 =? 0 then exists gs, print_map map = Ok (Lexemes lo hi (gs ++ beyond ids lo hi)) /\ gaps ids lo hi gs else print_map map = Ok No_lexemes.
Proof.
  intros M HL HG Hn. unfold print_map. cbv zeta. assert (Hlo : lo <= hi) by (apply HL, HG). unfold none in Hn.
  rewrite (get_min_spec map ids lo M HL) by lia. rewrite (get_max_spec map ids hi M HG) by lia.
  destruct (lo mod 32 =? 0); [|reflexivity].
  assert (lo <> none /\ hi <> none) as [A B] by (unfold none; lia). destruct (N.eqb_spec lo none) as [|_]; [contradiction|]. destruct (N.eqb_spec hi none) as [|_]; [contradiction|]. cbn [orb].
  destruct (holes_spec map ids hi M HG ltac:(unfold none; lia) (S (N.to_nat hi)) lo (proj1 HL) ltac:(lia)) as (gs & -> & G). exists gs. split; [reflexivity|assumption].
Qed.
