(** Proofs about FlatScan.v *)
From Verif Require Import Base Serial SerialProofs WordTree TreeSpec WordTreeProofs FlatScan.
Local Open Scope N_scope.

Lemma lor_pow2 a k : a < 2 ^ k -> N.lor a (2 ^ k) = a + 2 ^ k.
Proof.
  intros H. rewrite <- (N.mul_1_l (2 ^ k)) at 1. rewrite <- N.shiftl_mul_pow2.
  rewrite lor_shift_add by assumption. lia.
Qed.

Lemma testbit_add_pow2 a k : a < 2 ^ k -> N.testbit (a + 2 ^ k) k = true.
Proof.
  intros H. rewrite N.testbit_true.
  assert (H2 : 2 ^ k <> 0) by (apply N.pow_nonzero; discriminate).
  replace (a + 2 ^ k) with (a + 1 * 2 ^ k) by lia.
  rewrite N.div_add by assumption. rewrite N.div_small by assumption. reflexivity.
Qed.

Lemma testbit_small a k : a < 2 ^ k -> N.testbit a k = false.
Proof.
  intros H. destruct (N.eq_dec a 0) as [->|Hn]; [apply N.bits_0|].
  apply N.bits_above_log2. apply N.log2_lt_pow2; lia.
Qed.

Lemma land_ones_add a k : a < 2 ^ k -> N.land (a + 2 ^ k) (N.ones k) = a.
Proof.
  intros H. rewrite N.land_ones.
  assert (H2 : 2 ^ k <> 0) by (apply N.pow_nonzero; discriminate).
  rewrite <- N.add_mod_idemp_r, N.mod_same, N.add_0_r by assumption. apply N.mod_small. assumption.
Qed.

Lemma getcounter_store w n b p :
  N.of_nat n < cflag w ->
  exists a, getcounter w (storecount w n b ++ p) = Ok (a, p) /\ hasupper w a = b /\ getlower w a = n.
Proof.
  intros H. unfold storecount, getcounter, hasupper, getlower.
  destruct w; cbn [cflag] in *.
  - exists (N.lor (N.of_nat n) (if b then 128 else 0) mod 256). split; [reflexivity|].
    change 128 with (2 ^ 7) in H. change 0x7f with (N.ones 7).
    destruct b.
    + change 128 with (2 ^ 7). rewrite lor_pow2 by assumption.
      rewrite N.mod_small by (change (2 ^ 7) with 128 in *; lia).
      rewrite testbit_add_pow2, land_ones_add by assumption. rewrite Nnat.Nat2N.id. auto.
    + rewrite N.lor_0_r. rewrite N.mod_small by (change (2 ^ 7) with 128 in *; lia).
      rewrite testbit_small by assumption. rewrite N.land_ones, N.mod_small by assumption.
      rewrite Nnat.Nat2N.id. auto.
  - eexists. split; [apply getword16_put; apply N.mod_lt; discriminate|].
    change 0x8000 with (2 ^ 15) in *. change 0x7fff with (N.ones 15).
    destruct b.
    + rewrite lor_pow2 by assumption.
      rewrite N.mod_small by (change (2 ^ 15) with 32768 in *; change (2 ^ 16) with 65536; lia).
      rewrite testbit_add_pow2, land_ones_add by assumption. rewrite Nnat.Nat2N.id. auto.
    + rewrite N.lor_0_r.
      rewrite N.mod_small by (change (2 ^ 15) with 32768 in *; change (2 ^ 16) with 65536; lia).
      rewrite testbit_small by assumption. rewrite N.land_ones, N.mod_small by assumption.
      rewrite Nnat.Nat2N.id. auto.
Qed.

Lemma getchild_put c (sub rest : bytes) n :
  n = N.of_nat (length sub) -> n < 2 ^ 32 ->
  getchild (c :: putserial n ++ sub ++ rest) = Ok (c, sub ++ rest, rest).
Proof.
  intros Hn Hlt. unfold getchild. cbn [rd bind]. rewrite getserial_putserial by assumption.
  cbn [bind]. rewrite advance_app by assumption. reflexivity.
Qed.

(** ** The byte walk simulates a walk over the abstract tree *)
Section Sim.
  Context {A : Type} (w : cwidth) (ser : A -> bytes) (len : A -> N).
  Hypothesis ser_len : forall a, N.of_nat (length (ser a)) = len a.

  (** The data nodes the scanner reaches with fragment [fr], in visiting order. *)
  Fixpoint ahits (d : nat) (t : wtree A) (fr : frag) : res (list (A * frag)) :=
    match d with
    | O => Ub
    | S d' =>
        let! ch := chfind fr in
        let! sub := (match assoc ch (nested t) with Some t' => ahits d' t' (fnext fr) | None => Ok [] end) in
        Ok (sub ++ match p_data t with Some a => [(a, fr)] | None => [] end)
    end.

  Context {St St' : Type} (R : St -> St' -> Prop)
          (doitem : St -> bytes -> frag -> res (St * Z)) (item : St' -> A * frag -> res (St' * Z)).

  (** outcomes related by [R]: both undefined, or equal answers and related states *)
  Definition rres (m : res (St * Z)) (m' : res (St' * Z)) : Prop :=
    match m, m' with
    | Ok (s, r), Ok (s', r') => R s s' /\ r = r'
    | Ub, Ub => True
    | _, _ => False
    end.

  Lemma until_app (h : St' -> A * frag -> res (St' * Z)) l1 l2 s :
    until_nonzero h (l1 ++ l2) s =
    let! (s', r) := until_nonzero h l1 s in if Z.eqb r 0 then until_nonzero h l2 s' else Ok (s', r).
  Proof.
    revert s. induction l1 as [|a l1 IH]; intros s; cbn [app until_nonzero bind]; [reflexivity|].
    destruct (h s a) as [[s' r]|]; cbn [bind]; [|reflexivity].
    destruct (Z.eqb_spec r 0) as [->|Hr]; [apply IH|]. cbn [bind].
    destruct (Z.eqb_spec r 0); [contradiction|reflexivity].
  Qed.

  Lemma bind_assoc {X Y Z} (m : res X) (k : X -> res Y) (k' : Y -> res Z) :
    bind (bind m k) k' = bind m (fun x => bind (k x) k').
  Proof. destruct m; reflexivity. Qed.

  Lemma assoc_above c c0 (l : list (N * wtree A)) :
    Forall (fun x => x < c0) (map fst l) -> c0 <= c -> assoc c l = None.
  Proof.
    induction l as [|[x t] l IH]; cbn; [reflexivity|]. intros H Hc. inversion H; subst.
    destruct (N.eqb_spec x c); [lia|]. apply IH; assumption.
  Qed.

  Lemma scan_level_sim ch dd fr (descend : bytes -> St -> res (St * Z)) (target : wtree A -> St' -> res (St' * Z)) rest :
    (forall a, dd = Some a -> forall s s' junk, R s s' -> rres (doitem s (ser a ++ junk) fr) (item s' (a, fr))) ->
    forall l s s1,
    R s s1 ->
    descending (map fst l) ->
    (forall c t, In (c, t) l -> getbuflen w len t < 2 ^ 32) ->
    (forall t, assoc ch l = Some t -> forall s s' junk, R s s' -> rres (descend (serialize w ser len t ++ junk) s) (target t s')) ->
    rres
    (scan_level doitem ch (is_some dd) fr descend (length l) (serializes w ser len l ++ ser_opt ser dd ++ rest) s)
    (let! (s', r) := (match assoc ch l with Some t => target t s1 | None => Ok (s1, 0%Z) end) in
    if Z.eqb r 0 then
      until_nonzero item (match dd with Some a => [(a, fr)] | None => [] end) s'
    else Ok (s', r)).
  Proof.
    intros Hown l. induction l as [|[c t] l IH]; intros s s1 HR Hd Hsz Hdesc; cbn [length scan_level].
    - cbn [assoc bind serializes flat_map app]. cbn [Z.eqb].
      destruct dd as [a|]; cbn [is_some ser_opt until_nonzero].
      + specialize (Hown a eq_refl s s1 rest HR).
        destruct (doitem s (ser a ++ rest) fr) as [[s2 r2]|]; destruct (item s1 (a, fr)) as [[s' r]|]; cbn [bind rres] in *; try contradiction; [|exact I].
        destruct Hown as [HR2 ->].
        destruct (Z.eqb_spec r 0) as [->|]; cbn [rres]; auto.
      + cbn. auto.
    - cbn [serializes flat_map fst snd app]. rewrite <- !app_assoc.
      fold (serializes w ser len l).
      rewrite getchild_put.
      2:{ symmetry. apply serialize_len. assumption. }
      2:{ apply (Hsz c). left; reflexivity. }
      cbn [bind]. cbn [map fst descending] in Hd. destruct Hd as [Hall Hd].
      cbn [assoc] in *. rewrite (N.eqb_sym c ch) in *.
      destruct (N.eqb_spec ch c) as [->|Hne].
      + pose proof (Hdesc t eq_refl s s1 (serializes w ser len l ++ ser_opt ser dd ++ rest) HR) as Hds.
        destruct (descend _ s) as [[s2 r2]|]; destruct (target t s1) as [[s' r]|]; cbn [bind rres] in *; try contradiction; [|exact I].
        destruct Hds as [HR2 ->].
        destruct (Z.eqb_spec r 0) as [->|Hr]; [|cbn [rres]; auto].
        specialize (IH s2 s' HR2 Hd).
        rewrite (assoc_above c c l) in IH by (assumption || lia). cbn [bind Z.eqb] in IH.
        apply IH; [intros; eapply Hsz; right; eassumption|discriminate].
      + destruct (N.ltb_spec c ch) as [Hlt|Hge]; cbn [andb].
        * rewrite (assoc_above ch c l) by (assumption || lia).
          destruct dd as [a|]; cbn [is_some negb].
          -- change true with (is_some (Some a)). specialize (IH s s1 HR Hd).
             rewrite (assoc_above ch c l) in IH by (assumption || lia).
             apply IH; [intros; eapply Hsz; right; eassumption|discriminate].
          -- cbn [bind Z.eqb until_nonzero rres]. auto.
        * apply IH; [assumption|assumption|intros; eapply Hsz; right; eassumption|assumption].
  Qed.

  Theorem scan_sim_rel d : forall t fr hits s s1 rest,
    dumpable w len t ->
    (forall key a, lookup key t = Some a ->
       forall s s' junk fr', R s s' -> rres (doitem s (ser a ++ junk) fr') (item s' (a, fr'))) ->
    ahits d t fr = Ok hits -> R s s1 ->
    rres (scan_tree w doitem d (serialize w ser len t ++ rest) fr s) (until_nonzero item hits s1).
  Proof.
    induction d as [|d IH]; intros t fr hits s s1 rest Hwf Hitem Hh HR; [discriminate|].
    destruct Hwf as [l dd Hdesc Hb Hcnt Hsub].
    cbn [ahits nested p_data] in Hh. apply bind_ok_inv in Hh as (ch & Hch & Hh).
    apply bind_ok_inv in Hh as (sub & Hsubh & Hh). injection Hh as <-.
    rewrite serialize_eq. cbn [scan_tree]. rewrite <- !app_assoc.
    destruct (getcounter_store w (length l) (is_some dd) (serializes w ser len l ++ ser_opt ser dd ++ rest) Hcnt)
      as (a & Hc & Hu & Hlo).
    rewrite Hc. cbn [bind]. rewrite Hch. cbn [bind]. rewrite Hu, Hlo.
    rewrite until_app.
    replace (until_nonzero item sub s1) with
      (match assoc ch l with Some t => (fun t s => until_nonzero item sub s) t s1 | None => Ok (s1, 0%Z) end).
    2:{ destruct (assoc ch l) as [t'|] eqn:E; [reflexivity|]. injection Hsubh as <-. reflexivity. }
    apply scan_level_sim with (target := fun t s => until_nonzero item sub s).
    - intros a0 Ha s0 s0' junk HR0. apply (Hitem []); [cbn [lookup p_data]|]; assumption.
    - assumption.
    - assumption.
    - intros c t Hin. apply (Hsub c t Hin).
    - intros t' Ht s0 s0' junk HR0. rewrite Ht in Hsubh. apply IH.
      + eapply Hsub, assoc_in, Ht.
      + intros key a0 Hl. apply (Hitem (ch :: key)). cbn [lookup nested]. rewrite Ht. assumption.
      + assumption.
      + assumption.
  Qed.
End Sim.

Lemma rres_eq {St} (m m' : res (St * Z)) : rres eq m m' <-> m = m'.
Proof.
  destruct m as [[s r]|], m' as [[s' r']|]; cbn; split; intros H; try discriminate; try contradiction; auto.
  - destruct H as [-> ->]. reflexivity.
  - injection H as -> ->. auto.
Qed.

Theorem scan_sim {A} w (ser : A -> bytes) len (ser_len : forall a, N.of_nat (length (ser a)) = len a)
    {St} (doitem : St -> bytes -> frag -> res (St * Z)) (item : St -> A * frag -> res (St * Z))
    d : forall t fr hits s rest,
    dumpable w len t ->
    (forall key a, lookup key t = Some a -> forall s junk fr', doitem s (ser a ++ junk) fr' = item s (a, fr')) ->
    ahits d t fr = Ok hits ->
    scan_tree w doitem d (serialize w ser len t ++ rest) fr s = until_nonzero item hits s.
Proof.
  intros t fr hits s rest Hd Hi Hh. apply rres_eq.
  apply (scan_sim_rel w ser len ser_len eq doitem item d t fr hits s s rest Hd); [|assumption|reflexivity].
  intros key a Hl s0 s0' junk fr' <-. apply rres_eq. eapply Hi, Hl.
Qed.

(** ** What the abstract walk visits *)
Section Hits.
  Context {A : Type}.

  Lemma fnext_cons c s n : fnext (Frag (c :: s) (N.succ n)) = Frag s (n mod size_max1).
  Proof.
    unfold fnext. cbn [fstr flen tl]. f_equal.
    replace (N.succ n + (size_max1 - 1)) with (n + 1 * size_max1) by (unfold size_max1; lia).
    apply N.mod_add. discriminate.
  Qed.

  (** no key of the tree contains a zero byte *)
  Definition no_zero (t : wtree A) : Prop := forall key a, lookup key t = Some a -> ~ In 0 key.

  Lemma prefix_hits_cons (t : wtree A) c key :
    prefix_hits t (c :: key) =
    (match assoc c (nested t) with Some t' => prefix_hits t' key | None => [] end)
    ++ match p_data t with Some a => [(a, c :: key)] | None => [] end.
  Proof.
    unfold prefix_hits. change (seq 0 (S (length (c :: key)))) with (0%nat :: seq 1 (length (c :: key))).
    cbn [rev]. rewrite flat_map_app. f_equal.
    - cbn [length]. rewrite <- seq_shift, <- map_rev, flat_map_concat_map, map_map, <- flat_map_concat_map.
      cbn [firstn skipn lookup].
      destruct (assoc c (nested t)); [reflexivity|].
      induction (rev (seq 0 (S (length key)))) as [|x l IH]; [reflexivity|]. cbn. assumption.
    - cbn. destruct (p_data t); reflexivity.
  Qed.

  Lemma prefix_hits_nil (t : wtree A) :
    prefix_hits t [] = match p_data t with Some a => [(a, [])] | None => [] end.
  Proof. unfold prefix_hits. cbn. rewrite app_nil_r. reflexivity. Qed.

  Lemma ahits_nonzero key : forall d (t : wtree A) tail,
    nonzero t -> (length key < d)%nat -> N.of_nat (length key) < size_max1 ->
    ahits d t (Frag (key ++ tail) (N.of_nat (length key))) =
    Ok (map (fun ar => (fst ar, Frag (snd ar ++ tail) (N.of_nat (length (snd ar))))) (prefix_hits t key)).
  Proof.
    induction key as [|c key IH]; intros d t tail Hz Hd Hs; destruct d as [|d]; try (cbn in Hd; lia).
    - cbn [ahits length]. unfold chfind. cbn [flen]. cbn [N.of_nat N.ltb N.compare bind].
      rewrite prefix_hits_nil.
      destruct Hz as [l dd Hz]. cbn [nested p_data].
      destruct (assoc 0 l) as [t'|] eqn:E.
      + apply assoc_in in E. apply Hz in E. tauto.
      + cbn [bind app]. destruct dd; reflexivity.
    - cbn [length] in *. cbn [ahits]. unfold chfind. cbn [flen fstr app rd bind].
      destruct (N.ltb_spec 0 (N.of_nat (S (length key)))) as [_|?]; [|lia]. cbn [bind].
      rewrite Nnat.Nat2N.inj_succ, fnext_cons.
      rewrite N.mod_small by lia. rewrite prefix_hits_cons.
      destruct Hz as [l dd Hz]. cbn [nested p_data].
      destruct (assoc c l) as [t'|] eqn:E.
      + rewrite IH; [|apply assoc_in in E; apply Hz in E; tauto|lia|lia].
        cbn [bind]. rewrite map_app. destruct dd; cbn [map fst snd length app]; rewrite ?Nnat.Nat2N.inj_succ; reflexivity.
      + cbn [bind app]. destruct dd; cbn [map fst snd length app]; rewrite ?Nnat.Nat2N.inj_succ; reflexivity.
  Qed.
End Hits.

(** ** Scanning a dumped tree *)
Theorem scan_tree_prefixes {A St} w (ser : A -> bytes) len
    (ser_len : forall a, N.of_nat (length (ser a)) = len a)
    (doitem : St -> bytes -> frag -> res (St * Z)) (item : St -> A * frag -> res (St * Z))
    d t key tail rest s :
  dumpable w len t -> nonzero t -> (length key < d)%nat -> N.of_nat (length key) < size_max1 ->
  (forall k a, lookup k t = Some a -> forall s junk fr, doitem s (ser a ++ junk) fr = item s (a, fr)) ->
  scan_tree w doitem d (serialize w ser len t ++ rest) (Frag (key ++ tail) (N.of_nat (length key))) s =
  until_nonzero (fun s ar => item s (fst ar, Frag (snd ar ++ tail) (N.of_nat (length (snd ar)))))
                (prefix_hits t key) s.
Proof.
  intros Hw Hz Hd Hs Hitem.
  rewrite (scan_sim w ser len ser_len doitem item d t _ _ s rest Hw Hitem (ahits_nonzero key d t tail Hz Hd Hs)).
  generalize (prefix_hits t key). intros l. revert s.
  induction l as [|[a r] l IH]; intros s; cbn [map until_nonzero fst snd]; [reflexivity|].
  destruct (item s _) as [[s' z]|]; cbn [bind]; [|reflexivity]. destruct (Z.eqb z 0); [apply IH|reflexivity].
Qed.
