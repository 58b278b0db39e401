(** * TreeWalk: scanning and enumerating a dumped tree whose payload is only conditionally well formed.  PROOFS. *)
From Verif Require Import Base Serial SerialProofs WordTree TreeSpec WordTreeProofs FlatScan FlatScanProofs LidsProofs TrackProofs.
Local Open Scope N_scope.

Lemma all_data_lookup {A} (P : A -> Prop) key : forall t a, all_data P t -> lookup key t = Some a -> P a.
Proof.
  induction key as [|c key IH]; intros t a H; destruct H as [l d Hd Hl]; cbn [lookup nested p_data].
  - apply Hd.
  - destruct (assoc c l) as [t'|] eqn:E; [|discriminate]. apply IH. eapply Hl, assoc_in, E.
Qed.

Lemma lookup_all_data {A} (P : A -> Prop) : forall t : wtree A, ordered t -> (forall key a, lookup key t = Some a -> P a) -> all_data P t.
Proof.
  apply (wtree_ind' (fun t => ordered t -> (forall key a, lookup key t = Some a -> P a) -> all_data P t)).
  intros l d IH Ho H. inversion Ho as [l0 d0 Hd Hb Hsub]; subst. constructor.
  - intros x ->. apply (H []). reflexivity.
  - intros c t Hin. rewrite Forall_forall in IH. apply (IH (c, t) Hin); [apply (Hsub c t Hin)|].
    intros key a Ha. apply (H (c :: key)). cbn [lookup nested]. rewrite (assoc_of_in c t l Hd Hin). exact Ha.
Qed.

Lemma all_data_impl {A} (P Q : A -> Prop) : (forall a, P a -> Q a) -> forall t : wtree A, all_data P t -> all_data Q t.
Proof.
  intros HPQ. apply (wtree_ind' (fun t => all_data P t -> all_data Q t)).
  intros l d IH H. inversion H as [l0 d0 Hd Hl]; subst. constructor.
  - intros x Hx. apply HPQ, Hd, Hx.
  - intros c t Hin. rewrite Forall_forall in IH. apply (IH (c, t) Hin), (Hl c t Hin).
Qed.

Section Walk.
  Context {A : Type} (w : cwidth) (ser : A -> bytes) (len : A -> N).
  Definition sized (a : A) : Prop := N.of_nat (length (ser a)) = len a.

  Lemma sized_len : forall t, all_data sized t -> N.of_nat (length (serialize w ser len t)) = getbuflen w len t.
  Proof.
    apply (wtree_ind' (fun t => all_data sized t -> N.of_nat (length (serialize w ser len t)) = getbuflen w len t)).
    intros l d IH H. inversion H as [l0 d0 Hd Hl]; subst.
    rewrite serialize_eq, getbuflen_eq, !app_length, !Nnat.Nat2N.inj_add, storecount_len.
    assert (N.of_nat (length (serializes w ser len l)) = getbuflens w len l) as ->.
    { clear H Hd. induction l as [|[c t] l IHl]; [reflexivity|].
      inversion IH as [|x y Hx Hy]; subst. cbn [fst snd] in Hx.
      unfold serializes, getbuflens in *. cbn [flat_map fold_right fst snd].
      cbn [app length]. rewrite !app_length, Nnat.Nat2N.inj_succ, !Nnat.Nat2N.inj_add.
      rewrite IHl; [|assumption|intros; eapply Hl; right; eassumption].
      rewrite Hx by (eapply Hl; left; reflexivity). rewrite putserial_len. lia. }
    destruct d as [a|]; cbn [ser_opt length].
    - pose proof (Hd a eq_refl) as E. unfold sized in E. lia.
    - lia.
  Qed.

  Context {St : Type}.

  (** one level of the scan *)
  Lemma scan_level_gen (doitem : St -> bytes -> frag -> res (St * Z)) ch dd fr (descend : bytes -> St -> res (St * Z))
      (target : wtree A -> St -> res (St * Z)) (own : St -> A -> res (St * Z)) rest :
    (forall a, dd = Some a -> forall s junk, doitem s (ser a ++ junk) fr = own s a) ->
    forall l s,
    descending (map fst l) ->
    (forall c t, In (c, t) l -> getbuflen w len t < 2 ^ 32 /\ all_data sized t) ->
    (forall t, assoc ch l = Some t -> forall s junk, descend (serialize w ser len t ++ junk) s = target t s) ->
    scan_level doitem ch (is_some dd) fr descend (length l) (serializes w ser len l ++ ser_opt ser dd ++ rest) s =
    (let! (s', r) := (match assoc ch l with Some t => target t s | None => Ok (s, 0%Z) end) in
    if Z.eqb r 0 then
      until_nonzero own (match dd with Some a => [a] | None => [] end) s'
    else Ok (s', r)).
  Proof.
    intros Hown l. induction l as [|[c t] l IH]; intros s Hd Hsz Hdesc; cbn [length scan_level].
    - cbn [assoc bind serializes flat_map app]. cbn [Z.eqb].
      destruct dd as [a|]; cbn [is_some ser_opt until_nonzero]; [|reflexivity].
      rewrite (Hown a eq_refl). destruct (own s a) as [[s' r]|]; cbn [bind]; [|reflexivity].
      destruct (Z.eqb_spec r 0) as [->|]; reflexivity.
    - cbn [serializes flat_map fst snd app]. rewrite <- !app_assoc. fold (serializes w ser len l).
      rewrite getchild_put.
      2:{ symmetry. apply sized_len. apply (Hsz c). left; reflexivity. }
      2:{ apply (Hsz c). left; reflexivity. }
      cbn [bind]. cbn [map fst descending] in Hd. destruct Hd as [Hall Hd].
      cbn [assoc] in *. rewrite (N.eqb_sym c ch) in *.
      destruct (N.eqb_spec ch c) as [->|Hne].
      + rewrite (Hdesc t eq_refl). destruct (target t s) as [[s' r]|]; cbn [bind]; [|reflexivity].
        destruct (Z.eqb_spec r 0) as [->|Hr]; [|reflexivity].
        specialize (IH s' Hd). rewrite (assoc_above c c l) in IH by (assumption || lia). cbn [bind Z.eqb] in IH.
        apply IH; [intros; eapply Hsz; right; eassumption|discriminate].
      + destruct (N.ltb_spec c ch) as [Hlt|Hge]; cbn [andb].
        * rewrite (assoc_above ch c l) by (assumption || lia).
          destruct dd as [a|]; cbn [is_some negb].
          -- change true with (is_some (Some a)). specialize (IH s Hd).
             rewrite (assoc_above ch c l) in IH by (assumption || lia).
             apply IH; [intros; eapply Hsz; right; eassumption|discriminate].
          -- reflexivity.
        * apply IH; [assumption|intros; eapply Hsz; right; eassumption|assumption].
  Qed.

  Lemma until_app' {X} (h : St -> X -> res (St * Z)) l1 l2 s :
    until_nonzero h (l1 ++ l2) s =
    let! (s', r) := until_nonzero h l1 s in if Z.eqb r 0 then until_nonzero h l2 s' else Ok (s', r).
  Proof.
    revert s. induction l1 as [|a l1 IH]; intros s; cbn [app until_nonzero bind]; [reflexivity|].
    destruct (h s a) as [[s' r]|]; cbn [bind]; [|reflexivity].
    destruct (Z.eqb_spec r 0) as [->|Hr]; [apply IH|]. cbn [bind].
    destruct (Z.eqb_spec r 0); [contradiction|reflexivity].
  Qed.

  (** scanning calls the handler on the stored prefixes of [key], longest first *)
  Theorem scan_gen (doitem : St -> bytes -> frag -> res (St * Z)) (item : St -> A -> bytes -> res (St * Z)) tail key :
    forall d t rest s,
    dumpable w len t -> nonzero t -> all_data sized t ->
    (length key < d)%nat -> N.of_nat (length key) < size_max1 ->
    (forall k a r, key = k ++ r -> lookup k t = Some a ->
       forall s junk, doitem s (ser a ++ junk) (Frag (r ++ tail) (N.of_nat (length r))) = item s a r) ->
    scan_tree w doitem d (serialize w ser len t ++ rest) (Frag (key ++ tail) (N.of_nat (length key))) s =
    until_nonzero (fun s ar => item s (fst ar) (snd ar)) (prefix_hits t key) s.
  Proof.
    induction key as [|c key IH]; intros d t rest s Hw Hz Ha Hd Hs Hitem; destruct d as [|d]; try (cbn in Hd; lia);
      destruct Hw as [l dd Hdesc Hb Hcnt Hsub];
      inversion Hz as [l0 d0 Hzl]; subst; inversion Ha as [l1 d1 Had Hal]; subst;
      rewrite serialize_eq; cbn [scan_tree]; rewrite <- !app_assoc;
      destruct (getcounter_store w (length l) (is_some dd) (serializes w ser len l ++ ser_opt ser dd ++ rest) Hcnt)
        as (a & Hc & Hu & Hlo);
      rewrite Hc; cbn [bind].
    - cbn [length] in *. unfold chfind. cbn [flen]. cbn [N.of_nat N.ltb N.compare bind]. rewrite Hu, Hlo.
      assert (E : assoc 0 l = None).
      { destruct (assoc 0 l) as [t'|] eqn:E; [|reflexivity]. apply assoc_in, Hzl in E. tauto. }
      rewrite (scan_level_gen doitem 0 dd _ _ (fun t s => Ok (s, 0%Z)) (fun s a => item s a [])).
      + rewrite E. cbn [bind Z.eqb]. rewrite prefix_hits_nil. cbn [p_data]. destruct dd; reflexivity.
      + intros a0 Ha0 s0 junk. apply (Hitem [] a0 []); [reflexivity|exact Ha0].
      + assumption.
      + intros c t Hin. split; [apply (Hsub c t Hin)|apply (Hal c t Hin)].
      + intros t' Ht'. congruence.
    - cbn [length] in *. unfold chfind. cbn [flen fstr app rd].
      destruct (N.ltb_spec 0 (N.of_nat (S (length key)))) as [_|?]; [|lia]. cbn [bind]. rewrite Hu, Hlo.
      rewrite (scan_level_gen doitem c dd _ _ (fun t s => until_nonzero (fun s ar => item s (fst ar) (snd ar)) (prefix_hits t key) s)
                 (fun s a => item s a (c :: key))).
      + rewrite prefix_hits_cons, until_app'. cbn [nested p_data].
        destruct (assoc c l) as [t'|]; [|destruct dd; reflexivity].
        destruct (until_nonzero _ _ s) as [[s' r]|]; cbn [bind]; [|reflexivity]. destruct dd; reflexivity.
      + intros a0 Ha0 s0 junk. apply (Hitem [] a0 (c :: key)); [reflexivity|exact Ha0].
      + assumption.
      + intros c' t Hin. split; [apply (Hsub c' t Hin)|apply (Hal c' t Hin)].
      + intros t' Ht' s0 junk. rewrite Nnat.Nat2N.inj_succ, fnext_cons, N.mod_small by lia.
        apply IH.
        * eapply Hsub, assoc_in, Ht'.
        * eapply Hzl, assoc_in, Ht'.
        * eapply Hal, assoc_in, Ht'.
        * lia.
        * lia.
        * intros k a0 r -> Hl. apply (Hitem (c :: k)); [reflexivity|]. cbn [lookup nested]. rewrite Ht'. exact Hl.
  Qed.

  (** ** Enumerating a whole tree *)
  Definition entriess (prefix : bytes) (l : list (N * wtree A)) : list (bytes * A) :=
    flat_map (fun ct => entries (prefix ++ [fst ct]) (snd ct)) l.
  Lemma entries_eq prefix l (d : option A) :
    entries prefix (WNode l d) = entriess prefix l ++ match d with Some a => [(prefix, a)] | None => [] end.
  Proof.
    cbn [entries]. f_equal. induction l as [|[c t] l IH]; [reflexivity|]. cbn [entriess flat_map fst snd]. f_equal. exact IH.
  Qed.

  Theorem track_all (dovisit : St -> bytes -> bytes -> res (St * Z)) (visit : St -> bytes -> A -> res (St * Z)) n :
    forall depth t track rest s,
    dumpable w len t -> all_data sized t -> within n t -> (n < depth)%nat ->
    (forall k a, lookup k t = Some a -> forall s junk, dovisit s (ser a ++ junk) (track ++ k) = visit s (track ++ k) a) ->
    get_track w dovisit depth None (serialize w ser len t ++ rest) track s =
    until_nonzero (fun s ka => visit s (fst ka) (snd ka)) (entries track t) s.
  Proof.
    induction n as [|n IH]; intros depth t track rest s Hw Ha Hn Hdep Hv; (destruct depth as [|depth]; [lia|]);
      destruct Hw as [l dd Hdesc Hb Hcnt Hsub]; inversion Ha as [l1 d1 Had Hal]; subst;
      rewrite serialize_eq; cbn [get_track]; rewrite <- !app_assoc;
      destruct (getcounter_store w (length l) (is_some dd) (serializes w ser len l ++ ser_opt ser dd ++ rest) Hcnt)
        as (a & Hc & Hu & Hlo);
      rewrite Hc; cbn [bind]; rewrite Hu, Hlo, entries_eq.
    - cbn [within nested] in Hn. subst l. cbn [length track_level serializes flat_map app entriess].
      destruct dd as [a0|]; cbn [is_some ser_opt until_nonzero]; [|reflexivity].
      pose proof (Hv [] a0 eq_refl s rest) as E. rewrite app_nil_r in E. rewrite E. cbn [fst snd].
      destruct (visit s track a0) as [[s' r]|]; cbn [bind]; [|reflexivity].
      destruct (Z.eqb_spec r 0) as [->|]; reflexivity.
    - cbn [within nested] in Hn.
      assert (Hsub' : forall c t, In (c, t) l -> forall s junk,
                get_track w dovisit depth None (serialize w ser len t ++ junk) (track ++ [c]) s =
                until_nonzero (fun s ka => visit s (fst ka) (snd ka)) (entries (track ++ [c]) t) s).
      { intros c t Hin s0 junk. apply IH.
        - apply (Hsub c t Hin).
        - apply (Hal c t Hin).
        - apply (Hn c t Hin).
        - lia.
        - intros k a0 Hl s1 junk1. rewrite <- app_assoc. cbn [app].
          apply (Hv (c :: k)). cbn [lookup nested]. rewrite (assoc_of_in c t l Hdesc Hin). exact Hl. }
      assert (Hown : forall a0, dd = Some a0 -> forall s junk, dovisit s (ser a0 ++ junk) track = visit s track a0).
      { intros a0 -> s0 junk. pose proof (Hv [] a0 eq_refl s0 junk) as E. rewrite app_nil_r in E. exact E. }
      assert (Hsz : forall c t, In (c, t) l -> getbuflen w len t < 2 ^ 32 /\ all_data sized t).
      { intros c t Hin. split; [apply (Hsub c t Hin)|apply (Hal c t Hin)]. }
      clear - Hsub' Hown Hsz. revert s. induction l as [|[c t] l IHl]; intros s.
      + cbn [length track_level serializes flat_map app entriess].
        destruct dd as [a0|]; cbn [is_some ser_opt until_nonzero]; [|reflexivity].
        rewrite (Hown a0 eq_refl). cbn [fst snd].
        destruct (visit s track a0) as [[s' r]|]; cbn [bind]; [|reflexivity].
        destruct (Z.eqb_spec r 0) as [->|]; reflexivity.
      + cbn [length track_level serializes flat_map fst snd app entriess]. rewrite <- !app_assoc.
        rewrite getchild_put.
        2:{ symmetry. apply sized_len. apply (Hsz c). left; reflexivity. }
        2:{ apply (Hsz c). left; reflexivity. }
        cbn [bind]. rewrite (Hsub' c t (or_introl eq_refl)). rewrite until_app'.
        destruct (until_nonzero _ (entries _ t) s) as [[s' r]|]; cbn [bind]; [|reflexivity].
        destruct (Z.eqb r 0); [|reflexivity].
        apply IHl; intros; [eapply Hsub'|eapply Hsz]; right; eassumption.
  Qed.

  (** the entries of a tree are its map *)
  Theorem entries_spec : forall t (k : bytes) (a : A) prefix, ordered t ->
    (In (prefix ++ k, a) (entries prefix t) <-> lookup k t = Some a).
  Proof.
    apply (wtree_ind' (fun t => forall (k : bytes) (a : A) prefix, ordered t ->
      (In (prefix ++ k, a) (entries prefix t) <-> lookup k t = Some a))).
    intros l d IH k a prefix Ho. inversion Ho as [l0 d0 Hdesc Hb Hsub]; subst.
    rewrite entries_eq, in_app_iff. rewrite Forall_forall in IH.
    assert (Hch : In (prefix ++ k, a) (entriess prefix l) <->
                  exists c t' k', k = c :: k' /\ In (c, t') l /\ lookup k' t' = Some a).
    { unfold entriess. rewrite in_flat_map. split.
      - intros ([c t'] & Hin & H). cbn [fst snd] in H.
        assert (exists k', k = c :: k') as (k' & ->).
        { clear - H. assert (Hpre : forall t p (x : bytes) (y : A), In (x, y) (entries p t) -> exists z, x = p ++ z).
          { clear. apply (wtree_ind' (fun t => forall p (x : bytes) (y : A), In (x, y) (entries p t) -> exists z, x = p ++ z)).
            intros l d IH p x y. rewrite entries_eq, in_app_iff. intros [H|H].
            - unfold entriess in H. apply in_flat_map in H as ([c t] & Hin & H). rewrite Forall_forall in IH.
              apply (IH (c, t) Hin) in H as (z & ->). cbn [fst]. exists (c :: z). rewrite <- app_assoc. reflexivity.
            - destruct d; [|destruct H]. destruct H as [H|[]]. injection H as <- <-. exists []. symmetry. apply app_nil_r. }
          apply Hpre in H as (z & H). rewrite <- app_assoc in H. apply app_inv_head in H. exists z. exact H. }
        exists c, t', k'. split; [reflexivity|]. split; [exact Hin|].
        apply (IH (c, t') Hin k' a (prefix ++ [c])); [apply (Hsub c t' Hin)|]. rewrite <- app_assoc. exact H.
      - intros (c & t' & k' & -> & Hin & H). exists (c, t'). split; [exact Hin|]. cbn [fst snd].
        apply (IH (c, t') Hin k' a (prefix ++ [c])) in H; [|apply (Hsub c t' Hin)]. rewrite <- app_assoc in H. exact H. }
    rewrite Hch. clear Hch. destruct k as [|c k]; cbn [lookup nested p_data].
    - split.
      + intros [(c & t' & k' & E & _)|H]; [discriminate|]. destruct d; [|destruct H]. destruct H as [H|[]]. congruence.
      + intros ->. right. left. rewrite app_nil_r. reflexivity.
    - split.
      + intros [(c' & t' & k' & E & Hin & H)|H].
        * injection E as <- <-. rewrite (assoc_of_in c t' l Hdesc Hin). exact H.
        * destruct d; [|destruct H]. destruct H as [H|[]]. injection H as H1 H2.
          rewrite <- (app_nil_r prefix) in H1 at 1. apply app_inv_head in H1. discriminate.
      + destruct (assoc c l) as [t'|] eqn:E; [|discriminate]. intros H. left. exists c, t', k.
        split; [reflexivity|]. split; [apply assoc_in, E|exact H].
  Qed.
End Walk.
