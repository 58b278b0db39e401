(** Proofs about the lexeme-id index *)
From Verif Require Import Base Serial SerialProofs WordTree TreeSpec WordTreeProofs FlatScan FlatScanProofs Stems StemSpec StemsProofs.
Local Open Scope N_scope.

(** ** height *)
Section Within.
  Context {A : Type}.
  Lemma within_wempty n : within n (@wempty A).
  Proof. destruct n; cbn; [reflexivity|intros ? ? []]. Qed.

  Lemma within_insert dflt key (f : A -> A) n : forall t,
    within n t -> (length key <= n)%nat -> within n (insert dflt key f t).
  Proof.
    revert n. induction key as [|c key IH]; intros n t Ht Hl; cbn [insert].
    - destruct n; cbn in *; assumption.
    - destruct n as [|n]; cbn [length] in Hl; [lia|]. cbn [within nested] in *.
      intros x t' Hin. apply place_in in Hin as [Hin|[-> [->|[t0 [Hin ->]]]]].
      + eapply Ht, Hin.
      + apply IH; [apply within_wempty|lia].
      + apply IH; [eapply Ht, Hin|lia].
  Qed.

  Lemma ahits_within n : forall d (t : wtree A) fr,
    within n t -> (n < d)%nat -> (n < length (fstr fr))%nat ->
    exists hits, ahits d t fr = Ok hits /\ (N.of_nat n < flen fr -> flen fr < size_max1 ->
      Forall (fun h => flen (snd h) <> 0) hits).
  Proof.
    induction n as [|n IH]; intros d t fr Hw Hd Hm; destruct d as [|d]; try lia; cbn [ahits].
    - destruct t as [l dd]. cbn in Hw. subst l. cbn [nested p_data assoc].
      assert (Hc : exists ch, chfind fr = Ok ch).
      { unfold chfind. destruct (0 <? flen fr); [|eauto]. destruct (fstr fr); [cbn in Hm; lia|cbn; eauto]. }
      destruct Hc as [ch ->]. cbn [bind app]. eexists. split; [reflexivity|].
      intros H1 H2. destruct dd; repeat constructor. cbn. lia.
    - assert (Hc : exists ch, chfind fr = Ok ch).
      { unfold chfind. destruct (0 <? flen fr); [|eauto]. destruct (fstr fr); [cbn in Hm; lia|cbn; eauto]. }
      destruct Hc as [ch ->]. cbn [bind].
      destruct t as [l dd]. cbn [nested p_data within] in *.
      destruct (assoc ch l) as [t'|] eqn:E.
      + destruct (IH d t' (fnext fr)) as (hits & Hh & Hz).
        * eapply Hw, assoc_in, E.
        * lia.
        * unfold fnext. cbn [fstr]. destruct (fstr fr); cbn in *; lia.
        * rewrite Hh. cbn [bind]. eexists. split; [reflexivity|]. intros H1 H2.
          apply Forall_app. split.
          -- apply Hz; unfold fnext; cbn [flen].
             ++ replace (flen fr + (size_max1 - 1)) with (flen fr - 1 + 1 * size_max1) by (unfold size_max1 in *; lia).
                rewrite N.mod_add by discriminate. rewrite N.mod_small by lia. lia.
             ++ apply N.mod_lt. discriminate.
          -- destruct dd; repeat constructor. cbn. lia.
      + cbn [bind app]. eexists. split; [reflexivity|]. intros H1 H2. destruct dd; repeat constructor. cbn. lia.
  Qed.

  (** the only reached node whose key is the whole word *)
  Lemma ahits_exact key : forall n d (t : wtree A) tail,
    within n t -> (n < d)%nat -> (n < length (key ++ tail))%nat -> N.of_nat n < 1000 ->
    N.of_nat (length key) < 1000 ->
    exists pre post, 
      ahits d t (Frag (key ++ tail) (N.of_nat (length key))) =
      Ok (pre ++ (match lookup key t with Some a => [(a, Frag tail 0)] | None => [] end) ++ post)
      /\ Forall (fun h => flen (snd h) <> 0) pre /\ Forall (fun h => flen (snd h) <> 0) post.
  Proof.
    induction key as [|c key IH]; intros n d t tail Hw Hd Hm Hn Hk; destruct d as [|d]; try lia.
    - cbn [ahits length]. unfold chfind. cbn [flen N.of_nat N.ltb N.compare bind lookup].
      destruct t as [l dd]. cbn [nested p_data].
      destruct (assoc 0 l) as [t'|] eqn:E.
      + destruct n as [|n]; [cbn in Hw; subst l; discriminate|]. cbn [within nested] in Hw.
        destruct (ahits_within n d t' (fnext (Frag ([] ++ tail) 0))) as (hits & Hh & Hz).
        * eapply Hw, assoc_in, E.
        * lia.
        * unfold fnext. cbn [fstr app] in *. destruct tail; cbn in *; lia.
        * rewrite Hh. cbn [bind]. exists hits, []. rewrite app_nil_r. cbn [app]. split; [destruct dd; reflexivity|].
          split; [|constructor]. apply Hz; unfold fnext; cbn [flen].
          -- change ((0 + (size_max1 - 1)) mod size_max1) with 18446744073709551615. lia.
          -- apply N.mod_lt. discriminate.
      + cbn [bind app]. exists [], []. rewrite app_nil_r. cbn [app]. split; [destruct dd; reflexivity|].
        split; constructor.
    - cbn [length] in *. cbn [ahits]. unfold chfind. cbn [flen fstr app rd bind].
      destruct (N.ltb_spec 0 (N.of_nat (S (length key)))) as [_|?]; [|lia]. cbn [bind].
      rewrite Nnat.Nat2N.inj_succ, fnext_cons. rewrite N.mod_small by (unfold size_max1; lia).
      destruct t as [l dd]. cbn [nested p_data lookup].
      destruct (assoc c l) as [t'|] eqn:E.
      + destruct n as [|n]; [cbn in Hw; subst l; discriminate|]. cbn [within nested] in Hw.
        destruct (IH n d t' tail) as (pre & post & Hh & Hp1 & Hp2); [eapply Hw, assoc_in, E|lia|cbn in Hm; lia|lia|lia|].
        rewrite Hh. cbn [bind].
        exists pre, (post ++ match dd with Some a => [(a, Frag (c :: key ++ tail) (N.succ (N.of_nat (length key))))] | None => [] end).
        split; [rewrite <- !app_assoc; reflexivity|]. split; [assumption|].
        apply Forall_app. split; [assumption|]. destruct dd; repeat constructor. cbn. lia.
      + cbn [bind app]. exists [], (match dd with Some a => [(a, Frag (c :: key ++ tail) (N.succ (N.of_nat (length key))))] | None => [] end).
        split; [reflexivity|]. split; [constructor|]. destruct dd; repeat constructor. cbn. lia.
  Qed.
End Within.

(** ** dumpability from total size *)
Section Dumpable.
  Context {A : Type} (w : cwidth) (len : A -> N).

  (** every node's child count fits the counter *)
  Inductive counts_ok : wtree A -> Prop :=
  | counts_node l d : N.of_nat (length l) < cflag w -> (forall c t, In (c, t) l -> counts_ok t) -> counts_ok (WNode l d).

  Lemma getbuflen_child l d c t : In (c, t) l -> getbuflen w len t < getbuflen w len (WNode l d).
  Proof.
    intros Hin. rewrite getbuflen_eq.
    assert (getbuflen w len t < getbuflens w len l).
    { induction l as [|[x y] l IH]; [destruct Hin|]. unfold getbuflens in *. cbn [fold_right snd].
      destruct Hin as [[= -> ->]|Hin]; [lia|]. specialize (IH Hin). lia. }
    lia.
  Qed.

  Lemma dumpable_intro t : ordered t -> counts_ok t -> getbuflen w len t < 2 ^ 32 -> dumpable w len t.
  Proof.
    induction t as [l d IH] using wtree_ind'. intros Ho Hc Hl.
    inversion Ho as [? ? Hd Hb Hs]; subst. inversion Hc as [? ? Hn Hcs]; subst.
    constructor; try assumption. intros c t Hin.
    pose proof (getbuflen_child l d c t Hin). rewrite Forall_forall in IH.
    split; [|lia]. apply (IH (c, t) Hin); [eapply Hs, Hin|eapply Hcs, Hin|cbn; lia].
  Qed.
End Dumpable.

Lemma descending_length l : forall b, descending l -> Forall (fun c => c < N.of_nat b) l -> (length l <= b)%nat.
Proof.
  induction l as [|c l IH]; intros b Hd Hb; [cbn; lia|].
  cbn [descending] in Hd. destruct Hd as [Hall Hd]. inversion Hb as [|? ? Hc Hb']; subst.
  cbn [length]. assert (Hlen : (length l <= N.to_nat c)%nat).
  { apply IH; [assumption|]. eapply Forall_impl; [|exact Hall]. cbn. intros. lia. }
  lia.
Qed.

Lemma counts_ok_C16 {A} (t : wtree A) : ordered t -> counts_ok C16 t.
Proof.
  induction t as [l d IH] using wtree_ind'. intros Ho. inversion Ho as [? ? Hd Hb Hs]; subst.
  constructor.
  - pose proof (descending_length (map fst l) 256 Hd Hb) as Hl. rewrite map_length in Hl. cbn [cflag]. lia.
  - intros c t Hin. rewrite Forall_forall in IH. apply (IH (c, t) Hin). eapply Hs, Hin.
Qed.

(** ** lookup by id *)
Lemma find_lid_lookup (t : wtree N) junk id :
  ordered t -> within 4 t -> getbuflen C16 seriallen t < 2 ^ 32 ->
  (forall k off, lookup k t = Some off -> off < 2 ^ 32) ->
  (length (lexkeylen id ++ junk) = 16)%nat ->
  forall rest,
  exists r, find_lid (lidstree_bytes t ++ rest) junk id = Ok r /\
  match lookup (lexkeylen id) t with
  | None => r = None
  | Some off => exists p, r = Some p /\ exists p', getserial p = Ok (off, p')
  end.
Proof.
  intros Ho Hw Hl Hoff Hjunk rest.
  assert (Hdump : dumpable C16 seriallen t) by (apply dumpable_intro; [assumption|apply counts_ok_C16; assumption|assumption]).
  destruct (ahits_exact (lexkeylen id) 4 64 t junk) as (pre & post & Hh & Hpre & Hpost);
    [assumption|lia|lia|lia|pose proof (lexkeylen_length id); lia|].
  unfold find_lid, lidstree_bytes.
  set (R := fun (s : option bytes) (s' : option N) =>
              match s' with None => s = None | Some off => exists p junk', s = Some p /\ p = putserial off ++ junk' end).
  set (item := fun (s' : option N) (h : N * frag) =>
                 if flen (snd h) =? 0 then Ok (Some (fst h), 1%Z) else Ok (s', 0%Z)).
  assert (Hitem : forall key a, lookup key t = Some a ->
             forall s s' junk0 fr', R s s' -> rres R (getofs s (putserial a ++ junk0) fr') (item s' (a, fr'))).
  { intros key a Ha s s' j fr' HR. unfold getofs, item. cbn [fst snd]. destruct (flen fr' =? 0); cbn [rres]; [|auto].
    split; [|reflexivity]. cbn. eauto. }
  pose proof (scan_sim_rel C16 putserial seriallen putserial_len R getofs item 64 t _ _ None None rest Hdump Hitem Hh eq_refl) as Hsim.
  assert (Hskip : forall l s, Forall (fun h : N * frag => flen (snd h) <> 0) l -> until_nonzero item l s = Ok (s, 0%Z)).
  { intros l s H. revert s. induction H as [|h l Hh' Hl' IH]; intros s; [reflexivity|]. cbn [until_nonzero].
    unfold item at 1. destruct (N.eqb_spec (flen (snd h)) 0); [contradiction|]. cbn [bind Z.eqb]. apply IH. }
  rewrite until_app, (Hskip pre None Hpre) in Hsim. cbn [bind Z.eqb] in Hsim.
  assert (Hres : until_nonzero item ((match lookup (lexkeylen id) t with Some a => [(a, Frag junk 0)] | None => [] end) ++ post) None
               = match lookup (lexkeylen id) t with Some a => Ok (Some a, 1%Z) | None => Ok (None, 0%Z) end).
  { destruct (lookup (lexkeylen id) t) as [a|]; [reflexivity|]. cbn [app]. apply Hskip. assumption. }
  rewrite Hres in Hsim. clear Hres.
  destruct (scan_tree C16 getofs 64 _ _ None) as [[r z]|].
  2:{ cbn [rres] in Hsim. destruct (lookup (lexkeylen id) t); destruct Hsim. }
  exists r. cbn [bind]. split; [reflexivity|].
  destruct (lookup (lexkeylen id) t) as [off|] eqn:El; cbn [rres] in Hsim; destruct Hsim as [HR _]; cbn in HR.
  - destruct HR as (p & j & -> & ->). exists (putserial off ++ j). split; [reflexivity|]. exists j.
    apply getserial_putserial. eapply Hoff, El.
  - assumption.
Qed.
