(** Proofs about [GetTrack] with [SelectView]: from a record's position back to its stem *)
From Verif Require Import Base Serial SerialProofs WordTree TreeSpec WordTreeProofs FlatScan FlatScanProofs Stems StemSpec StemsProofs LidsProofs.
Local Open Scope N_scope.

(** [entries_len l]: bytes taken by consecutive records *)
Definition entries_len (l : list entry) : N := fold_right (fun e n => entry_len e + n) 0 l.

(** Record [e] lies at offset [off] in the dump of [t] that starts at offset [base], under [key]. *)
Inductive rec_at : wtree (list entry) -> N -> bytes -> entry -> N -> Prop :=
| rec_here l l1 e l2 base off :
    off = base + 1 + getbuflens C8 stems_len l + seriallen (N.of_nat (length (l1 ++ e :: l2))) + entries_len l1 ->
    rec_at (WNode l (Some (l1 ++ e :: l2))) base [] e off
| rec_child l1 c t' l2 d key base e off :
    rec_at t' (base + 1 + getbuflens C8 stems_len l1 + 1 + seriallen (getbuflen C8 stems_len t')) key e off ->
    rec_at (WNode (l1 ++ (c, t') :: l2) d) base (c :: key) e off.

(** all lists of the tree can be stored *)
Definition lists_ok (t : wtree (list entry)) : Prop := forall key l, lookup key t = Some l -> stems_ok l.

Inductive all_lists_ok : wtree (list entry) -> Prop :=
| alo l d : (forall x, d = Some x -> stems_ok x) -> (forall c t, In (c, t) l -> all_lists_ok t) -> all_lists_ok (WNode l d).

Lemma assoc_of_in {B} c (t : B) l : descending (map fst l) -> In (c, t) l -> assoc c l = Some t.
Proof.
  induction l as [|[x y] l IH]; cbn [map fst descending]; intros Hd Hin; [destruct Hin|].
  destruct Hd as [Hall Hd]. cbn [assoc]. destruct Hin as [[= -> ->]|Hin]; [rewrite N.eqb_refl; reflexivity|].
  destruct (N.eqb_spec x c) as [->|]; [|apply IH; assumption].
  exfalso. rewrite Forall_forall in Hall. specialize (Hall c (in_map fst _ _ Hin)). lia.
Qed.

Lemma all_lists_ok_of_lists_ok t : ordered t -> lists_ok t -> all_lists_ok t.
Proof.
  induction t as [l d IH] using wtree_ind'. intros Ho Hl. inversion Ho as [? ? Hd Hb Hs]; subst. constructor.
  - intros x Hx. apply (Hl []). exact Hx.
  - intros c t Hin. rewrite Forall_forall in IH. apply (IH (c, t) Hin); [eapply Hs, Hin|].
    intros key x Hx. apply (Hl (c :: key)). cbn [lookup nested]. rewrite (assoc_of_in c t l Hd Hin). exact Hx.
Qed.

(** ** lengths under [all_lists_ok] *)
Lemma stems_ser_len' d : (forall x, d = Some x -> stems_ok x) ->
  N.of_nat (length (ser_opt stems_ser d)) = match d with Some a => stems_len a | None => 0 end.
Proof. intros H. destruct d as [x|]; [apply stems_ser_len, H; reflexivity|reflexivity]. Qed.

Lemma tree_len t : all_lists_ok t ->
  N.of_nat (length (serialize C8 stems_ser stems_len t)) = getbuflen C8 stems_len t.
Proof.
  induction t as [l d IH] using wtree_ind'. intros Ho. inversion Ho as [? ? Hd Hc]; subst.
  rewrite getbuflen_eq, serialize_eq, !app_length, !Nnat.Nat2N.inj_add, storecount_len.
  rewrite N.add_assoc. f_equal.
  - f_equal. unfold serializes, getbuflens. clear Ho Hd.
    induction IH as [|[c t] l Ht Hl IHl]; [reflexivity|].
    cbn [flat_map fold_right fst snd] in *. rewrite <- IHl by (intros; eapply Hc; right; eassumption).
    rewrite <- Ht by (eapply Hc; left; reflexivity).
    pose proof (putserial_len (N.of_nat (length (serialize C8 stems_ser stems_len t)))) as Hp.
    cbn [app length]. rewrite !app_length. lia.
  - apply stems_ser_len'. assumption.
Qed.

Lemma children_len l : (forall c t, In (c, t) l -> all_lists_ok t) ->
  N.of_nat (length (serializes C8 stems_ser stems_len l)) = getbuflens C8 stems_len l.
Proof.
  induction l as [|[c t] l IH]; intros H; [reflexivity|].
  unfold serializes, getbuflens in *. cbn [flat_map fold_right fst snd].
  rewrite <- IH by (intros; eapply H; right; eassumption).
  rewrite <- (tree_len t) by (eapply H; left; reflexivity).
  pose proof (putserial_len (N.of_nat (length (serialize C8 stems_ser stems_len t)))) as Hp.
  cbn [app length]. rewrite !app_length. lia.
Qed.

Lemma flat_entries_len l : Forall entry_ok l -> N.of_nat (length (flat_map entry_ser l)) = entries_len l.
Proof.
  intros H. induction H as [|e l He Hl IH]; [reflexivity|]. unfold entries_len in *.
  cbn [flat_map fold_right]. rewrite app_length, Nnat.Nat2N.inj_add, IH, entry_ser_len by assumption. reflexivity.
Qed.

Section Track.
  Context {St : Type} (output : St -> N -> N -> frag -> frag -> res (St * Z)).

  (** ** SelectView on one list *)
  Lemma select_step d e l junk thestr s n :
    entry_ok e ->
    select_loop output d (S n) (flat_map entry_ser (e :: l) ++ junk) thestr s =
    (if Nat.eqb (length (flat_map entry_ser (e :: l) ++ junk)) d
     then output s (nlexid e) (oclass e) (Frag thestr (N.of_nat (length thestr))) (post_frag e (flat_map entry_ser l ++ junk))
     else select_loop output d n (flat_map entry_ser l ++ junk) thestr s).
  Proof.
    intros He. cbn [select_loop]. cbn [flat_map]. rewrite <- app_assoc.
    destruct (entry_read e (flat_map entry_ser l ++ junk) He) as (p & Hp & Hpost & Hbit & Hcl & Hlt).
    rewrite Hp.
    match goal with |- context [advance 2 (?a :: ?b :: ?q)] => change (a :: b :: q) with ([a; b] ++ q) end.
    rewrite advance_app by reflexivity. cbn [bind].
    rewrite getserial_putserial by apply He. cbn [bind].
    rewrite getword16_put by assumption. cbn [bind]. rewrite Hpost. cbn [bind]. rewrite Hcl. reflexivity.
  Qed.

  Lemma select_nomatch d l : forall junk thestr s,
    Forall entry_ok l ->
    (d <= length junk \/ length (flat_map entry_ser l ++ junk) < d)%nat ->
    select_loop output d (length l) (flat_map entry_ser l ++ junk) thestr s = Ok (s, 0%Z).
  Proof.
    induction l as [|e l IH]; intros junk thestr s Hl Hd; [reflexivity|].
    inversion Hl as [|? ? He Hl']; subst. cbn [length].
    rewrite select_step by assumption.
    assert (Hpos : (length (flat_map entry_ser (e :: l) ++ junk) >= length (flat_map entry_ser l ++ junk) + 1)%nat).
    { cbn [flat_map]. rewrite !app_length. unfold entry_ser at 1. cbn [app length]. lia. }
    destruct (Nat.eqb_spec (length (flat_map entry_ser (e :: l) ++ junk)) d) as [E|_].
    - exfalso. rewrite !app_length in *. lia.
    - apply IH; [assumption|]. rewrite !app_length in *. lia.
  Qed.

  Lemma select_match e l2 junk thestr s l1 :
    Forall entry_ok (l1 ++ e :: l2) ->
    select_loop output (length (flat_map entry_ser (e :: l2) ++ junk)) (length (l1 ++ e :: l2))
                (flat_map entry_ser (l1 ++ e :: l2) ++ junk) thestr s =
    output s (nlexid e) (oclass e) (Frag thestr (N.of_nat (length thestr))) (post_frag e (flat_map entry_ser l2 ++ junk)).
  Proof.
    induction l1 as [|x l1 IH]; intros Hl.
    - cbn [app length]. inversion Hl; subst. rewrite select_step by assumption.
      rewrite Nat.eqb_refl. reflexivity.
    - inversion Hl as [|? ? Hx Hl']; subst. cbn [app length]. rewrite select_step by assumption.
      match goal with |- context [Nat.eqb ?a ?b] => destruct (Nat.eqb_spec a b) as [E|_] end.
      + exfalso. revert E. cbn [flat_map]. rewrite flat_map_app. cbn [flat_map]. rewrite !app_length.
        unfold entry_ser at 1. cbn [app length]. lia.
      + apply IH. assumption.
  Qed.

  Lemma view_nomatch d l junk thestr s :
    stems_ok l -> (d <= length junk \/ length (stems_ser l ++ junk) <= d)%nat ->
    select_view output d s (stems_ser l ++ junk) thestr = Ok (s, 0%Z).
  Proof.
    intros [Hl Hn] Hd. unfold select_view, stems_ser in *. rewrite <- app_assoc, getserial_putserial by assumption.
    cbn [bind]. rewrite Nnat.Nat2N.id. apply select_nomatch; [assumption|].
    destruct Hd as [Hd|Hd]; [left; assumption|right].
    assert (1 <= length (putserial (N.of_nat (length l))))%nat.
    { unfold putserial. cbn [putserial_loop]. destruct (_ <? 128); cbn; lia. }
    rewrite !app_length in *. lia.
  Qed.

  (** ** GetTrack *)
  Notation dovisit d := (fun s p tr => select_view output d s p tr).

  Lemma track_skip d track upper (descend : bytes -> bytes -> St -> res (St * Z)) l : forall m q s,
    (forall c t, In (c, t) l -> all_lists_ok t /\ getbuflen C8 stems_len t < 2 ^ 32) ->
    (forall c t, In (c, t) l -> forall q tr s,
        (d <= length q \/ length (serialize C8 stems_ser stems_len t ++ q) <= d)%nat ->
        descend (serialize C8 stems_ser stems_len t ++ q) tr s = Ok (s, 0%Z)) ->
    (d <= length q \/ length (serializes C8 stems_ser stems_len l ++ q) <= d)%nat ->
    track_level (dovisit d) upper (Some d) track descend (length l + m)
                (serializes C8 stems_ser stems_len l ++ q) s =
    track_level (dovisit d) upper (Some d) track descend m q s.
  Proof.
    induction l as [|[c t] l IH]; intros m q s Hok Hdesc Hd; [reflexivity|].
    cbn [length plus track_level serializes flat_map fst snd app]. rewrite <- !app_assoc.
    fold (serializes C8 stems_ser stems_len l).
    destruct (Hok c t (or_introl eq_refl)) as [Ht Hsz].
    rewrite getchild_put; [|symmetry; apply tree_len; assumption|assumption].
    cbn [bind].
    set (p' := serializes C8 stems_ser stems_len l ++ q) in *.
    assert (Hbound : (length (serializes C8 stems_ser stems_len ((c, t) :: l) ++ q) >=
                      length (serialize C8 stems_ser stems_len t ++ p') + 1)%nat).
    { subst p'. cbn [serializes flat_map fst snd app length].
      rewrite ?app_length. fold (serializes C8 stems_ser stems_len l). cbn [length]. rewrite ?app_length. lia. }
    assert (Hp' : (length q <= length p')%nat) by (subst p'; rewrite app_length; lia).
    assert (Hp2 : (length p' <= length (serialize C8 stems_ser stems_len t ++ p'))%nat) by (rewrite app_length; lia).
    assert (Hrest : track_level (dovisit d) upper (Some d) track descend (length l + m) p' s =
                    track_level (dovisit d) upper (Some d) track descend m q s).
    { subst p'. apply IH; [intros; apply (Hok c0); right; assumption|intros; apply (Hdesc c0); [right|]; assumption|].
      destruct Hd; [left; assumption|right; lia]. }
    destruct (Nat.leb d (length (serialize C8 stems_ser stems_len t ++ p')) && Nat.leb (length p') d) eqn:Eb.
    - rewrite (Hdesc c t (or_introl eq_refl)).
      + cbn [bind Z.eqb]. exact Hrest.
      + apply andb_prop in Eb as [E1 E2]. apply Nat.leb_le in E1, E2. lia.
    - exact Hrest.
  Qed.

  Lemma track_none d n : forall depth t q tr s,
    within n t -> (n < depth)%nat -> all_lists_ok t -> dumpable C8 stems_len t ->
    (d <= length q \/ length (serialize C8 stems_ser stems_len t ++ q) <= d)%nat ->
    get_track C8 (dovisit d) depth (Some d) (serialize C8 stems_ser stems_len t ++ q) tr s = Ok (s, 0%Z).
  Proof.
    induction n as [|n IH]; intros depth t q tr s Hw Hn Ha Hdu Hd; (destruct depth as [|depth]; [lia|]).
    - destruct Hdu as [l dd Hdesc Hb Hcnt Hsub]. inversion Ha as [? ? Hdd Hch]; subst.
      cbn in Hw. subst l. rewrite serialize_eq in *. cbn [get_track]. rewrite <- !app_assoc in *.
      destruct (getcounter_store C8 (length (@nil (N * wtree (list entry)))) (is_some dd)
                  (serializes C8 stems_ser stems_len [] ++ ser_opt stems_ser dd ++ q) Hcnt) as (a & Hc & Hu & Hlo).
      rewrite Hc. cbn [bind]. rewrite Hu, Hlo. cbn [length track_level serializes flat_map app].
      destruct dd as [x|]; cbn [is_some]; [|reflexivity]. cbn [ser_opt].
      apply view_nomatch; [apply Hdd; reflexivity|].
      cbn [ser_opt] in Hd. rewrite !app_length in *. cbn [serializes flat_map length app] in Hd. lia.
    - destruct Hdu as [l dd Hdesc Hb Hcnt Hsub]. inversion Ha as [? ? Hdd Hch]; subst.
      cbn [within nested] in Hw. rewrite serialize_eq in *. cbn [get_track]. rewrite <- !app_assoc in *.
      destruct (getcounter_store C8 (length l) (is_some dd)
                  (serializes C8 stems_ser stems_len l ++ ser_opt stems_ser dd ++ q) Hcnt) as (a & Hc & Hu & Hlo).
      rewrite Hc. cbn [bind]. rewrite Hu, Hlo.
      replace (length l) with (length l + 0)%nat by lia.
      rewrite track_skip.
      + cbn [track_level]. destruct dd as [x|]; cbn [is_some]; [|reflexivity]. cbn [ser_opt].
        apply view_nomatch; [apply Hdd; reflexivity|].
        cbn [ser_opt] in Hd. rewrite !app_length in *. lia.
      + intros c t Hin. split; [eapply Hch, Hin|apply (Hsub c t Hin)].
      + intros c t Hin q0 tr0 s0 Hd0. apply IH; [eapply Hw, Hin|lia|eapply Hch, Hin|apply (Hsub c t Hin)|assumption].
      + rewrite !app_length in *. destruct Hd; [left|right]; lia.
  Qed.

  Variable out : St -> N -> N -> bytes -> bytes -> res (St * Z).
  Hypothesis Hout : forall s lid cl tr e after,
    output s lid cl (Frag tr (N.of_nat (length tr))) (post_frag e after) = out s lid cl tr (stpost e).

  Lemma rec_at_ge t base key e off : rec_at t base key e off -> base < off.
  Proof. clear output out Hout St. intros H. induction H; lia. Qed.

  (** position of a record inside the node's bytes *)
  Lemma rec_at_bytes t base key e off : rec_at t base key e off -> all_lists_ok t ->
    forall q, exists pre post, serialize C8 stems_ser stems_len t ++ q = pre ++ entry_ser e ++ post /\
      N.of_nat (length pre) = off - base /\ (length q <= length post)%nat /\ entry_ok e.
  Proof. clear output out Hout St.
    intros H. induction H as [l l1 e l2 base off Hoff|l1 c t' l2 d key base e off Hr IH]; intros Ha q.
    - inversion Ha as [? ? Hd Hc]; subst.
      destruct (Hd _ eq_refl) as [Hall Hn].
      pose proof Hall as Hall2. apply Forall_app in Hall2 as [Hl1 He2]. inversion He2; subst.
      exists (storecount C8 (length l) true ++ serializes C8 stems_ser stems_len l ++
              putserial (N.of_nat (length (l1 ++ e :: l2))) ++ flat_map entry_ser l1), (flat_map entry_ser l2 ++ q).
      split; [|split; [|split; [rewrite app_length; lia|assumption]]].
      + rewrite serialize_eq. cbn [is_some ser_opt]. unfold stems_ser at 2. rewrite flat_map_app. cbn [flat_map].
        rewrite <- !app_assoc. reflexivity.
      + rewrite !app_length, !Nnat.Nat2N.inj_add, storecount_len, children_len, putserial_len, flat_entries_len by assumption.
        cbn [cbytes]. lia.
    - inversion Ha as [? ? Hd Hc]; subst.
      assert (Hin : In (c, t') (l1 ++ (c, t') :: l2)) by (apply in_or_app; right; left; reflexivity).
      destruct (IH (Hc _ _ Hin) (serializes C8 stems_ser stems_len l2 ++ ser_opt stems_ser d ++ q))
        as (pre & post & Hs & Hl & Hq & He).
      exists (storecount C8 (length (l1 ++ (c, t') :: l2)) (is_some d) ++ serializes C8 stems_ser stems_len l1 ++
              c :: putserial (getbuflen C8 stems_len t') ++ pre), post.
      split; [|split; [|split; [rewrite !app_length in Hq; lia|assumption]]].
      + rewrite serialize_eq. unfold serializes. rewrite flat_map_app. cbn [flat_map fst snd].
        fold (serializes C8 stems_ser stems_len l1). fold (serializes C8 stems_ser stems_len l2).
        rewrite <- ?app_assoc. cbn [app]. rewrite <- ?app_assoc. rewrite Hs. rewrite <- ?app_assoc. reflexivity.
      + pose proof (rec_at_ge _ _ _ _ _ Hr).
        rewrite !app_length, !Nnat.Nat2N.inj_add, storecount_len. cbn [length].
        rewrite app_length, Nnat.Nat2N.inj_succ, Nnat.Nat2N.inj_add, children_len, putserial_len, Hl.
        * cbn [cbytes]. lia.
        * intros; eapply Hc; apply in_or_app; left; eassumption.
  Qed.

  Theorem track_found t base key e off : rec_at t base key e off ->
    forall n depth q tr s d,
    within n t -> (n < depth)%nat -> all_lists_ok t -> dumpable C8 stems_len t ->
    N.of_nat d + (off - base) = N.of_nat (length (serialize C8 stems_ser stems_len t ++ q)) ->
    get_track C8 (dovisit d) depth (Some d) (serialize C8 stems_ser stems_len t ++ q) tr s =
    out s (nlexid e) (oclass e) (tr ++ key) (stpost e).
  Proof.
    intros H. induction H as [l l1 e l2 base off Hoff|l1 c t' l2 dd key base e off Hr IH];
      intros n depth q tr s d Hw Hn Ha Hdu Hd; (destruct depth as [|depth]; [lia|]).
    - inversion Hdu as [? ? Hdesc Hb Hcnt Hsub]; subst. inversion Ha as [? ? Hdd Hch]; subst.
      destruct (Hdd _ eq_refl) as [Hall Hcn].
      pose proof Hall as Hall2. apply Forall_app in Hall2 as [Hl1 He2].
      rewrite serialize_eq in *. cbn [get_track is_some ser_opt] in *. rewrite <- !app_assoc in *.
      destruct (getcounter_store C8 (length l) true
                  (serializes C8 stems_ser stems_len l ++ stems_ser (l1 ++ e :: l2) ++ q) Hcnt) as (a & Hc & Hu & Hlo).
      rewrite Hc. cbn [bind]. rewrite Hu, Hlo.
      assert (Hdval : d = length (flat_map entry_ser (e :: l2) ++ q)).
      { assert (Hst : N.of_nat (length (stems_ser (l1 ++ e :: l2))) =
                      seriallen (N.of_nat (length (l1 ++ e :: l2))) + entries_len l1 +
                      N.of_nat (length (flat_map entry_ser (e :: l2)))).
        { unfold stems_ser. rewrite flat_map_app, !(app_length (putserial _)), (app_length (flat_map _ _)), <- (flat_entries_len l1) by assumption.
          pose proof (putserial_len (N.of_nat (length (l1 ++ e :: l2)))). lia. }
        rewrite (app_length (storecount _ _ _)), (app_length (serializes _ _ _ _)), (app_length (stems_ser _)) in Hd.
        pose proof (storecount_len C8 (length l) true) as Hsc. cbn [cbytes] in Hsc.
        pose proof (children_len l Hch) as Hcl. rewrite app_length. lia. }
      replace (length l) with (length l + 0)%nat by lia.
      rewrite track_skip.
      + cbn [track_level]. unfold select_view, stems_ser. rewrite <- app_assoc, getserial_putserial by assumption.
        cbn [bind]. rewrite Nnat.Nat2N.id. rewrite Hdval, select_match by assumption. rewrite app_nil_r. apply Hout.
      + intros c t Hin. split; [eapply Hch, Hin|apply (Hsub c t Hin)].
      + intros c t Hin q0 tr0 s0 Hd0. destruct n as [|n].
        * cbn in Hw. subst l. destruct Hin.
        * apply track_none with (n := n); [eapply Hw, Hin|lia|eapply Hch, Hin|apply (Hsub c t Hin)|assumption].
      + left. subst d. unfold stems_ser. rewrite flat_map_app, !app_length. lia.
    - inversion Hdu as [? ? Hdesc Hb Hcnt Hsub]; subst. inversion Ha as [? ? Hdd Hch]; subst.
      destruct n as [|n]; [cbn in Hw; destruct l1; discriminate|]. cbn [within nested] in Hw.
      assert (Hin : In (c, t') (l1 ++ (c, t') :: l2)) by (apply in_or_app; right; left; reflexivity).
      rewrite serialize_eq in *. cbn [get_track] in *. rewrite <- !app_assoc in *.
      destruct (getcounter_store C8 (length (l1 ++ (c, t') :: l2)) (is_some dd)
                  (serializes C8 stems_ser stems_len (l1 ++ (c, t') :: l2) ++ ser_opt stems_ser dd ++ q) Hcnt)
        as (a & Hc & Hu & Hlo).
      rewrite Hc. cbn [bind]. rewrite Hu, Hlo.
      unfold serializes in *. rewrite flat_map_app in *. cbn [flat_map fst snd] in *.
      fold (serializes C8 stems_ser stems_len l1) in *. fold (serializes C8 stems_ser stems_len l2) in *.
      rewrite <- !app_assoc in *. cbn [app] in *. rewrite <- !app_assoc in *.
      set (q' := serializes C8 stems_ser stems_len l2 ++ ser_opt stems_ser dd ++ q) in *.
      destruct (rec_at_bytes _ _ _ _ _ Hr (Hch _ _ Hin) q') as (pre & post & Hs & Hl & Hq & He).
      pose proof (rec_at_ge _ _ _ _ _ Hr) as Hge.
      assert (Hd' : N.of_nat d + (off - (base + 1 + getbuflens C8 stems_len l1 + 1 + seriallen (getbuflen C8 stems_len t')))
                    = N.of_nat (length (serialize C8 stems_ser stems_len t' ++ q'))).
      { rewrite app_length, Nnat.Nat2N.inj_add, storecount_len in Hd. cbn [cbytes] in Hd.
        rewrite app_length, Nnat.Nat2N.inj_add, children_len in Hd by (intros; eapply Hch; apply in_or_app; left; eassumption).
        cbn [length] in Hd. rewrite app_length in Hd.
        pose proof (putserial_len (getbuflen C8 stems_len t')). lia. }
      assert (Hlt : (length q' < d < length (serialize C8 stems_ser stems_len t' ++ q'))%nat).
      { rewrite Hs in Hd' |- *. rewrite !app_length in *.
        assert (1 <= length (entry_ser e))%nat by (unfold entry_ser; cbn [app length]; lia). lia. }
      rewrite app_length. cbn [length].
      rewrite track_skip.
      + cbn [track_level]. rewrite getchild_put; [|symmetry; apply tree_len; eapply Hch, Hin|apply (Hsub _ _ Hin)].
        cbn [bind].
        destruct (Nat.leb_spec d (length (serialize C8 stems_ser stems_len t' ++ q'))); [|lia].
        destruct (Nat.leb_spec (length q') d); [|lia]. cbn [andb].
        rewrite (IH n depth q' (tr ++ [c]) s d); [|eapply Hw, Hin|lia|eapply Hch, Hin|apply (Hsub _ _ Hin)|assumption].
        rewrite <- app_assoc. cbn [app].
        destruct (out s (nlexid e) (oclass e) (tr ++ c :: key) (stpost e)) as [[s' r]|]; cbn [bind]; [|reflexivity].
        destruct (Z.eqb_spec r 0) as [Hr0|]; [rewrite Hr0|reflexivity].
        subst q'. replace (length l2) with (length l2 + 0)%nat by lia. rewrite track_skip.
        * cbn [track_level]. destruct dd as [x|]; cbn [is_some]; [|reflexivity]. cbn [ser_opt].
          apply view_nomatch; [apply Hdd; reflexivity|]. right. cbn [ser_opt] in *. rewrite !app_length in *. lia.
        * intros c0 t0 Hin0. assert (In (c0, t0) (l1 ++ (c, t') :: l2)) as Hin1 by (apply in_or_app; right; right; assumption).
          split; [eapply Hch, Hin1|apply (Hsub _ _ Hin1)].
        * intros c0 t0 Hin0 q0 tr0 s0 Hd0. assert (In (c0, t0) (l1 ++ (c, t') :: l2)) as Hin1 by (apply in_or_app; right; right; assumption).
          apply track_none with (n := n); [eapply Hw, Hin1|lia|eapply Hch, Hin1|apply (Hsub _ _ Hin1)|assumption].
        * right. lia.
      + intros c0 t0 Hin0. assert (In (c0, t0) (l1 ++ (c, t') :: l2)) as Hin1 by (apply in_or_app; left; assumption).
        split; [eapply Hch, Hin1|apply (Hsub _ _ Hin1)].
      + intros c0 t0 Hin0 q0 tr0 s0 Hd0. assert (In (c0, t0) (l1 ++ (c, t') :: l2)) as Hin1 by (apply in_or_app; left; assumption).
        apply track_none with (n := n); [eapply Hw, Hin1|lia|eapply Hch, Hin1|apply (Hsub _ _ Hin1)|assumption].
      + left. cbn [length]. rewrite app_length. lia.
  Qed.
End Track.
