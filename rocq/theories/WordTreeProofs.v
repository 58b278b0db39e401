(** Proofs about WordTree.v *)
From Verif Require Import Base Serial SerialProofs WordTree TreeSpec.
Local Open Scope N_scope.

Section Ind.
  Context {A : Type}.
  Variable P : wtree A -> Prop.
  Hypothesis H : forall l d, Forall (fun ct => P (snd ct)) l -> P (WNode l d).
  Fixpoint wtree_ind' (t : wtree A) : P t :=
    match t with
    | WNode l d => H l d ((fix go (l : list (N * wtree A)) : Forall (fun ct => P (snd ct)) l :=
        match l with
        | [] => Forall_nil _
        | ct :: l' => Forall_cons ct (wtree_ind' (snd ct)) (go l')
        end) l)
    end.
End Ind.

Lemma assoc_in {B} c (l : list (N * B)) b : assoc c l = Some b -> In (c, b) l.
Proof.
  induction l as [|[x t] l IHl]; [discriminate|]. cbn.
  destruct (N.eqb_spec x c) as [->|]; [intros [= <-]; left; reflexivity|right; auto].
Qed.

(** ** Insert as map update *)
Section InsertFacts.
  Context {A : Type}.

  Lemma assoc_place_same c (f : wtree A -> wtree A) l :
    descending (map fst l) ->
    assoc c (place c f l) = Some (f (match assoc c l with Some t => t | None => wempty end)).
  Proof.
    induction l as [|[c' t'] l IH]; cbn [place map fst]; intros Hd.
    - cbn. rewrite N.eqb_refl. reflexivity.
    - destruct Hd as [Hall Hd]. destruct (N.ltb_spec c c') as [Hlt|Hge].
      + cbn [assoc]. destruct (N.eqb_spec c' c) as [->|Hne]; [lia|]. apply IH. assumption.
      + destruct (N.eqb_spec c' c) as [->|Hne]; cbn [assoc].
        * rewrite N.eqb_refl. reflexivity.
        * rewrite N.eqb_refl. destruct (N.eqb_spec c' c); [congruence|].
          replace (assoc c l) with (@None (wtree A)); [reflexivity|].
          symmetry. assert (Hlt : c' < c) by lia. clear -Hall Hlt.
          induction l as [|[x t] l IH]; [reflexivity|]. inversion Hall; subst; cbn in *.
          destruct (N.eqb_spec x c); [lia|]. apply IH; assumption.
  Qed.

  Lemma assoc_place_other c x (f : wtree A -> wtree A) l :
    x <> c -> assoc x (place c f l) = assoc x l.
  Proof.
    intros Hne. induction l as [|[c' t'] l IH]; cbn [place].
    - cbn. destruct (N.eqb_spec c x); [congruence|reflexivity].
    - destruct (N.ltb_spec c c').
      + cbn [assoc]. destruct (c' =? x); [reflexivity|apply IH].
      + destruct (N.eqb_spec c' c) as [->|Hn]; cbn [assoc].
        * destruct (N.eqb_spec c x); [congruence|reflexivity].
        * destruct (N.eqb_spec c x); [congruence|reflexivity].
  Qed.

  Lemma place_keys c (f : wtree A -> wtree A) l x :
    In x (map fst (place c f l)) -> x = c \/ In x (map fst l).
  Proof.
    induction l as [|[c' t'] l IH]; cbn [place].
    - cbn. intuition.
    - destruct (c <? c'); [|destruct (N.eqb_spec c' c)]; cbn in *; intuition.
  Qed.

  Lemma place_descending c (f : wtree A -> wtree A) l :
    descending (map fst l) -> descending (map fst (place c f l)).
  Proof.
    induction l as [|[c' t'] l IH]; cbn [place map fst]; intros Hd.
    - cbn. auto.
    - destruct Hd as [Hall Hd]. destruct (N.ltb_spec c c') as [Hlt|Hge].
      + cbn. split; [|apply IH; assumption].
        apply Forall_forall. intros x Hx. apply place_keys in Hx as [->|Hx]; [assumption|].
        rewrite Forall_forall in Hall. apply Hall; assumption.
      + destruct (N.eqb_spec c' c) as [->|Hne]; cbn; [auto|].
        split; [|auto]. constructor; [lia|].
        eapply Forall_impl; [|exact Hall]. cbn. lia.
  Qed.

  Lemma place_in c (f : wtree A -> wtree A) l x t :
    In (x, t) (place c f l) -> In (x, t) l \/ (x = c /\ (t = f wempty \/ exists t0, In (c, t0) l /\ t = f t0)).
  Proof.
    induction l as [|[c' t'] l IH]; cbn [place].
    - cbn. intros [[= <- <-]|[]]. auto.
    - destruct (c <? c'); [|destruct (N.eqb_spec c' c) as [->|Hn]]; cbn.
      + intros [H|H]; [auto|]. destruct (IH H) as [H1|[H1 [H2|[t0 [H2 H3]]]]]; eauto 8.
      + intros [[= <- <-]|H]; eauto 8.
      + intros [[= <- <-]|[H|H]]; eauto 8.
  Qed.

  Lemma ordered_wempty : ordered (@wempty A).
  Proof. constructor; cbn; auto. intros ? ? []. Qed.

  Lemma insert_ordered dflt key (f : A -> A) t :
    is_bytes key -> ordered t -> ordered (insert dflt key f t).
  Proof.
    revert t. induction key as [|c key IH]; intros t Hk Ht; cbn [insert].
    - destruct Ht as [l d Hd Hb Hs]. constructor; assumption.
    - inversion Hk as [|? ? Hc Hk']; subst.
      destruct Ht as [l d Hd Hb Hs]; cbn [nested p_data]. constructor.
      + apply place_descending; assumption.
      + apply Forall_forall. intros x Hx. apply place_keys in Hx as [->|Hx]; [assumption|].
        rewrite Forall_forall in Hb. auto.
      + intros x t Hin. apply place_in in Hin as [Hin|[-> [->|[t0 [Hin ->]]]]]; eauto using ordered_wempty.
  Qed.

  Lemma lookup_wempty key : lookup key (@wempty A) = None.
  Proof. destruct key; reflexivity. Qed.

  Lemma lookup_insert_same dflt key (f : A -> A) t :
    ordered t ->
    lookup key (insert dflt key f t) = Some (f (match lookup key t with Some a => a | None => dflt end)).
  Proof.
    revert t. induction key as [|c key IH]; intros t Ht; cbn [insert lookup nested p_data]; [reflexivity|].
    destruct Ht as [l d Hd Hb Hs]; cbn [nested p_data].
    rewrite assoc_place_same by assumption.
    destruct (assoc c l) as [t0|] eqn:E.
    - rewrite IH; [reflexivity|]. eapply Hs, assoc_in, E.
    - rewrite IH by apply ordered_wempty. rewrite lookup_wempty. reflexivity.
  Qed.

  Lemma lookup_insert_other dflt key key' (f : A -> A) t :
    ordered t -> key' <> key -> lookup key' (insert dflt key f t) = lookup key' t.
  Proof.
    revert t key'. induction key as [|c key IH]; intros t key' Ht Hne; cbn [insert].
    - destruct key' as [|c' key']; [congruence|]. reflexivity.
    - destruct key' as [|c' key']; [reflexivity|]. cbn [lookup nested].
      destruct (N.eq_dec c' c) as [->|Hc].
      + destruct Ht as [l d Hd Hb Hs]; cbn [nested].
        rewrite assoc_place_same by assumption.
        destruct (assoc c l) as [t0|] eqn:E.
        * apply IH; [|congruence]. eapply Hs, assoc_in, E.
        * rewrite IH; [|apply ordered_wempty|congruence]. apply lookup_wempty.
      + rewrite assoc_place_other by assumption. reflexivity.
  Qed.
End InsertFacts.

(** ** Lengths *)
Section DumpFacts.
  Context {A : Type}.
  Variable w : cwidth.
  Variable ser : A -> bytes.
  Variable len : A -> N.
  Hypothesis ser_len : forall a, N.of_nat (length (ser a)) = len a.

  Definition getbuflens (l : list (N * wtree A)) : N :=
    fold_right (fun ct n => let sub := getbuflen w len (snd ct) in seriallen sub + sub + 1 + n) 0 l.
  Definition serializes (l : list (N * wtree A)) : bytes :=
    flat_map (fun ct => fst ct :: putserial (getbuflen w len (snd ct)) ++ serialize w ser len (snd ct)) l.
  Definition ser_opt (d : option A) : bytes := match d with Some a => ser a | None => [] end.
  Definition is_some {B} (d : option B) : bool := match d with Some _ => true | None => false end.

  Lemma getbuflen_eq l d :
    getbuflen w len (WNode l d) = cbytes w + getbuflens l + match d with Some a => len a | None => 0 end.
  Proof.
    cbn [getbuflen]. f_equal. f_equal. induction l as [|[c t] l IH]; [reflexivity|].
    unfold getbuflens in *. cbn [fold_right snd]. rewrite IH. reflexivity.
  Qed.

  Lemma serialize_eq l d :
    serialize w ser len (WNode l d) = storecount w (length l) (is_some d) ++ serializes l ++ ser_opt d.
  Proof.
    cbn [serialize]. f_equal. f_equal. induction l as [|[c t] l IH]; [reflexivity|].
    unfold serializes in *. cbn [flat_map fst snd app]. rewrite IH, <- !app_assoc. reflexivity.
  Qed.

  Lemma storecount_len c b : N.of_nat (length (storecount w c b)) = cbytes w.
  Proof. unfold storecount. destruct w; reflexivity. Qed.

  Lemma serialize_len t : N.of_nat (length (serialize w ser len t)) = getbuflen w len t.
  Proof.
    induction t as [l d IH] using wtree_ind'.
    rewrite getbuflen_eq, serialize_eq, !app_length, !Nnat.Nat2N.inj_add, storecount_len.
    rewrite N.add_assoc. f_equal.
    - f_equal. unfold serializes, getbuflens. induction IH as [|[c t] l Ht Hl IHl]; [reflexivity|].
      cbn [flat_map fold_right fst snd] in *. rewrite <- IHl.
      pose proof (putserial_len (getbuflen w len t)) as Hp.
      cbn [app length]. rewrite !app_length. lia.
    - destruct d; [apply ser_len|reflexivity].
  Qed.
End DumpFacts.
