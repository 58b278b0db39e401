(** * FuzzyProofs: the scan of the index of endings.  PROOFS ONLY. *)
From Verif Require Import Base Serial SerialProofs TreeSpec FlatScanProofs CharTables CapScheme CapSpec GramMap RusRuntime RusSpec RusBuild Fuzzy FuzzySpec.
Local Open Scope N_scope.

Lemma ptree_ind' (P : ptree -> Prop) :
  (forall l v kids, Forall P kids -> P (PNode l v kids)) -> forall t, P t.
Proof.
  intros H. fix IH 1. intros [l v kids]. apply H. induction kids as [|k kids IHk]; constructor; [apply IH|exact IHk].
Qed.

Lemma pser_cons t ts : flat_map pser (t :: ts) = pser t ++ flat_map pser ts.
Proof. reflexivity. Qed.
Lemma pser_eq l v kids : pser (PNode l v kids) = pnode_ser l v (length kids) (flat_map pser kids).
Proof. reflexivity. Qed.
Lemma contents_eq l v kids : contents (PNode l v kids) =
  map (extend l) ((match v with None => [] | Some v => [([], v)] end) ++ flat_map contents kids).
Proof. reflexivity. Qed.

Lemma putserial_pos n : (1 <= length (putserial n))%nat.
Proof. unfold putserial. cbn [putserial_loop]. destruct (n <? 128); cbn [length]; lia. Qed.

Definition vser (v : option (list class_ref)) : bytes := match v with None => [] | Some l => refs_ser l end.
Definition vflag (v : option (list class_ref)) : N := match v with None => 0 | Some _ => 1 end.

Lemma pser_long t : (3 <= length (pser t))%nat.
Proof.
  destruct t as [l v kids]. rewrite pser_eq. unfold pnode_ser. cbv zeta. rewrite !app_length.
  pose proof (putserial_pos (N.of_nat (length l))). pose proof (putserial_pos (2 * N.of_nat (length kids) + vflag v)) as H1.
  pose proof (putserial_pos (N.of_nat (length (flat_map pser kids) + length (vser v)))) as H2. fold (vser v) (vflag v). lia.
Qed.

Lemma kids_long kids : (3 * length kids <= length (flat_map pser kids))%nat.
Proof. induction kids as [|k kids IH]; [cbn; lia|]. rewrite pser_cons, app_length. pose proof (pser_long k). cbn [length]. lia. Qed.

Definition ref_ser (r : class_ref) : bytes := putserial (r_class r) ++ putserial (r_power r) ++ [r_form r].
Lemma refs_long l : (3 * length l <= length (flat_map ref_ser l))%nat.
Proof.
  induction l as [|r l IH]; [cbn; lia|]. cbn [flat_map]. unfold ref_ser at 1. rewrite !app_length.
  pose proof (putserial_pos (r_class r)). pose proof (putserial_pos (r_power r)). cbn [length]. lia.
Qed.

(** the sizes below a node *)
Lemma sized_label l v kids : sized (PNode l v kids) -> N.of_nat (length l) < 2 ^ 32 /\
  2 * N.of_nat (length kids) + vflag v < 2 ^ 32 /\ N.of_nat (length (flat_map pser kids) + length (vser v)) < 2 ^ 32 /\
  N.of_nat (length (flat_map pser kids)) < 2 ^ 32 /\ N.of_nat (length (vser v)) < 2 ^ 32.
Proof.
  intros [H]. rewrite pser_eq in H. unfold pnode_ser in H. cbv zeta in H. fold (vser v) (vflag v) in H. rewrite !app_length in H.
  pose proof (kids_long kids). pose proof (putserial_pos (N.of_nat (length l))). change (2 ^ 32) with 4294967296 in *.
  assert (vflag v <= 1) by (destruct v; cbn; lia). repeat split; lia.
Qed.
Lemma sized_kid l v kids k : sized (PNode l v kids) -> In k kids -> sized k.
Proof.
  intros H Hin. apply sized_label in H. destruct H as (_ & _ & _ & H & _). constructor.
  apply in_split in Hin. destruct Hin as (a & b & ->). rewrite flat_map_app, pser_cons, !app_length in H. lia.
Qed.

Lemma jump_over_eq kids : (forall k, In k kids -> sized k) -> forall rest,
  jump_over (length kids) (flat_map pser kids ++ rest) = Ok rest.
Proof.
  induction kids as [|[l v ks] kids IH]; intros Hs rest; [reflexivity|]. cbn [length jump_over]. rewrite pser_cons, pser_eq.
  destruct (sized_label _ _ _ (Hs _ (or_introl eq_refl))) as (H1 & H2 & H3 & H4 & H5).
  unfold pnode_ser. cbv zeta. fold (vser v) (vflag v). rewrite <- !app_assoc.
  rewrite getserial_putserial by assumption. cbn [bind]. rewrite getserial_putserial by assumption. cbn [bind].
  rewrite advance_app by reflexivity. cbn [bind]. rewrite getserial_putserial by assumption. cbn [bind].
  rewrite app_assoc. rewrite advance_app by (rewrite app_length; reflexivity). cbn [bind]. apply IH. intros; apply Hs; right; assumption.
Qed.


Section Walk.
  Context {St : Type}.
  Variable output : St -> N -> N -> N -> N -> res (St * Z).
  Definition call (s : St) (g : nat * class_ref) : res (St * Z) :=
    output s (N.of_nat (fst g)) (r_class (snd g)) (r_power (snd g)) (r_form (snd g)).

  Lemma scan_refs_eq n l : Forall ref_ok l -> forall rest s,
    scan_refs output (length l) (flat_map ref_ser l ++ rest) (N.of_nat n) s = until_nonzero call (map (pair n) l) s.
  Proof.
    induction 1 as [|r l (H1 & H2 & H3) Hl IH]; intros rest s; [reflexivity|]. cbn [length scan_refs flat_map map until_nonzero].
    unfold ref_ser at 1. rewrite <- !app_assoc. rewrite getserial_putserial by assumption. cbn [bind].
    rewrite getserial_putserial by assumption. cbn [bind app rd]. unfold call at 1. cbn [fst snd].
    destruct (output s (N.of_nat n) (r_class r) (r_power r) (r_form r)) as [[s' z]|]; cbn [bind]; [|reflexivity].
    destruct (Z.eqb z 0); [apply IH|reflexivity].
  Qed.

  Lemma scan_refs_at_eq n l rest s : Forall ref_ok l -> N.of_nat (length (refs_ser l)) < 2 ^ 32 ->
    scan_refs_at output (refs_ser l ++ rest) (N.of_nat n) s = until_nonzero call (map (pair n) l) s.
  Proof.
    intros Hl Hsz. unfold scan_refs_at, refs_ser. rewrite <- app_assoc. rewrite getserial_putserial.
    - cbn [bind]. rewrite Nnat.Nat2N.id. change (flat_map (fun r => putserial (r_class r) ++ putserial (r_power r) ++ [r_form r]) l) with (flat_map ref_ser l).
      apply scan_refs_eq. assumption.
    - unfold refs_ser in Hsz. rewrite app_length in Hsz. pose proof (refs_long l) as Hr.
      change (flat_map (fun r => putserial (r_class r) ++ putserial (r_power r) ++ [r_form r]) l) with (flat_map ref_ser l) in Hsz. lia.
  Qed.

  Lemma match_label_yes l rest key : match_label (length l) (l ++ rest) (l ++ key) = Ok (Some (rest, key)).
  Proof. induction l as [|c l IH]; [reflexivity|]. cbn [length match_label app rd bind]. rewrite N.eqb_refl. exact IH. Qed.

  Lemma match_label_no l : forall rest key below, (length l <= length key)%nat -> (forall key', key <> l ++ key') ->
    match_label (length l) (l ++ rest) (key ++ below) = Ok None.
  Proof.
    induction l as [|c l IH]; intros rest key below Hlen Hno; [exfalso; apply (Hno key); reflexivity|].
    destruct key as [|k key]; [cbn in Hlen; lia|]. cbn [length match_label app rd bind].
    destruct (N.eqb_spec c k) as [->|]; [|reflexivity]. apply IH; [cbn in Hlen; lia|]. intros key' ->. apply (Hno key'). reflexivity.
  Qed.

  (** the bytes of a node after the two numbers *)
  Definition pbody (t : ptree) : bytes :=
    match t with PNode l v kids => l ++ putserial (N.of_nat (length (flat_map pser kids) + length (vser v))) ++ flat_map pser kids ++ vser v end.
  Definition pcount (t : ptree) : N := match t with PNode l v kids => 2 * N.of_nat (length kids) + vflag v end.
  Lemma pser_body t : pser t = putserial (N.of_nat (length (plabel t))) ++ putserial (pcount t) ++ pbody t.
  Proof. destruct t as [l v kids]. reflexivity. Qed.

  Definition starts (k : N) (t : ptree) : bool := hd 0 (plabel t) =? k.

  Lemma select_node_eq k key kids : (forall t, In t kids -> sized t) -> Forall (fun t => plabel t <> []) kids ->
    increasing (map (fun t => hd 0 (plabel t)) kids) -> forall rest,
    exists rest', select_node (length kids) (k :: key) (flat_map pser kids ++ rest) =
      Ok (match find (starts k) kids with
          | Some t => Some (N.of_nat (length (plabel t)), pcount t, pbody t ++ rest')
          | None => None
          end).
  Proof.
    induction kids as [|t kids IH]; intros Hs Hl Hinc rest; [exists []; reflexivity|]. cbn [length select_node].
    rewrite pser_cons, pser_body, <- !app_assoc. inversion Hl as [|? ? Hlt Hl']; subst. cbn [map increasing] in Hinc. destruct Hinc as [Hmin Hinc].
    destruct t as [l v ks]. destruct (sized_label _ _ _ (Hs _ (or_introl eq_refl))) as (H1 & H2 & H3 & H4 & H5). cbn [plabel pcount pbody] in *.
    rewrite getserial_putserial by assumption. cbn [bind]. rewrite getserial_putserial by assumption. cbn [bind rd].
    destruct l as [|c l]; [congruence|]. cbn [app rd bind hd find]. unfold starts at 1. cbn [plabel hd].
    destruct (N.ltb_spec c k) as [Hlt'|Hge].
    - change (c :: (l ++ putserial (N.of_nat (length (flat_map pser ks) + length (vser v))) ++ flat_map pser ks ++ vser v) ++ flat_map pser kids ++ rest)
        with (((c :: l) ++ putserial (N.of_nat (length (flat_map pser ks) + length (vser v))) ++ flat_map pser ks ++ vser v) ++ flat_map pser kids ++ rest).
      rewrite <- !app_assoc. rewrite advance_app by reflexivity. cbn [bind]. rewrite getserial_putserial by assumption. cbn [bind].
      rewrite app_assoc. rewrite advance_app by (rewrite app_length; reflexivity). cbn [bind].
      destruct (N.eqb_spec c k); [lia|]. apply IH; [intros; apply Hs; right; assumption|assumption|assumption].
    - destruct (N.eqb_spec c k) as [->|Hne].
      + exists (flat_map pser kids ++ rest). cbn [plabel pcount pbody]. cbn [app]. rewrite <- !app_assoc. reflexivity.
      + exists []. assert (E : find (starts k) kids = None).
        { rewrite Forall_map in Hmin. cbn [hd plabel] in Hmin. clear - Hmin Hge Hne. induction Hmin as [|t kids Ht _ IH]; [reflexivity|].
          cbn [find]. unfold starts at 1. destruct (N.eqb_spec (hd 0 (plabel t)) k); [lia|]. exact IH. }
        rewrite E. reflexivity.
  Qed.

  Fixpoint stripped (l key : bytes) : option bytes :=
    match l, key with
    | [], _ => Some key
    | _, [] => None
    | c :: l', k :: key' => if c =? k then stripped l' key' else None
    end.
  Lemma stripped_spec l : forall key, match stripped l key with Some key' => key = l ++ key' | None => forall key', key <> l ++ key' end.
  Proof.
    induction l as [|c l IH]; intros key; [reflexivity|]. destruct key as [|k key]; [cbn; discriminate|]. cbn [stripped].
    destruct (N.eqb_spec c k) as [->|Hne].
    - specialize (IH key). destruct (stripped l key); [subst; reflexivity|]. intros key' E. apply (IH key'). injection E. auto.
    - intros key' E. injection E. intros; congruence.
  Qed.

  (** what a node holds along the key *)
  Fixpoint along (t : ptree) (key : bytes) : list (nat * class_ref) :=
    match t with
    | PNode l v kids =>
        match stripped l key with
        | None => []
        | Some key' =>
            (match v with None => [] | Some refs => map (pair (length key')) refs end)
            ++ match key' with
               | [] => []
               | k :: _ =>
                   (fix go (kids : list ptree) :=
                      match kids with [] => [] | t :: kids' => if starts k t then along t key' else go kids' end) kids
               end
        end
    end.
  Lemma along_eq l v kids key : along (PNode l v kids) key =
    match stripped l key with
    | None => []
    | Some key' =>
        (match v with None => [] | Some refs => map (pair (length key')) refs end)
        ++ match key' with
           | [] => []
           | k :: _ => match find (starts k) kids with Some t => along t key' | None => [] end
           end
    end.
  Proof.
    cbn [along]. destruct (stripped l key) as [[|k key']|]; try reflexivity. f_equal.
    induction kids as [|t kids IH]; [reflexivity|]. cbn [find]. destruct (starts k t); [reflexivity|exact IH].
  Qed.

  Lemma kid_key l v kids k kv : In k kids -> In kv (contents k) -> In (extend l kv) (contents (PNode l v kids)).
  Proof. intros H1 H2. rewrite contents_eq. apply in_map. apply in_or_app. right. apply in_flat_map. eauto. Qed.

  Lemma key_starts_label t kv : In kv (contents t) -> exists x, fst kv = plabel t ++ x.
  Proof.
    destruct t as [l v kids]. rewrite contents_eq. intros H. apply in_map_iff in H. destruct H as (kv' & <- & _). cbn. eauto.
  Qed.

  Lemma refs_ok_kid l v kids k : refs_ok (PNode l v kids) -> In k kids -> refs_ok k.
  Proof.
    unfold refs_ok. rewrite contents_eq, Forall_map. intros H Hin. apply Forall_app in H. destruct H as [_ H].
    rewrite Forall_forall in H |- *. intros kv Hkv. apply (H kv). apply in_flat_map. eauto.
  Qed.
  Lemma refs_ok_own l v kids : refs_ok (PNode l (Some v) kids) -> Forall ref_ok v.
  Proof. unfold refs_ok. rewrite contents_eq, Forall_map. cbn [app]. intros H. inversion H; subst. assumption. Qed.

  Lemma until_app2 {S X} (h : S -> X -> res (S * Z)) l1 l2 s :
    until_nonzero h (l1 ++ l2) s =
    let! (s', r) := until_nonzero h l1 s in if Z.eqb r 0 then until_nonzero h l2 s' else Ok (s', r).
  Proof.
    revert s. induction l1 as [|a l1 IH]; intros s; cbn [app until_nonzero bind]; [reflexivity|].
    destruct (h s a) as [[s' r]|]; cbn [bind]; [|reflexivity].
    destruct (Z.eqb_spec r 0) as [->|Hr]; [apply IH|]. cbn [bind].
    destruct (Z.eqb_spec r 0); [contradiction|reflexivity].
  Qed.

  Lemma scan_node_eq below : forall t, sized t -> ordered_tree t -> refs_ok t ->
    forall fuel rest key s, (length (pser t) <= fuel)%nat -> readable below t key ->
    scan_node output fuel (pbody t ++ rest) (N.of_nat (length (plabel t))) (pcount t) (key ++ below) (N.of_nat (length key)) s =
    until_nonzero call (along t key) s.
  Proof.
    induction t as [l v kids IH] using ptree_ind'; intros Hsz Hord Hrefs fuel rest key s Hfuel Hread.
    pose proof (pser_long (PNode l v kids)) as Hlong. destruct fuel as [|fuel]; [lia|]. cbn [scan_node].
    destruct (sized_label _ _ _ Hsz) as (H1 & H2 & H3 & H4 & H5). rewrite along_eq. cbn [plabel pcount].
    pose proof (stripped_spec l key) as Hst.
    destruct (N.eqb_spec (2 * N.of_nat (length kids) + vflag v) 0) as [E0|E0].
    { assert (v = None) by (destruct v; [cbn in E0; lia|reflexivity]). subst v. assert (kids = []) by (destruct kids; [reflexivity|cbn in E0; lia]). subst kids.
      destruct (stripped l key) as [[|k key']|]; reflexivity. }
    replace (N.testbit (2 * N.of_nat (length kids) + vflag v) 0) with (match v with None => false | Some _ => true end)
      by (destruct v; cbn [vflag]; rewrite ?N.add_0_r; [rewrite N.testbit_odd_0|rewrite N.testbit_even_0]; reflexivity).
    replace (N.shiftr (2 * N.of_nat (length kids) + vflag v) 1) with (N.of_nat (length kids))
      by (rewrite N.shiftr_div_pow2; destruct v; cbn [vflag]; change (2 ^ 1) with 2; lia).
    rewrite !Nnat.Nat2N.id. cbn [pbody]. rewrite <- !app_assoc.
    destruct (N.ltb_spec (N.of_nat (length key)) (N.of_nat (length l))) as [Hshort|Hlen].
    { destruct (stripped l key) as [key'|]; [|reflexivity]. subst key. rewrite app_length in Hshort. lia. }
    destruct (stripped l key) as [key'|]; [|rewrite match_label_no by (auto; lia); reflexivity].
    subst key. rewrite <- app_assoc, match_label_yes. cbn [bind]. rewrite app_length.
    replace (N.of_nat (length l + length key') - N.of_nat (length l)) with (N.of_nat (length key')) by lia.
    rewrite until_app2.
    assert (Ev : (if match v with None => false | Some _ => true end
                  then let! (_, p) := getserial (putserial (N.of_nat (length (flat_map pser kids) + length (vser v))) ++ flat_map pser kids ++ vser v ++ rest) in
                       let! p := jump_over (length kids) p in scan_refs_at output p (N.of_nat (length key')) s
                  else Ok (s, 0%Z)) =
                 until_nonzero call (match v with None => [] | Some refs => map (pair (length key')) refs end) s).
    { destruct v as [v|]; [|reflexivity]. rewrite getserial_putserial by assumption. cbn [bind].
      rewrite jump_over_eq by (intros; eapply sized_kid; eassumption). cbn [bind]. cbn [vser] in *. apply scan_refs_at_eq; [eapply refs_ok_own; eassumption|assumption]. }
    rewrite Ev. clear Ev.
    destruct (until_nonzero call (match v with None => [] | Some refs => map (pair (length key')) refs end) s) as [[s' z]|]; cbn [bind]; [|reflexivity].
    destruct (Z.eqb_spec z 0) as [->|Hz]; cbn [negb]; [|reflexivity].
    rewrite getserial_putserial by assumption. cbn [bind].
    inversion Hord as [l0 v0 kids0 Hne Hinc Hords]; subst.
    assert (Hfuel' : forall t, In t kids -> (length (pser t) <= fuel)%nat).
    { intros t Hin. rewrite pser_eq in Hfuel. unfold pnode_ser in Hfuel. cbv zeta in Hfuel. rewrite !app_length in Hfuel.
      pose proof (putserial_pos (N.of_nat (length l))). apply in_split in Hin. destruct Hin as (a & b & ->). rewrite flat_map_app, pser_cons, !app_length in Hfuel. lia. }
    destruct key' as [|k key'].
    - (* the word is exhausted *)
      cbn [app length]. destruct kids as [|k0 kids']; [reflexivity|].
      destruct Hread as [Hb|[Hp Hb]].
      + destruct below as [|b below]; [congruence|].
        destruct (select_node_eq b below (k0 :: kids') ltac:(intros; eapply sized_kid; eassumption) Hne Hinc (vser v ++ rest)) as (rest' & E).
        rewrite E. cbn [bind]. destruct (find (starts b) (k0 :: kids')) as [t|] eqn:Ef; [|reflexivity].
        destruct (find_some _ _ Ef) as [Hin _]. destruct fuel as [|fuel]; [pose proof (Hfuel' t Hin); pose proof (pser_long t); lia|].
        cbn [scan_node]. destruct (pcount t =? 0); [reflexivity|]. rewrite Forall_forall in Hne. specialize (Hne t Hin).
        destruct (plabel t) as [|c lab]; [congruence|]. reflexivity.
      + exfalso. inversion Hp as [? ? ? Hc _]; subst. apply Forall_inv in Hc. destruct (contents k0) as [|[key0 refs0] cs] eqn:Ec; [congruence|].
        assert (Hin : In (key0, refs0) (contents k0)) by (rewrite Ec; left; reflexivity).
        destruct (key_starts_label _ _ Hin) as (x & Ex). cbn [fst] in Ex. apply Forall_inv in Hne.
        specialize (Hb key0). rewrite app_nil_r in Hb. assert (key0 = []).
        { apply Hb. apply (in_map fst _ (extend l (key0, refs0))). apply (kid_key l v (k0 :: kids') k0); [left; reflexivity|exact Hin]. }
        subst key0. destruct (plabel k0); [congruence|discriminate].
    - cbn [app].
      destruct (select_node_eq k (key' ++ below) kids ltac:(intros; eapply sized_kid; eassumption) Hne Hinc (vser v ++ rest)) as (rest' & E).
      rewrite E. cbn [bind]. destruct (find (starts k) kids) as [t|] eqn:Ef; [|reflexivity].
      destruct (find_some _ _ Ef) as [Hin _]. rewrite Forall_forall in IH, Hords.
      change (k :: key' ++ below) with ((k :: key') ++ below).
      apply IH; [exact Hin|eapply sized_kid; eassumption|apply Hords; exact Hin|eapply refs_ok_kid; eassumption|apply Hfuel'; exact Hin|].
      destruct Hread as [Hb|[Hp Hb]]; [left; exact Hb|right]. inversion Hp as [? ? ? _ Hps]; subst. rewrite Forall_forall in Hps. split; [apply Hps; exact Hin|].
      intros x Hx. apply Hb. apply in_map_iff in Hx. destruct Hx as (kv & E1 & Hkv). rewrite <- app_assoc. rewrite <- E1.
      apply (in_map fst _ (extend l kv)). eapply kid_key; eassumption.
  Qed.

  Lemma scan_tree_eq below t rest key s : sized t -> ordered_tree t -> refs_ok t -> readable below t key ->
    scan_tree output (pser t ++ rest) (key ++ below) (N.of_nat (length key)) s = until_nonzero call (along t key) s.
  Proof.
    intros Hsz Hord Hrefs Hread. unfold scan_tree. rewrite pser_body at 1. rewrite <- !app_assoc.
    assert (H : N.of_nat (length (plabel t)) < 2 ^ 32 /\ pcount t < 2 ^ 32) by (destruct t; destruct (sized_label _ _ _ Hsz) as (H1 & H2 & _); split; assumption).
    rewrite getserial_putserial by apply H. cbn [bind]. rewrite getserial_putserial by apply H. cbn [bind].
    apply scan_node_eq; [assumption|assumption|assumption| |assumption]. rewrite app_length. lia.
  Qed.
End Walk.

(** ** What is found along a key *)

Definition at_key (m : list (bytes * list class_ref)) (key : bytes) (n : nat) : list (nat * class_ref) :=
  map (pair (length key - n)%nat) (stored_under m (firstn n key)).

Lemma same_spec a b : reflect (a = b) (same a b).
Proof. unfold same. destruct (list_eq_dec N.eq_dec a b); constructor; assumption. Qed.
Lemma stored_cons kv m key : stored_under (kv :: m) key = if same (fst kv) key then snd kv else stored_under m key.
Proof. unfold stored_under. cbn [find]. destruct (same (fst kv) key); reflexivity. Qed.

Lemma stored_none m key : (forall kv, In kv m -> fst kv <> key) -> stored_under m key = [].
Proof.
  induction m as [|kv m IH]; intros H; [reflexivity|]. rewrite stored_cons.
  destruct (same_spec (fst kv) key) as [E|]; [exfalso; apply (H kv); [left; reflexivity|exact E]|].
  apply IH. intros; apply H; right; assumption.
Qed.
Lemma stored_app m1 m2 key : (forall kv, In kv m1 -> fst kv <> key) -> stored_under (m1 ++ m2) key = stored_under m2 key.
Proof.
  induction m1 as [|kv m1 IH]; intros H; [reflexivity|]. cbn [app]. rewrite stored_cons.
  destruct (same_spec (fst kv) key) as [E|]; [exfalso; apply (H kv); [left; reflexivity|exact E]|].
  apply IH. intros; apply H; right; assumption.
Qed.
Lemma stored_app2 m1 m2 key : (forall kv, In kv m2 -> fst kv <> key) -> stored_under (m1 ++ m2) key = stored_under m1 key.
Proof.
  induction m1 as [|kv m1 IH]; intros H; [apply stored_none; assumption|]. cbn [app]. rewrite !stored_cons.
  destruct (same_spec (fst kv) key) as [E|]; [reflexivity|]. apply IH. assumption.
Qed.
Lemma stored_extend l m key : stored_under (map (extend l) m) (l ++ key) = stored_under m key.
Proof.
  induction m as [|kv m IH]; [reflexivity|]. cbn [map]. rewrite !stored_cons. cbn [extend fst snd].
  destruct (same_spec (l ++ fst kv) (l ++ key)) as [E|E]; destruct (same_spec (fst kv) key) as [E'|E'].
  - reflexivity.
  - apply app_inv_head in E. contradiction.
  - rewrite E' in E. congruence.
  - exact IH.
Qed.
Lemma stored_extend_none l m key : (forall key', key <> l ++ key') -> stored_under (map (extend l) m) key = [].
Proof. intros H. apply stored_none. intros kv Hkv E. apply in_map_iff in Hkv. destruct Hkv as (kv' & <- & _). apply (H (fst kv')). symmetry. exact E. Qed.

Lemma flat_map_nil_in {X Y} (f : X -> list Y) l : (forall x, In x l -> f x = []) -> flat_map f l = [].
Proof. induction l as [|x l IH]; intros H; [reflexivity|]. cbn [flat_map]. rewrite (H x), IH; [reflexivity| |left; reflexivity]. intros; apply H; right; assumption. Qed.
Lemma flat_map_ext_in {X Y} (f g : X -> list Y) l : (forall x, In x l -> f x = g x) -> flat_map f l = flat_map g l.
Proof. induction l as [|x l IH]; intros H; [reflexivity|]. cbn [flat_map]. rewrite (H x), IH; [reflexivity| |left; reflexivity]. intros; apply H; right; assumption. Qed.

Lemma kids_stored k kids x : Forall (fun t => plabel t <> []) kids -> increasing (map (fun t => hd 0 (plabel t)) kids) ->
  stored_under (flat_map contents kids) (k :: x) =
  match find (starts k) kids with Some t => stored_under (contents t) (k :: x) | None => [] end.
Proof.
  induction kids as [|t kids IH]; intros Hne Hinc; [reflexivity|]. cbn [flat_map find map increasing] in *.
  inversion Hne as [|? ? Hne1 Hne2]; subst. destruct Hinc as [Hmin Hinc].
  assert (Hhd : forall kv t, In kv (contents t) -> plabel t <> [] -> fst kv = k :: x -> starts k t = true).
  { intros kv t' Hkv Hl E. destruct (key_starts_label _ _ Hkv) as (y & Ey). unfold starts. destruct (plabel t') as [|c l]; [congruence|].
    rewrite E in Ey. cbn [hd]. injection Ey as -> _. apply N.eqb_refl. }
  destruct (starts k t) eqn:Es.
  - apply stored_app2. intros kv Hkv E. apply in_flat_map in Hkv. destruct Hkv as (t' & Ht' & Hkv).
    rewrite Forall_forall in Hne2. pose proof (Hhd kv t' Hkv (Hne2 _ Ht') E) as Hs. unfold starts in *. rewrite Forall_map, Forall_forall in Hmin.
    specialize (Hmin t' Ht'). apply N.eqb_eq in Hs, Es. lia.
  - rewrite stored_app; [apply IH; assumption|]. intros kv Hkv E. pose proof (Hhd kv t Hkv Hne1 E). congruence.
Qed.

Lemma along_stored : forall t, ordered_tree t -> forall key, along t key = flat_map (at_key (contents t) key) (seq 0 (S (length key))).
Proof.
  induction t as [l v kids IH] using ptree_ind'. intros Hord key. inversion Hord as [l0 v0 kids0 Hne Hinc Hords]; subst.
  rewrite along_eq, contents_eq. pose proof (stripped_spec l key) as Hst. destruct (stripped l key) as [key'|].
  2:{ symmetry. apply flat_map_nil_in. intros n _. unfold at_key. rewrite stored_extend_none; [reflexivity|].
      intros y E. apply (Hst (y ++ skipn n key)). rewrite app_assoc, <- E, firstn_skipn. reflexivity. }
  subst key. rewrite app_length. replace (S (length l + length key')) with (length l + S (length key'))%nat by lia.
  rewrite seq_app, flat_map_app. rewrite (flat_map_nil_in _ (seq 0 (length l))).
  2:{ intros n Hn. apply in_seq in Hn. unfold at_key. rewrite stored_extend_none; [reflexivity|]. intros y E.
      apply (f_equal (@length N)) in E. rewrite firstn_length, !app_length in E. lia. }
  cbn [app Nat.add]. cbn [seq flat_map]. f_equal.
  - unfold at_key. rewrite app_length. replace (length l + length key' - length l)%nat with (length key') by lia.
    rewrite firstn_app, firstn_all, Nat.sub_diag, firstn_O, stored_extend.
    assert (Hk : forall kv, In kv (flat_map contents kids) -> fst kv <> []).
    { intros kv Hkv. apply in_flat_map in Hkv. destruct Hkv as (t & Ht & Hkv). destruct (key_starts_label _ _ Hkv) as (y & ->).
      rewrite Forall_forall in Hne. specialize (Hne t Ht). destruct (plabel t); [congruence|discriminate]. }
    destruct v as [v|]; cbn [app].
    + rewrite stored_cons. cbn [fst snd]. destruct (same_spec [] []); [reflexivity|congruence].
    + rewrite stored_none by assumption. reflexivity.
  - destruct key' as [|k key']; [reflexivity|].
    set (m := map (extend l) (match v with None => [] | Some v => [([], v)] end ++ flat_map contents kids)).
    assert (Hat : forall n, at_key m (l ++ k :: key') (length l + S n) =
      match find (starts k) kids with Some t => at_key (contents t) (k :: key') (S n) | None => [] end).
    { intros n. unfold m, at_key. rewrite app_length.
      rewrite firstn_app_2, stored_extend. cbn [firstn]. rewrite stored_app.
      - rewrite kids_stored by assumption. replace (length l + length (k :: key') - (length l + S n))%nat with (length (k :: key') - S n)%nat by lia.
        destruct (find (starts k) kids); reflexivity.
      - intros kv Hkv E. destruct v; [|destruct Hkv]. destruct Hkv as [<-|[]]. discriminate. }
    assert (Hseq : seq (S (length l)) (length (k :: key')) = map (fun n => (length l + S n)%nat) (seq 0 (length (k :: key')))).
    { rewrite <- (Nat.add_0_r (S (length l))). generalize 0%nat. induction (length (k :: key')) as [|n IHn]; intros a; [reflexivity|].
      cbn [seq map]. f_equal; [lia|]. rewrite <- IHn. f_equal. lia. }
    rewrite Hseq, flat_map_concat_map, map_map, <- flat_map_concat_map. rewrite (flat_map_ext_in _ _ _ (fun n _ => Hat n)).
    destruct (find (starts k) kids) as [t|] eqn:Ef.
    + destruct (find_some _ _ Ef) as [Hin _]. rewrite Forall_forall in IH, Hords. rewrite (IH t Hin (Hords t Hin)).
      cbn [length seq flat_map]. replace (at_key (contents t) (k :: key') 0) with (@nil (nat * class_ref)).
      2:{ unfold at_key. cbn [firstn]. rewrite stored_none; [reflexivity|]. intros kv Hkv. destruct (key_starts_label _ _ Hkv) as (y & ->).
          rewrite Forall_forall in Hne. specialize (Hne t Hin). destruct (plabel t); [congruence|discriminate]. }
      cbn [app]. f_equal. rewrite <- seq_shift, flat_map_concat_map, map_map, <- flat_map_concat_map. reflexivity.
    + symmetry. apply flat_map_nil_in. reflexivity.
Qed.

(** the key is the word read backwards *)
Lemma along_guesses t w : ordered_tree t -> along t (rev w) = guesses (contents t) w.
Proof.
  intros H. rewrite along_stored by assumption. unfold guesses. rewrite rev_length. apply flat_map_ext_in. intros n Hn.
  unfold at_key. rewrite rev_length, firstn_rev. reflexivity.
Qed.

Theorem scan_guesses {St} (output : St -> N -> N -> N -> N -> res (St * Z)) below t rest w s : sized t -> ordered_tree t -> refs_ok t ->
  readable below t (rev w) ->
  scan_tree output (pser t ++ rest) (rev w ++ below) (N.of_nat (length w)) s = until_nonzero (call output) (guesses (contents t) w) s.
Proof.
  intros Hs Ho Hr Hb. rewrite <- along_guesses by assumption. rewrite <- scan_tree_eq with (below := below) (rest := rest) by assumption.
  rewrite rev_length. reflexivity.
Qed.
