(** Proofs about the compiled dictionary: building the stem tree and the id index *)
From Coq Require Import Permutation.
From Verif Require Import Base Serial SerialProofs WordTree TreeSpec WordTreeProofs FlatScan FlatScanProofs Stems StemSpec StemsProofs LidsProofs TrackProofs.
Local Open Scope N_scope.

(** ** sorted insertion *)
Lemma insert_entry_perm e l : Permutation (insert_entry e l) (e :: l).
Proof.
  induction l as [|x l IH]; cbn [insert_entry]; [apply Permutation_refl|].
  destruct (entry_lt x e); [|apply Permutation_refl].
  eapply perm_trans; [apply perm_skip, IH|apply perm_swap].
Qed.

Lemma entry_lt_max a b : entry_lt a b = true -> chrmax b <= chrmax a.
Proof.
  unfold entry_lt. destruct (N.ltb_spec (chrmax b) (chrmax a)); [lia|].
  destruct (N.ltb_spec (chrmax a) (chrmax b)); [discriminate|lia].
Qed.
Lemma entry_nlt_max a b : entry_lt a b = false -> chrmax a <= chrmax b.
Proof. unfold entry_lt. destruct (N.ltb_spec (chrmax b) (chrmax a)); [discriminate|lia]. Qed.

Lemma insert_entry_max e l : max_descending l -> max_descending (insert_entry e l).
Proof.
  induction l as [|x l IH]; cbn [insert_entry]; intros H.
  - cbn. auto.
  - destruct H as [Hall Hd]. destruct (entry_lt x e) eqn:E.
    + cbn [max_descending]. split; [|apply IH; assumption].
      apply Forall_forall. intros y Hy. apply (Permutation_in y (insert_entry_perm e l)) in Hy.
      destruct Hy as [<-|Hy]; [apply entry_lt_max; assumption|]. rewrite Forall_forall in Hall. auto.
    + cbn [max_descending]. apply entry_nlt_max in E. repeat split; try assumption.
      constructor; [assumption|]. eapply Forall_impl; [|exact Hall]. cbn. lia.
Qed.

(** total order on records with ids below 2^31 *)
Lemma strcmp_refl a : strcmp a a = Eq.
Proof. induction a as [|x a IH]; cbn; [reflexivity|]. destruct (N.ltb_spec x x); [lia|exact IH]. Qed.
Lemma strcmp_antisym a b : strcmp b a = CompOpp (strcmp a b).
Proof.
  revert b. induction a as [|x a IH]; intros [|y b]; cbn; try reflexivity.
  destruct (N.ltb_spec x y), (N.ltb_spec y x); try lia; try reflexivity. apply IH.
Qed.
Lemma strcmp_eq a b : strcmp a b = Eq -> a = b.
Proof.
  revert b. induction a as [|x a IH]; intros [|y b]; cbn; try discriminate; [reflexivity|].
  destruct (N.ltb_spec x y), (N.ltb_spec y x); try discriminate; try lia. intros H1. f_equal; [lia|auto].
Qed.
Lemma strcmp_trans a : forall b c, strcmp a b = Lt -> strcmp b c = Lt -> strcmp a c = Lt.
Proof.
  induction a as [|x a IH]; intros [|y b] [|z c]; cbn; try discriminate; try reflexivity.
  destruct (N.ltb_spec x y), (N.ltb_spec y x), (N.ltb_spec y z), (N.ltb_spec z y); try lia; try discriminate;
    intros H3 H4; destruct (N.ltb_spec x z), (N.ltb_spec z x); try lia; try reflexivity; eauto.
Qed.

Lemma lid_lt a b : a < 2 ^ 31 -> b < 2 ^ 31 -> N.testbit ((a + 2 ^ 32 - b) mod 2 ^ 32) 31 = (a <? b).
Proof.
  intros Ha Hb. change (2 ^ 31) with 2147483648 in *. change (2 ^ 32) with 4294967296.
  destruct (N.ltb_spec a b).
  - replace ((a + 4294967296 - b) mod 4294967296) with ((a + 4294967296 - b - 2 ^ 31) + 2 ^ 31).
    + apply testbit_add_pow2. change (2 ^ 31) with 2147483648. lia.
    + change (2 ^ 31) with 2147483648. rewrite N.mod_small by lia. lia.
  - replace ((a + 4294967296 - b) mod 4294967296) with (a - b).
    + apply testbit_small. change (2 ^ 31) with 2147483648. lia.
    + replace (a + 4294967296 - b) with (a - b + 1 * 4294967296) by lia. rewrite N.mod_add by discriminate.
      rewrite N.mod_small; lia.
Qed.

Definition small_id (e : entry) : Prop := nlexid e < 2 ^ 31.

(** [entry_lt] is a strict weak order: negation is transitive *)
Lemma entry_nlt_trans a b c : small_id a -> small_id b -> small_id c ->
  entry_lt a b = false -> entry_lt b c = false -> entry_lt a c = false.
Proof.
  unfold small_id, entry_lt. intros Ha Hb Hc. rewrite !lid_lt by assumption.
  destruct (N.ltb_spec (chrmax b) (chrmax a)); [discriminate|].
  destruct (N.ltb_spec (chrmax c) (chrmax b)); [discriminate|].
  destruct (N.ltb_spec (chrmax c) (chrmax a)); [lia|].
  destruct (N.ltb_spec (chrmax a) (chrmax b)); destruct (N.ltb_spec (chrmax b) (chrmax c));
  destruct (N.ltb_spec (chrmax a) (chrmax c)); try lia; try reflexivity.
  destruct (N.ltb_spec (chrmin a) (chrmin b)); [discriminate|].
  destruct (N.ltb_spec (chrmin b) (chrmin c)); [discriminate|].
  destruct (N.ltb_spec (chrmin a) (chrmin c)); [lia|].
  destruct (N.ltb_spec (chrmin b) (chrmin a)); destruct (N.ltb_spec (chrmin c) (chrmin b));
  destruct (N.ltb_spec (chrmin c) (chrmin a)); try lia; try reflexivity.
  destruct (strcmp (stpost a) (stpost b)) eqn:E1; try discriminate;
  destruct (strcmp (stpost b) (stpost c)) eqn:E2; try discriminate.
  - apply strcmp_eq in E1. rewrite E1, E2. intros. destruct (N.ltb_spec (nlexid a) (nlexid b)); try discriminate.
    destruct (N.ltb_spec (nlexid b) (nlexid c)); try discriminate. destruct (N.ltb_spec (nlexid a) (nlexid c)); [lia|reflexivity].
  - apply strcmp_eq in E1. rewrite E1, E2. reflexivity.
  - apply strcmp_eq in E2. rewrite <- E2, E1. reflexivity.
  - assert (E3 : strcmp (stpost c) (stpost a) = Lt).
    { eapply strcmp_trans; rewrite strcmp_antisym; [rewrite E2|rewrite E1]; reflexivity. }
    rewrite strcmp_antisym, E3. reflexivity.
Qed.

Lemma entry_lt_asym a b : small_id a -> small_id b -> entry_lt a b = true -> entry_lt b a = false.
Proof.
  unfold small_id, entry_lt. intros Ha Hb. rewrite !lid_lt by assumption.
  destruct (N.ltb_spec (chrmax b) (chrmax a)); destruct (N.ltb_spec (chrmax a) (chrmax b)); try lia; try discriminate; try reflexivity.
  destruct (N.ltb_spec (chrmin a) (chrmin b)); destruct (N.ltb_spec (chrmin b) (chrmin a)); try lia; try discriminate; try reflexivity.
  rewrite (strcmp_antisym (stpost a) (stpost b)).
  destruct (strcmp (stpost a) (stpost b)); cbn; try discriminate; try reflexivity.
  destruct (N.ltb_spec (nlexid a) (nlexid b)); destruct (N.ltb_spec (nlexid b) (nlexid a)); try lia; try discriminate; reflexivity.
Qed.

(** sorted: no later record is less than an earlier one *)
Fixpoint sorted_entries (l : list entry) : Prop :=
  match l with
  | [] => True
  | e :: l' => Forall (fun e' => entry_lt e' e = false) l' /\ sorted_entries l'
  end.

Lemma insert_entry_sorted e l : Forall small_id (e :: l) -> sorted_entries l -> sorted_entries (insert_entry e l).
Proof.
  intros Hs. inversion Hs as [|? ? He Hl]; subst. clear Hs. revert Hl.
  induction l as [|x l IH]; cbn [insert_entry]; intros Hl H.
  - cbn. auto.
  - inversion Hl as [|? ? Hx Hl']; subst. destruct H as [Hall Hd]. destruct (entry_lt x e) eqn:E.
    + cbn [sorted_entries]. split; [|apply IH; assumption].
      apply Forall_forall. intros y Hy. apply (Permutation_in y (insert_entry_perm e l)) in Hy.
      destruct Hy as [<-|Hy]; [apply entry_lt_asym; assumption|]. rewrite Forall_forall in Hall. auto.
    + cbn [sorted_entries]. repeat split; try assumption. constructor; [assumption|].
      rewrite Forall_forall in *. intros y Hy. eapply entry_nlt_trans; [| | |apply Hall; exact Hy|exact E]; auto.
Qed.

(** ** the stem tree *)
Definition records_of (items : list (bytes * entry)) (key : bytes) : list entry :=
  map snd (filter (fun ke => if list_eq_dec N.eq_dec (fst ke) key then true else false) items).

Definition default {A} (o : option (list A)) : list A := match o with Some l => l | None => [] end.

Lemma dict_reader_facts items : forall t,
  ordered t -> Forall (fun ke => is_bytes (fst ke)) items ->
  (forall key l, lookup key t = Some l -> max_descending l) ->
  ordered (dict_reader items t) /\
  (forall key, Permutation (default (lookup key (dict_reader items t))) (records_of items key ++ default (lookup key t))) /\
  (forall key, lookup key (dict_reader items t) = None <-> lookup key t = None /\ records_of items key = []) /\
  (forall key l, lookup key (dict_reader items t) = Some l -> max_descending l).
Proof.
  induction items as [|[k e] items IH]; intros t Ho Hb Hm.
  - cbn. repeat split; auto. intros [? ?]; assumption.
  - inversion Hb as [|? ? Hk Hb']; subst. cbn [fst] in Hk.
    unfold dict_reader. cbn [fold_left fst snd]. fold (dict_reader items (insert [] k (insert_entry e) t)).
    assert (Ho1 : ordered (insert [] k (insert_entry e) t)) by (apply insert_ordered; assumption).
    destruct (IH (insert [] k (insert_entry e) t) Ho1 Hb') as (H1 & H2 & H3 & H4).
    + intros key l Hl. destruct (list_eq_dec N.eq_dec key k) as [->|Hne].
      * rewrite lookup_insert_same in Hl by assumption. injection Hl as <-. apply insert_entry_max.
        destruct (lookup k t) eqn:E; [eapply Hm, E|cbn; auto].
      * rewrite lookup_insert_other in Hl by assumption. eapply Hm, Hl.
    + split; [assumption|]. split; [|split; [|assumption]].
      * intros key. eapply perm_trans; [apply H2|]. unfold records_of. cbn [filter fst map snd].
        destruct (list_eq_dec N.eq_dec k key) as [->|Hne].
        -- rewrite lookup_insert_same by assumption. cbn [default map snd app].
           eapply perm_trans; [apply Permutation_app_head, insert_entry_perm|].
           apply Permutation_sym. change (?a :: ?b ++ ?c) with ((a :: b) ++ c).
           replace (match lookup key t with Some a => a | None => [] end) with (default (lookup key t)) by reflexivity.
           apply Permutation_middle.
        -- rewrite lookup_insert_other by congruence. apply Permutation_refl.
      * intros key. rewrite H3. unfold records_of. cbn [filter fst].
        destruct (list_eq_dec N.eq_dec k key) as [->|Hne].
        -- rewrite lookup_insert_same by assumption. cbn [map]. split; intros [? ?]; discriminate.
        -- rewrite lookup_insert_other by congruence. reflexivity.
Qed.

Lemma dict_reader_sorted items : forall t,
  ordered t -> Forall (fun ke => is_bytes (fst ke) /\ small_id (snd ke)) items ->
  (forall key l, lookup key t = Some l -> Forall small_id l /\ sorted_entries l) ->
  (forall key l, lookup key (dict_reader items t) = Some l -> Forall small_id l /\ sorted_entries l).
Proof.
  induction items as [|[k e] items IH]; intros t Ho Hb Hm; [exact Hm|].
  inversion Hb as [|? ? [Hk He] Hb']; subst. cbn [fst snd] in *.
  unfold dict_reader. cbn [fold_left fst snd]. fold (dict_reader items (insert [] k (insert_entry e) t)).
  apply IH; [apply insert_ordered; assumption|assumption|].
  intros key l Hl. destruct (list_eq_dec N.eq_dec key k) as [->|Hne].
  - rewrite lookup_insert_same in Hl by assumption. injection Hl as <-.
    assert (Hd : Forall small_id (match lookup k t with Some a => a | None => [] end) /\
                 sorted_entries (match lookup k t with Some a => a | None => [] end)).
    { destruct (lookup k t) eqn:E; [eapply Hm, E|cbn; auto]. }
    destruct Hd as [Hd1 Hd2]. split.
    + eapply Permutation_Forall; [apply Permutation_sym, insert_entry_perm|]. constructor; assumption.
    + apply insert_entry_sorted; [constructor; assumption|assumption].
  - rewrite lookup_insert_other in Hl by assumption. eapply Hm, Hl.
Qed.

(** ** the id index *)
(** records of one list with their offsets *)
Fixpoint data_recs (l : list entry) (offset : N) : list (entry * N) :=
  match l with [] => [] | e :: l' => (e, offset) :: data_recs l' (offset + entry_len e) end.

Definition all_recs (t : wtree (list entry)) : list (entry * N) :=
  flat_map (fun lo => data_recs (fst lo) (snd lo + seriallen (N.of_nat (length (fst lo)))))
           (fst (enumerate C8 stems_len t 0)).

Definition file_lid (lids : wtree N) (eo : entry * N) : wtree N :=
  insert 0 (lexkeybuf (nlexid (fst eo))) (fun _ => snd eo mod 2 ^ 32) lids.

Lemma file_lids_recs l : forall offset lids,
  file_lids l offset lids = fold_left file_lid (data_recs l offset) lids.
Proof. induction l as [|e l IH]; intros offset lids; [reflexivity|]. cbn. apply IH. Qed.

Lemma create_lids_recs t : create_lids t = fold_left file_lid (all_recs t) wempty.
Proof.
  unfold create_lids, all_recs. generalize (fst (enumerate C8 stems_len t 0)). intros l.
  generalize (@wempty N). induction l as [|[x o] l IH]; intros lids; [reflexivity|].
  cbn [fold_left flat_map fst snd]. rewrite IH, fold_left_app, file_lids_recs. reflexivity.
Qed.

(** the last offset filed for an id *)
Fixpoint last_offset (id : N) (l : list (entry * N)) : option N :=
  match l with
  | [] => None
  | (e, off) :: l' =>
      match last_offset id l' with
      | Some o => Some o
      | None => if nlexid e =? id then Some (off mod 2 ^ 32) else None
      end
  end.

Lemma file_lid_facts l : forall lids id,
  ordered lids -> within 4 lids -> id < 2 ^ 32 -> Forall (fun eo => nlexid (fst eo) < 2 ^ 24) l ->
  (forall k off, lookup k lids = Some off -> off < 2 ^ 32) ->
  let lids' := fold_left file_lid l lids in
  ordered lids' /\ within 4 lids' /\ (forall k off, lookup k lids' = Some off -> off < 2 ^ 32) /\
  lookup (lexkeylen id) lids' = match last_offset id l with Some o => Some o | None => lookup (lexkeylen id) lids end.
Proof.
  induction l as [|[e off] l IH]; intros lids id Ho Hw Hid Hl Hoff; cbn [fold_left].
  - auto.
  - inversion Hl as [|? ? He Hl']; subst. cbn [fst] in He.
    assert (He32 : nlexid e < 2 ^ 32) by (change (2 ^ 24) with 16777216 in He; change (2 ^ 32) with 4294967296; lia).
    assert (Ho1 : ordered (file_lid lids (e, off))).
    { apply insert_ordered; [|assumption]. cbn [fst]. rewrite lexkey_agree by assumption. apply lexkeylen_bytes. }
    destruct (IH (file_lid lids (e, off)) id Ho1) as (H1 & H2 & H3 & H4); [|assumption|assumption| |].
    + apply within_insert; [assumption|]. cbn [fst]. rewrite lexkey_agree by assumption. apply lexkeylen_length.
    + intros k o Hk. unfold file_lid in Hk. cbn [fst snd] in Hk.
      destruct (list_eq_dec N.eq_dec k (lexkeybuf (nlexid e))) as [->|Hne].
      * rewrite lookup_insert_same in Hk by assumption. injection Hk as <-. apply N.mod_lt. discriminate.
      * rewrite lookup_insert_other in Hk by assumption. eapply Hoff, Hk.
    + split; [assumption|]. split; [assumption|]. split; [assumption|]. rewrite H4. cbn [last_offset].
      destruct (last_offset id l); [reflexivity|]. unfold file_lid. cbn [fst snd].
      rewrite lexkey_agree by assumption.
      destruct (N.eqb_spec (nlexid e) id) as [->|Hne].
      * rewrite lookup_insert_same by assumption. reflexivity.
      * rewrite lookup_insert_other; [reflexivity|assumption|]. intros Heq. apply lexkeylen_inj in Heq; [congruence|assumption|assumption].
Qed.

Lemma last_offset_in id l o : last_offset id l = Some o -> exists e off, In (e, off) l /\ nlexid e = id /\ o = off mod 2 ^ 32.
Proof.
  induction l as [|[e off] l IH]; cbn [last_offset]; [discriminate|].
  destruct (last_offset id l) as [o'|].
  - intros [= ->]. destruct (IH eq_refl) as (e' & off' & ? & ? & ?). exists e', off'. split; [right|]; auto.
  - destruct (N.eqb_spec (nlexid e) id); [|discriminate]. intros [= <-]. exists e, off. split; [left; reflexivity|auto].
Qed.

Lemma last_offset_none id l : last_offset id l = None -> forall e off, In (e, off) l -> nlexid e <> id.
Proof.
  induction l as [|[e off] l IH]; cbn [last_offset]; intros H e' off' Hin; [destruct Hin|].
  destruct (last_offset id l); [discriminate|]. destruct (N.eqb_spec (nlexid e) id); [discriminate|].
  destruct Hin as [[= <- <-]|Hin]; [assumption|]. eapply IH; [reflexivity|exact Hin].
Qed.

(** ** enumeration and record positions *)
Definition enumerates (l : list (N * wtree (list entry))) (offset : N) : list (list entry * N) * N :=
  (fix go (l : list (N * wtree (list entry))) (offset : N) : list (list entry * N) * N :=
             match l with
             | [] => ([], offset)
             | (c, t') :: l' =>
                 let '(a1, o1) := enumerate C8 stems_len t' (offset + 1 + seriallen (getbuflen C8 stems_len t')) in
                 let '(a2, o2) := go l' o1 in (a1 ++ a2, o2)
             end) l offset.

Lemma enumerate_eq l d offset :
  enumerate C8 stems_len (WNode l d) offset =
  (let '(acts, o) := enumerates l (offset + 1) in
   match d with None => (acts, o) | Some a => (acts ++ [(a, o)], o + stems_len a) end).
Proof. reflexivity. Qed.

Lemma enumerates_cons c t l offset :
  enumerates ((c, t) :: l) offset =
  (let '(a1, o1) := enumerate C8 stems_len t (offset + 1 + seriallen (getbuflen C8 stems_len t)) in
   let '(a2, o2) := enumerates l o1 in (a1 ++ a2, o2)).
Proof. reflexivity. Qed.

Lemma enumerate_end t : forall offset, snd (enumerate C8 stems_len t offset) = offset + getbuflen C8 stems_len t.
Proof.
  induction t as [l d IH] using wtree_ind'. intros offset. rewrite enumerate_eq, getbuflen_eq.
  assert (H : snd (enumerates l (offset + 1)) = offset + 1 + getbuflens C8 stems_len l).
  { clear d. generalize (offset + 1). clear offset. induction IH as [|[c t] l Ht Hl IHl]; intros o.
    - unfold getbuflens. cbn. lia.
    - rewrite enumerates_cons. cbn [snd] in Ht.
      specialize (Ht (o + 1 + seriallen (getbuflen C8 stems_len t))).
      destruct (enumerate C8 stems_len t _) as [a1 o1]. cbn [snd] in Ht. specialize (IHl o1).
      destruct (enumerates l o1) as [a2 o2]. cbn [snd] in *. unfold getbuflens in *. cbn [fold_right snd]. lia. }
  destruct (enumerates l (offset + 1)) as [acts o]. cbn [snd] in H. subst o.
  destruct d; cbn [snd cbytes]; lia.
Qed.

Lemma enumerates_end l offset : snd (enumerates l offset) = offset + getbuflens C8 stems_len l.
Proof.
  revert offset. induction l as [|[c t] l IH]; intros o; [unfold getbuflens; cbn; lia|].
  rewrite enumerates_cons. pose proof (enumerate_end t (o + 1 + seriallen (getbuflen C8 stems_len t))) as Ht.
  destruct (enumerate C8 stems_len t _) as [a1 o1]. cbn [snd] in Ht. specialize (IH o1).
  destruct (enumerates l o1) as [a2 o2]. cbn [snd] in *. unfold getbuflens in *. cbn [fold_right snd]. lia.
Qed.

Lemma data_recs_split l : forall base e off, In (e, off) (data_recs l base) <->
  exists l1 l2, l = l1 ++ e :: l2 /\ off = base + entries_len l1.
Proof.
  induction l as [|x l IH]; intros base e off; cbn [data_recs In].
  - split; [intros []|]. intros (l1 & l2 & H & _). destruct l1; discriminate.
  - rewrite IH. split.
    + intros [[= <- <-]|(l1 & l2 & -> & ->)].
      * exists [], l. split; [reflexivity|]. cbn. lia.
      * exists (x :: l1), l2. split; [reflexivity|]. unfold entries_len. cbn [fold_right]. lia.
    + intros (l1 & l2 & H & ->). destruct l1 as [|y l1]; cbn in H; injection H as -> ->.
      * left. f_equal. cbn. lia.
      * right. exists l1, l2. split; [reflexivity|]. unfold entries_len. cbn [fold_right]. lia.
Qed.

Definition recs_from (t : wtree (list entry)) (base : N) : list (entry * N) :=
  flat_map (fun lo => data_recs (fst lo) (snd lo + seriallen (N.of_nat (length (fst lo)))))
           (fst (enumerate C8 stems_len t base)).
Definition recs_froms (l : list (N * wtree (list entry))) (base : N) : list (entry * N) :=
  flat_map (fun lo => data_recs (fst lo) (snd lo + seriallen (N.of_nat (length (fst lo)))))
           (fst (enumerates l base)).

Lemma recs_froms_cons c t l o :
  recs_froms ((c, t) :: l) o = recs_from t (o + 1 + seriallen (getbuflen C8 stems_len t))
    ++ recs_froms l (o + 1 + seriallen (getbuflen C8 stems_len t) + getbuflen C8 stems_len t).
Proof.
  unfold recs_froms, recs_from. rewrite enumerates_cons.
  pose proof (enumerate_end t (o + 1 + seriallen (getbuflen C8 stems_len t))) as He.
  destruct (enumerate C8 stems_len t (o + 1 + seriallen (getbuflen C8 stems_len t))) as [a1 o1]. cbn [snd] in He. subst o1.
  destruct (enumerates l _) as [a2 o2]. cbn [fst]. apply flat_map_app.
Qed.

Lemma recs_from_node l d base :
  recs_from (WNode l d) base = recs_froms l (base + 1) ++
    match d with None => [] | Some a => data_recs a (base + 1 + getbuflens C8 stems_len l + seriallen (N.of_nat (length a))) end.
Proof.
  unfold recs_from, recs_froms. rewrite enumerate_eq. pose proof (enumerates_end l (base + 1)) as He.
  destruct (enumerates l (base + 1)) as [acts o]. cbn [snd] in He. subst o.
  destruct d; cbn [fst]; [|rewrite app_nil_r; reflexivity]. rewrite flat_map_app. cbn [flat_map fst snd].
  rewrite app_nil_r. reflexivity.
Qed.

Lemma recs_rec_at t : forall base e off, In (e, off) (recs_from t base) <-> exists key, rec_at t base key e off.
Proof.
  induction t as [l d IH] using wtree_ind'. intros base e off. rewrite recs_from_node, in_app_iff.
  assert (Hch : In (e, off) (recs_froms l (base + 1)) <->
    exists l1 c t' l2 key, l = l1 ++ (c, t') :: l2 /\
      rec_at t' (base + 1 + getbuflens C8 stems_len l1 + 1 + seriallen (getbuflen C8 stems_len t')) key e off).
  { generalize (base + 1) as o. clear base d. induction IH as [|[c t] l Ht Hl IHl]; intros o.
    - split; [intros []|]. intros (l1 & c & t' & l2 & key & H & _). destruct l1; discriminate.
    - rewrite recs_froms_cons, in_app_iff. cbn [snd] in Ht. rewrite Ht, IHl. clear IHl Ht. split.
      + intros [(key & Hk)|(l1 & c' & t' & l2 & key & -> & Hk)].
        * exists [], c, t, l, key. split; [reflexivity|]. unfold getbuflens. cbn [fold_right]. rewrite N.add_0_r. exact Hk.
        * exists ((c, t) :: l1), c', t', l2, key. split; [reflexivity|]. unfold getbuflens in *. cbn [fold_right snd].
          match type of Hk with rec_at _ ?a _ _ _ => match goal with |- rec_at _ ?b _ _ _ => replace b with a by lia end end. exact Hk.
      + intros (l1 & c' & t' & l2 & key & H & Hk). destruct l1 as [|ct l1]; cbn [app] in H; [injection H as -> -> ->|injection H as <- ->].
        * left. exists key. unfold getbuflens in Hk. cbn [fold_right] in Hk. rewrite N.add_0_r in Hk. exact Hk.
        * right. exists l1, c', t', l2, key. split; [reflexivity|]. unfold getbuflens in *. cbn [fold_right snd] in Hk.
          match type of Hk with rec_at _ ?a _ _ _ => match goal with |- rec_at _ ?b _ _ _ => replace b with a by lia end end. exact Hk. }
  rewrite Hch. split.
  - intros [(l1 & c & t' & l2 & key & -> & Hk)|H].
    + exists (c :: key). constructor. exact Hk.
    + destruct d as [a|]; [|destruct H]. apply data_recs_split in H as (l1 & l2 & -> & ->).
      exists []. constructor. reflexivity.
  - intros (key & H). inversion H; subst.
    + right. apply data_recs_split. eauto.
    + left. eexists _, _, _, _, _. split; [reflexivity|eassumption].
Qed.

(** every stored record has a position, and every position belongs to a stored record *)
Lemma rec_at_has t base key e off : ordered t -> rec_at t base key e off -> has_record t key e.
Proof.
  intros Ho H. revert Ho. induction H as [l l1 e l2 base off Hoff|l1 c t' l2 d key base e off Hr IH]; intros Ho.
  - exists (l1 ++ e :: l2). split; [reflexivity|]. apply in_or_app. right. left. reflexivity.
  - inversion Ho as [? ? Hd Hb Hs]; subst.
    assert (Hin : In (c, t') (l1 ++ (c, t') :: l2)) by (apply in_or_app; right; left; reflexivity).
    destruct (IH (Hs _ _ Hin)) as (x & Hx & Hi). exists x. split; [|assumption].
    cbn [lookup nested]. rewrite (assoc_of_in c t' _ Hd Hin). assumption.
Qed.

Lemma has_rec_at t : forall base key e, has_record t key e -> exists off, rec_at t base key e off.
Proof.
  intros base key. revert t base. induction key as [|c key IH]; intros t base e (x & Hx & Hi).
  - destruct t as [l d]. cbn in Hx. subst d. apply in_split in Hi as (l1 & l2 & ->). eexists. constructor. reflexivity.
  - destruct t as [l d]. cbn [lookup nested] in Hx. destruct (assoc c l) as [t'|] eqn:E; [|discriminate].
    apply assoc_in in E. apply in_split in E as (l1 & l2 & ->).
    destruct (IH t' (base + 1 + getbuflens C8 stems_len l1 + 1 + seriallen (getbuflen C8 stems_len t')) e) as (off & Hoff).
    { exists x. auto. }
    exists off. constructor. exact Hoff.
Qed.
