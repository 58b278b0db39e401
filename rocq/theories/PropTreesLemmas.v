(** Glue lemmas for Prop_Trees.v *)
From Coq Require Import Permutation.
From Verif Require Import Base Serial SerialProofs WordTree TreeSpec WordTreeProofs FlatScan FlatScanProofs FlatStack
  FlatStackProofs Stems StemSpec StemsProofs LidsProofs TrackProofs DictProofs.
Local Open Scope N_scope.

Lemma lexkeybuf_collision :
  exists a b, a < 2 ^ 32 /\ b < 2 ^ 32 /\ a <> b /\ lexkeybuf a = lexkeybuf b /\ lexkeybuf a <> lexkeylen a.
Proof. exists 0x01000001, 0x01010001. repeat split; try reflexivity; discriminate. Qed.

Lemma insert_history (A : Type) (dflt : A) (ops : list (bytes * (A -> A))) :
  Forall (fun op => is_bytes (fst op)) ops ->
  let t := fold_left (fun t op => insert dflt (fst op) (snd op) t) ops wempty in
  ordered t /\
  forall key, lookup key t =
    fold_left (fun v op => if list_eq_dec N.eq_dec (fst op) key
                           then Some (snd op (match v with Some a => a | None => dflt end)) else v) ops None.
Proof.
  intros H. cbn zeta.
  assert (G : forall t, ordered t ->
     ordered (fold_left (fun t op => insert dflt (fst op) (snd op) t) ops t) /\
     forall key, lookup key (fold_left (fun t op => insert dflt (fst op) (snd op) t) ops t) =
     fold_left (fun v op => if list_eq_dec N.eq_dec (fst op) key
                           then Some (snd op (match v with Some a => a | None => dflt end)) else v) ops (lookup key t)).
  { induction H as [|[k f] ops Hk Hops IH]; intros t Ho; [split; [assumption|reflexivity]|].
    cbn [fold_left fst snd] in *. destruct (IH (insert dflt k f t)) as [H1 H2]; [apply insert_ordered; assumption|].
    split; [assumption|]. intros key. rewrite H2. f_equal.
    destruct (list_eq_dec N.eq_dec k key) as [->|Hne].
    - apply lookup_insert_same. assumption.
    - apply lookup_insert_other; [assumption|congruence]. }
  destruct (G wempty ordered_wempty) as [G1 G2]. split; [assumption|]. intros key. rewrite G2, lookup_wempty. reflexivity.
Qed.

Lemma search_broken :
  (forall (A : Type) (t : wtree A) c key, search (c :: key) t = Ok None \/ search (c :: key) t = Ub) /\
  (exists (t : wtree N) key, lookup key t = Some 7 /\ search key t = Ok None) /\
  (exists (t : wtree N) key, lookup key t = None /\ search key t = Ub).
Proof.
  split; [|split].
  - intros A t c key. cbn [search]. destruct (skip_greater c (nested t)); auto.
  - exists (insert 0 [97] (fun _ => 7) wempty), [97]. split; reflexivity.
  - exists wempty, [97]. split; reflexivity.
Qed.

Lemma skip_child (A : Type) w (ser : A -> bytes) (len : A -> N) :
  (forall a, N.of_nat (length (ser a)) = len a) ->
  forall c t after, getbuflen w len t < 2 ^ 32 ->
  getchild (c :: putserial (getbuflen w len t) ++ serialize w ser len t ++ after) =
  Ok (c, serialize w ser len t ++ after, after).
Proof. intros H c t after Hl. apply getchild_put; [symmetry; apply serialize_len; assumption|assumption]. Qed.


Fixpoint countsb {A} w (n : nat) (t : wtree A) : bool :=
  match n with
  | O => false
  | S n' => (N.of_nat (length (nested t)) <? cflag w) && forallb (fun ct => countsb w n' (snd ct)) (nested t)
  end.
Lemma countsb_ok {A} w n : forall t : wtree A, countsb w n t = true -> counts_ok w t.
Proof.
  induction n as [|n IH]; intros [l d] H; cbn in H; [discriminate|].
  apply andb_true_iff in H as [H1 H2]. constructor; [apply N.ltb_lt; assumption|].
  intros c t Hin. apply IH. rewrite forallb_forall in H2. apply (H2 _ Hin).
Qed.
Fixpoint nonzerob {A} (n : nat) (t : wtree A) : bool :=
  match n with
  | O => false
  | S n' => forallb (fun ct => negb (fst ct =? 0) && nonzerob n' (snd ct)) (nested t)
  end.
Lemma nonzerob_ok {A} n : forall t : wtree A, nonzerob n t = true -> nonzero t.
Proof.
  induction n as [|n IH]; intros [l d] H; cbn in H; [discriminate|].
  rewrite forallb_forall in H. constructor.
  intros c t Hin. apply H in Hin. apply andb_true_iff in Hin as [H1 H2]. cbn in *. split; [lia|apply IH; assumption].
Qed.

Lemma scan_case :
  let t := insert 0 [97; 98] (fun _ => 2) (insert 0 [97] (fun _ => 1) (insert 0 [99] (fun _ => 3) wempty)) in
  dumpable C8 seriallen t /\ nonzero t /\ prefix_hits t [97; 98; 100] = [(2, [100]); (1, [98; 100])].
Proof.
  cbn zeta. split; [|split; [|reflexivity]].
  - apply dumpable_intro; [|apply countsb_ok with 5%nat; reflexivity|reflexivity].
    repeat (apply insert_ordered; [repeat constructor|]). apply ordered_wempty.
  - apply nonzerob_ok with 5%nat. reflexivity.
Qed.

Definition as_entry (io : N * N) : entry * N := (Entry 0 0 (fst io) 0 [], snd io).

Lemma last_offset_fold id index : forall acc,
  Forall (fun io => fst io < 2 ^ 24 /\ snd io < 2 ^ 32) index ->
  fold_left (fun v io => if fst io =? id then Some (snd io) else v) index acc =
  match last_offset id (map as_entry index) with Some o => Some o | None => acc end.
Proof.
  induction index as [|[i o] index IH]; intros acc H; [reflexivity|].
  inversion H; subst. cbn [fold_left map as_entry last_offset fst snd nlexid] in *. rewrite IH by assumption.
  destruct (last_offset id (map as_entry index)); [reflexivity|].
  destruct (i =? id); [|reflexivity]. rewrite N.mod_small by lia. reflexivity.
Qed.

Lemma file_as_entry index : forall t, Forall (fun io => fst io < 2 ^ 24 /\ snd io < 2 ^ 32) index ->
  fold_left (fun t io => insert 0 (lexkeybuf (fst io)) (fun _ => snd io) t) index t =
  fold_left file_lid (map as_entry index) t.
Proof.
  induction index as [|[i o] index IH]; intros t H; [reflexivity|]. inversion H; subst. cbn [fold_left map fst snd] in *.
  rewrite IH by assumption. unfold file_lid at 3. cbn [as_entry fst snd nlexid]. rewrite N.mod_small by lia. reflexivity.
Qed.

Lemma index_lookup (index : list (N * N)) id junk rest :
  Forall (fun io => fst io < 2 ^ 24 /\ snd io < 2 ^ 32) index -> id < 2 ^ 32 ->
  let lids := fold_left (fun t io => insert 0 (lexkeybuf (fst io)) (fun _ => snd io) t) index wempty in
  getbuflen C16 seriallen lids < 2 ^ 32 ->
  (length (lexkeylen id ++ junk) = 16)%nat ->
  match fold_left (fun v io => if fst io =? id then Some (snd io) else v) index None with
  | Some off => exists p p', find_lid (lidstree_bytes lids ++ rest) junk id = Ok (Some p) /\ getserial p = Ok (off, p')
  | None => find_lid (lidstree_bytes lids ++ rest) junk id = Ok None
  end.
Proof.
  intros H Hid. cbn zeta. rewrite file_as_entry, last_offset_fold by assumption. intros Hl Hj.
  destruct (file_lid_facts (map as_entry index) wempty id) as (F1 & F2 & F3 & F4); auto.
  - apply ordered_wempty.
  - apply within_wempty.
  - rewrite Forall_map. eapply Forall_impl; [|exact H]. intros [i o] [? ?]. assumption.
  - intros k off. rewrite lookup_wempty. discriminate.
  - destruct (find_lid_lookup _ junk id F1 F2 Hl F3 Hj rest) as (r & Hr & Hm).
    rewrite F4, lookup_wempty in Hm. rewrite Hr. destruct (last_offset id (map as_entry index)).
    + destruct Hm as (p & -> & p' & Hp). eauto.
    + subst. reflexivity.
Qed.

Lemma index_case :
  let index := [(1, 10); (256, 20); (1, 30); (65536, 40)] in
  Forall (fun io => fst io < 2 ^ 24 /\ snd io < 2 ^ 32) index /\
  (let lids := fold_left (fun t io => insert 0 (lexkeybuf (fst io)) (fun _ => snd io) t) index wempty in
   getbuflen C16 seriallen lids < 2 ^ 32 /\
   find_lid (lidstree_bytes lids) (repeat 0 15) 1 = Ok (Some (putserial 30))).
Proof.
  split; [repeat constructor|]. cbn zeta. split; [reflexivity|]. vm_compute. reflexivity.
Qed.

Lemma index_lookup_wide :
  exists index id junk, id < 2 ^ 32 /\ Forall (fun io => fst io < 2 ^ 32 /\ snd io < 2 ^ 32) index /\
  (length (lexkeylen id ++ junk) = 16)%nat /\ In (id, 10) index /\
  find_lid (lidstree_bytes (fold_left (fun t io => insert 0 (lexkeybuf (fst io)) (fun _ => snd io) t) index wempty)) junk id
  = Ok None.
Proof.
  exists [(0x01010001, 10)], 0x01010001, (repeat 0 12). repeat split; try reflexivity.
  - repeat constructor.
  - left; reflexivity.
Qed.

Lemma track_to_record (St : Type) (output : St -> N -> N -> frag -> frag -> res (St * Z))
    (out : St -> N -> N -> bytes -> bytes -> res (St * Z)) :
  (forall s lid cl tr e after,
     output s lid cl (Frag tr (N.of_nat (length tr))) (post_frag e after) = out s lid cl tr (stpost e)) ->
  forall t key e off rest s,
  dumpable C8 stems_len t -> all_lists_ok t -> within 48 t ->
  rec_at t 0 key e off ->
  get_track C8 (fun s p tr => select_view output (length (stemtree_bytes t ++ rest) - N.to_nat off) s p tr)
            49 (Some (length (stemtree_bytes t ++ rest) - N.to_nat off)%nat) (stemtree_bytes t ++ rest) [] s =
  out s (nlexid e) (oclass e) key (stpost e).
Proof.
  intros Ho t key e off rest s Hd Ha Hw Hr.
  destruct (rec_at_bytes _ _ _ _ _ Hr Ha rest) as (pre & post & Hb & Hp & _ & _).
  rewrite N.sub_0_r in Hp.
  change key with ([] ++ key). apply track_found with (out := out) (base := 0) (off := off) (n := 48%nat); auto; try lia.
  unfold stemtree_bytes. rewrite N.sub_0_r. apply (f_equal (@length N)) in Hb. rewrite !app_length in Hb. rewrite app_length. lia.
Qed.

Lemma positions t : ordered t -> all_lists_ok t ->
  (forall key e, has_record t key e -> exists off, rec_at t 0 key e off) /\
  (forall key e off, rec_at t 0 key e off -> has_record t key e /\
     exists pre post, stemtree_bytes t = pre ++ entry_ser e ++ post /\ N.of_nat (length pre) = off) /\
  (forall e off, In (e, off) (all_recs t) <-> exists key, rec_at t 0 key e off).
Proof.
  intros Ho Ha. split; [|split].
  - intros key e. apply has_rec_at.
  - intros key e off Hr. split; [eapply rec_at_has; eassumption|].
    destruct (rec_at_bytes _ _ _ _ _ Hr Ha []) as (pre & post & Hb & Hp & _ & _).
    exists pre, post. rewrite app_nil_r in Hb. split; [exact Hb|lia].
  - apply (recs_rec_at t 0).
Qed.

Lemma track_case :
  let e := Entry 224 255 1000 12 [45; 242; 238] in
  let t := dict_reader [([227; 228; 229], Entry 0 0 1 2 []); ([227; 228; 229], e)] wempty in
  all_lists_ok t /\ within 48 t /\ rec_at t 0 [227; 228; 229] e 11.
Proof.
  cbn zeta. split; [|split].
  - cbn. repeat (constructor; [intros ? [=] | intros ? ? [[= <- <-]|[]]]).
    constructor; [|intros ? ? []]. intros ? [= <-]. split; [|reflexivity]. repeat constructor.
  - unfold dict_reader. cbn [fold_left fst snd]. repeat (apply within_insert; [|cbn; lia]). apply within_wempty.
  - cbn. apply (rec_child [] 227 _ [] None). apply (rec_child [] 228 _ [] None). apply (rec_child [] 229 _ [] None).
    apply (rec_here [] []). reflexivity.
Qed.

Lemma list_sound (St : Type) (output : St -> N -> N -> frag -> frag -> res (St * Z))
    (out : St -> N -> N -> frag -> bytes -> res (St * Z)) :
  (forall s lid cl fr e after, output s lid cl fr (post_frag e after) = out s lid cl fr (stpost e)) ->
  forall rest tail l junk s, stems_ok l ->
  exists found : list (entry * bytes),
    (forall e infl, In (e, infl) found -> In e l /\ splits rest e infl /\ admits e infl) /\
    sublist (map fst found) l /\
    lookup_list output s (stems_ser l ++ junk) (Frag (rest ++ tail) (N.of_nat (length rest))) =
    until_nonzero (fun s ei => out s (nlexid (fst ei)) (oclass (fst ei))
                                   (Frag (rest ++ tail) (N.of_nat (length (snd ei)))) (stpost (fst ei))) found s.
Proof.
  intros Ho rest tail l junk s Hl. exists (candidates rest l). split; [|split].
  - apply candidates_sound.
  - apply candidates_sublist.
  - apply lookup_list_eq; assumption.
Qed.

Lemma list_complete (St : Type) (output : St -> N -> N -> frag -> frag -> res (St * Z))
    (out : St -> N -> N -> frag -> bytes -> res (St * Z)) :
  (forall s lid cl fr e after, output s lid cl fr (post_frag e after) = out s lid cl fr (stpost e)) ->
  forall rest tail l junk s, stems_ok l -> max_descending l ->
  exists found : list (entry * bytes),
    (forall e infl, In e l -> splits rest e infl -> admits e infl -> reachable e infl -> In (e, infl) found) /\
    (forall e infl, In (e, infl) found -> In e l /\ splits rest e infl /\ admits e infl) /\
    sublist (map fst found) l /\
    lookup_list output s (stems_ser l ++ junk) (Frag (rest ++ tail) (N.of_nat (length rest))) =
    until_nonzero (fun s ei => out s (nlexid (fst ei)) (oclass (fst ei))
                                   (Frag (rest ++ tail) (N.of_nat (length (snd ei)))) (stpost (fst ei))) found s.
Proof.
  intros Ho rest tail l junk s Hl Hm. exists (candidates rest l). split; [|split; [|split]].
  - intros e infl. apply candidates_complete; assumption.
  - apply candidates_sound.
  - apply candidates_sublist.
  - apply lookup_list_eq; assumption.
Qed.

Lemma list_incomplete :
  exists e1 e2 rest, stems_ok (insert_entry e2 [e1]) /\ max_descending (insert_entry e2 [e1]) /\
    splits rest e2 [] /\ admits e2 [] /\
    lookup_list (fun (s : list N) lid _ _ _ => Ok (s ++ [lid], 0%Z)) [] (stems_ser (insert_entry e2 [e1]))
                (Frag rest (N.of_nat (length rest))) = Ok ([], 0%Z).
Proof.
  exists (Entry 0 0 1 2 []), (Entry 0 0 2 3 [45; 242; 238]), [45; 242; 238].
  repeat split; try reflexivity; try (repeat constructor; fail). all: try (cbn; repeat constructor; cbn; lia).
  all: discriminate.
Qed.

Lemma list_case :
  let l := insert_entry (Entry 224 243 7 3 []) [Entry 224 255 8 4 [241; 255]] in
  stems_ok l /\ max_descending l /\ splits [224; 241; 255] (Entry 224 255 8 4 [241; 255]) [224] /\
  lookup_list (fun (s : list N) lid _ _ _ => Ok (s ++ [lid], 0%Z)) [] (stems_ser l) (Frag [224; 241; 255] 3) = Ok ([8; 7], 0%Z).
Proof.
  cbn zeta. split; [|split; [|split]]; try reflexivity.
  - split; [|reflexivity]. repeat constructor.
  - cbn. repeat constructor; cbn; lia.
Qed.

Lemma strcmp_lex a : forall b, strcmp a b = Lt -> lex_lt a b.
Proof.
  induction a as [|x a IH]; intros [|y b]; cbn; try discriminate; [constructor|].
  destruct (N.ltb_spec x y); [intros _; constructor; assumption|].
  destruct (N.ltb_spec y x); [discriminate|]. intros G1. replace y with x by lia. apply lex_tail. auto.
Qed.

Lemma nlt_goes_before a b : small_id a -> small_id b -> entry_lt b a = false -> goes_before a b.
Proof.
  unfold small_id, entry_lt, goes_before. intros Ha Hb.
  destruct (N.ltb_spec (chrmax a) (chrmax b)); [discriminate|].
  destruct (N.ltb_spec (chrmax b) (chrmax a)); [auto|]. intros G1. right. split; [lia|]. revert G1.
  destruct (N.ltb_spec (chrmin b) (chrmin a)); [discriminate|].
  destruct (N.ltb_spec (chrmin a) (chrmin b)); [auto|]. intros G3. right. split; [lia|]. revert G3.
  rewrite (strcmp_antisym (stpost a)). destruct (strcmp (stpost a) (stpost b)) eqn:E; cbn [CompOpp]; [|auto using strcmp_lex|discriminate].
  rewrite lid_lt by assumption. intros G3. right. split; [apply strcmp_eq; assumption|]. apply N.ltb_ge in G3. assumption.
Qed.

Lemma sorted_in_order l : Forall small_id l -> sorted_entries l -> in_order l.
Proof.
  induction l as [|e l IH]; intros Hs H; [exact I|]. inversion Hs; subst. destruct H as [G1 G2]. split; [|auto].
  rewrite Forall_forall in *. intros x Hx. apply nlt_goes_before; auto.
Qed.

Lemma dict_sorted items :
  Forall (fun ke => is_bytes (fst ke) /\ nlexid (snd ke) < 2 ^ 31) items ->
  let t := dict_reader items wempty in
  ordered t /\
  (forall key, (forall ke, In ke items -> fst ke <> key) -> lookup key t = None) /\
  (forall key l, lookup key t = Some l ->
     in_order l /\ max_descending l /\
     Permutation l (map snd (filter (fun ke => if list_eq_dec N.eq_dec (fst ke) key then true else false) items))) /\
  (forall ke, In ke items -> has_record t (fst ke) (snd ke)).
Proof.
  intros H. cbn zeta.
  destruct (dict_reader_facts items wempty) as (F1 & F2 & F3 & F4).
  { apply ordered_wempty. }
  { eapply Forall_impl; [|exact H]. intros ? [? _]; assumption. }
  { intros key l. rewrite lookup_wempty. discriminate. }
  assert (F5 := dict_reader_sorted items wempty ordered_wempty H).
  split; [assumption|]. split; [|split].
  - intros key Hk. apply F3. split; [apply lookup_wempty|]. unfold records_of. clear H F1 F2 F3 F4 F5.
    induction items as [|ke items IH]; [reflexivity|]. cbn [filter].
    match goal with |- context [list_eq_dec ?a ?b ?c] => destruct (list_eq_dec a b c) as [E|E] end; [exfalso; apply (Hk ke); [left; reflexivity|assumption]|].
    apply IH. intros ke' Hin. apply Hk. right; assumption.
  - intros key l Hl. destruct (F5 (fun k l (E : lookup k wempty = Some l) => ltac:(rewrite lookup_wempty in E; discriminate)) key l Hl) as [G1 G2].
    split; [apply sorted_in_order; assumption|]. split; [eapply F4; eassumption|].
    specialize (F2 key). rewrite Hl, lookup_wempty in F2. cbn in F2. rewrite app_nil_r in F2. exact F2.
  - intros ke Hin. specialize (F2 (fst ke)). rewrite lookup_wempty in F2. cbn [default] in F2. rewrite app_nil_r in F2.
    assert (Hi : In (snd ke) (records_of items (fst ke))).
    { unfold records_of. apply in_map. apply filter_In. split; [assumption|].
      match goal with |- context [list_eq_dec ?a ?b ?c] => destruct (list_eq_dec a b c) as [E|E] end; [reflexivity|exfalso; apply E; reflexivity]. }
    eapply Permutation_in in Hi; [|symmetry; exact F2].
    unfold has_record. destruct (lookup (fst ke) (dict_reader items wempty)) as [l|]; [|destruct Hi]. eauto.
Qed.
