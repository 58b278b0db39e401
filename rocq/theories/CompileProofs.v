(** * CompileProofs: expansion of compact inflexion tables.  PROOFS. *)
From Verif Require Import Base Serial SerialProofs WordTree TreeSpec WordTreeProofs FlatScan LidsProofs TreeWalk Stems StemSpec StemsProofs GramMap RusRuntime LevelSpec RusSpec
  Compile CompileSpec.
Local Open Scope N_scope.

(** ** Reading elements *)
Lemma putword16_length n : length (putword16 n) = 2%nat.
Proof. reflexivity. Qed.

Lemma getword16_inv p n q : is_bytes p -> getword16 p = Ok (n, q) -> n < 2 ^ 16 /\ p = putword16 n ++ q /\ is_bytes q.
Proof.
  intros Hb. unfold getword16. destruct p as [|a [|b p]]; cbn [rd bind]; try discriminate. intros E0.
  inversion Hb as [|? ? Ha Hb']; subst. inversion Hb' as [|? ? Hbb Hb'']; subst.
  remember (N.lor a (N.shiftl b 8 mod 2 ^ 16)) as m eqn:Em. injection E0 as <- <-.
  assert (E : N.lor a (N.shiftl b 8 mod 2 ^ 16) = a + b * 256).
  { rewrite N.mod_small by (rewrite N.shiftl_mul_pow2; change (2 ^ 8) with 256; change (2 ^ 16) with 65536; lia).
    apply (lor_shift_add a b 8). exact Ha. }
  rewrite <- Em in E. rewrite E. split; [change (2 ^ 16) with 65536; lia|]. split; [|exact Hb'']. unfold putword16. rewrite N.shiftr_div_pow2. change (2 ^ 8) with 256.
  cbn [app]. f_equal; [|f_equal]; lia.
Qed.

Lemma advance_inv n p q : advance n p = Ok q -> p = firstn (N.to_nat n) p ++ q /\ N.of_nat (length (firstn (N.to_nat n) p)) = n.
Proof.
  unfold advance. destruct (N.ltb_spec (N.of_nat (length p)) n) as [H|H]; [discriminate|]. intros [= <-].
  split; [symmetry; apply firstn_skipn|]. rewrite firstn_length. lia.
Qed.

Lemma read_item_ser it rest : item_ok it -> read_item (item_ser it ++ rest) = Ok (it, rest).
Proof.
  intros (H1 & H2 & H3 & H4 & H5 & H6). unfold read_item, item_ser. rewrite <- app_comm_cons. cbn [rd bind].
  rewrite <- app_assoc, getword16_put by exact H2. cbn [bind]. rewrite <- app_comm_cons. cbn [rd bind].
  rewrite <- app_assoc, advance_app by reflexivity. cbn [bind]. rewrite Nnat.Nat2N.id, firstn_app, Nat.sub_diag, firstn_all, app_nil_r.
  destruct (N.eqb_spec (N.land (fi_flags it) 0xc0) 0) as [E|E].
  - cbn [bind app]. rewrite <- (H6 E). destruct it; reflexivity.
  - rewrite getword16_put by exact H5. cbn [bind]. destruct it; reflexivity.
Qed.

Lemma read_item_inv p it q : is_bytes p -> read_item p = Ok (it, q) -> item_ok it /\ p = item_ser it ++ q /\ is_bytes q.
Proof.
  intros Hb. unfold read_item. intros E.
  apply bind_ok_inv in E as ([bf p1] & E1 & E). destruct p as [|b0 p']; [discriminate|]. injection E1 as -> ->. inversion Hb as [|? ? Hbf Hb1]; subst.
  apply bind_ok_inv in E as ([gi p2] & E2 & E). destruct (getword16_inv _ _ _ Hb1 E2) as (Hg & -> & Hb2).
  apply bind_ok_inv in E as ([cc p3] & E3 & E). destruct p2 as [|c0 p2']; [discriminate|]. injection E3 as -> ->. inversion Hb2 as [|? ? Hcc Hb3]; subst.
  apply bind_ok_inv in E as (q1 & E4 & E). destruct (advance_inv _ _ _ E4) as [Ep Hl]. rewrite Ep in Hb3. apply is_bytes_app in Hb3 as [Ht Hq1].
  remember (firstn (N.to_nat cc) p3) as text eqn:Etext.
  assert (K : exists nx q', (if N.land bf 0xc0 =? 0 then Ok (0, q1) else getword16 q1) = Ok (nx, q') /\ Ok (FlexItem bf gi text nx, q') = Ok (it, q)).
  { apply bind_ok_inv in E as ([nx q'] & E5 & E). exists nx, q'. split; assumption. }
  destruct K as (nx & q' & E5 & [= <- <-]). rewrite Ep. clear E E4 Etext.
  destruct (N.eqb_spec (N.land bf 0xc0) 0) as [Ez|Ez].
  - injection E5 as <- <-. repeat split; cbn [fi_flags fi_info fi_text fi_next]; try assumption; try lia.
    unfold item_ser. cbn [fi_flags fi_info fi_text fi_next]. rewrite Hl, Ez. cbn [N.eqb app]. rewrite <- app_assoc, app_nil_r. reflexivity.
  - destruct (getword16_inv _ _ _ Hq1 E5) as (Hn & -> & Hq'). repeat split; cbn [fi_flags fi_info fi_text fi_next]; try assumption; try lia; try contradiction.
    unfold item_ser. cbn [fi_flags fi_info fi_text fi_next]. rewrite Hl. destruct (N.eqb_spec (N.land bf 0xc0) 0); [contradiction|].
    cbn [app]. rewrite <- !app_assoc. cbn [app]. rewrite <- !app_assoc. reflexivity.
Qed.

(** ** Adding descriptions *)
Lemma add_gram_in g f l gf : In gf (add_gram g f l) <-> In gf l \/ gf = (g, f).
Proof.
  unfold add_gram. destruct (existsb _ l) eqn:E.
  - split; [auto|]. intros [H| ->]; [exact H|]. apply existsb_exists in E as ([g' f'] & Hin & E). cbn in E.
    apply andb_true_iff in E as [E1 E2]. apply N.eqb_eq in E1, E2. subst. exact Hin.
  - rewrite in_app_iff. cbn. split; intros [H|H]; auto. destruct H as [H|[]]; auto.
Qed.

Lemma add_gram_nodup g f l : NoDup l -> NoDup (add_gram g f l).
Proof.
  intros H. unfold add_gram. destruct (existsb _ l) eqn:E; [exact H|].
  assert (Hn : ~ In (g, f) l).
  { intros Hin. assert (existsb (fun gf => (fst gf =? g) && (snd gf =? f)) l = true); [|congruence].
    apply existsb_exists. exists (g, f). split; [exact Hin|]. cbn. rewrite !N.eqb_refl. reflexivity. }
  clear E. induction l as [|x l IH]; cbn; [constructor; [auto|constructor]|]. inversion H; subst. constructor.
  - rewrite in_app_iff. cbn. intros [K|[K|[]]]; [contradiction|]. apply Hn. left. congruence.
  - apply IH; [assumption|]. intros K. apply Hn. right. exact K.
Qed.

Lemma listed_insert key g f w s g' f' : ordered w ->
  listed (insert [] key (add_gram g f) w) s g' f' <-> listed w s g' f' \/ s = key /\ g' = g /\ f' = f.
Proof.
  intros Ho. unfold listed. destruct (list_eq_dec N.eq_dec s key) as [->|Hne].
  - rewrite lookup_insert_same by exact Ho. split.
    + intros (l & [= <-] & Hin). apply add_gram_in in Hin as [Hin|[= -> ->]]; [|right; auto].
      left. destruct (lookup key w) as [l|]; [|destruct Hin]. exists l. auto.
    + intros [(l & E & Hin)|(_ & -> & ->)]; (eexists; split; [reflexivity|]); apply add_gram_in; [left; rewrite E; exact Hin|right; reflexivity].
  - rewrite lookup_insert_other by assumption. split; [auto|]. intros [H|(H & _)]; [exact H|contradiction].
Qed.

(** ** Trees over an alphabet *)
Inductive letters_in {X} (alphabet : bytes) : wtree X -> Prop :=
| letters_node l d : incl (map fst l) alphabet -> (forall c t, In (c, t) l -> letters_in alphabet t) -> letters_in alphabet (WNode l d).
Lemma letters_wempty {X} alphabet : letters_in alphabet (@wempty X).
Proof. constructor; [intros x []|intros c t []]. Qed.
Lemma letters_insert {X} alphabet (dflt : X) key : forall f t, letters_in alphabet t -> incl key alphabet -> letters_in alphabet (insert dflt key f t).
Proof.
  induction key as [|c key IH]; intros f t Ht Hk; destruct t as [l d]; inversion Ht as [? ? H1 H2]; subst; cbn [insert nested p_data]; constructor.
  - exact H1.
  - exact H2.
  - intros x Hx. apply place_keys in Hx as [->|Hx]; [apply Hk; left; reflexivity|apply H1, Hx].
  - intros x t Hin. apply place_in in Hin as [Hin|(-> & [->|(t0 & Hin & ->)])]; [eapply H2; exact Hin|..]; apply IH;
      try (intros y Hy; apply Hk; right; exact Hy); [apply letters_wempty|eapply H2; exact Hin].
Qed.

Lemma descending_nodup l : descending l -> NoDup l.
Proof.
  induction l as [|c l IH]; intros H; constructor; destruct H as [H1 H2]; [|apply IH, H2].
  intros Hin. rewrite Forall_forall in H1. specialize (H1 c Hin). lia.
Qed.
Lemma letters_counts {X} alphabet (t : wtree X) : (length alphabet < 128)%nat -> ordered t -> letters_in alphabet t -> counts_ok C8 t.
Proof.
  intros Ha. induction t as [l d IH] using (@wtree_ind' X). intros Ho Hl. inversion Ho as [? ? Hd Hb Hs]; subst. inversion Hl as [? ? H1 H2]; subst. constructor.
  - pose proof (NoDup_incl_length (descending_nodup _ Hd) H1) as H. rewrite map_length in H. cbn [cflag]. lia.
  - intros c t Hin. rewrite Forall_forall in IH. exact (IH (c, t) Hin (Hs c t Hin) (H2 c t Hin)).
Qed.
Lemma letters_nonzero {X} alphabet (t : wtree X) : ~ In 0 alphabet -> letters_in alphabet t -> nonzero t.
Proof.
  intros Ha. induction t as [l d IH] using (@wtree_ind' X). intros Hl. inversion Hl as [? ? H1 H2]; subst. constructor.
  intros c t Hin. split.
  - intros ->. apply Ha, H1. apply in_map_iff. exists (0, t). auto.
  - rewrite Forall_forall in IH. exact (IH (c, t) Hin (H2 c t Hin)).
Qed.

(** ** The expansion *)
Definition walk_items (depth : nat) (tables : bytes) (grInfo bFlags : N) (prefix : bytes) :=
  fix items (n : nat) (ftable : bytes) (wotree : wtree (list (N * N))) : res (wtree (list (N * N))) :=
         match n with
         | O => Ok wotree
         | S n' =>
             let! (it, ftable) := read_item ftable in
             let prefix' := prefix ++ fi_text it in
             if 0x100 <? N.of_nat (length prefix') then Ub
             else
               let g := N.lor grInfo (fi_info it) in
               let f := N.land bFlags (fi_flags it) in
               let wotree := if bit 7 (fi_flags it) then wotree else insert [] prefix' (add_gram g f) wotree in
               let! wotree := (if fi_next it =? 0 then Ok wotree else create_tree depth tables (fi_next it) g f prefix' wotree) in
               items n' ftable wotree
         end.
Lemma create_tree_S depth tables off g f prefix w :
  create_tree (S depth) tables off g f prefix w =
  let! ft := advance (N.shiftl off 1) tables in let! (n, ft) := rd ft in walk_items depth tables g f prefix (N.to_nat n) ft w.
Proof. reflexivity. Qed.

(** what a walk from some place adds *)
Definition adds (src : bytes -> N -> N -> Prop) (g0 f0 : N) (pre : bytes) (w w' : wtree (list (N * N))) : Prop :=
  ordered w' /\
  (forall s g f, listed w' s g f <-> listed w s g f \/ exists s' g' f', src s' g' f' /\ s = pre ++ s' /\ g = N.lor g0 g' /\ f = N.land f0 f') /\
  ((forall s l, lookup s w = Some l -> NoDup l) -> forall s l, lookup s w' = Some l -> NoDup l) /\
  (forall (R : wtree (list (N * N)) -> Prop) (Q : bytes -> Prop), (forall key f t, R t -> Q key -> R (insert [] key f t)) ->
     R w -> (forall s' g' f', src s' g' f' -> Q (pre ++ s')) -> R w').

Definition item_gives (tables : bytes) (it : flexitem) (s : bytes) (g f : N) : Prop :=
  N.testbit (fi_flags it) 7 = false /\ s = fi_text it /\ g = fi_info it /\ f = fi_flags it \/
  fi_next it <> 0 /\ exists s' g' f', ending tables (fi_next it) s' g' f' /\ s = fi_text it ++ s' /\ g = N.lor (fi_info it) g' /\ f = N.land (fi_flags it) f'.

Lemma adds_none src g0 f0 pre w : ordered w -> (forall s g f, ~ src s g f) -> adds src g0 f0 pre w w.
Proof.
  intros Ho Hn. split; [exact Ho|]. split; [|split]; auto. intros s g f. split; [auto|]. intros [H|(s' & g' & f' & H & _)]; [exact H|destruct (Hn _ _ _ H)].
Qed.
Lemma adds_trans (src1 src2 src : bytes -> N -> N -> Prop) g0 f0 pre w w1 w2 :
  (forall s g f, src s g f <-> src1 s g f \/ src2 s g f) -> adds src1 g0 f0 pre w w1 -> adds src2 g0 f0 pre w1 w2 -> adds src g0 f0 pre w w2.
Proof.
  intros Hs (O1 & L1 & N1 & A1) (O2 & L2 & N2 & A2). split; [exact O2|]. split; [|split].
  - intros s g f. rewrite L2, L1. split.
    + intros [[H|(s' & g' & f' & H & R)]|(s' & g' & f' & H & R)]; [auto|right|right]; exists s', g', f'; (split; [apply Hs; auto|exact R]).
    + intros [H|(s' & g' & f' & H & R)]; [auto|]. apply Hs in H as [H|H]; [left; right|right]; exists s', g', f'; auto.
  - intros Hnd. exact (N2 (N1 Hnd)).
  - intros R Q HR Hw Hin. apply (A2 R Q HR); [apply (A1 R Q HR); [exact Hw|]|]; intros s' g' f' H; apply (Hin s' g' f'), Hs; auto.
Qed.

Lemma adds_insert g0 f0 pre it w : ordered w -> is_bytes (pre ++ fi_text it) ->
  adds (fun s g f => s = fi_text it /\ g = fi_info it /\ f = fi_flags it) g0 f0 pre w
       (insert [] (pre ++ fi_text it) (add_gram (N.lor g0 (fi_info it)) (N.land f0 (fi_flags it))) w).
Proof.
  intros Ho Hb. split; [apply insert_ordered; assumption|]. split; [|split].
  - intros s g f. rewrite listed_insert by exact Ho. split; (intros [H|H]; [left; exact H|right]).
    + destruct H as (-> & -> & ->). exists (fi_text it), (fi_info it), (fi_flags it). repeat split.
    + destruct H as (s' & g' & f' & (-> & -> & ->) & -> & -> & ->). auto.
  - intros Hn s l. destruct (list_eq_dec N.eq_dec s (pre ++ fi_text it)) as [->|Hne].
    + rewrite lookup_insert_same by exact Ho. intros [= <-]. apply add_gram_nodup. destruct (lookup _ w) eqn:E; [eapply Hn; exact E|constructor].
    + rewrite lookup_insert_other by assumption. apply Hn.
  - intros R Q HR Hw Hin. apply HR; [exact Hw|]. exact (Hin (fi_text it) (fi_info it) (fi_flags it) ltac:(auto)).
Qed.

Lemma adds_shift (src : bytes -> N -> N -> Prop) g0 f0 pre it w w' :
  adds src (N.lor g0 (fi_info it)) (N.land f0 (fi_flags it)) (pre ++ fi_text it) w w' ->
  adds (fun s g f => exists s' g' f', src s' g' f' /\ s = fi_text it ++ s' /\ g = N.lor (fi_info it) g' /\ f = N.land (fi_flags it) f') g0 f0 pre w w'.
Proof.
  intros (O & L & Nd & A). split; [exact O|]. split; [|split; [exact Nd|]].
  - intros s g f. rewrite L. split; (intros [H|H]; [left; exact H|right]).
    + destruct H as (s' & g' & f' & H & -> & -> & ->). eexists _, _, _. split; [exists s', g', f'; split; [exact H|repeat split]|].
      rewrite <- app_assoc, N.lor_assoc, N.land_assoc. auto.
    + destruct H as (? & ? & ? & (s' & g' & f' & H & -> & -> & ->) & -> & -> & ->). exists s', g', f'.
      rewrite <- app_assoc, N.lor_assoc, N.land_assoc. auto.
  - intros R Q HR Hw Hin. apply (A R Q HR); [exact Hw|]. intros s' g' f' H. rewrite <- app_assoc. eapply Hin. exists s', g', f'. repeat split. exact H.
Qed.

Lemma walk_adds depth tables :
  (forall off g0 f0 pre w w', is_bytes pre -> ordered w -> create_tree depth tables off g0 f0 pre w = Ok w' -> adds (ending tables off) g0 f0 pre w w') ->
  forall n p g0 f0 pre w w', is_bytes p -> is_bytes pre -> ordered w -> walk_items depth tables g0 f0 pre n p w = Ok w' ->
  exists items rest, p = flat_map item_ser items ++ rest /\ length items = n /\ Forall item_ok items /\
    adds (fun s g f => exists it, In it items /\ item_gives tables it s g f) g0 f0 pre w w'.
Proof.
  intros IHd. induction n as [|n IHn]; intros p g0 f0 pre w w' Hp Hpre Ho E.
  - cbn in E. injection E as <-. exists [], p. split; [reflexivity|]. split; [reflexivity|]. split; [constructor|].
    apply adds_none; [exact Ho|]. intros s g f (it & [] & _).
  - change (walk_items depth tables g0 f0 pre (S n) p w) with
      (let! (it, ftable) := read_item p in
             let prefix' := pre ++ fi_text it in
             if 0x100 <? N.of_nat (length prefix') then Ub
             else
               let g := N.lor g0 (fi_info it) in
               let f := N.land f0 (fi_flags it) in
               let wotree := if bit 7 (fi_flags it) then w else insert [] prefix' (add_gram g f) w in
               let! wotree := (if fi_next it =? 0 then Ok wotree else create_tree depth tables (fi_next it) g f prefix' wotree) in
               walk_items depth tables g0 f0 pre n ftable wotree) in E.
    apply bind_ok_inv in E as ([it q] & Er & E). destruct (read_item_inv _ _ _ Hp Er) as (Hit & -> & Hq). cbv zeta in E.
    destruct (_ <? _); [discriminate|]. apply bind_ok_inv in E as (w2 & E2 & E).
    set (w1 := if bit 7 (fi_flags it) then w else insert [] (pre ++ fi_text it) (add_gram (N.lor g0 (fi_info it)) (N.land f0 (fi_flags it))) w) in *.
    assert (Hpt : is_bytes (pre ++ fi_text it)) by (apply is_bytes_app; split; [exact Hpre|apply Hit]).
    assert (S1 : adds (fun s g f => N.testbit (fi_flags it) 7 = false /\ s = fi_text it /\ g = fi_info it /\ f = fi_flags it) g0 f0 pre w w1).
    { unfold w1, bit. destruct (N.testbit (fi_flags it) 7).
      - apply adds_none; [exact Ho|]. intros s g f [H _]. discriminate.
      - pose proof (adds_insert g0 f0 pre it w Ho Hpt) as (A1 & A2 & A3 & A4). split; [exact A1|]. split; [|split; [exact A3|]].
        + intros s g f. rewrite A2. split; (intros [H|(s' & g' & f' & H & R)]; [left; exact H|right; exists s', g', f']).
          * split; [split; [reflexivity|exact H]|exact R].
          * split; [apply H|exact R].
        + intros R Q HR Hw Hin. apply (A4 R Q HR); [exact Hw|]. intros s' g' f' H. eapply Hin. split; [reflexivity|exact H]. }
    assert (S2 : adds (fun s g f => fi_next it <> 0 /\ exists s' g' f', ending tables (fi_next it) s' g' f' /\ s = fi_text it ++ s' /\
                    g = N.lor (fi_info it) g' /\ f = N.land (fi_flags it) f') g0 f0 pre w1 w2).
    { destruct (N.eqb_spec (fi_next it) 0) as [Ez|Ez].
      - injection E2 as <-. apply adds_none; [apply S1|]. intros s g f [H _]. contradiction.
      - apply IHd in E2; [|exact Hpt|apply S1]. apply adds_shift in E2. destruct E2 as (A1 & A2 & A3 & A4). split; [exact A1|]. split; [|split; [exact A3|]].
        + intros s g f. rewrite A2. split; (intros [H|(s' & g' & f' & H & R)]; [left; exact H|right; exists s', g', f']).
          * split; [split; [exact Ez|exact H]|exact R].
          * split; [apply H|exact R].
        + intros R Q HR Hw Hin. apply (A4 R Q HR); [exact Hw|]. intros s' g' f' H. eapply Hin. split; [exact Ez|exact H]. }
    destruct (IHn q g0 f0 pre w2 w' Hq Hpre ltac:(apply S2) E) as (items & rest & -> & Hl & Hok & S3).
    exists (it :: items), rest. split; [cbn [flat_map]; rewrite <- app_assoc; reflexivity|]. split; [cbn; congruence|]. split; [constructor; assumption|].
    eapply adds_trans; [|eapply adds_trans; [|exact S1|exact S2]|exact S3].
    + intros s g f. split.
      * intros (i & [<-|Hin] & H); [left; exact H|right; exists i; auto].
      * intros [H|(i & Hin & H)]; [exists it|exists i]; (split; [|exact H]); [left; reflexivity|right; exact Hin].
    + intros s g f. unfold item_gives. reflexivity.
Qed.

Lemma table_unique tables off items items' : table_at tables off items -> table_at tables off items' -> items = items'.
Proof.
  intros (H1 & L1 & p1 & r1 & E1 & P1) (H2 & L2 & p2 & r2 & E2 & P2). rewrite E1 in E2.
  assert (Lp : length p1 = length p2) by lia. clear P1 P2 E1.
  assert (E : N.of_nat (length items) :: flat_map item_ser items ++ r1 = N.of_nat (length items') :: flat_map item_ser items' ++ r2).
  { apply (f_equal (skipn (length p1))) in E2. rewrite skipn_app, skipn_all, Nat.sub_diag in E2. rewrite Lp, skipn_app, skipn_all, Nat.sub_diag in E2. exact E2. }
  injection E as Hn E. assert (Hl : length items = length items') by lia. clear - H1 H2 E Hl. revert items' H2 E Hl.
  induction H1 as [|it items Hit Hits IH]; intros [|it' items'] H2 E Hl; try discriminate; [reflexivity|]. inversion H2; subst.
  cbn [flat_map] in E. rewrite <- !app_assoc in E. apply (f_equal read_item) in E. rewrite !read_item_ser in E by assumption. injection E as <- E.
  f_equal. apply IH; try assumption. cbn in Hl. lia.
Qed.

Lemma create_adds tables : is_bytes tables -> forall depth off g0 f0 pre w w', is_bytes pre -> ordered w ->
  create_tree depth tables off g0 f0 pre w = Ok w' -> adds (ending tables off) g0 f0 pre w w'.
Proof.
  intros Hb. induction depth as [|depth IH]; intros off g0 f0 pre w w' Hpre Ho E; [discriminate|]. rewrite create_tree_S in E.
  apply bind_ok_inv in E as (ft & Ea & E). destruct (advance_inv _ _ _ Ea) as [Ep Hl]. apply bind_ok_inv in E as ([n ft'] & Er & E).
  destruct ft as [|n0 ft0]; [discriminate|]. injection Er as -> ->.
  assert (Hft : is_bytes ft' /\ n < 256).
  { rewrite Ep in Hb. apply is_bytes_app in Hb as [_ Hb]. inversion Hb; subst. auto. }
  destruct Hft as [Hft Hn]. destruct (walk_adds depth tables IH _ _ g0 f0 pre w w' Hft Hpre Ho E) as (items & rest & -> & Hlen & Hok & A).
  assert (T : table_at tables off items).
  { split; [exact Hok|]. split; [lia|]. eexists _, rest. split; [rewrite Hlen, Nnat.N2Nat.id; exact Ep|]. rewrite Hl, N.shiftl_mul_pow2. lia. }
  assert (Iff : forall s g f, ending tables off s g f <-> exists it, In it items /\ item_gives tables it s g f).
  { intros s g f. split.
    - intros H. inversion H as [o i it T' Hin Hbit|o i it s' g' f' T' Hin Hnx He]; subst; rewrite (table_unique _ _ _ _ T' T) in Hin; exists it; (split; [exact Hin|]).
      + left. auto.
      + right. split; [exact Hnx|]. exists s', g', f'. auto.
    - intros (it & Hin & [(Hbit & -> & -> & ->)|(Hnx & s' & g' & f' & He & -> & -> & ->)]); [eapply ending_here|eapply ending_further]; eassumption. }
  destruct A as (A1 & A2 & A3 & A4). split; [exact A1|]. split; [|split; [exact A3|]].
  - intros s g f. rewrite A2. split; (intros [H|(s' & g' & f' & H & R)]; [left; exact H|right; exists s', g', f'; split; [apply Iff, H|exact R]]).
  - intros R Q HR Hw Hin. apply (A4 R Q HR); [exact Hw|]. intros s' g' f' H. apply Iff in H. eapply Hin. exact H.
Qed.

Lemma ending_range tables off s g f : ending tables off s g f -> g < 2 ^ 16 /\ f < 256.
Proof.
  assert (Hlor : forall a b, a < 2 ^ 16 -> b < 2 ^ 16 -> N.lor a b < 2 ^ 16).
  { intros a b Ha Hb. apply N.mod_small_iff; [discriminate|]. apply N.bits_inj. intros i. destruct (N.ltb_spec i 16) as [H|H].
    - apply N.mod_pow2_bits_low, H.
    - rewrite N.mod_pow2_bits_high by exact H. rewrite N.lor_spec.
      rewrite <- (N.mod_small a (2 ^ 16)), <- (N.mod_small b (2 ^ 16)) by assumption. rewrite !N.mod_pow2_bits_high by exact H. reflexivity. }
  assert (Hland : forall a b, a < 256 -> N.land a b < 256).
  { intros a b Ha. apply N.mod_small_iff; [discriminate|]. change 256 with (2 ^ 8) in *. apply N.bits_inj. intros i. destruct (N.ltb_spec i 8) as [H|H].
    - apply N.mod_pow2_bits_low, H.
    - rewrite N.mod_pow2_bits_high by exact H. rewrite N.land_spec. rewrite <- (N.mod_small a (2 ^ 8)) by assumption. rewrite N.mod_pow2_bits_high by exact H. reflexivity. }
  induction 1 as [o i it (Hok & _) Hin Hbit|o i it s g f (Hok & _) Hin Hnx He [IH1 IH2]]; rewrite Forall_forall in Hok; destruct (Hok it Hin) as (K1 & K2 & _).
  - split; assumption.
  - split; [apply Hlor; assumption|apply Hland; assumption].
Qed.

(** the whole expansion *)
Lemma plain_tree depth tables off t : is_bytes tables -> create_tree depth tables off 0 255 [] wempty = Ok t ->
  ordered t /\ (forall s g f, listed t s g f <-> ending tables off s g f) /\ (forall s l, lookup s t = Some l -> NoDup l) /\
  (forall alphabet, (forall s g f, ending tables off s g f -> incl s alphabet) -> letters_in alphabet t) /\
  (forall n, (forall s g f, ending tables off s g f -> (length s <= n)%nat) -> within n t).
Proof.
  intros Hb E. destruct (create_adds tables Hb depth off 0 255 [] wempty t ltac:(constructor) ordered_wempty E) as (A1 & A2 & A3 & A4).
  assert (Hw : forall s g f, ~ listed wempty s g f) by (intros s g f (l & El & _); rewrite lookup_wempty in El; discriminate).
  split; [exact A1|]. split; [|split; [|split]].
  - intros s g f. rewrite A2. cbn [app]. split.
    + intros [H|(s' & g' & f' & H & -> & -> & ->)]; [destruct (Hw _ _ _ H)|]. rewrite N.lor_0_l.
      replace (N.land 255 f') with f'; [exact H|]. change 255 with (N.ones 8). rewrite N.land_comm, N.land_ones. symmetry. apply N.mod_small.
      apply (ending_range _ _ _ _ _ H).
    + intros H. right. exists s, g, f. split; [exact H|]. split; [reflexivity|]. rewrite N.lor_0_l. split; [reflexivity|].
      change 255 with (N.ones 8). rewrite N.land_comm, N.land_ones. symmetry. apply N.mod_small. apply (ending_range _ _ _ _ _ H).
  - apply A3. intros s l El. rewrite lookup_wempty in El. discriminate.
  - intros al H. apply (A4 (letters_in al) (fun s => incl s al)); [intros; apply letters_insert; assumption|apply letters_wempty|exact H].
  - intros n H. apply (A4 (within n) (fun s => (length s <= n)%nat)); [intros; apply within_insert; assumption|apply within_wempty|exact H].
Qed.
