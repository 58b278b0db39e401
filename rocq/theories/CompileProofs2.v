(** * CompileProofs2: the class table; expanded tables as the runtime reads them; uniqueness of tables.  PROOFS. *)
From Verif Require Import Base Serial SerialProofs WordTree TreeSpec WordTreeProofs FlatScan LidsProofs TreeWalk Stems StemSpec StemsProofs GramMap RusRuntime LevelSpec LevelProofs
  RusSpec RusProofs Compile CompileSpec CompileProofs.
Local Open Scope N_scope.

(** ** The class table *)
Lemma class_eqb_eq a b : class_eqb a b = true <-> a = b.
Proof.
  unfold class_eqb. rewrite !andb_true_iff, !N.eqb_eq. destruct a, b; cbn. split; [intros ((-> & ->) & ->); reflexivity|intros [= -> -> ->]; auto].
Qed.

Lemma NoDup_snoc {X} (l : list X) x : NoDup l -> ~ In x l -> NoDup (l ++ [x]).
Proof.
  intros H Hn. induction H as [|y l Hy H IH]; [constructor; [intros []|constructor]|]. cbn. constructor.
  - rewrite in_app_iff. intros [K|[K|[]]]; [contradiction|]. apply Hn. left. congruence.
  - apply IH. intros K. apply Hn. right. exact K.
Qed.
Definition sers (l : list (morphclass * N)) : bytes := flat_map (fun r => morphclass_ser (fst r)) l.
Lemma morphclass_ser_len m : N.of_nat (length (morphclass_ser m)) = morphclass_len m.
Proof.
  unfold morphclass_ser, morphclass_len. rewrite !app_length, putword16_length. destruct (m_tfoffs m =? 0), (m_mtoffs m =? 0); reflexivity.
Qed.
Lemma morphclass_len_pos m : 2 <= morphclass_len m.
Proof. unfold morphclass_len. lia. Qed.

(** every element is at its offset *)
Record cls_inv (t : classtable) : Prop := {
  ci_len : clslength t = N.of_nat (length (sers (clsset t)));
  ci_fits : clslength t <= 0xffff;
  ci_at : forall m off, In (m, off) (clsset t) -> exists l1 l2, clsset t = l1 ++ (m, off) :: l2 /\ off = N.of_nat (length (sers l1));
  ci_once : NoDup (map fst (clsset t));
}.
Definition cls_grows (t t' : classtable) : Prop := exists l, clsset t' = clsset t ++ l.

Lemma cls_empty : cls_inv (Classtable [] 0).
Proof. constructor; cbn; [reflexivity|lia|intros m off []|constructor]. Qed.

Lemma sers_app l l' : sers (l ++ l') = sers l ++ sers l'.
Proof. apply flat_map_app. Qed.

Lemma add_class_inv t m t' off : cls_inv t -> add_class t m = Some (t', off) -> cls_inv t' /\ cls_grows t t' /\ In (m, off) (clsset t').
Proof.
  intros [L F A O]. unfold add_class. destruct (find _ (clsset t)) as [r|] eqn:E.
  - intros [= <- <-]. apply find_some in E as [Hin E]. apply class_eqb_eq in E. destruct r as [m' o]; cbn in *; subst m'.
    split; [constructor; assumption|]. split; [exists []; symmetry; apply app_nil_r|exact Hin].
  - cbn [clslength]. destruct (N.ltb_spec 0xffff (clslength t + morphclass_len m)) as [H|H]; [discriminate|]. intros [= <- <-].
    rewrite N.mod_small by (change (2 ^ 16) with 65536; lia).
    split; [|split; [exists [(m, clslength t)]; reflexivity|apply in_or_app; right; left; reflexivity]]. constructor; cbn [clsset clslength].
    + rewrite sers_app, app_length, Nnat.Nat2N.inj_add, <- L. f_equal. unfold sers. cbn [flat_map fst]. rewrite app_nil_r. symmetry. apply morphclass_ser_len.
    + exact H.
    + intros m' o Hin. apply in_app_or in Hin as [Hin|[[= <- <-]|[]]].
      * destruct (A _ _ Hin) as (l1 & l2 & E' & Eo). exists l1, (l2 ++ [(m, clslength t)]). split; [|exact Eo]. rewrite E', <- app_assoc. reflexivity.
      * exists (clsset t), []. split; [reflexivity|exact L].
    + rewrite map_app. apply NoDup_snoc; [exact O|]. cbn [fst]. intros Hx. apply in_map_iff in Hx as (r & Er & Hin).
      pose proof (find_none _ _ E r Hin) as K. cbn in K. assert (K2 : class_eqb (fst r) m = true) by (apply class_eqb_eq; exact Er). congruence.
Qed.

Lemma sers_pos l1 x l2 : N.of_nat (length (sers (l1 ++ x :: l2))) >= N.of_nat (length (sers l1)) + 2.
Proof.
  rewrite sers_app, app_length. cbn [sers flat_map]. rewrite app_length. pose proof (morphclass_ser_len (fst x)). pose proof (morphclass_len_pos (fst x)). lia.
Qed.
Lemma cls_offset_inj t m m' off : cls_inv t -> In (m, off) (clsset t) -> In (m', off) (clsset t) -> m = m'.
Proof.
  intros [_ _ A _] H1 H2. destruct (A _ _ H1) as (a1 & a2 & E1 & O1). destruct (A _ _ H2) as (b1 & b2 & E2 & O2). rewrite E1 in E2. clear - E2 O1 O2.
  assert (Hl : length (sers a1) = length (sers b1)) by lia. clear O1 O2.
    revert b1 Hl E2. induction a1 as [|x a1 IH]; intros [|y b1] Hl E2.
    + injection E2 as E _. exact E.
    + pose proof (morphclass_ser_len (fst y)). pose proof (morphclass_len_pos (fst y)). cbn [sers flat_map] in Hl. rewrite app_length in Hl. cbn in Hl. lia.
    + pose proof (morphclass_ser_len (fst x)). pose proof (morphclass_len_pos (fst x)). cbn [sers flat_map] in Hl. rewrite app_length in Hl. cbn in Hl. lia.
    + injection E2 as <- E2. apply (IH b1); [|exact E2]. cbn [sers flat_map] in Hl. rewrite !app_length in Hl. unfold sers. lia.
Qed.
Lemma cls_class_inj t m off off' : cls_inv t -> In (m, off) (clsset t) -> In (m, off') (clsset t) -> off = off'.
Proof.
  intros [_ _ _ O] H1 H2. clear - O H1 H2. induction (clsset t) as [|x l IH]; [destruct H1|]. cbn in O. inversion O as [|? ? Hn O']; subst.
  destruct H1 as [->|H1], H2 as [E|H2].
  - congruence.
  - destruct Hn. apply in_map_iff. exists (m, off'). auto.
  - subst x. destruct Hn. apply in_map_iff. exists (m, off). auto.
  - auto.
Qed.
Lemma cls_at t m off : cls_inv t -> In (m, off) (clsset t) ->
  exists pre rest, classtable_ser t = pre ++ morphclass_ser m ++ rest /\ N.of_nat (length pre) = off.
Proof.
  intros [_ _ A _] H. destruct (A _ _ H) as (l1 & l2 & E & ->). exists (sers l1), (sers l2). split; [|reflexivity].
  unfold classtable_ser. rewrite E. fold (sers (l1 ++ (m, N.of_nat (length (sers l1))) :: l2)). rewrite sers_app. reflexivity.
Qed.
Lemma cls_grows_in t t' r : cls_grows t t' -> In r (clsset t) -> In r (clsset t').
Proof. intros (l & ->) H. apply in_or_app. left. exact H. Qed.
Lemma cls_grows_refl t : cls_grows t t.
Proof. exists []. symmetry. apply app_nil_r. Qed.
Lemma cls_grows_trans a b c : cls_grows a b -> cls_grows b c -> cls_grows a c.
Proof. intros (l & E) (l' & E'). exists (l ++ l'). rewrite E', E, app_assoc. reflexivity. Qed.

(** ** Reading a class back *)
Lemma lor_field a b k : a < 2 ^ k -> N.lor a (N.shiftl b k) = a + b * 2 ^ k.
Proof. apply lor_shift_add. Qed.

Definition stored_word (m : morphclass) : N :=
  m_wdinfo m + (if m_tfoffs m =? 0 then 0 else 2 ^ 13) + (if m_mtoffs m =? 0 then 0 else 2 ^ 14).
Lemma stored_word_eq m : m_wdinfo m < 2 ^ 13 ->
  N.lor (N.lor (m_wdinfo m) (if m_tfoffs m =? 0 then 0 else 0x2000)) (if m_mtoffs m =? 0 then 0 else 0x4000) = stored_word m.
Proof.
  intros H. unfold stored_word. set (w := m_wdinfo m) in *.
  assert (E1 : N.lor w (if m_tfoffs m =? 0 then 0 else 0x2000) = w + (if m_tfoffs m =? 0 then 0 else 2 ^ 13)).
  { destruct (m_tfoffs m =? 0); [rewrite N.lor_0_r; lia|]. exact (lor_shift_add w 1 13 H). }
  rewrite E1. destruct (m_mtoffs m =? 0); [rewrite N.lor_0_r; lia|].
  apply (lor_shift_add _ 1 14). destruct (m_tfoffs m =? 0); change (2 ^ 14) with 16384; change (2 ^ 13) with 8192 in *; lia.
Qed.
Lemma stored_word_facts m : m_wdinfo m < 2 ^ 13 ->
  stored_word m < 2 ^ 16 /\ stored_word m mod 2 ^ 13 = m_wdinfo m /\
  N.testbit (stored_word m) 13 = negb (m_tfoffs m =? 0) /\ N.testbit (stored_word m) 14 = negb (m_mtoffs m =? 0).
Proof.
  intros H. unfold stored_word. set (w := m_wdinfo m) in *. rewrite !N.testbit_eqb. change (2 ^ 13) with 8192 in *. change (2 ^ 14) with 16384. change (2 ^ 16) with 65536.
  destruct (m_tfoffs m =? 0), (m_mtoffs m =? 0); cbn [negb]; repeat split; try (apply N.eqb_eq); try (apply N.eqb_neq); try lia.
Qed.
Lemma mod13_type a b : a mod 2 ^ 13 = b -> a mod 64 = b mod 64.
Proof. intros <-. change (2 ^ 13) with (64 * 128). rewrite N.mod_mul_r by discriminate. lia. Qed.

Definition stored (m : morphclass) : steminfo := Steminfo (stored_word m) (m_tfoffs m) (m_mtoffs m).
(** the classes the format can express *)
Definition class_fits (m : morphclass) : Prop :=
  m_wdinfo m < 2 ^ 13 /\ m_tfoffs m < 2 ^ 16 /\ m_mtoffs m < 2 ^ 16 /\ (m_wdinfo m mod 64 = 51 -> m_tfoffs m <> 0).
Lemma ser_stored m : class_fits m -> morphclass_ser m = class_ser (stored m).
Proof.
  intros (H1 & H2 & H3 & H4). destruct (stored_word_facts m H1) as (F1 & F2 & F3 & F4). unfold morphclass_ser, class_ser, bit. cbn [stored wdinfo tfoffs mtoffs].
  rewrite stored_word_eq by exact H1. rewrite F3, F4, <- mod64, (mod13_type _ _ F2). f_equal.
  destruct (N.eqb_spec (m_wdinfo m mod 64) 51) as [E|E].
  - specialize (H4 E). destruct (N.eqb_spec (m_tfoffs m) 0); [contradiction|]. cbn. destruct (m_mtoffs m =? 0); reflexivity.
  - destruct (m_tfoffs m =? 0); cbn; destruct (m_mtoffs m =? 0); reflexivity.
Qed.
Lemma stored_side m : class_fits m -> wdinfo (stored m) < 2 ^ 16 /\
  (bit 13 (wdinfo (stored m)) || (N.land (wdinfo (stored m)) 63 =? 51) = false -> tfoffs (stored m) = 0) /\
  (bit 14 (wdinfo (stored m)) = false -> mtoffs (stored m) = 0).
Proof.
  intros (H1 & H2 & H3 & H4). destruct (stored_word_facts m H1) as (F1 & F2 & F3 & F4). unfold bit. cbn [stored wdinfo tfoffs mtoffs]. rewrite F3, F4.
  split; [exact F1|]. split.
  - intros H. apply orb_false_iff in H as [H _]. apply negb_false_iff, N.eqb_eq in H. exact H.
  - intros H. apply negb_false_iff, N.eqb_eq in H. exact H.
Qed.
Lemma load_stored m rest : class_fits m -> load (morphclass_ser m ++ rest) = Ok (stored m).
Proof.
  intros H. pose proof (stored_side m H) as (S1 & S2 & S3). rewrite (ser_stored m H). destruct H as (H1 & H2 & H3 & H4). unfold class_ser, load.
  rewrite <- !app_assoc, getword16_put by exact S1. cbn [bind].
  assert (ES : Ok (stored m) = Ok (Steminfo (wdinfo (stored m)) (tfoffs (stored m)) (mtoffs (stored m)))) by reflexivity.
  destruct (bit 13 (wdinfo (stored m)) || (N.land (wdinfo (stored m)) 63 =? 51)) eqn:E1.
  - rewrite getword16_put by exact H2. cbn [bind]. destruct (bit 14 (wdinfo (stored m))) eqn:E2.
    + rewrite getword16_put by exact H3. reflexivity.
    + cbn [bind app]. rewrite ES, (S3 eq_refl). reflexivity.
  - cbn [bind app]. destruct (bit 14 (wdinfo (stored m))) eqn:E2.
    + rewrite getword16_put by exact H3. cbn [bind]. rewrite ES, (S2 eq_refl). reflexivity.
    + cbn [bind app]. rewrite ES, (S2 eq_refl), (S3 eq_refl). reflexivity.
Qed.

(** ** Expanded tables in the runtime's format *)
Lemma serialize_ext {X} w (ser ser' : X -> bytes) (len len' : X -> N) : forall t : wtree X,
  all_data (fun x => ser x = ser' x /\ len x = len' x) t ->
  serialize w ser len t = serialize w ser' len' t /\ getbuflen w len t = getbuflen w len' t.
Proof.
  induction t as [l d IH] using (@wtree_ind' X). intros H. inversion H as [? ? H1 H2]; subst. rewrite !serialize_eq, !getbuflen_eq.
  assert (K : serializes w ser len l = serializes w ser' len' l /\ getbuflens w len l = getbuflens w len' l).
  { clear H H1. induction l as [|[c t] l IHl]; [split; reflexivity|]. inversion IH as [|? ? I1 I2]; subst. cbn [snd] in I1.
    destruct (I1 (H2 c t (or_introl eq_refl))) as [E1 E2]. destruct (IHl I2) as [E3 E4]; [intros; eapply H2; right; eassumption|].
    unfold serializes, getbuflens in *. cbn [flat_map fold_right fst snd]. rewrite E1, E2, E3, E4. split; reflexivity. }
  destruct K as [-> ->]. destruct d as [x|]; [|split; reflexivity]. destruct (H1 x eq_refl) as [E1 E2]. cbn [ser_opt]. rewrite E1, E2. split; reflexivity.
Qed.

Lemma gramlist_flex l : (length l <= 64)%nat -> gramlist_ser l = flex_ser l /\ gramlist_len l = flex_len l.
Proof.
  intros H. unfold gramlist_ser, flex_ser, gramlist_len, flex_len. rewrite putserial_small, seriallen_small by lia. split; reflexivity.
Qed.

(** ** Alternations at an offset *)
Lemma app_inj_length {X} (a a' b b' : list X) : length a = length a' -> a ++ b = a' ++ b' -> a = a' /\ b = b'.
Proof.
  revert a'. induction a as [|x a IH]; intros [|y a'] Hl E; try discriminate; [auto|]. injection E as -> E. injection Hl as Hl.
  destruct (IH a' Hl E) as [-> ->]. auto.
Qed.
Lemma mix_unique mtable off mx mx' : mix_at mtable off mx -> mix_at mtable off mx' -> mx = mx'.
Proof.
  intros ((L1 & F1 & _) & p1 & r1 & E1 & P1) ((L2 & F2 & _) & p2 & r2 & E2 & P2). rewrite E1 in E2.
  assert (Lp : length p1 = length p2) by lia. clear P1 P2 E1.
  apply (app_inj_length _ _ _ _ Lp) in E2 as [_ E].
  unfold mix_ser in E. cbn [app] in E. injection E as Hn E. assert (Hl : length mx = length mx') by lia. clear - F1 F2 E Hl. revert mx' F2 E Hl.
  induction F1 as [|[a s] mx [Ha Hs] F1 IH]; intros [|[a' s'] mx'] F2 E Hl; try discriminate; [reflexivity|]. inversion F2 as [|? ? [Ha' Hs'] F2']; subst.
  cbn [flat_map fst snd] in *. cbn [app] in E. injection E as Eh E. rewrite <- ?app_assoc in E.
  assert (Hsl : length s = length s') by lia. assert (a = a') by lia. subst a'. apply (app_inj_length _ _ _ _ Hsl) in E as [-> E].
  f_equal. apply IH; try assumption. cbn in Hl. lia.
Qed.
