(** * EngCompileProofs5: the compiled arrays hold the lexicon of the articles.  PROOFS. *)
From Coq Require Import String Ascii Permutation.
From Verif Require Import Base Serial SerialProofs WordTree TreeSpec WordTreeProofs FlatScan LidsProofs TreeWalk Stems StemSpec StemsProofs DictProofs CharTables CapScheme CapSpec CapProofs GramMap RusRuntime RusSpec RusProofs
  EngRuntime EngSpec EngProofs EngProofs2 PropEngLemmas Api CompileProofs CompileProofs2 CompileProofs4 CompileProofs5 EngCompile EngCompileSpec EngCompileProofs EngCompileProofs2 EngCompileProofs3 EngCompileProofs4.
Local Open Scope N_scope.
Local Open Scope list_scope.

Lemma sort_by_id {X} (off : X -> N) l : (forall l1 a b l2, l = l1 ++ a :: b :: l2 -> off a <= off b) -> sort_by off l = l.
Proof.
  induction l as [|a l IH]; intros H; [reflexivity|]. unfold sort_by. cbn [fold_right]. fold (sort_by off l). rewrite IH by (intros l1 x y l2 ->; apply (H (a :: l1) x y l2); reflexivity).
  destruct l as [|b l]; [reflexivity|]. cbn [sort_insert]. specialize (H [] a b l eq_refl). apply N.leb_le in H. rewrite H. reflexivity.
Qed.
Lemma ftab_ser_len t : N.of_nat (length (ftab_ser t)) = ftab_len t.
Proof.
  unfold ftab_ser, ftab_len. cbn [length]. rewrite Nnat.Nat2N.inj_succ, N.add_1_l. f_equal. induction (t_items t) as [|[i e] l IH]; [reflexivity|].
  cbn [flat_map fold_right fst snd app length]. rewrite !Nnat.Nat2N.inj_succ, app_length, Nnat.Nat2N.inj_add, IH. lia.
Qed.
Lemma sort_insert_perm {X} (off : X -> N) x l : Permutation (sort_insert off x l) (x :: l).
Proof. induction l as [|y l IH]; cbn [sort_insert]; [reflexivity|]. destruct (off x <=? off y); [reflexivity|]. rewrite IH. apply perm_swap. Qed.
Lemma sort_by_perm {X} (off : X -> N) l : Permutation (sort_by off l) l.
Proof. induction l as [|y l IH]; [reflexivity|]. unfold sort_by. cbn [fold_right]. fold (sort_by off l). rewrite sort_insert_perm, IH. reflexivity. Qed.
Lemma total_perm l l' : Permutation l l' -> total l = total l'.
Proof. induction 1 as [|a l l' _ IH|a b l|l l' l'' _ I1 _ I2]; unfold total in *; cbn [fold_right] in *; lia. Qed.
Lemma tabs_len l : N.of_nat (length (flat_map (fun kt => ftab_ser (snd kt)) l)) = total l.
Proof. induction l as [|kt l IH]; [reflexivity|]. cbn [flat_map]. rewrite app_length, Nnat.Nat2N.inj_add, IH, ftab_ser_len. reflexivity. Qed.
Lemma flexbox_ser_len fb : N.of_nat (length (flexbox_ser fb)) = 4 + total (fb_tables fb).
Proof. unfold flexbox_ser. rewrite app_length, Nnat.Nat2N.inj_add, tabs_len, (total_perm _ _ (sort_by_perm _ _)). reflexivity. Qed.
Lemma eclasses_len_list l : N.of_nat (length (flat_map (fun r : N * N * N => putword16 (fst (fst r)) ++ putword16 (snd (fst r))) l)) = 4 * N.of_nat (length l).
Proof. induction l as [|r l IH]; [reflexivity|]. cbn [flat_map]. rewrite app_length, Nnat.Nat2N.inj_add, IH, app_length, !putword16_length. cbn [length]. lia. Qed.
Lemma eclasses_ser_len t : N.of_nat (length (eclasses_ser t)) = 4 * N.of_nat (length (ec_list t)).
Proof. unfold eclasses_ser. rewrite eclasses_len_list, (Permutation_length (sort_by_perm _ _)). reflexivity. Qed.

Lemma ftab_table t : etable_ok (t_items t) -> ftab_ser t = table_ser (t_items t).
Proof.
  intros (H1 & H2 & _). unfold ftab_ser, table_ser. rewrite N.mod_small by lia. f_equal. clear H1. induction H2 as [|[i e] l [H3 H4] _ IH]; [reflexivity|]. cbn [flat_map fst snd] in *.
  rewrite IH, !N.mod_small by lia. reflexivity.
Qed.

Section Final.
  Variable b : ebuilder.
  Hypothesis Hb : eb_inv b.
  Hypothesis Hfit : earrays_fit (esave b).

  Lemma table_split k t : In (k, t) (fb_tables (eb_flex b)) -> exists l1 l2, fb_tables (eb_flex b) = l1 ++ (k, t) :: l2 /\ t_offset (t_ref t) = 4 + total l1 /\ 4 + total l1 < 2 ^ 16 /\
    t_items t = t_items (table_of k) /\ t_lower (t_ref t) = t_lower (t_ref (table_of k)) /\ t_upper (t_ref t) = t_upper (t_ref (table_of k)).
  Proof using Hb Hfit.
    intros Hin. apply in_split in Hin as (l1 & l2 & E). exists l1, l2. pose proof (fi_at _ (ei_fb _ Hb) l1 k t l2 E) as Et. destruct Hfit as (F & _). cbn [esave e_flex] in F.
    rewrite flexbox_ser_len, E, total_app in F. cbn [total fold_right] in F. fold (total l2) in F. pose proof (ftab_len_pos (snd (k, t))) as Hp.
    assert (Hlt : 4 + total l1 < 2 ^ 16) by lia. split; [exact E|]. rewrite Et. cbn [t_ref t_items t_offset t_lower t_upper]. rewrite N.mod_small by exact Hlt. auto 10.
  Qed.
  Lemma flex_sorted : flexbox_ser (eb_flex b) = text "FLEX" ++ flat_map (fun kt => ftab_ser (snd kt)) (fb_tables (eb_flex b)).
  Proof using Hb Hfit.
    unfold flexbox_ser. f_equal. f_equal. apply sort_by_id. intros l1 [k t] [k' t'] l2 E. cbn [snd].
    destruct Hfit as (F & _). cbn [esave e_flex] in F. rewrite flexbox_ser_len, E, total_app in F. cbn [total fold_right snd] in F.
    pose proof (fi_at _ (ei_fb _ Hb) l1 k t ((k', t') :: l2) E) as Et.
    assert (E' : fb_tables (eb_flex b) = (l1 ++ [(k, t)]) ++ (k', t') :: l2) by (rewrite <- app_assoc; exact E).
    pose proof (fi_at _ (ei_fb _ Hb) _ k' t' l2 E') as Et'. rewrite Et, Et'. cbn [t_ref t_offset]. rewrite total_app. cbn [total fold_right snd]. pose proof (ftab_len_pos t). pose proof (ftab_len_pos t').
    rewrite !N.mod_small by lia. lia.
  Qed.
  Lemma table_stored k t : In (k, t) (fb_tables (eb_flex b)) -> etable_ok (t_items t) ->
    exists pre rest, e_flex (esave b) = pre ++ table_ser (t_items t) ++ rest /\ N.of_nat (length pre) = t_offset (t_ref t).
  Proof using Hb Hfit.
    intros Hin Hok. destruct (table_split k t Hin) as (l1 & l2 & E & Eo & _). cbn [esave e_flex]. rewrite flex_sorted, E, flat_map_app. cbn [flat_map snd]. rewrite ftab_table by exact Hok.
    exists (text "FLEX" ++ flat_map (fun kt => ftab_ser (snd kt)) l1), (flat_map (fun kt => ftab_ser (snd kt)) l2). split; [rewrite <- app_assoc; reflexivity|].
    rewrite app_length, Nnat.Nat2N.inj_add, tabs_len, Eo. reflexivity.
  Qed.
  Lemma table_inj k t k' t' : In (k, t) (fb_tables (eb_flex b)) -> In (k', t') (fb_tables (eb_flex b)) -> t_offset (t_ref t) = t_offset (t_ref t') -> t = t'.
  Proof using Hb Hfit.
    intros H H' Eo. destruct (table_split k t H) as (l1 & l2 & E & E1 & _). destruct (table_split k' t' H') as (m1 & m2 & E' & E1' & _).
    assert (Et : total l1 = total m1) by lia. rewrite E in E'. clear - E' Et. revert m1 E' Et. induction l1 as [|y l1 IH]; intros [|z m1] E Et.
    - cbn in E. injection E as _ -> _. reflexivity.
    - cbn [app total fold_right] in *. injection E as <- _. pose proof (ftab_len_pos (snd (k, t))). lia.
    - cbn [app total fold_right] in *. injection E as -> _. pose proof (ftab_len_pos (snd (k', t'))). lia.
    - cbn [app total fold_right] in *. injection E as -> E. apply (IH m1 E). fold (total l1) in Et. fold (total m1) in Et. lia.
  Qed.

  Lemma class_split wd fx off : In (wd, fx, off) (ec_list (eb_classes b)) -> exists l1 l2, ec_list (eb_classes b) = l1 ++ (wd, fx, off) :: l2 /\ off = 4 * N.of_nat (length l1) /\ off < 2 ^ 15.
  Proof using Hb Hfit.
    intros Hin. apply in_split in Hin as (l1 & l2 & E). exists l1, l2. split; [exact E|]. pose proof (ec_at _ (ei_ec _ Hb) _ _ _ _ _ E) as Eo. destruct Hfit as (_ & F & _). cbn [esave e_class] in F.
    rewrite eclasses_ser_len, E, app_length in F. cbn [length] in F. change (2 ^ 15) with 32768 in *. change (2 ^ 16) with 65536 in Eo. rewrite N.mod_small in Eo by lia. lia.
  Qed.
  Lemma class_inj wd fx off wd' fx' : In (wd, fx, off) (ec_list (eb_classes b)) -> In (wd', fx', off) (ec_list (eb_classes b)) -> wd = wd' /\ fx = fx'.
  Proof using Hb Hfit.
    intros H H'. destruct (class_split _ _ _ H) as (l1 & l2 & E & E1 & _). destruct (class_split _ _ _ H') as (m1 & m2 & E' & E1' & _).
    assert (El : length l1 = length m1) by lia. rewrite E in E'. destruct (app_inj_length _ _ _ _ El E') as [_ K]. injection K as -> -> _. auto.
  Qed.
  Lemma class_stored wd fx off : In (wd, fx, off) (ec_list (eb_classes b)) -> wd < 2 ^ 16 -> fx < 2 ^ 16 -> eclass_at (esave b) off (EStem wd fx).
  Proof using Hb Hfit.
    intros Hin Hw Hf. split; [exact Hw|]. destruct (class_split _ _ _ Hin) as (l1 & l2 & E & E1 & _). cbn [esave e_class e_wdinfo e_tfoffs]. unfold eclasses_ser.
    rewrite sort_by_id.
    - rewrite E, flat_map_app. cbn [flat_map fst snd]. eexists _, _. split; [reflexivity|]. rewrite eclasses_len_list. symmetry. exact E1.
    - intros m1 [[w1 f1] o1] [[w2 f2] o2] m2 Em. cbn [snd]. pose proof (ec_at _ (ei_ec _ Hb) _ _ _ _ _ Em) as K1. assert (Em' : ec_list (eb_classes b) = (m1 ++ [(w1, f1, o1)]) ++ (w2, f2, o2) :: m2) by (rewrite <- app_assoc; exact Em).
      pose proof (ec_at _ (ei_ec _ Hb) _ _ _ _ _ Em') as K2. destruct Hfit as (_ & F & _). cbn [esave e_class] in F. rewrite eclasses_ser_len, Em, !app_length in F. cbn [length] in F.
      rewrite app_length in K2. cbn [length] in K2. change (2 ^ 15) with 32768 in *. change (2 ^ 16) with 65536 in *. rewrite N.mod_small in K1, K2 by lia. lia.
  Qed.
End Final.
