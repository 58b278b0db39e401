(** * TfcProofs: the set of inflexion tables and their layout. *)
From Coq Require Import String.
From Verif Require Import Base Serial WordTree TreeSpec Stems StemSpec SerialProofs DictProofs GramMap RusRuntime LevelSpec RusSpec Compile CompileSpec CompileProofs Api EngCompileSpec Utf8 RusText Tfc TfcSpec.
Local Open Scope N_scope.
Local Open Scope list_scope.
Notation length := List.length.

(** ** The order of elements *)
Lemma fx_comp_eq a b : fx_comp a b = Eq -> a = b.
Proof.
  unfold fx_comp. destruct a as [t i f n], b as [t' i' f' n']. cbn. destruct (strcmp t t') eqn:E1; try discriminate. apply strcmp_eq in E1.
  destruct (N.compare_spec i i') as [->| |]; try discriminate. destruct (N.compare_spec f f') as [->| |]; try discriminate.
  intros E. apply strcmp_eq in E. subst. reflexivity.
Qed.
Lemma fx_comp_refl a : fx_comp a a = Eq.
Proof. unfold fx_comp. rewrite !strcmp_refl, !N.compare_refl. reflexivity. Qed.
Lemma fx_comp_antisym a b : fx_comp b a = CompOpp (fx_comp a b).
Proof.
  unfold fx_comp. rewrite (strcmp_antisym (fx_tail a) (fx_tail b)), (strcmp_antisym (fx_next a) (fx_next b)), (N.compare_antisym (fx_info a) (fx_info b)), (N.compare_antisym (fx_flags a) (fx_flags b)).
  destruct (strcmp (fx_tail a) (fx_tail b)); [|reflexivity|reflexivity]. destruct (fx_info a ?= fx_info b); [|reflexivity|reflexivity].
  destruct (fx_flags a ?= fx_flags b); [|reflexivity|reflexivity]. destruct (strcmp (fx_next a) (fx_next b)); reflexivity.
Qed.
Lemma fx_comp_trans a b c : fx_comp a b = Lt -> fx_comp b c = Lt -> fx_comp a c = Lt.
Proof.
  unfold fx_comp. intros H1 H2.
  destruct (strcmp (fx_tail a) (fx_tail b)) eqn:Ea; try discriminate; destruct (strcmp (fx_tail b) (fx_tail c)) eqn:Eb; try discriminate.
  - apply strcmp_eq in Ea. rewrite Ea, Eb.
    destruct (N.compare_spec (fx_info a) (fx_info b)) as [Ei|Ei|]; try discriminate; destruct (N.compare_spec (fx_info b) (fx_info c)) as [Ej|Ej|]; try discriminate.
    + rewrite Ei, Ej, N.compare_refl.
      destruct (N.compare_spec (fx_flags a) (fx_flags b)) as [Ek|Ek|]; try discriminate; destruct (N.compare_spec (fx_flags b) (fx_flags c)) as [El|El|]; try discriminate.
      * rewrite Ek, El, N.compare_refl. eapply strcmp_trans; eassumption.
      * rewrite Ek. apply N.compare_lt_iff in El. rewrite El. reflexivity.
      * rewrite <- El. apply N.compare_lt_iff in Ek. rewrite Ek. reflexivity.
      * assert (El' : fx_flags a < fx_flags c) by lia. apply N.compare_lt_iff in El'. rewrite El'. reflexivity.
    + rewrite Ei. apply N.compare_lt_iff in Ej. rewrite Ej. reflexivity.
    + rewrite <- Ej. apply N.compare_lt_iff in Ei. rewrite Ei. reflexivity.
    + assert (El' : fx_info a < fx_info c) by lia. apply N.compare_lt_iff in El'. rewrite El'. reflexivity.
  - apply strcmp_eq in Ea. rewrite Ea, Eb. reflexivity.
  - apply strcmp_eq in Eb. rewrite <- Eb, Ea. reflexivity.
  - rewrite (strcmp_trans _ _ _ Ea Eb). reflexivity.
Qed.

Fixpoint fx_sorted (l : list fxitem) : Prop :=
  match l with [] => True | x :: l' => Forall (fun y => fx_comp x y = Lt) l' /\ fx_sorted l' end.
Lemma insert_in fx l x : In x (ftable_insert fx l) <-> x = fx \/ In x l.
Proof.
  induction l as [|y l IH]; cbn [ftable_insert In]; [split; [intros [->|[]]; auto|intros [->|[]]; auto]|].
  destruct (fx_comp y fx) eqn:E; cbn [In].
  - apply fx_comp_eq in E. subst y. split; [intros [->|H]; auto|intros [->|[->|H]]; auto].
  - rewrite IH. tauto.
  - split; [intros [->|H]; auto|intros [->|[->|H]]; auto].
Qed.
Lemma insert_sorted fx l : fx_sorted l -> fx_sorted (ftable_insert fx l).
Proof.
  induction l as [|y l IH]; cbn [ftable_insert fx_sorted]; [auto|]. intros [Hy Hl]. destruct (fx_comp y fx) eqn:E; cbn [fx_sorted].
  - split; assumption.
  - split; [|auto]. apply Forall_forall. intros x Hx. apply insert_in in Hx. destruct Hx as [->|Hx]; [exact E|]. rewrite Forall_forall in Hy. auto.
  - assert (E' : fx_comp fx y = Lt) by (rewrite fx_comp_antisym, E; reflexivity). split; [|split; assumption]. constructor; [exact E'|].
    revert Hy. apply Forall_impl. intros z Hz. eapply fx_comp_trans; eassumption.
Qed.
Definition norm (l : list fxitem) : list fxitem := fold_left (fun t x => ftable_insert x t) l [].
Lemma norm_gen l : forall t, fx_sorted t -> fx_sorted (fold_left (fun t x => ftable_insert x t) l t) /\ forall x, In x (fold_left (fun t x => ftable_insert x t) l t) <-> In x t \/ In x l.
Proof.
  induction l as [|a l IH]; intros t Ht; cbn [fold_left]; [split; [exact Ht|intros x; cbn; tauto]|].
  destruct (IH (ftable_insert a t) (insert_sorted _ _ Ht)) as [H1 H2]. split; [exact H1|]. intros x. rewrite H2, insert_in. cbn [In]. split; intros [H|H]; auto; [destruct H; auto|destruct H; auto].
Qed.
Lemma norm_sorted l : fx_sorted (norm l). Proof. apply (proj1 (norm_gen l [] I)). Qed.
Lemma norm_in l x : In x (norm l) <-> In x l.
Proof. unfold norm. rewrite (proj2 (norm_gen l [] I) x). cbn. tauto. Qed.
Lemma sorted_nodup l : fx_sorted l -> NoDup l.
Proof.
  induction l as [|x l IH]; [constructor|]. intros [Hx Hl]. constructor; [|auto]. intros Hin. rewrite Forall_forall in Hx. specialize (Hx _ Hin). rewrite fx_comp_refl in Hx. discriminate.
Qed.
Lemma norm_length l : (length (norm l) <= length l)%nat.
Proof. apply NoDup_incl_length; [apply sorted_nodup, norm_sorted|]. intros x. apply norm_in. Qed.
Lemma sorted_unique a : forall b, fx_sorted a -> fx_sorted b -> (forall x, In x a <-> In x b) -> a = b.
Proof.
  induction a as [|x a IH]; intros [|y b] Ha Hb H.
  - reflexivity.
  - destruct (proj2 (H y) (or_introl eq_refl)).
  - destruct (proj1 (H x) (or_introl eq_refl)).
  - cbn [fx_sorted] in Ha, Hb. destruct Ha as [Hx Ha], Hb as [Hy Hb]. rewrite Forall_forall in Hx, Hy.
    assert (E : x = y).
    { destruct (proj1 (H x) (or_introl eq_refl)) as [E|Hi]; [auto|]. destruct (proj2 (H y) (or_introl eq_refl)) as [E|Hj]; [auto|].
      specialize (Hy _ Hi). specialize (Hx _ Hj). pose proof (fx_comp_trans _ _ _ Hx Hy) as K. rewrite fx_comp_refl in K. discriminate. }
    subst y. f_equal. apply IH; [assumption|assumption|]. intros z. split; intros Hz.
    + destruct (proj1 (H z) (or_intror Hz)) as [->|K]; [|exact K]. specialize (Hx _ Hz). rewrite fx_comp_refl in Hx. discriminate.
    + destruct (proj2 (H z) (or_intror Hz)) as [->|K]; [|exact K]. specialize (Hy _ Hz). rewrite fx_comp_refl in Hy. discriminate.
Qed.
Lemma norm_eq a b : (forall x, In x a <-> In x b) -> norm a = norm b.
Proof. intros H. apply sorted_unique; try apply norm_sorted. intros x. rewrite !norm_in. apply H. Qed.

(** ** The set of tables *)
Lemma ftable_eq_iff a : forall b, ftable_eq a b = true <-> a = b.
Proof.
  induction a as [|x a IH]; intros [|y b]; cbn [ftable_eq]; try (split; congruence). rewrite andb_true_iff, IH. unfold fx_eq. destruct (fx_comp x y) eqn:E.
  - apply fx_comp_eq in E. split; [intros [_ ->]; congruence|intros H; inversion H; auto].
  - split; [intros [K _]; discriminate|]. intros H. inversion H. subst. rewrite fx_comp_refl in E. discriminate.
  - split; [intros [K _]; discriminate|]. intros H. inversion H. subst. rewrite fx_comp_refl in E. discriminate.
Qed.
Lemma find_ftable_some t l i : find_ftable t l = Some i -> nth_error l i = Some t.
Proof.
  revert i. induction l as [|u l IH]; intros i; cbn [find_ftable]; [discriminate|]. destruct (ftable_eq u t) eqn:E.
  - intros H. injection H as <-. apply ftable_eq_iff in E. subst. reflexivity.
  - destruct (find_ftable t l) as [j|]; [|discriminate]. cbn. intros H. injection H as <-. cbn. auto.
Qed.
Lemma find_ftable_none t l : find_ftable t l = None -> ~ In t l.
Proof.
  induction l as [|u l IH]; cbn [find_ftable]; [auto|]. destruct (ftable_eq u t) eqn:E; [discriminate|]. destruct (find_ftable t l); [discriminate|]. intros _ [->|H]; [|apply IH in H; auto].
  assert (K : ftable_eq t t = true) by (apply ftable_eq_iff; reflexivity). congruence.
Qed.

Definition add_def (names : list bytes) (ft : list fxitem) (fl : fxlist) : fxlist :=
  let '(findex, tables) := match find_ftable ft (fl_tables fl) with
                           | Some i => (i, fl_tables fl)
                           | None => (length (fl_tables fl), fl_tables fl ++ [ft])
                           end in
  FxList tables (fold_left (fun m name => emplace name findex m) names (fl_map fl)).
Definition collect (ds : list definition) (fl : fxlist) : fxlist := fold_left (fun fl d => add_def (d_names d) (norm (d_lines d)) fl) ds fl.

Lemma lookup_app_some {X} k (m m' : list (bytes * X)) v : lookup k m = Some v -> lookup k (m ++ m') = Some v.
Proof. induction m as [|[k' v'] m IH]; cbn [lookup app]; [discriminate|]. destruct (list_eq_dec N.eq_dec k k'); auto. Qed.
Lemma lookup_app_none {X} k (m m' : list (bytes * X)) : lookup k m = None -> lookup k (m ++ m') = lookup k m'.
Proof. induction m as [|[k' v'] m IH]; cbn [lookup app]; [auto|]. destruct (list_eq_dec N.eq_dec k k'); [discriminate|auto]. Qed.
Lemma emplace_lookup {X} name (v : X) m k : lookup k (emplace name v m) = match lookup k m with Some i => Some i | None => if list_eq_dec N.eq_dec k name then Some v else None end.
Proof.
  unfold emplace. destruct (lookup name m) as [w|] eqn:E.
  - destruct (lookup k m) eqn:Ek; [reflexivity|]. destruct (list_eq_dec N.eq_dec k name); [congruence|reflexivity].
  - destruct (lookup k m) as [i|] eqn:Ek; [apply lookup_app_some, Ek|]. rewrite lookup_app_none by exact Ek. reflexivity.
Qed.
Lemma emplaces_lookup {X} (v : X) names : forall m k, lookup k (fold_left (fun m name => emplace name v m) names m) =
  match lookup k m with Some i => Some i | None => if in_dec (list_eq_dec N.eq_dec) k names then Some v else None end.
Proof.
  induction names as [|n names IH]; intros m k; cbn [fold_left].
  - destruct (lookup k m); reflexivity.
  - rewrite IH, emplace_lookup. destruct (lookup k m) as [i|]; [reflexivity|]. destruct (list_eq_dec N.eq_dec k n) as [->|Hn].
    + destruct (in_dec (list_eq_dec N.eq_dec) n (n :: names)) as [|K]; [reflexivity|]. exfalso. apply K. left. reflexivity.
    + destruct (in_dec (list_eq_dec N.eq_dec) k names) as [H|H], (in_dec (list_eq_dec N.eq_dec) k (n :: names)) as [H'|H']; try reflexivity.
      * exfalso. apply H'. right. exact H.
      * destruct H' as [H'|H']; congruence.
Qed.

Definition tables_size (l : list (list fxitem)) : N := fold_right (fun t n => even_up (1 + fold_right (fun fx n => fx_len fx + n) 0 t) + n) 0 l.
Record fl_inv (ds : list definition) (fl : fxlist) : Prop := {
  fi_tables : forall t, In t (fl_tables fl) <-> exists d, In d ds /\ t = norm (d_lines d);
  fi_nodup : NoDup (fl_tables fl);
  fi_some : forall name i, lookup name (fl_map fl) = Some i -> exists lines, defined ds name lines /\ nth_error (fl_tables fl) i = Some (norm lines);
  fi_none : forall name, lookup name (fl_map fl) = None -> forall d, In d ds -> ~ In name (d_names d);
}.

Lemma defined_more ds name lines d : defined ds name lines -> defined (ds ++ [d]) name lines.
Proof.
  intros (a & d0 & b & -> & H1 & H2 & H3). exists a, d0, (b ++ [d]). split; [rewrite <- app_assoc; reflexivity|]. auto.
Qed.
Lemma nodup_snoc {X} (l : list X) x : NoDup l -> ~ In x l -> NoDup (l ++ [x]).
Proof.
  intros H Hn. induction H as [|y l Hy Hl IH]; cbn [app]; [repeat constructor; auto|]. constructor; [|apply IH; intros K; apply Hn; right; exact K].
  intros Hi. apply in_app_or in Hi. destruct Hi as [Hi|[->|[]]]; [auto|]. apply Hn. left. reflexivity.
Qed.
Lemma add_def_inv ds fl d : fl_inv ds fl -> fl_inv (ds ++ [d]) (add_def (d_names d) (norm (d_lines d)) fl).
Proof.
  intros I. unfold add_def. set (t := norm (d_lines d)).
  assert (Hin : forall t', (exists d', In d' (ds ++ [d]) /\ t' = norm (d_lines d')) <-> (exists d', In d' ds /\ t' = norm (d_lines d')) \/ t' = t).
  { intros t'. split.
    - intros (d' & H & ->). apply in_app_or in H. destruct H as [H|[<-|[]]]; [left; exists d'; auto|right; reflexivity].
    - intros [(d' & H & ->)| ->]; [exists d'; split; [apply in_or_app; auto|reflexivity]|exists d; split; [apply in_or_app; right; left; reflexivity|reflexivity]]. }
  assert (Hnew : forall i tables, nth_error tables i = Some t -> (forall j u, nth_error (fl_tables fl) j = Some u -> nth_error tables j = Some u) ->
    (forall name j, lookup name (fold_left (fun m name => emplace name i m) (d_names d) (fl_map fl)) = Some j -> exists lines, defined (ds ++ [d]) name lines /\ nth_error tables j = Some (norm lines)) /\
    (forall name, lookup name (fold_left (fun m name => emplace name i m) (d_names d) (fl_map fl)) = None -> forall d', In d' (ds ++ [d]) -> ~ In name (d_names d'))).
  { intros i tables Hi Hold. split.
    - intros name j. rewrite emplaces_lookup. destruct (lookup name (fl_map fl)) as [k|] eqn:E.
      + intros H. injection H as <-. destruct (fi_some _ _ I _ _ E) as (lines & H1 & H2). exists lines. split; [apply defined_more, H1|auto].
      + destruct (in_dec (list_eq_dec N.eq_dec) name (d_names d)) as [H|H]; [|discriminate]. intros K. injection K as <-. exists (d_lines d). split; [|exact Hi].
        exists ds, d, []. split; [reflexivity|]. split; [exact H|]. split; [reflexivity|]. apply Forall_forall. apply (fi_none _ _ I _ E).
    - intros name. rewrite emplaces_lookup. destruct (lookup name (fl_map fl)) as [k|] eqn:E; [discriminate|].
      destruct (in_dec (list_eq_dec N.eq_dec) name (d_names d)) as [H|H]; [discriminate|]. intros _ d' Hd. apply in_app_or in Hd. destruct Hd as [Hd|[<-|[]]]; [apply (fi_none _ _ I _ E _ Hd)|exact H]. }
  destruct (find_ftable t (fl_tables fl)) as [i|] eqn:Ef.
  - apply find_ftable_some in Ef. destruct (Hnew i (fl_tables fl) Ef (fun _ _ H => H)) as [K1 K2]. constructor; cbn [fl_tables fl_map]; [|apply I|exact K1|exact K2].
    intros t'. rewrite Hin, <- (fi_tables _ _ I). split; [auto|]. intros [H| ->]; [exact H|]. eapply nth_error_In, Ef.
  - apply find_ftable_none in Ef. destruct (Hnew (length (fl_tables fl)) (fl_tables fl ++ [t])) as [K1 K2].
    { rewrite nth_error_app2, Nat.sub_diag by lia. reflexivity. }
    { intros j u H. rewrite nth_error_app1; [exact H|]. apply nth_error_Some. congruence. }
    constructor; cbn [fl_tables fl_map]; [| |exact K1|exact K2].
    + intros t'. rewrite Hin, <- (fi_tables _ _ I). split; [intros H; apply in_app_or in H; destruct H as [H|[<-|[]]]; auto|intros [H| ->]; apply in_or_app; [auto|right; left; reflexivity]].
    + apply nodup_snoc; [apply I|exact Ef].
Qed.
Lemma collect_inv ds : forall ds0 fl, fl_inv ds0 fl -> fl_inv (ds0 ++ ds) (collect ds fl).
Proof.
  induction ds as [|d ds IH]; intros ds0 fl I; [rewrite app_nil_r; exact I|]. cbn [collect fold_left]. change (d :: ds) with ([d] ++ ds). rewrite app_assoc. apply IH, add_def_inv, I.
Qed.
Lemma empty_inv : fl_inv [] (FxList [] []).
Proof. constructor; cbn; [intros t; split; [intros []|intros (d & [] & _)]|constructor|discriminate|auto]. Qed.
Lemma collected ds : fl_inv ds (collect ds (FxList [] [])).
Proof. apply (collect_inv ds [] _ empty_inv). Qed.

(** ** Layout *)
Definition fx_fits (fx : fxitem) : Prop := is_bytes (fx_tail fx) /\ (length (fx_tail fx) < 128)%nat /\ fx_info fx < 2 ^ 16 /\ fx_flags fx < 256.
Definition resolved (fx : fxitem) (o : N) : flexitem := FlexItem (fx_flags fx) (fx_info fx) (fx_tail fx) o.
Lemma fx_ser_item fx o : fx_fits fx -> fx_ser fx o = item_ser (resolved fx o).
Proof.
  intros (_ & H & _). unfold fx_ser, item_ser, resolved. cbn [fi_flags fi_info fi_text fi_next]. apply f_equal. apply f_equal.
  unfold putserial. cbn [putserial_loop]. destruct (N.ltb_spec (N.of_nat (length (fx_tail fx))) 128); [|lia]. reflexivity.
Qed.
Lemma fx_ser_len fx o : N.of_nat (length (fx_ser fx o)) = fx_len fx.
Proof.
  unfold fx_ser, fx_len, putword16. cbn [length app]. rewrite !app_length.
  pose proof (putserial_len (N.of_nat (length (fx_tail fx)))) as H. destruct (N.land (fx_flags fx) 0xc0 =? 0); cbn [length]; lia.
Qed.
Lemma some_inj {X} (a b : X) : Some a = Some b -> a = b.
Proof. congruence. Qed.
Lemma fx_sers_spec fl offsets t b : fx_sers fl offsets t = Some b ->
  exists os, Forall2 (fun fx o => resolve_next fl offsets fx = Some o) t os /\ b = concat (map (fun p => fx_ser (fst p) (snd p)) (combine t os)).
Proof.
  revert b. induction t as [|fx t IH]; intros b; cbn [fx_sers]; [intros H; injection H as <-; exists []; split; [constructor|reflexivity]|].
  destruct (resolve_next fl offsets fx) as [o|] eqn:E; [|discriminate]. destruct (fx_sers fl offsets t) as [b'|]; [|discriminate]. intros H. apply some_inj in H. subst.
  destruct (IH b' eq_refl) as (os & H1 & ->). exists (o :: os). split; [constructor; assumption|reflexivity].
Qed.
Lemma fx_sers_len fl offsets t b : fx_sers fl offsets t = Some b -> N.of_nat (length b) = fold_right (fun fx n => fx_len fx + n) 0 t.
Proof.
  revert b. induction t as [|fx t IH]; intros b; cbn [fx_sers fold_right]; [intros H; injection H as <-; reflexivity|].
  destruct (resolve_next fl offsets fx) as [o|] eqn:E; [|discriminate]. destruct (fx_sers fl offsets t) as [b'|]; [|discriminate]. intros H. apply some_inj in H. subst.
  rewrite app_length, Nat2N.inj_add, fx_ser_len, (IH b' eq_refl). reflexivity.
Qed.
Lemma ftable_ser_len fl offsets t b : ftable_ser fl offsets t = Some b -> N.of_nat (length b) = even_up (1 + fold_right (fun fx n => fx_len fx + n) 0 t).
Proof.
  unfold ftable_ser. destruct (fx_sers fl offsets t) as [b'|] eqn:E; [|discriminate]. intros H. apply some_inj in H. subst. cbn [length]. rewrite app_length.
  pose proof (fx_sers_len _ _ _ _ E) as L. unfold even_up. destruct (N.odd (1 + fold_right (fun fx n => fx_len fx + n) 0 t)); cbn [length]; lia.
Qed.
Lemma even_up_even n : N.odd (even_up n) = false.
Proof. unfold even_up. destruct (N.odd n) eqn:E; [|exact E]. rewrite N.odd_add, E. reflexivity. Qed.
Lemma even_up_add a n : N.odd a = false -> even_up (a + n) = a + even_up n.
Proof. intros H. unfold even_up. rewrite N.odd_add, H. cbn. destruct (N.odd n); lia. Qed.

Lemma layout fl offsets l : forall dw offs bs, N.odd dw = false -> relocate dw l = Some offs -> ftables_ser fl offsets l = Some bs ->
  length offs = length l /\
  forall i t, nth_error l i = Some t -> exists off pre bt rest, nth_error offs i = Some off /\ ftable_ser fl offsets t = Some bt /\
    bs = pre ++ bt ++ rest /\ dw + N.of_nat (length pre) = 2 * off /\ 2 * off < 0x1ffff.
Proof.
  induction l as [|u l IH]; intros dw offs bs Hd; cbn [relocate ftables_ser].
  - intros H _. injection H as <-. split; [reflexivity|]. intros [|i] t; discriminate.
  - destruct (N.leb_spec 0x1ffff dw) as [|Hlt]; [discriminate|]. rewrite Hd. cbn [orb].
    set (dw' := even_up (dw + 1 + fold_right (fun fx n => fx_len fx + n) 0 u)). destruct (relocate dw' l) as [offs'|] eqn:Er; [|discriminate]. cbn [option_map]. intros H. apply some_inj in H. subst.
    destruct (ftable_ser fl offsets u) as [bu|] eqn:Eu; [|discriminate]. destruct (ftables_ser fl offsets l) as [bs'|] eqn:Es; [|discriminate]. intros H. injection H as <-.
    destruct (IH dw' offs' bs' (even_up_even _) Er eq_refl) as [Hl Hi]. split; [cbn [length]; congruence|].
    assert (Eo : 2 * N.shiftr dw 1 = dw).
    { rewrite N.shiftr_div_pow2. change (2 ^ 1) with 2. rewrite <- N.negb_even in Hd. apply negb_false_iff in Hd. apply N.even_spec in Hd. destruct Hd as [k Hk]. rewrite Hk at 1. rewrite (N.mul_comm 2 k), N.div_mul by discriminate. lia. }
    intros [|i] t Ht.
    + injection Ht as <-. exists (N.shiftr dw 1), [], bu, bs'. cbn [nth_error app length]. split; [reflexivity|]. split; [exact Eu|]. split; [reflexivity|]. rewrite Eo. split; [lia|exact Hlt].
    + destruct (Hi i t Ht) as (off & pre & bt & rest & H1 & H2 & -> & H4 & H5). exists off, (bu ++ pre), bt, rest. split; [exact H1|]. split; [exact H2|].
      split; [rewrite <- !app_assoc; reflexivity|]. split; [|exact H5]. rewrite app_length, Nat2N.inj_add, (ftable_ser_len _ _ _ _ Eu).
      unfold dw' in H4. rewrite <- N.add_assoc, even_up_add in H4 by exact Hd. lia.
Qed.
