(** * PspTabProofs2: counting and shares. *)
From Coq Require Import QArith Lqa Setoid.
From Verif Require Import Base RusRuntime Dicdump PspTab PspTabSpec PspTabProofs.
Local Open Scope N_scope.
Local Open Scope list_scope.

(** ** Vectors that grow *)
Lemma grown_nth {X} (z : X) k l j : nth j (grown z k l) z = nth j l z.
Proof.
  unfold grown. destruct (Nat.leb_spec (length l) k); [|reflexivity]. destruct (Nat.ltb_spec j (length l)); [apply app_nth1; assumption|].
  rewrite app_nth2 by assumption. rewrite (nth_overflow l) by assumption. generalize (j - length l)%nat. generalize (S k - length l)%nat. clear.
  induction n as [|n IH]; intros [|m]; try reflexivity. cbn [repeat nth]. apply IH.
Qed.
Lemma grown_long {X} (z : X) k l : (k < length (grown z k l))%nat.
Proof. unfold grown. destruct (Nat.leb_spec (length l) k); [|assumption]. rewrite app_length, repeat_length. lia. Qed.
Lemma change_nth {X} (f : X -> X) z k l j : (k < length l)%nat -> nth j (change k f l) z = if Nat.eqb j k then f (nth k l z) else nth j l z.
Proof.
  revert k j. induction l as [|x l IH]; intros k j Hk; cbn [length] in Hk; [lia|]. destruct k as [|k], j as [|j]; cbn [change nth Nat.eqb]; try reflexivity. apply IH. lia.
Qed.
Lemma change_ext {X} (f g : X -> X) k l : (forall x, f x = g x) -> change k f l = change k g l.
Proof. intros H. revert k. induction l as [|x l IH]; intros [|k]; cbn [change]; try reflexivity; f_equal; auto. Qed.
Lemma grow_change_nth {X} (f : X -> X) z k l j : nth j (change k f (grown z k l)) z = if Nat.eqb j k then f (nth k l z) else nth j l z.
Proof. rewrite change_nth by apply grown_long. rewrite !grown_nth. reflexivity. Qed.

Lemma qsum_app a b : (qsum (a ++ b) == qsum a + qsum b)%Q.
Proof. induction a as [|x a IH]; cbn [app qsum]; [ring|]. rewrite IH. ring. Qed.
Lemma grown_sum {X} (h : X -> Q) z k l : (h z == 0)%Q -> (qsum (map h (grown z k l)) == qsum (map h l))%Q.
Proof.
  intros Hz. unfold grown. destruct (Nat.leb (length l) k); [|reflexivity]. rewrite map_app, qsum_app.
  assert (E : (qsum (map h (repeat z (S k - length l))) == 0)%Q). { induction (S k - length l)%nat as [|n IH]; [reflexivity|]. cbn [repeat map qsum]. rewrite IH, Hz. ring. }
  rewrite E. ring.
Qed.
Lemma change_sum {X} (h : X -> Q) (f : X -> X) z d k l : (k < length l)%nat -> (h (f (nth k l z)) == h (nth k l z) + d)%Q ->
  (qsum (map h (change k f l)) == qsum (map h l) + d)%Q.
Proof.
  revert k. induction l as [|x l IH]; intros k Hk; cbn [length] in Hk; [lia|]. destruct k as [|k]; cbn [change nth map qsum]; intros Hh.
  - rewrite Hh. ring.
  - rewrite (IH k) by (assumption || lia). ring.
Qed.
Lemma grow_change_sum {X} (h : X -> Q) (f : X -> X) z d k l : (h z == 0)%Q -> (h (f (nth k l z)) == h (nth k l z) + d)%Q ->
  (qsum (map h (change k f (grown z k l))) == qsum (map h l) + d)%Q.
Proof. intros Hz Hh. rewrite (change_sum h f z d) by (apply grown_long || (rewrite grown_nth; exact Hh)). rewrite grown_sum by exact Hz. reflexivity. Qed.
Lemma grow_change_all {X} (P : X -> Prop) (f : X -> X) z k l : P z -> (forall x, P x -> P (f x)) -> Forall P l -> Forall P (change k f (grown z k l)).
Proof.
  intros Hz Hf Hl. assert (Hg : Forall P (grown z k l)). { unfold grown. destruct (Nat.leb (length l) k); [|exact Hl]. apply Forall_app. split; [exact Hl|].
    apply Forall_forall. intros x Hx. apply repeat_spec in Hx. subst x. exact Hz. }
  revert Hg. generalize (grown z k l) as m. clear Hl. induction k as [|k IH]; intros [|x m] Hg; try exact Hg; inversion Hg; subst; cbn [change]; constructor; auto.
Qed.

(** ** Forms *)
Lemma add_to_nth k q l j : (nth (N.to_nat j) (add_to k q l) 0%Q == nth (N.to_nat j) l 0%Q + (if N.eqb j k then q else 0))%Q.
Proof.
  unfold add_to. rewrite grow_change_nth. destruct (N.eqb_spec j k) as [->|Hn].
  - rewrite Nat.eqb_refl. reflexivity.
  - destruct (Nat.eqb_spec (N.to_nat j) (N.to_nat k)) as [E|_]; [exfalso; apply Hn, N2Nat.inj, E|]. ring.
Qed.
Lemma add_to_sum k q l : (qsum (add_to k q l) == qsum l + q)%Q.
Proof.
  pose proof (grow_change_sum (fun x : Q => x) (fun x => Qplus x q) 0%Q q (N.to_nat k) l (Qeq_refl 0) (Qeq_refl _)) as H. rewrite !map_id in H. exact H.
Qed.
Lemma add_to_all k q l : (0 <= q)%Q -> Forall (fun x => 0 <= x)%Q l -> Forall (fun x => 0 <= x)%Q (add_to k q l).
Proof. intros Hq. apply grow_change_all; [apply Qle_refl|]. intros x Hx. lra. Qed.

Fixpoint add_all (q : Q) (ks : list N) (l : list Q) : list Q := match ks with [] => l | k :: ks' => add_all q ks' (add_to k q l) end.
Lemma count_forms_all K p grams fs : count_forms K p grams fs = add_all (inverse (Z.of_nat (length grams))) (map (fun g => form_no K p (gidForm g)) grams) fs.
Proof.
  unfold count_forms. generalize (inverse (Z.of_nat (length grams))) as q. intros q. revert fs. induction grams as [|g gs IH]; intros fs; [reflexivity|]. cbn [fold_left map add_all]. apply IH.
Qed.
Lemma qcount_cons {X} (x : X) l : (qcount (x :: l) == 1 + qcount l)%Q.
Proof. unfold qcount. cbn [length]. rewrite Nat2Z.inj_succ, <- Z.add_1_l, inject_Z_plus. reflexivity. Qed.
Lemma add_all_nth q ks l j : (nth (N.to_nat j) (add_all q ks l) 0%Q == nth (N.to_nat j) l 0%Q + q * qcount (filter (N.eqb j) ks))%Q.
Proof.
  revert l. induction ks as [|k ks IH]; intros l; cbn [add_all filter].
  - unfold qcount. cbn [length Z.of_nat]. ring.
  - rewrite IH, add_to_nth. destruct (N.eqb j k); [rewrite qcount_cons|]; ring.
Qed.
Lemma add_all_sum q ks l : (qsum (add_all q ks l) == qsum l + q * qcount ks)%Q.
Proof.
  revert l. induction ks as [|k ks IH]; intros l; cbn [add_all].
  - unfold qcount. cbn [length Z.of_nat]. ring.
  - rewrite IH, add_to_sum, qcount_cons. ring.
Qed.
Lemma add_all_all q ks l : (0 <= q)%Q -> Forall (fun x => 0 <= x)%Q l -> Forall (fun x => 0 <= x)%Q (add_all q ks l).
Proof. intros Hq. revert l. induction ks as [|k ks IH]; intros l Hl; [exact Hl|]. apply IH, add_to_all; assumption. Qed.

Lemma inverse_pos n : (0 <= inverse (Z.of_nat n))%Q.
Proof.
  unfold inverse. destruct n as [|n]; [discriminate|]. apply Qle_shift_div_l; [reflexivity|]. rewrite Qmult_0_l. discriminate.
Qed.
Lemma qcount_pos {X} (l : list X) : l <> [] -> (0 < qcount l)%Q.
Proof. destruct l as [|x l]; [congruence|]. intros _. unfold qcount. cbn [length]. reflexivity. Qed.
Lemma inverse_whole {X} (l : list X) : l <> [] -> (inverse (Z.of_nat (length l)) * qcount l == 1)%Q.
Proof. intros H. pose proof (qcount_pos l H) as Hp. unfold inverse. fold (qcount l). field. intros E. rewrite E in Hp. discriminate Hp. Qed.

(** ** The table before division *)
Record counts (vs : list vote) (m : list psp_row) : Prop := {
  cn_weight : forall p, (weight_in m p == qsum (map v_share (of_part p vs)))%Q;
  cn_form : forall p f, (form_in m p f == qsum (map (fun v => qcount (filter (N.eqb f) (v_forms v)) / qcount (v_forms v)) (of_part p vs)))%Q;
  cn_all : (qsum (map psp_weight m) == qsum (map v_share vs))%Q;
  cn_forms : forall p, (qsum (psp_forms (row_of m p)) == qcount (of_part p vs))%Q;
  cn_positive : Forall (fun r => (0 <= psp_weight r)%Q /\ Forall (fun x => 0 <= x)%Q (psp_forms r)) m;
  cn_filled : forall p, psp_forms (row_of m p) <> [] -> of_part p vs <> [] }.

Lemma of_part_app p a b : of_part p (a ++ b) = of_part p a ++ of_part p b.
Proof. apply filter_app. Qed.
Lemma add_all_nonempty q ks l : add_all q ks l <> [] -> ks <> [] \/ l <> [].
Proof. destruct ks; [right; assumption|left; discriminate]. Qed.

Lemma count_step vs m p q ks : counts vs m -> (0 <= q)%Q -> ks <> [] ->
  counts (vs ++ [Vote p q ks]) (change (N.to_nat p) (fun r => PspRow (Qplus (psp_weight r) q) (add_all (inverse (Z.of_nat (length ks))) ks (psp_forms r))) (grown (PspRow 0 []) (N.to_nat p) m)).
Proof.
  intros [C1 C2 C3 C4 C5 C6] Hq Hks. set (f := fun r => PspRow _ _). set (m' := change _ _ _).
  assert (Hrow : forall p', row_of m' p' = if N.eqb p' p then f (row_of m p) else row_of m p').
  { intros p'. unfold row_of, m'. rewrite grow_change_nth. destruct (N.eqb_spec p' p) as [->|Hn]; [rewrite Nat.eqb_refl; reflexivity|].
    destruct (Nat.eqb_spec (N.to_nat p') (N.to_nat p)) as [E|_]; [exfalso; apply Hn, N2Nat.inj, E|reflexivity]. }
  assert (Hpart : forall p', of_part p' (vs ++ [Vote p q ks]) = of_part p' vs ++ if N.eqb p' p then [Vote p q ks] else []).
  { intros p'. rewrite of_part_app. f_equal. unfold of_part. cbn [filter v_part]. rewrite N.eqb_sym. reflexivity. }
  split.
  - intros p'. unfold weight_in in *. rewrite Hrow, Hpart. destruct (N.eqb_spec p' p) as [->|_].
    + cbn [f psp_weight]. rewrite map_app, qsum_app, <- C1. cbn [map qsum v_share]. ring.
    + rewrite app_nil_r. apply C1.
  - intros p' g. unfold form_in in *. rewrite Hrow, Hpart. destruct (N.eqb_spec p' p) as [->|_].
    + cbn [f psp_forms]. rewrite map_app, qsum_app, <- C2, add_all_nth. cbn [map qsum v_forms]. unfold inverse. fold (qcount ks). field.
      intros E. pose proof (qcount_pos ks Hks) as Hp. rewrite E in Hp. discriminate Hp.
    + rewrite app_nil_r. apply C2.
  - unfold m'. rewrite (grow_change_sum psp_weight f (PspRow 0 []) q); [|reflexivity|reflexivity]. rewrite map_app, qsum_app, C3. cbn [map qsum v_share]. ring.
  - intros p'. rewrite Hrow, Hpart. destruct (N.eqb_spec p' p) as [->|_].
    + cbn [f psp_forms]. rewrite add_all_sum, C4, inverse_whole by exact Hks. unfold qcount. rewrite app_length. cbn [length]. rewrite Nat2Z.inj_add, inject_Z_plus. reflexivity.
    + rewrite app_nil_r. apply C4.
  - apply grow_change_all; [split; [apply Qle_refl|constructor]| |exact C5]. intros r [H1 H2]. cbn [f psp_weight psp_forms]. split; [lra|]. apply add_all_all; [apply inverse_pos|exact H2].
  - intros p'. rewrite Hrow, Hpart. destruct (N.eqb_spec p' p) as [->|_].
    + intros _. destruct (of_part p vs); discriminate.
    + rewrite app_nil_r. apply C6.
Qed.

(** ** Lexemes, words, lines *)
Definition vote_of (K : counting) (n : Z) (l : gram * list gram) : list vote :=
  let p := part_sp K (gwdInfo (fst l)) in
  if left_out K p (gidForm (fst l)) n then [] else [Vote p (1 / inject_Z n) (map (fun g => form_no K p (gidForm g)) (snd l))].
Lemma count_lexeme_ok K n vs m l : snd l <> [] -> counts vs m -> counts (vs ++ vote_of K (Z.of_nat n) l) (count_lexeme K (Z.of_nat n) m l).
Proof.
  destruct l as [g gs]. cbn [fst snd]. intros Hne Hc. unfold vote_of, count_lexeme. cbn [fst snd]. cbv zeta. destruct (left_out K _ _ _); [rewrite app_nil_r; exact Hc|].
  set (p := part_sp K (gwdInfo g)).
  assert (Hk : map (fun g => form_no K p (gidForm g)) gs <> []) by (destruct gs; [congruence|discriminate]).
  pose proof (count_step vs m p (inverse (Z.of_nat n)) (map (fun g => form_no K p (gidForm g)) gs) Hc (inverse_pos n) Hk) as H.
  rewrite map_length in H. rewrite (change_ext _ (fun r => PspRow (psp_weight r + inverse (Z.of_nat n)) (add_all (inverse (Z.of_nat (length gs))) (map (fun g => form_no K p (gidForm g)) gs) (psp_forms r)))); [exact H|].
  intros r. rewrite count_forms_all. reflexivity.
Qed.
Lemma count_answer_ok K n ls : forall vs m, Forall (fun l => snd l <> []) ls -> counts vs m ->
  counts (vs ++ flat_map (vote_of K (Z.of_nat n)) ls) (fold_left (count_lexeme K (Z.of_nat n)) ls m).
Proof.
  induction ls as [|l ls IH]; intros vs m Hne Hc; [rewrite app_nil_r; exact Hc|]. inversion Hne; subst. cbn [flat_map fold_left]. rewrite app_assoc. apply IH; [assumption|].
  apply count_lexeme_ok; assumption.
Qed.
Lemma votes_of_flat K answer : votes_of K answer = flat_map (vote_of K (Z.of_nat (length answer))) answer.
Proof. reflexivity. Qed.
Lemma count_words_ok K look ans ws : (forall w, In w ws -> look w = Ok (ans w) /\ Forall (fun l => snd l <> []) (ans w)) -> forall vs m, counts vs m ->
  exists m', count_words K look m ws = Ok m' /\ counts (vs ++ flat_map (fun w => votes_of K (ans w)) ws) m'.
Proof.
  induction ws as [|w ws IH]; intros H vs m Hc; [exists m; rewrite app_nil_r; split; [reflexivity|exact Hc]|].
  destruct (H w (or_introl eq_refl)) as [E1 E2]. cbn [count_words flat_map]. unfold count_word. rewrite E1. cbn [bind].
  pose proof (count_answer_ok K (length (ans w)) (ans w) vs m E2 Hc) as Hc'. rewrite <- votes_of_flat in Hc'.
  destruct (IH (fun w' Hw => H w' (or_intror Hw)) _ _ Hc') as (m' & Em & Hm). exists m'. split; [exact Em|]. rewrite app_assoc. exact Hm.
Qed.
Lemma count_lines_ok K look ans words : (forall t, line_words K (S (length t)) t = Ok (words t)) ->
  forall lines, (forall l w, In l lines -> In w (words l) -> look w = Ok (ans w) /\ Forall (fun l => snd l <> []) (ans w)) -> forall vs m, counts vs m ->
  exists m', count_lines K look m lines = Ok m' /\ counts (vs ++ flat_map (fun w => votes_of K (ans w)) (flat_map words lines)) m'.
Proof.
  intros Hw. induction lines as [|l lines IH]; intros H vs m Hc; [exists m; rewrite app_nil_r; split; [reflexivity|exact Hc]|].
  cbn [count_lines flat_map]. rewrite Hw. cbn [bind]. destruct (count_words_ok K look ans (words l) (fun w Hin => H l w (or_introl eq_refl) Hin) vs m Hc) as (m1 & E1 & C1).
  rewrite E1. cbn [bind]. destruct (IH (fun l' w Hl Hin => H l' w (or_intror Hl) Hin) _ _ C1) as (m2 & E2 & C2). exists m2. split; [exact E2|].
  rewrite flat_map_app, app_assoc. exact C2.
Qed.
Lemma counts_nil : counts [] [].
Proof.
  assert (R : forall p, row_of [] p = PspRow 0 []) by (intros p; unfold row_of; destruct (N.to_nat p); reflexivity).
  split; intros; unfold weight_in, form_in; rewrite ?R; cbn; try reflexivity; try constructor; try (destruct (N.to_nat f); reflexivity). match goal with H : _ <> _ |- _ => exfalso; apply H; rewrite R; reflexivity end.
Qed.

(** ** Division *)
Lemma sum_of_qsum l : (sum_of l == qsum l)%Q.
Proof.
  unfold sum_of. assert (H : forall a, (fold_left Qplus l a == a + qsum l)%Q); [|rewrite H; ring].
  induction l as [|x l IH]; intros a; cbn [fold_left qsum]; [ring|]. rewrite IH. ring.
Qed.
Lemma qsum_div {X} (h : X -> Q) s l : (qsum (map (fun x => h x / s) l) == qsum (map h l) / s)%Q.
Proof. unfold Qdiv. induction l as [|x l IH]; cbn [map qsum]; [ring|]. rewrite IH. ring. Qed.
Lemma shares_row m p : row_of (shares m) p = PspRow (psp_weight (row_of m p) / sum_of (map psp_weight m)) (map (fun f => f / sum_of (psp_forms (row_of m p)))%Q (psp_forms (row_of m p))) \/
  row_of (shares m) p = PspRow 0 [] /\ row_of m p = PspRow 0 [].
Proof.
  unfold row_of, shares. set (f := fun r => PspRow _ _). destruct (Nat.ltb_spec (N.to_nat p) (length m)) as [H|H].
  - left. rewrite (nth_indep _ _ (f (PspRow 0 []))) by (rewrite map_length; exact H). rewrite map_nth. reflexivity.
  - right. rewrite !nth_overflow; [split; reflexivity|exact H|rewrite map_length; exact H].
Qed.
Lemma nth_div s l j : (nth j (map (fun f => f / s) l) 0 == nth j l 0 / s)%Q.
Proof.
  revert j. induction l as [|x l IH]; intros [|j]; cbn [map nth]; try reflexivity; try apply IH; unfold Qdiv; ring.
Qed.
Lemma positive_sum l : Forall (fun x => 0 <= x)%Q l -> (0 <= qsum l)%Q.
Proof. induction 1 as [|x l Hx _ IH]; cbn [qsum]; [apply Qle_refl|lra]. Qed.
Lemma div_pos a s : (0 <= a)%Q -> (0 <= s)%Q -> (0 <= a / s)%Q.
Proof. intros Ha Hs. unfold Qdiv. apply Qmult_le_0_compat; [exact Ha|]. apply Qinv_le_0_compat. exact Hs. Qed.
Lemma share_pos vs m : counts vs m -> vs <> [] -> (forall v, In v vs -> (0 < v_share v)%Q) -> (0 < qsum (map v_share vs))%Q.
Proof.
  intros _ Hne H. destruct vs as [|v vs]; [congruence|]. cbn [map qsum]. pose proof (H v (or_introl eq_refl)) as H1.
  assert (H2 : (0 <= qsum (map v_share vs))%Q). { apply positive_sum, Forall_map, Forall_forall. intros x Hx. apply Qlt_le_weak, H. right. exact Hx. } lra.
Qed.

Lemma shares_tabulate vs m : counts vs m -> (forall v, In v vs -> (0 < v_share v)%Q) -> tabulates vs (shares m).
Proof.
  intros HC Hv. pose proof HC as [C1 C2 C3 C4 C5 C6].
  assert (Hg : (sum_of (map psp_weight m) == qsum (map v_share vs))%Q) by (rewrite sum_of_qsum; exact C3).
  split.
  - intros p. unfold weight_in, part_share in *. destruct (shares_row m p) as [->|[-> E]].
    + cbn [psp_weight]. rewrite Hg, C1. reflexivity.
    + specialize (C1 p). rewrite E in C1. cbn [psp_weight] in *. rewrite <- C1. unfold Qdiv. ring.
  - intros p f. unfold form_in, form_share in *. destruct (shares_row m p) as [->|[-> E]].
    + cbn [psp_forms]. rewrite nth_div, sum_of_qsum, C4, C2. reflexivity.
    + specialize (C2 p f). rewrite E in C2. cbn [psp_forms] in *. rewrite <- C2. destruct (N.to_nat f); unfold Qdiv; cbn [nth]; ring.
  - unfold shares. apply Forall_map. rewrite Forall_forall in *. intros r Hr. destruct (C5 r Hr) as [H1 H2]. cbn [psp_weight psp_forms].
    assert (Hs : (0 <= sum_of (map psp_weight m))%Q). { rewrite sum_of_qsum. apply positive_sum, Forall_map, Forall_forall. intros x Hx. apply (C5 x Hx). }
    split; [apply div_pos; assumption|]. apply Forall_map. eapply Forall_impl; [|exact H2]. intros x Hx. cbv beta. apply div_pos; [exact Hx|]. rewrite sum_of_qsum. apply positive_sum. exact H2.
  - intros Hne. unfold shares. rewrite map_map. cbn [psp_weight]. rewrite qsum_div, Hg, C3. pose proof (share_pos vs m HC Hne Hv) as Hp. field. intros E. rewrite E in Hp. discriminate Hp.
  - intros r Hr Hne. unfold shares in Hr. apply in_map_iff in Hr as (r0 & <- & Hr0). cbn [psp_forms] in *. destruct (In_nth m r0 (PspRow 0 []) Hr0) as (k & Hk & Ek).
    assert (Er : row_of m (N.of_nat k) = r0) by (unfold row_of; rewrite Nat2N.id; exact Ek).
    assert (H0 : psp_forms (row_of m (N.of_nat k)) <> []) by (rewrite Er; destruct (psp_forms r0); [exact Hne|discriminate]).
    pose proof (qcount_pos _ (C6 _ H0)) as Hp. rewrite <- C4, Er in Hp. rewrite (qsum_div (fun x => x)), map_id, sum_of_qsum. field. intros E. rewrite E in Hp. discriminate Hp.
Qed.
Lemma votes_pos K ans ws v : In v (flat_map (fun w : bytes => votes_of K (ans w)) ws) -> (0 < v_share v)%Q.
Proof.
  intros H. apply in_flat_map in H as (w & _ & H). unfold votes_of in H. apply in_flat_map in H as (l & Hl & H). cbv zeta in H. destruct (left_out K _ _ _); [destruct H|]. destruct H as [<-|[]].
  cbn [v_share]. fold (qcount (ans w)). assert (Hp : (0 < qcount (ans w))%Q) by (apply qcount_pos; intros E; rewrite E in Hl; destruct Hl). apply Qlt_shift_div_l; [exact Hp|]. rewrite Qmult_0_l. reflexivity.
Qed.

Lemma psp_table_ok K look ans words file : (forall t, line_words K (S (length t)) t = Ok (words t)) -> let ws := flat_map words (lines_of (length file) file) in
  (forall w, In w ws -> look w = Ok (ans w) /\ Forall (fun l => snd l <> []) (ans w)) ->
  exists t, psp_table K look file = Ok t /\ tabulates (flat_map (fun w => votes_of K (ans w)) ws) t.
Proof.
  intros Hw ws H. unfold psp_table. destruct (count_lines_ok K look ans words Hw (lines_of (length file) file)) with (vs := @nil vote) (m := @nil psp_row) as (m & Em & Hm).
  - intros l w Hl Hin. apply H. unfold ws. apply in_flat_map. exists l. split; assumption.
  - apply counts_nil.
  - rewrite Em. cbn [bind]. exists (shares m). split; [reflexivity|]. cbn [app] in Hm. apply shares_tabulate; [exact Hm|]. intros v. apply votes_pos.
Qed.
