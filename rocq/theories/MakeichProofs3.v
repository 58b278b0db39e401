(** * MakeichProofs3: the collector. *)
From Coq Require Import String.
From Verif Require Import Base Serial WordTree TreeSpec Stems StemSpec SerialProofs DictProofs GramMap RusRuntime LevelSpec RusSpec Compile CompileSpec CompileProofs Api EngCompile EngCompileSpec EngCompileProofs Utf8 RusText Tfc TfcSpec TfcProofs TfcProofs2 TfcProofs3 TfcProofs4 TfcProofs5 TfcProofs6 Makeich MakeichSpec MakeichProofs MakeichProofs2.
Local Open Scope N_scope.
Local Open Scope list_scope.
Notation length := List.length.

Lemma lookup_snoc {X} n (l : list (bytes * X)) k v : lookup n (l ++ [(k, v)]) = match lookup n l with Some x => Some x | None => if list_eq_dec N.eq_dec n k then Some v else None end.
Proof. induction l as [|[a b] l IH]; cbn [app lookup]; [reflexivity|]. destruct (list_eq_dec N.eq_dec n a); [reflexivity|exact IH]. Qed.
Notation name_in := (in_dec (list_eq_dec N.eq_dec)).
Definition named (ns : list bytes) (i : nat) (ix ix' : list (bytes * nat)) : Prop := forall n, lookup n ix' = if name_in n ns then Some i else lookup n ix.
Lemma set_some ns : forall i co, (forall n, In n ns -> lookup n (co_index co) = None \/ lookup n (co_index co) = Some i) ->
  exists ix, set_names ns (Some i) co = Some (i, Collector (co_inter co) (co_condi co) ix) /\ named ns i (co_index co) ix.
Proof.
  induction ns as [|n ns IH]; intros i co H; cbn [set_names].
  - exists (co_index co). destruct co as [a b c]. split; [reflexivity|]. intros n. reflexivity.
  - destruct (H n (or_introl eq_refl)) as [E|E]; rewrite E.
    + destruct (IH i (Collector (co_inter co) (co_condi co) (co_index co ++ [(n, i)]))) as (ix & E' & Hix).
      { intros m Hm. cbn [co_index]. rewrite lookup_snoc. destruct (H m (or_intror Hm)) as [Em|Em]; rewrite Em; [destruct (list_eq_dec N.eq_dec m n); auto|auto]. }
      exists ix. split; [exact E'|]. intros m. rewrite Hix. cbn [co_index]. rewrite lookup_snoc. destruct (name_in m ns) as [Hm|Hm].
      * destruct (name_in m (n :: ns)) as [|K]; [reflexivity|exfalso; apply K; right; exact Hm].
      * destruct (list_eq_dec N.eq_dec m n) as [->|Hmn].
        -- rewrite E. destruct (name_in n (n :: ns)) as [|K]; [reflexivity|exfalso; apply K; left; reflexivity].
        -- destruct (name_in m (n :: ns)) as [[K|K]|K]; [congruence|contradiction|]. destruct (lookup m (co_index co)); reflexivity.
    + rewrite Nat.eqb_refl. destruct (IH i co) as (ix & E' & Hix); [intros m Hm; apply H; right; exact Hm|]. exists ix. split; [exact E'|]. intros m. rewrite Hix. destruct (name_in m ns) as [Hm|Hm].
      * destruct (name_in m (n :: ns)) as [|K]; [reflexivity|exfalso; apply K; right; exact Hm].
      * destruct (name_in m (n :: ns)) as [[<-|K]|K]; [exact E|contradiction|reflexivity].
Qed.
Lemma set_some_inv ns : forall i co r, set_names ns (Some i) co = Some r -> forall n, In n ns -> lookup n (co_index co) = None \/ lookup n (co_index co) = Some i.
Proof.
  induction ns as [|n ns IH]; intros i co r H m Hm; [destruct Hm|]. cbn [set_names] in H. destruct (lookup n (co_index co)) as [j|] eqn:E.
  - destruct (Nat.eqb_spec j i) as [->|]; [|discriminate]. destruct Hm as [<-|Hm]; [right; exact E|exact (IH _ _ _ H m Hm)].
  - destruct Hm as [<-|Hm]; [left; exact E|]. pose proof (IH _ _ _ H m Hm) as K. cbn [co_index] in K. rewrite lookup_snoc in K. destruct (lookup m (co_index co)) as [j|]; [destruct K as [K|K]; [discriminate|right; exact K]|left; reflexivity].
Qed.
(** The whole of [set_names]: either some name is known, and all that are agree with it, or none is and a new list is made. *)
Lemma set_none_inv ns co r : (forall n i, lookup n (co_index co) = Some i -> (i < length (co_condi co))%nat) -> set_names ns None co = Some r ->
  exists i ix, named ns i (co_index co) ix /\
    ((exists n, In n ns /\ lookup n (co_index co) = Some i) /\ (forall n, In n ns -> lookup n (co_index co) = None \/ lookup n (co_index co) = Some i) /\ r = (i, Collector (co_inter co) (co_condi co) ix) \/
     ns <> [] /\ i = length (co_condi co) /\ (forall n, In n ns -> lookup n (co_index co) = None) /\ r = (i, Collector (co_inter co) (co_condi co ++ [[]]) ix)).
Proof.
  intros Hb H. destruct ns as [|n ns]; [discriminate|]. cbn [set_names] in H. destruct (lookup n (co_index co)) as [i|] eqn:E.
  - pose proof (set_some_inv _ _ _ _ H) as K. assert (K' : forall m, In m (n :: ns) -> lookup m (co_index co) = None \/ lookup m (co_index co) = Some i) by (intros m [<-|Hm]; [right; exact E|apply K, Hm]).
    destruct (set_some (n :: ns) i co K') as (ix & E' & Hix). exists i, ix. split; [exact Hix|]. left. split; [exists n; split; [left; reflexivity|exact E]|]. split; [exact K'|]. cbn [set_names] in E'. rewrite E, Nat.eqb_refl in E'. congruence.
  - set (co1 := Collector _ _ _) in H. pose proof (set_some_inv _ _ _ _ H) as K.
    assert (Kn : forall m, In m (n :: ns) -> lookup m (co_index co) = None).
    { intros m [<-|Hm]; [exact E|]. specialize (K m Hm). unfold co1 in K. cbn [co_index] in K. rewrite lookup_snoc in K. destruct (lookup m (co_index co)) as [j|] eqn:Ej; [|reflexivity]. destruct K as [K|K]; [discriminate|]. apply some_inj in K. subst j. apply Hb in Ej. lia. }
    destruct (set_some ns (length (co_condi co)) co1 K) as (ix & E' & Hix). exists (length (co_condi co)), ix. split.
    + intros m. rewrite Hix. unfold co1. cbn [co_index]. rewrite lookup_snoc. destruct (name_in m ns) as [Hm|Hm].
      * destruct (name_in m (n :: ns)) as [|C]; [reflexivity|exfalso; apply C; right; exact Hm].
      * destruct (list_eq_dec N.eq_dec m n) as [->|Hmn].
        -- rewrite E. destruct (name_in n (n :: ns)) as [|C]; [reflexivity|exfalso; apply C; left; reflexivity].
        -- destruct (name_in m (n :: ns)) as [[C|C]|C]; [congruence|contradiction|]. destruct (lookup m (co_index co)); reflexivity.
    + right. split; [discriminate|]. split; [reflexivity|]. split; [exact Kn|]. rewrite E' in H. apply some_inj in H. symmetry. exact H.
Qed.
Lemma set_none_known ns co i : ns <> [] -> (forall n, In n ns -> lookup n (co_index co) = Some i) -> exists r, set_names ns None co = Some r.
Proof.
  intros Hn H. destruct ns as [|n ns]; [congruence|]. cbn [set_names]. rewrite (H n (or_introl eq_refl)). destruct (set_some ns i co) as (ix & E & _); [intros m Hm; right; apply H; right; exact Hm|]. eauto.
Qed.
Lemma set_none_new ns co : ns <> [] -> (forall n, In n ns -> lookup n (co_index co) = None) -> exists r, set_names ns None co = Some r.
Proof.
  intros Hn H. destruct ns as [|n ns]; [congruence|]. cbn [set_names]. rewrite (H n (or_introl eq_refl)). set (co1 := Collector _ _ _). destruct (set_some ns (length (co_condi co)) co1) as (ix & E & _); [|eauto].
  intros m Hm. unfold co1. cbn [co_index]. rewrite lookup_snoc, (H m (or_intror Hm)). destruct (list_eq_dec N.eq_dec m n); auto.
Qed.

(** ** Sets *)
Lemma inter_eq_iff a : forall b, inter_eq a b = true <-> a = b.
Proof.
  induction a as [|[s f] a IH]; intros [|[t g] b]; cbn [inter_eq]; try (split; congruence). rewrite !andb_true_iff, N.eqb_eq, IH. destruct (list_eq_dec N.eq_dec s t) as [->|Hn]; split; try (intros [[? ?] ?]; congruence).
  - intros E. injection E as -> ->. auto.
  - intros E. injection E as E _ _. contradiction.
Qed.
Lemma find_inter_some x l k : find_inter x l = Some k -> nth_error l k = Some x.
Proof.
  revert k. induction l as [|y l IH]; intros k; cbn [find_inter]; [discriminate|]. destruct (inter_eq y x) eqn:E.
  - intros H. apply some_inj in H. subst k. apply inter_eq_iff in E. subst y. reflexivity.
  - destruct (find_inter x l) as [j|]; [|discriminate]. intros H. cbn [option_map] in H. apply some_inj in H. subst k. apply IH. reflexivity.
Qed.
Lemma nth_add_at {X} i (x : X) l j : (i < length l)%nat -> nth j (add_at i x l) [] = if Nat.eqb j i then nth i l [] ++ [x] else nth j l [].
Proof.
  revert i j. induction l as [|c l IH]; intros i j H; [cbn in H; lia|]. destruct i as [|i]; cbn [add_at]; destruct j as [|j]; cbn [nth Nat.eqb]; try reflexivity. apply IH. cbn in H. lia.
Qed.
Lemma add_at_length {X} i (x : X) l : length (add_at i x l) = length l.
Proof. revert i. induction l as [|c l IH]; intros [|i]; cbn [add_at length]; congruence. Qed.

(** ** Steps *)
Definition mstep : Type := list bytes * mixline.
Definition steps_of (ds : list mixdef) : list mstep := flat_map (fun d => map (fun x => (md_names d, x)) (md_lines d)) ds.
Definition inter_st (st : mstep) : list (bytes * N) := inter_of (ml_strings (snd st)).
Definition put_set (x : list (bytes * N)) (l : list (list (bytes * N))) : nat * list (list (bytes * N)) := match find_inter x l with Some k => (k, l) | None => (length l, l ++ [x]) end.
Definition add_one (st : mstep) (co : collector) : option collector :=
  match set_names (fst st) None co with
  | None => None
  | Some (i, co) => let '(ipos, inters) := put_set (inter_st st) (co_inter co) in Some (Collector inters (add_at i (ml_cond (snd st), ipos) (co_condi co)) (co_index co))
  end.
Fixpoint add_steps (sts : list mstep) (co : collector) : option collector := match sts with [] => Some co | st :: sts' => match add_one st co with None => None | Some co => add_steps sts' co end end.
Lemma add_steps_app a b co : add_steps (a ++ b) co = match add_steps a co with None => None | Some co => add_steps b co end.
Proof. revert co. induction a as [|st a IH]; intros co; cbn [app add_steps]; [reflexivity|]. destruct (add_one st co); [apply IH|reflexivity]. Qed.
Lemma put_set_facts x l : let '(k, l') := put_set x l in nth_error l' k = Some x /\ (forall j y, nth_error l j = Some y -> nth_error l' j = Some y) /\ (l' = l \/ l' = l ++ [x]).
Proof.
  unfold put_set. destruct (find_inter x l) as [k|] eqn:E; [split; [apply find_inter_some, E|split; [auto|left; reflexivity]]|]. split; [rewrite nth_error_app2, Nat.sub_diag by lia; reflexivity|]. split; [|right; reflexivity].
  intros j y H. rewrite nth_error_app1; [exact H|]. apply nth_error_Some. congruence.
Qed.
Inductive srel (sts : list mstep) : bytes -> bytes -> Prop :=
| srel_refl n : srel sts n n
| srel_step n m k st : In st sts -> In n (fst st) -> In m (fst st) -> srel sts m k -> srel sts n k.
Lemma srel_trans sts a b c : srel sts a b -> srel sts b c -> srel sts a c.
Proof. induction 1 as [|n m k st H1 H2 H3 H4 IH]; intros H; [exact H|]. eapply srel_step; eauto. Qed.
Lemma srel_one sts st n m : In st sts -> In n (fst st) -> In m (fst st) -> srel sts n m.
Proof. intros H1 H2 H3. eapply srel_step; eauto. constructor. Qed.
Lemma srel_sym sts a b : srel sts a b -> srel sts b a.
Proof. induction 1 as [|n m k st H1 H2 H3 H4 IH]; [constructor|]. eapply srel_trans; [exact IH|]. eapply srel_one; eauto. Qed.
Lemma srel_mono sts sts' a b : incl sts sts' -> srel sts a b -> srel sts' a b.
Proof. intros Hi. induction 1 as [|n m k st H1 H2 H3 H4 IH]; [constructor|]. eapply srel_step; eauto. Qed.
Definition at_index (ix : list (bytes * nat)) (i : nat) (st : mstep) : bool := match fst st with [] => false | n :: _ => match lookup n ix with Some j => Nat.eqb j i | None => false end end.
Definition stands (inters : list (list (bytes * N))) (cp : bytes * nat) (st : mstep) : Prop := fst cp = ml_cond (snd st) /\ nth_error inters (snd cp) = Some (inter_st st).
Record inv (sts : list mstep) (co : collector) : Prop := {
  iv_bound : forall n i, lookup n (co_index co) = Some i -> (i < length (co_condi co))%nat;
  iv_none : forall n, lookup n (co_index co) = None <-> (forall st, In st sts -> ~ In n (fst st));
  iv_share : forall st, In st sts -> fst st <> [] /\ exists i, forall n, In n (fst st) -> lookup n (co_index co) = Some i;
  iv_refs : forall i, (i < length (co_condi co))%nat -> Forall2 (stands (co_inter co)) (nth i (co_condi co) []) (filter (at_index (co_index co) i) sts);
  iv_rel : forall n m i, lookup n (co_index co) = Some i -> lookup m (co_index co) = Some i -> srel sts n m;
  iv_sets : Forall (fun x => exists st, In st sts /\ x = inter_st st) (co_inter co) /\ fold_right (fun x n => ser_size x + n) 0 (co_inter co) <= fold_right (fun st n => mix_size (snd st) + n) 0 sts }.
Lemma inv_nil : inv [] (Collector [] [] []).
Proof.
  constructor; cbn [co_index co_condi co_inter lookup length].
  - intros n i H. discriminate.
  - intros n. split; [intros _ st []|reflexivity].
  - intros st [].
  - intros i H. lia.
  - intros n m i H. discriminate.
  - split; [constructor|cbn; lia].
Qed.
Lemma filter_ext_in' {X} (p q : X -> bool) l : (forall x, In x l -> p x = q x) -> filter p l = filter q l.
Proof. induction l as [|x l IH]; intros H; [reflexivity|]. cbn [filter]. rewrite (H x (or_introl eq_refl)), IH by (intros y Hy; apply H; right; exact Hy). reflexivity. Qed.
Lemma fold_size_app {X} (g : X -> N) a b : fold_right (fun x n => g x + n) 0 (a ++ b) = fold_right (fun x n => g x + n) 0 a + fold_right (fun x n => g x + n) 0 b.
Proof. induction a as [|x a IH]; cbn [app fold_right]; [reflexivity|]. rewrite IH. lia. Qed.
Lemma Forall2_impl' {X Y} (P Q : X -> Y -> Prop) l m : (forall x y, P x y -> Q x y) -> Forall2 P l m -> Forall2 Q l m.
Proof. intros H. induction 1; constructor; auto. Qed.
Lemma Forall2_none {X Y} (P : X -> Y -> Prop) m : m = [] -> Forall2 P [] m. Proof. intros ->. constructor. Qed.
Lemma filter_none {X} (p : X -> bool) l : (forall x, In x l -> p x = false) -> filter p l = [].
Proof. induction l as [|x l IH]; intros H; [reflexivity|]. cbn [filter]. rewrite (H x (or_introl eq_refl)). apply IH. intros y Hy. apply H. right. exact Hy. Qed.
Lemma inv_step sts co st co' : inv sts co -> add_one st co = Some co' -> inv (sts ++ [st]) co'.
Proof.
  intros [Hb Hn Hs Hr Hl Hz] H. unfold add_one in H. destruct (set_names (fst st) None co) as [[i co1]|] eqn:E; [|discriminate]. destruct (set_none_inv _ _ _ Hb E) as (i' & ix & Hix & Hcase).
  assert (Hcommon : exists condi, i' = i /\ co1 = Collector (co_inter co) condi ix /\ (i < length condi)%nat /\ (length (co_condi co) <= length condi)%nat /\ fst st <> [] /\
    (forall n, In n (fst st) -> lookup n (co_index co) = None \/ lookup n (co_index co) = Some i) /\
    (forall j, (j < length condi)%nat -> Forall2 (stands (co_inter co)) (nth j condi []) (filter (at_index (co_index co) j) sts)) /\
    (forall m, lookup m ix = Some i -> exists n, In n (fst st) /\ srel (sts ++ [st]) m n)).
  { assert (Hself : forall m, In m (fst st) -> exists n, In n (fst st) /\ srel (sts ++ [st]) m n) by (intros m Hm; exists m; split; [exact Hm|constructor]).
    destruct Hcase as [((n0 & Hn0 & En0) & Hall & Er)|(Hne & Ei & Hall & Er)]; injection Er as -> ->.
    - exists (co_condi co). split; [reflexivity|]. split; [reflexivity|]. split; [apply (Hb _ _ En0)|]. split; [lia|]. split; [intros E0; rewrite E0 in Hn0; destruct Hn0|]. split; [exact Hall|]. split; [exact Hr|]. intros m Em. rewrite Hix in Em. destruct (name_in m (fst st)) as [Hm|Hm]; [apply Hself, Hm|].
      exists n0. split; [exact Hn0|]. apply srel_mono with sts; [apply incl_appl, incl_refl|]. eapply Hl; eauto.
    - exists (co_condi co ++ [[]]). split; [reflexivity|]. split; [reflexivity|]. split; [rewrite app_length; cbn; lia|]. split; [rewrite app_length; lia|]. split; [exact Hne|]. split; [intros n Hin; left; apply Hall, Hin|]. split.
      + intros j Hj. rewrite app_length in Hj. cbn [length] in Hj. destruct (Nat.lt_ge_cases j (length (co_condi co))) as [Hj'|Hj']; [rewrite app_nth1 by exact Hj'; apply Hr, Hj'|]. rewrite app_nth2 by exact Hj'. replace (j - length (co_condi co))%nat with 0%nat by lia. cbn [nth].
        apply Forall2_none, filter_none. intros st' Hst'. unfold at_index. destruct (fst st') as [|n l]; [reflexivity|]. destruct (lookup n (co_index co)) as [k|] eqn:Ek; [|reflexivity]. apply Hb in Ek. apply Nat.eqb_neq. lia.
      + intros m Em. rewrite Hix in Em. destruct (name_in m (fst st)) as [Hm|Hm]; [apply Hself, Hm|]. apply Hb in Em. lia. }
  clear Hcase Hr. destruct Hcommon as (condi & -> & -> & Hi & Hlen & Hne & Hall & Hr & Hrel). cbn [co_inter co_condi co_index] in H. pose proof (put_set_facts (inter_st st) (co_inter co)) as Hp. destruct (put_set (inter_st st) (co_inter co)) as [k inters]. destruct Hp as (Hp1 & Hp2 & Hp3).
  apply some_inj in H. subst co'.
  assert (Hold : forall n j, lookup n (co_index co) = Some j -> lookup n ix = Some j). { intros n j En. rewrite Hix. destruct (name_in n (fst st)) as [K|]; [|exact En]. destruct (Hall n K) as [K'|K']; congruence. }
  assert (Hat : forall j st', In st' sts -> at_index ix j st' = at_index (co_index co) j st'). { intros j st' Hst'. unfold at_index. destruct (fst st') as [|n l] eqn:Ef; [reflexivity|]. destruct (Hs _ Hst') as (_ & j' & Hj'). specialize (Hj' n ltac:(rewrite Ef; left; reflexivity)). rewrite Hj', (Hold _ _ Hj'). reflexivity. }
  assert (Hnew : forall n, In n (fst st) -> lookup n ix = Some i) by (intros n Hin; rewrite Hix; destruct (name_in n (fst st)); [reflexivity|contradiction]).
  constructor; cbn [co_inter co_condi co_index].
  - intros n j En. rewrite add_at_length. rewrite Hix in En. destruct (name_in n (fst st)); [apply some_inj in En; subst j; exact Hi|]. apply Hb in En. lia.
  - intros n. rewrite Hix. destruct (name_in n (fst st)) as [K|K].
    + split; [discriminate|]. intros C. exfalso. apply (C st); [apply in_or_app; right; left; reflexivity|exact K].
    + rewrite Hn. split; [intros C st' Hin; apply in_app_or in Hin; destruct Hin as [Hin|[<-|[]]]; [apply C, Hin|exact K]|intros C st' Hin; apply C, in_or_app; left; exact Hin].
  - intros st' Hin. apply in_app_or in Hin. destruct Hin as [Hin|[<-|[]]]; [|split; [exact Hne|exists i; exact Hnew]]. destruct (Hs _ Hin) as (K1 & j & K2). split; [exact K1|]. exists j. intros n Hn'. apply Hold, K2, Hn'.
  - intros j Hj. rewrite add_at_length in Hj. rewrite nth_add_at by exact Hi. rewrite filter_app, (filter_ext_in' _ _ _ (Hat j)). cbn [filter].
    assert (Hast : at_index ix j st = Nat.eqb j i). { unfold at_index. destruct (fst st) as [|n l]; [congruence|]. rewrite (Hnew n (or_introl eq_refl)). apply Nat.eqb_sym. }
    rewrite Hast. assert (Hr' : Forall2 (stands inters) (nth j condi []) (filter (at_index (co_index co) j) sts)) by (eapply Forall2_impl'; [|apply Hr, Hj]; intros x y [K1 K2]; split; [exact K1|apply Hp2, K2]).
    destruct (Nat.eqb_spec j i) as [->|Hji]; [|rewrite app_nil_r; exact Hr']. apply Forall2_app; [exact Hr'|]. constructor; [split; [reflexivity|exact Hp1]|constructor].
  - intros n m j En Em. destruct (Nat.eq_dec j i) as [->|Hji].
    + destruct (Hrel _ En) as (n' & Hn' & R1). destruct (Hrel _ Em) as (m' & Hm' & R2). eapply srel_trans; [exact R1|]. eapply srel_trans; [|apply srel_sym, R2]. apply srel_one with st; [apply in_or_app; right; left; reflexivity|exact Hn'|exact Hm'].
    + apply srel_mono with sts; [apply incl_appl, incl_refl|]. apply (Hl n m j).
      * rewrite Hix in En. destruct (name_in n (fst st)); [congruence|exact En].
      * rewrite Hix in Em. destruct (name_in m (fst st)); [congruence|exact Em].
  - destruct Hz as [Hz1 Hz2]. rewrite fold_size_app. cbn [fold_right]. assert (Hz1' : Forall (fun x => exists st', In st' (sts ++ [st]) /\ x = inter_st st') (co_inter co)). { revert Hz1. apply Forall_impl. intros x (st' & K & ->). exists st'. split; [apply in_or_app; left; exact K|reflexivity]. }
    destruct Hp3 as [->| ->]; [split; [exact Hz1'|lia]|]. split; [apply Forall_app; split; [exact Hz1'|]; constructor; [|constructor]; exists st; split; [apply in_or_app; right; left; reflexivity|reflexivity]|].
    rewrite fold_size_app. cbn [fold_right]. pose proof (size_bound (ml_strings (snd st))) as K. fold (inter_st st) in K. unfold mix_size, total_len in *. lia.
Qed.
Lemma inv_steps sts : forall done co co', inv done co -> add_steps sts co = Some co' -> inv (done ++ sts) co'.
Proof.
  induction sts as [|st sts IH]; intros done co co' H E; cbn [add_steps] in E; [apply some_inj in E; subst co'; rewrite app_nil_r; exact H|]. destruct (add_one st co) as [co1|] eqn:E1; [|discriminate].
  replace (done ++ st :: sts) with ((done ++ [st]) ++ sts) by (rewrite <- app_assoc; reflexivity). eapply IH; [|exact E]. eapply inv_step; eauto.
Qed.
(** Consistent steps are accepted. *)
Definition steps_agree (sts : list mstep) : Prop :=
  (forall st, In st sts -> fst st <> []) /\ forall st st', In st sts -> In st' sts -> (forall n, In n (fst st) <-> In n (fst st')) \/ (forall n, In n (fst st) -> ~ In n (fst st')).
Lemma some_step n (sts : list mstep) : (exists st, In st sts /\ In n (fst st)) \/ forall st, In st sts -> ~ In n (fst st).
Proof.
  induction sts as [|st sts [(st' & H1 & H2)|IH]]; [right; intros st []|left; exists st'; split; [right; exact H1|exact H2]|]. destruct (name_in n (fst st)) as [K|K]; [left; exists st; split; [left; reflexivity|exact K]|].
  right. intros st' [<-|H]; [exact K|apply IH, H].
Qed.
Lemma agree_one done st co : steps_agree (done ++ [st]) -> inv done co -> exists co', add_one st co = Some co'.
Proof.
  intros [H1 H2] Hi. assert (Hst : In st (done ++ [st])) by (apply in_or_app; right; left; reflexivity). specialize (H1 _ Hst).
  assert (K : exists r, set_names (fst st) None co = Some r).
  { destruct (fst st) as [|n0 l0] eqn:Ef; [congruence|]. destruct (lookup n0 (co_index co)) as [i|] eqn:E0.
    - apply (set_none_known _ _ i); [discriminate|]. intros n Hin.
      assert (Hex : exists st', In st' done /\ In n0 (fst st')).
      { destruct (some_step n0 done) as [K|K]; [exact K|]. apply (iv_none _ _ Hi) in K. congruence. }
      destruct Hex as (st' & K1 & K2). destruct (H2 st st' Hst) as [S|D]; [apply in_or_app; left; exact K1| |].
      + destruct (iv_share _ _ Hi st' K1) as (_ & j & Hj). rewrite <- E0. rewrite (Hj n) by (apply S; rewrite Ef; exact Hin). rewrite (Hj n0 K2). reflexivity.
      + exfalso. apply (D n0); [rewrite Ef; left; reflexivity|exact K2].
    - apply set_none_new; [discriminate|]. intros n Hin. apply (iv_none _ _ Hi). intros st' Hst' C. destruct (H2 st st' Hst) as [S|D]; [apply in_or_app; left; exact Hst'| |].
      + apply (proj1 (iv_none _ _ Hi n0) E0 st' Hst'). apply S. rewrite Ef. left. reflexivity.
      + apply (D n); [rewrite Ef; exact Hin|exact C]. }
  destruct K as [[i co1] E]. unfold add_one. rewrite E. destruct (put_set (inter_st st) (co_inter co1)). eauto.
Qed.
Lemma agree_steps sts : forall done co, steps_agree (done ++ sts) -> inv done co -> exists co', add_steps sts co = Some co'.
Proof.
  induction sts as [|st sts IH]; intros done co H Hi; cbn [add_steps]; [eauto|]. replace (done ++ st :: sts) with ((done ++ [st]) ++ sts) in H by (rewrite <- app_assoc; reflexivity).
  assert (H' : steps_agree (done ++ [st])) by (destruct H as [A B]; split; [intros; apply A, in_or_app; left; assumption|intros; apply B; apply in_or_app; left; assumption]).
  destruct (agree_one _ _ _ H' Hi) as [co1 E1]. rewrite E1. apply (IH (done ++ [st])); [exact H|]. eapply inv_step; eauto.
Qed.
