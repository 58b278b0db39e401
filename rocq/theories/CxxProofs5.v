(** * CxxProofs5: handles. *)
From Verif Require Import Base CxxApi CxxSpec.
Local Open Scope nat_scope.

Definition cnt (i : nat) (x : option (option nat)) : nat := match x with Some (Some j) => if Nat.eqb j i then 1 else 0 | _ => 0 end.

Lemma holders_cons i x s : holders i (x :: s) = cnt i x + holders i s.
Proof. unfold holders. cbn [filter]. destruct x as [[j|]|]; cbn [cnt]; try reflexivity. destruct (Nat.eqb j i); reflexivity. Qed.
Lemma holders_app i a b : holders i (a ++ b) = holders i a + holders i b.
Proof. unfold holders. rewrite filter_app, app_length. reflexivity. Qed.
Lemma holders_one i x : holders i [x] = cnt i x.
Proof. rewrite holders_cons. cbn. lia. Qed.

Lemma holders_set i x : forall s h held, handle s h = Some held -> holders i (set_handle s h x) + cnt i (Some held) = holders i s + cnt i x.
Proof.
  induction s as [|y s IH]; intros [|h] held H; try discriminate; cbn [set_handle]; rewrite !holders_cons.
  - unfold handle in H. cbn [nth_error] in H. rewrite H. lia.
  - specialize (IH h held H). lia.
Qed.
Lemma handle_set x : forall s h m, h <> m -> handle (set_handle s h x) m = handle s m.
Proof.
  unfold handle. induction s as [|y s IH]; intros [|h] [|m] H; try reflexivity; try congruence; cbn [set_handle nth_error].
  apply IH. congruence.
Qed.
Lemma handle_held i : forall s h, handle s h = Some (Some i) -> 0 < holders i s.
Proof.
  intros s h H. pose proof (holders_set i None s h (Some i) H) as E. cbn [cnt] in E. rewrite Nat.eqb_refl in E. lia.
Qed.
Lemma two_held i s h m : h <> m -> handle s h = Some (Some i) -> handle s m = Some (Some i) -> 2 <= holders i s.
Proof.
  intros Hn Hh Hm. pose proof (holders_set i None s h (Some i) Hh) as E. rewrite <- (handle_set None s h m Hn) in Hm. apply handle_held in Hm.
  cbn [cnt] in E. rewrite Nat.eqb_refl in E. lia.
Qed.

(** ** Balance *)
Lemma attached_app i a b : attached i (a ++ b) = attached i a + attached i b.
Proof. unfold attached. rewrite filter_app, app_length. reflexivity. Qed.
Lemma detached_app i a b : detached i (a ++ b) = detached i a + detached i b.
Proof. unfold detached. rewrite filter_app, app_length. reflexivity. Qed.

Lemma assign_counts i held p ev x : assign held p = (ev, x) -> x = p /\ attached i ev = cnt i (Some p) /\ detached i ev = cnt i (Some held).
Proof.
  unfold assign. intros [= <- <-]. split; [reflexivity|]. rewrite attached_app, detached_app. destruct held as [j|], p as [k|]; cbn [cnt attached detached filter length];
    unfold attached, detached; cbn [filter length]; repeat match goal with |- context [Nat.eqb ?a ?b] => destruct (Nat.eqb a b) end; cbn [length]; lia.
Qed.

Lemma hstep_balance i s o ev s' : hstep s o = Some (ev, s') -> holders i s + attached i ev = holders i s' + detached i ev.
Proof.
  destruct o as [|p|m|h m|h]; cbn [hstep].
  - intros [= <- <-]. rewrite holders_app, holders_one. cbn. lia.
  - destruct (assign None p) as [ev0 x] eqn:E. intros [= <- <-]. destruct (assign_counts i _ _ _ _ E) as (-> & -> & ->). rewrite holders_app, holders_one. cbn [cnt]. lia.
  - destruct (handle s m) as [p|]; [|discriminate]. destruct (assign None p) as [ev0 x] eqn:E. intros [= <- <-]. destruct (assign_counts i _ _ _ _ E) as (-> & -> & ->).
    rewrite holders_app, holders_one. cbn [cnt]. lia.
  - destruct (handle s h) as [held|] eqn:Eh; [|discriminate]. destruct (handle s m) as [p|]; [|discriminate]. destruct (assign held p) as [ev0 x] eqn:E.
    intros [= <- <-]. destruct (assign_counts i _ _ _ _ E) as (-> & -> & ->). pose proof (holders_set i (Some p) s h held Eh). lia.
  - destruct (handle s h) as [held|] eqn:Eh; [|discriminate]. destruct (assign held None) as [ev0 x] eqn:E. cbn [fst].
    intros [= <- <-]. destruct (assign_counts i _ _ _ _ E) as (_ & -> & ->). pose proof (holders_set i None s h held Eh). cbn [cnt] in *. lia.
Qed.

Theorem hrun_balance i : forall os s evs s', hrun s os = Some (evs, s') -> holders i s + attached i evs = holders i s' + detached i evs.
Proof.
  induction os as [|o os IH]; intros s evs s' H; cbn [hrun] in H.
  - injection H as <- <-. cbn. lia.
  - destruct (hstep s o) as [[ev s1]|] eqn:E; [|discriminate]. destruct (hrun s1 os) as [[ev' s2]|] eqn:E'; [|discriminate]. injection H as <- <-.
    pose proof (hstep_balance i _ _ _ _ E). pose proof (IH _ _ _ E'). rewrite attached_app, detached_app. lia.
Qed.

(** ** Lifetimes *)
Lemma live_app a : forall l b, live_run l (a ++ b) = (let! l' := live_run l a in live_run l' b).
Proof. induction a as [|e a IH]; intros l b; [reflexivity|]. cbn [app live_run]. destruct (live_step l e) as [l'|]; [|reflexivity]. cbn [bind]. apply IH. Qed.

Definition counted (n : nat) : option Z := if Nat.eqb n 0 then None else Some (Z.of_nat n).
Lemma counted_S n : counted (S n) = Some (Z.of_nat (S n)).
Proof. reflexivity. Qed.

(** [l] counts what [f] says *)
Definition counts (l : life) (f : nat -> nat) : Prop := forall i, l i = counted (f i).
Definition bump (f : nat -> nat) (p : option nat) : nat -> nat := fun i => f i + cnt i (Some p).
Definition drop (f : nat -> nat) (p : option nat) : nat -> nat := fun i => f i - cnt i (Some p).

Lemma attach_counts l f j : counts l f -> 0 < f j -> exists l', live_run l [Attach j] = Ok l' /\ counts l' (bump f (Some j)).
Proof.
  intros Hc Hj. cbn [live_run live_step]. rewrite (Hc j). unfold counted. destruct (Nat.eqb_spec (f j) 0); [lia|]. cbn [bind].
  eexists. split; [reflexivity|]. intros i. unfold set_life, bump. cbn [cnt]. rewrite (Nat.eqb_sym i j). destruct (Nat.eqb_spec j i) as [<-|Hn].
  - unfold counted. destruct (Nat.eqb_spec (f j + 1) 0); [lia|]. f_equal. lia.
  - rewrite Nat.add_0_r. apply Hc.
Qed.
Lemma detach_counts l f j : counts l f -> 0 < f j -> exists l', live_run l [Detach j] = Ok l' /\ counts l' (drop f (Some j)).
Proof.
  intros Hc Hj. cbn [live_run live_step]. rewrite (Hc j). unfold counted. destruct (Nat.eqb_spec (f j) 0); [lia|]. cbn [bind].
  eexists. split; [reflexivity|]. intros i. unfold set_life, drop. cbn [cnt]. rewrite (Nat.eqb_sym i j). destruct (Nat.eqb_spec j i) as [<-|Hn].
  - unfold counted. destruct (Z.eqb_spec (Z.of_nat (f j) - 1) 0), (Nat.eqb_spec (f j - 1) 0); try lia; [reflexivity|]. f_equal. lia.
  - rewrite Nat.sub_0_r. apply Hc.
Qed.
Lemma assign_life l f held p : counts l f -> (forall i, held = Some i -> 0 < f i) -> (forall i, p = Some i -> 0 < drop f held i) ->
  exists l', live_run l (fst (assign held p)) = Ok l' /\ counts l' (bump (drop f held) p).
Proof.
  intros Hc H1 H2. unfold assign. cbn [fst]. rewrite live_app.
  assert (Hd : exists l1, live_run l (match held with Some i => [Detach i] | None => [] end) = Ok l1 /\ counts l1 (drop f held)).
  { destruct held as [i|]; [apply detach_counts; [exact Hc|apply H1; reflexivity]|]. exists l. split; [reflexivity|]. intros i. unfold drop. cbn [cnt]. rewrite Nat.sub_0_r. apply Hc. }
  destruct Hd as (l1 & -> & Hc1). cbn [bind]. destruct p as [i|].
  - apply attach_counts; [exact Hc1|apply H2; reflexivity].
  - exists l1. split; [reflexivity|]. intros i. unfold bump. cbn [cnt]. rewrite Nat.add_0_r. apply Hc1.
Qed.

Lemma times_cons i j l : times i (j :: l) = cnt i (Some (Some j)) + times i l.
Proof. unfold times. cbn [filter cnt]. rewrite (Nat.eqb_sym j i). destruct (Nat.eqb i j); reflexivity. Qed.
Lemma times_app i a b : times i (a ++ b) = times i a + times i b.
Proof. unfold times. rewrite filter_app, app_length. reflexivity. Qed.
Lemma times_in i l : In i l -> 0 < times i l.
Proof. intros H. apply in_split in H as (a & b & ->). rewrite times_app, times_cons. cbn [cnt]. rewrite Nat.eqb_refl. lia. Qed.
Lemma times_none i l : ~ In i l -> times i l = 0.
Proof.
  induction l as [|j l IH]; intros H; [reflexivity|]. rewrite times_cons. cbn [cnt]. destruct (Nat.eqb_spec j i) as [->|]; [exfalso; apply H; left; reflexivity|].
  apply IH. intros Hi. apply H. right. exact Hi.
Qed.

Lemma counts_ext l f g : counts l f -> (forall i, f i = g i) -> counts l g.
Proof. intros H E i. rewrite <- E. apply H. Qed.

Theorem history_alive ps own s evs : history ps own s evs ->
  exists l, live_run (fun _ => None) evs = Ok l /\ counts l (fun i => times i own + holders i s).
Proof.
  induction 1 as [|ps own s evs p own' s' evs' H (l & Hl & Hc) Hb Hp]; [exists (fun _ => None); split; [reflexivity|intros i; reflexivity]|].
  rewrite live_app, Hl. cbn [bind].
  inversion Hb as [i Hi Hh|i a b E| | |i Hi|m|h m Hn|h]; subst p; cbn [pstep] in Hp; subst; cbn [hstep] in Hp.
  - injection Hp as <- <-. cbn [live_run live_step]. rewrite (Hc i). rewrite (times_none i own Hi), Hh. cbn [counted Nat.add Nat.eqb bind].
    unfold set_life at 1. rewrite Nat.eqb_refl. cbn [bind]. eexists. split; [reflexivity|]. intros j. unfold set_life. rewrite times_cons. cbn [cnt]. rewrite (Nat.eqb_sym i j).
    destruct (Nat.eqb_spec j i) as [->|]; [|apply Hc]. rewrite (times_none i own Hi), Hh. reflexivity.
  - injection Hp as <- <-. destruct (detach_counts l _ i Hc) as (l' & E & Hc'); [rewrite times_app, times_cons; cbn [cnt]; rewrite Nat.eqb_refl; lia|].
    exists l'. split; [exact E|]. eapply counts_ext; [exact Hc'|]. intros j. unfold drop. cbv beta. rewrite !times_app, times_cons. cbn [cnt]. lia.
  - injection Hp as <- <-. exists l. split; [reflexivity|]. eapply counts_ext; [exact Hc|]. intros j. cbv beta. rewrite holders_app, holders_one. cbn [cnt]. lia.
  - injection Hp as <- <-. exists l. split; [reflexivity|]. eapply counts_ext; [exact Hc|]. intros j. cbv beta. rewrite holders_app, holders_one. cbn [cnt]. lia.
  - destruct (assign_life l _ None (Some i) Hc) as (l' & E & Hc').
    + discriminate.
    + intros j [= <-]. unfold drop. cbn [cnt]. rewrite Nat.sub_0_r. destruct Hi as [Hi|Hi]; [apply times_in in Hi|]; lia.
    + cbn [assign fst app] in E. injection Hp as <- <-. exists l'. split; [exact E|]. eapply counts_ext; [exact Hc'|]. intros j. unfold bump, drop. rewrite holders_app, holders_one. cbn [cnt]. lia.
  - destruct (handle s m) as [p|] eqn:Em; [|discriminate]. destruct (assign None p) as [ev x] eqn:Ea. injection Hp as <- <-.
    destruct (assign_life l _ None p Hc) as (l' & E & Hc').
    + discriminate.
    + intros j ->. unfold drop. cbn [cnt]. rewrite Nat.sub_0_r. apply handle_held in Em. lia.
    + rewrite Ea in E. exists l'. split; [exact E|]. eapply counts_ext; [exact Hc'|]. intros j. destruct (assign_counts j _ _ _ _ Ea) as (-> & _). unfold bump, drop. rewrite holders_app, holders_one. cbn [cnt]. lia.
  - destruct (handle s h) as [held|] eqn:Eh; [|discriminate]. destruct (handle s m) as [p|] eqn:Em; [|discriminate]. destruct (assign held p) as [ev x] eqn:Ea. injection Hp as <- <-.
    destruct (assign_life l _ held p Hc) as (l' & E & Hc').
    + intros j ->. apply handle_held in Eh. lia.
    + intros j ->. unfold drop. destruct held as [k|]; cbn [cnt]; [|apply handle_held in Em; lia]. destruct (Nat.eqb_spec k j) as [->|].
      * pose proof (two_held j s h m Hn Eh Em). lia.
      * apply handle_held in Em. lia.
    + rewrite Ea in E. exists l'. split; [exact E|]. eapply counts_ext; [exact Hc'|]. intros j. destruct (assign_counts j _ _ _ _ Ea) as (-> & _). unfold bump, drop.
      pose proof (holders_set j (Some p) s h held Eh). assert (cnt j (Some held) <= holders j s) by (destruct held as [k|]; cbn [cnt]; [|lia]; destruct (Nat.eqb_spec k j) as [->|]; [apply handle_held in Eh; lia|lia]). lia.
  - destruct (handle s h) as [held|] eqn:Eh; [|discriminate]. destruct (assign_life l _ held None Hc) as (l' & E & Hc').
    + intros j ->. apply handle_held in Eh. lia.
    + discriminate.
    + injection Hp as <- <-. exists l'. split; [exact E|]. eapply counts_ext; [exact Hc'|]. intros j. unfold bump, drop.
      pose proof (holders_set j None s h held Eh). assert (cnt j (Some held) <= holders j s) by (destruct held as [k|]; cbn [cnt]; [|lia]; destruct (Nat.eqb_spec k j) as [->|]; [apply handle_held in Eh; lia|lia]). cbn [cnt] in *. lia.
Qed.
