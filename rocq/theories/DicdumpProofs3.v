(** * DicdumpProofs3: reading a dump, and the comparisons that go wrong. *)
From Verif Require Import Base Dicdump DicdumpSpec DicdumpProofs DicdumpProofs2.
Local Open Scope N_scope.

(** ** a source described by a relation *)
Lemma gives_by {S} (get : S -> bytes * S) (R : S -> list bytes -> Prop) :
  (forall s l, R s l -> exists s', get s = (hd [] l, s') /\ R s' (tl l)) -> (forall s l, R s l -> Forall (fun x => x <> []) l) ->
  forall s l, R s l -> gives get s l.
Proof.
  intros Hs Hn s l H. split; [exact (Hn s l H)|]. intros k. revert s l H. induction k as [|k IH]; intros s l H.
  - destruct (Hs s l H) as (s' & E & _). cbn. rewrite E. cbn. destruct l; reflexivity.
  - destruct (Hs s l H) as (s' & E & H'). rewrite iter_r, E. cbn [snd]. rewrite (IH s' (tl l) H'). destruct l; [destruct k|]; reflexivity.
Qed.
Lemma gives_iff {S} (get : S -> bytes * S) s l l' : gives get s l -> gives get s l' -> l = l'.
Proof.
  revert s l'. induction l as [|x l IH]; intros s l' H H'.
  - destruct (gives_step get s [] H) as (t & E & _). destruct (gives_step get s l' H') as (t' & E' & _). destruct l' as [|y l']; [reflexivity|].
    rewrite E in E'. cbn in E'. injection E' as E' _. pose proof (proj1 H') as F. inversion F. congruence.
  - destruct (gives_step get s _ H) as (t & E & K). destruct (gives_step get s l' H') as (t' & E' & K'). rewrite E in E'. cbn [hd tl] in *. injection E' as E1 ->.
    destruct l' as [|y l']; [pose proof (proj1 H) as F; inversion F; cbn in E1; congruence|]. cbn [hd tl] in *. subst y. f_equal. exact (IH _ _ K K').
Qed.

(** ** reading the file *)
Lemma fgets_line n : forall x t, ~ In 10 x -> fgets n (x ++ 10 :: t) = if (length x <? n)%nat then (x ++ [10], t) else (firstn n x, skipn n x ++ 10 :: t).
Proof.
  induction n as [|n IH]; intros x t Hx; [reflexivity|]. destruct x as [|c x]; [reflexivity|]. cbn [fgets app]. replace (c =? 10) with false.
  2: { symmetry. apply N.eqb_neq. intros ->. apply Hx. left. reflexivity. }
  rewrite IH by (intros H; apply Hx; right; exact H). change (length (c :: x) <? S n)%nat with (length x <? n)%nat. destruct (length x <? n)%nat; reflexivity.
Qed.
Lemma fgets_tail n : forall x, ~ In 10 x -> fgets n x = (firstn n x, skipn n x).
Proof.
  induction n as [|n IH]; intros x Hx; [reflexivity|]. destruct x as [|c x]; [reflexivity|]. cbn [fgets firstn skipn]. replace (c =? 10) with false.
  2: { symmetry. apply N.eqb_neq. intros ->. apply Hx. left. reflexivity. }
  rewrite IH by (intros H; apply Hx; right; exact H). reflexivity.
Qed.
Lemma c_string_all t : ~ In 0 t -> c_string t = t.
Proof.
  induction t as [|c t IH]; [reflexivity|]. intros H. cbn [c_string]. replace (c =? 0) with false; [rewrite IH; [reflexivity|intros K; apply H; right; exact K]|].
  symmetry. apply N.eqb_neq. intros ->. apply H. left. reflexivity.
Qed.
Lemma chomp_line x : ~ In 0 x -> chomp (x ++ [10]) = (x, true).
Proof.
  intros H. unfold chomp. rewrite c_string_all by (intros K; apply in_app_or in K as [K|[K|[]]]; [exact (H K)|discriminate]). rewrite rev_app_distr. cbn [rev app]. change (10 =? 10) with true. cbv iota.
  rewrite rev_involutive. reflexivity.
Qed.
Lemma chomp_part x : ~ In 0 x -> ~ In 10 x -> chomp x = (x, false).
Proof.
  intros H H'. unfold chomp. rewrite c_string_all by exact H. destruct (rev x) as [|c r] eqn:E; [reflexivity|]. replace (c =? 10) with false; [reflexivity|].
  symmetry. apply N.eqb_neq. intros ->. apply H'. apply in_rev. rewrite E. left. reflexivity.
Qed.
Lemma in_firstn {X} n (x : X) l : In x (firstn n l) -> In x l.
Proof. intros H. rewrite <- (firstn_skipn n l). apply in_or_app. left. exact H. Qed.
Lemma in_skipn {X} n (x : X) l : In x (skipn n l) -> In x l.
Proof. intros H. rewrite <- (firstn_skipn n l). apply in_or_app. right. exact H. Qed.

Lemma loop_S fuel output t : queue_loop (S fuel) output t =
  match t with
  | [] => (output, [])
  | _ => let '(chunk, rest) := fgets 1023 t in let '(piece, ended) := chomp chunk in
         if ended then (output ++ piece, rest) else queue_loop fuel (output ++ piece) rest
  end.
Proof. reflexivity. Qed.
Lemma loop_line fuel : forall output x t, ~ In 10 x -> ~ In 0 x -> (length x < fuel)%nat -> queue_loop fuel output (x ++ 10 :: t) = (output ++ x, t).
Proof.
  induction fuel as [|fuel IH]; intros output x t H10 H0 Hf; [lia|]. rewrite loop_S.
  destruct (x ++ 10 :: t) as [|c r] eqn:E; [destruct x; discriminate|]. rewrite <- E. rewrite fgets_line by exact H10.
  remember 1023%nat as n eqn:En. assert (Hn : (0 < n)%nat) by lia. clear En. destruct (length x <? n)%nat eqn:El.
  - rewrite chomp_line by exact H0. reflexivity.
  - apply Nat.ltb_ge in El. rewrite chomp_part by (intros K; apply in_firstn in K; auto). rewrite IH.
    + rewrite <- app_assoc, firstn_skipn. reflexivity.
    + intros K. apply in_skipn in K. auto.
    + intros K. apply in_skipn in K. auto.
    + rewrite skipn_length. lia.
Qed.
Lemma loop_tail fuel : forall output x, ~ In 10 x -> ~ In 0 x -> (length x < fuel)%nat -> queue_loop fuel output x = (output ++ x, []).
Proof.
  induction fuel as [|fuel IH]; intros output x H10 H0 Hf; [lia|]. rewrite loop_S. destruct x as [|c x]; [rewrite app_nil_r; reflexivity|].
  rewrite fgets_tail by exact H10. remember 1023%nat as n eqn:En. assert (Hn : (0 < n)%nat) by lia. clear En.
  rewrite chomp_part by (intros K; apply in_firstn in K; auto). rewrite IH.
  - rewrite <- app_assoc, firstn_skipn. reflexivity.
  - intros K. apply in_skipn in K. auto.
  - intros K. apply in_skipn in K. auto.
  - rewrite skipn_length. cbn [length] in *. lia.
Qed.

Lemma queue_gives t l : lines_of t l -> ~ In 0 t -> gives queue_get t l.
Proof.
  intros H H0. refine (gives_by queue_get (fun t l => lines_of t l /\ ~ In 0 t) _ _ t l (conj H H0)).
  - clear. intros t l (H & H0). destruct H as [|x Hx H10|x t l Hx H10 H]; cbn [hd tl].
    + exists []. split; [reflexivity|]. split; [constructor|intros []].
    + exists []. split; [|split; [constructor|intros []]]. unfold queue_get. rewrite loop_tail by (auto; lia). reflexivity.
    + exists t. split; [|split; [exact H|intros K; apply H0, in_or_app; right; right; exact K]]. unfold queue_get.
      rewrite loop_line; [reflexivity|exact H10|intros K; apply H0, in_or_app; left; exact K|rewrite app_length; cbn [length]; lia].
  - clear. intros t l (H & _). induction H; repeat constructor; assumption.
Qed.

(** ** a crossed pair never ends *)
Section Crossed.
  Context {S1 S2 : Type} (get1 : S1 -> bytes * S1) (get2 : S2 -> bytes * S2).
  Lemma crossed_lists a b : a <> b -> forall fuel s1 s2, compare_lists get1 get2 fuel [a; b] [b; a] s1 s2 = None.
  Proof.
    intros H. assert (Hab : same_line a b = false) by (destruct (same_line a b) eqn:E; [apply same_line_iff in E; congruence|reflexivity]).
    assert (Hba : same_line b a = false) by (destruct (same_line b a) eqn:E; [apply same_line_iff in E; congruence|reflexivity]).
    assert (Haa : forall x, same_line x x = true) by (intros x; apply same_line_iff; reflexivity).
    induction fuel as [|fuel IH]; intros s1 s2; [reflexivity|].
    rewrite compare_S. cbn [skip_matching]. rewrite Hab. cbn [dump_front existsb]. rewrite Hab, Haa. cbn [orb]. cbn [dump_front existsb]. rewrite Hba, Haa. cbn [orb].
    unfold load_list. cbn [length Nat.sub load_more]. rewrite IH. reflexivity.
  Qed.
  Lemma crossed_never a b s1 s2 : a <> b -> gives get1 s1 [a; b] -> gives get2 s2 [b; a] -> forall fuel, dump_diff get1 get2 fuel s1 s2 = None.
  Proof.
    intros H G1 G2 [|fuel]; [reflexivity|]. remember [a; b] as l1 eqn:D1. remember [b; a] as l2 eqn:D2.
    assert (N1 : l1 <> []) by (intros X; rewrite D1 in X; discriminate X).
    destruct (diff_step get1 get2 fuel s1 s2 l1 l2 G1 G2 (or_introl N1)) as (t1 & t2 & [(x & E1 & E2 & _)|(_ & v1 & v2 & r1 & r2 & Ev1 & Ev2 & Er1 & Er2 & _ & _ & K1 & K2 & E)]).
    - rewrite D1 in E1. rewrite D2 in E2. congruence.
    - rewrite E. clear E. remember 1023%nat as n eqn:En. assert (Hn : (2 <= n)%nat) by lia. clear En.
      assert (F1 : firstn n (tl l1) = [b]) by (rewrite D1; apply firstn_all2; cbn [tl length]; lia). assert (F2 : firstn n (tl l2) = [a]) by (rewrite D2; apply firstn_all2; cbn [tl length]; lia).
      rewrite F1 in Ev1. rewrite F2 in Ev2. assert (V1 : v1 = [a; b]) by (rewrite Ev1, D1; reflexivity). assert (V2 : v2 = [b; a]) by (rewrite Ev2, D2; reflexivity).
      rewrite V1, V2, crossed_lists by exact H. reflexivity.
  Qed.
End Crossed.

Lemma diff_same {S1 S2} (get1 : S1 -> bytes * S1) (get2 : S2 -> bytes * S2) : forall l s1 s2, gives get1 s1 l -> gives get2 s2 l ->
  forall fuel, (length l < fuel)%nat -> dump_diff get1 get2 fuel s1 s2 = Some [].
Proof.
  induction l as [|x l IH]; intros s1 s2 G1 G2 [|fuel] Hf; try (cbn [length] in Hf; lia).
  - destruct (diff_round get1 get2 fuel s1 s2 [] [] G1 G2) as (t1 & t2 & E). exact E.
  - remember (x :: l) as l1 eqn:D1. assert (N1 : l1 <> []) by (intros X; rewrite D1 in X; discriminate X).
    destruct (diff_step get1 get2 fuel s1 s2 l1 l1 G1 G2 (or_introl N1)) as (t1 & t2 & [(y & _ & _ & K1 & K2 & E)|(Hne & _)]); [|congruence]. clear N1.
    rewrite D1 in K1, K2. cbn [tl] in K1, K2. rewrite D1 in Hf.
    rewrite E. apply IH; [exact K1|exact K2|cbn [length] in Hf; lia].
Qed.
