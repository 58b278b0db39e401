(** * DicdumpProofs: the comparison of two dumps. *)
From Verif Require Import Base Dicdump DicdumpSpec.
Local Open Scope N_scope.

Lemma same_line_iff a b : same_line a b = true <-> a = b.
Proof. unfold same_line. destruct (list_eq_dec N.eq_dec a b); split; congruence. Qed.
Lemma in_other x l : existsb (same_line x) l = true <-> In x l.
Proof.
  rewrite existsb_exists. split; [intros (y & H & E); apply same_line_iff in E; subst; exact H|]. intros H. exists x. split; [exact H|apply same_line_iff; reflexivity].
Qed.

Lemma iter_r {X} k (f : X -> X) x : Nat.iter (S k) f x = Nat.iter k f (f x).
Proof. induction k as [|k IH]; [reflexivity|]. change (f (Nat.iter (S k) f x) = f (Nat.iter k f (f x))). rewrite IH. reflexivity. Qed.

Section Source.
  Context {S : Type} (get : S -> bytes * S).
  Lemma gives_step s l : gives get s l -> exists s', get s = (hd [] l, s') /\ gives get s' (tl l).
  Proof.
    intros (Hn & H). destruct (get s) as [x s'] eqn:E. exists s'. split.
    - specialize (H O). cbn in H. rewrite E in H. cbn in H. subst. destruct l; reflexivity.
    - split; [destruct Hn; [constructor|assumption]|]. intros k. specialize (H (Datatypes.S k)). rewrite iter_r in H. rewrite E in H. cbn in H.
      rewrite H. destruct l; [destruct k|]; reflexivity.
  Qed.
  Lemma load_more_ok room : forall vec s l, gives get s l ->
    exists s', load_more get room vec s = (vec ++ firstn room l, s') /\ gives get s' (skipn room l).
  Proof.
    induction room as [|room IH]; intros vec s l H; cbn [load_more]; [exists s; rewrite app_nil_r; split; [reflexivity|exact H]|].
    destruct (gives_step s l H) as (s' & E & H'). rewrite E. destruct l as [|x l]; cbn [hd tl firstn skipn] in *.
    - exists s'. rewrite app_nil_r. split; [reflexivity|exact H'].
    - destruct H as (Hn & _). inversion Hn as [|? ? Hx Hl]; subst. destruct x as [|c x]; [congruence|].
      destruct (IH (vec ++ [c :: x]) s' l H') as (s2 & E2 & H2). exists s2. split; [etransitivity; [exact E2|rewrite <- app_assoc; reflexivity]|exact H2].
  Qed.
  Lemma load_list_ok vec s lim l : gives get s l ->
    exists s', load_list get vec s lim = (vec ++ firstn (lim - length vec) l, s') /\ gives get s' (skipn (lim - length vec) l).
  Proof. intros H. apply load_more_ok. exact H. Qed.
End Source.

Lemma edit_app a b o a' b' o' : edit a b o -> edit a' b' o' -> edit (a ++ a') (b ++ b') (o ++ o').
Proof. intros H H'. induction H; cbn [app]; [exact H'|constructor; assumption..]. Qed.
Lemma edit_same c : edit c c [].
Proof. induction c; constructor; assumption. Qed.
Lemma edit_lefts c : edit c [] (map Left c).
Proof. induction c; constructor; assumption. Qed.
Lemma edit_rights c : edit [] c (map Right c).
Proof. induction c; constructor; assumption. Qed.

Lemma skip_ok v1 : forall v2 w1 w2, skip_matching v1 v2 = (w1, w2) ->
  exists c, v1 = c ++ w1 /\ v2 = c ++ w2 /\ match w1, w2 with x :: _, y :: _ => x <> y | _, _ => True end.
Proof.
  induction v1 as [|x v1 IH]; intros v2 w1 w2 H; cbn [skip_matching] in H.
  - inversion H; subst. exists []. repeat split. 
  - destruct v2 as [|y v2]; [inversion H; subst; exists []; repeat split|]. destruct (same_line x y) eqn:E.
    + apply same_line_iff in E. subst y. destruct (IH v2 w1 w2 H) as (c & -> & -> & Hd). exists (x :: c). repeat split. exact Hd.
    + inversion H; subst. exists []. repeat split. intros ->. rewrite (proj2 (same_line_iff y y) eq_refl) in E. discriminate.
Qed.
Lemma front_ok how other v : forall out rest, dump_front how v other = (out, rest) ->
  exists c, v = c ++ rest /\ out = map how c /\ (forall x, In x c -> ~ In x other) /\ (rest = [] \/ exists x r, rest = x :: r /\ In x other).
Proof.
  induction v as [|st v IH]; intros out rest H; cbn [dump_front] in H.
  - inversion H; subst. exists []. repeat split; [intros x []|left; reflexivity].
  - destruct (existsb (same_line st) other) eqn:E.
    + inversion H; subst. exists []. repeat split; [intros x []|]. right. exists st, v. split; [reflexivity|apply in_other; exact E].
    + destruct (dump_front how v other) as [o r] eqn:E2. inversion H; subst. destruct (IH _ _ eq_refl) as (c & -> & -> & Hc & Hr). exists (st :: c).
      repeat split; [|exact Hr]. intros x [->|Hx]; [|apply Hc; exact Hx]. intros Hi. apply in_other in Hi. congruence.
Qed.

(** One round of the inner loop. *)
Lemma round_ok v1 v2 w1 w2 o1 o2 r1 r2 : skip_matching v1 v2 = (w1, w2) -> dump_front Left w1 w2 = (o1, r1) -> dump_front Right w2 r1 = (o2, r2) ->
  exists c a b, v1 = c ++ a ++ r1 /\ v2 = c ++ b ++ r2 /\ o1 = map Left a /\ o2 = map Right b /\
    (forall x, In x a -> ~ In x (b ++ r2)) /\ (forall x, In x b -> ~ In x r1) /\
    match r1, r2 with
    | [], [] => True
    | x :: _, y :: _ => In x r2 /\ In y r1 /\ (c = [] -> a = [] -> b = [] -> x <> y)
    | _, _ => False
    end.
Proof.
  intros H1 H2 H3. destruct (skip_ok _ _ _ _ H1) as (c & -> & -> & Hd). destruct (front_ok _ _ _ _ _ H2) as (a & -> & -> & Ha & Hr1).
  destruct (front_ok _ _ _ _ _ H3) as (b & -> & -> & Hb & Hr2). exists c, a, b. repeat split; auto.
  destruct Hr1 as [->|(x & r & -> & Hx)].
  - destruct Hr2 as [->|(y & r' & -> & Hy)]; [exact I|destruct Hy].
  - assert (Hx2 : In x r2). { apply in_app_or in Hx as [Hx|Hx]; [|exact Hx]. exfalso. apply (Hb x Hx). left. reflexivity. }
    destruct Hr2 as [->|(y & r' & -> & Hy)]; [destruct Hx2|]. repeat split; auto. intros -> -> ->. exact Hd.
Qed.

Ltac conjs := repeat match goal with |- _ /\ _ => split end; try reflexivity; try assumption.

Section Diff.
  Context {S1 S2 : Type} (get1 : S1 -> bytes * S1) (get2 : S2 -> bytes * S2).
  Notation compare := (compare_lists get1 get2).
  Notation diff := (dump_diff get1 get2).

  Definition both_nonempty (v1 v2 : list bytes) := v1 <> [] /\ v2 <> [].

  Lemma compare_S fuel x v1 y v2 s1 s2 : compare (S fuel) (x :: v1) (y :: v2) s1 s2 =
    (let '(v1, v2) := skip_matching (x :: v1) (y :: v2) in
     let '(out1, v1) := dump_front Left v1 v2 in
     let '(out2, v2) := dump_front Right v2 v1 in
     let '(v1, s1) := load_list get1 v1 s1 (length v2) in
     let '(v2, s2) := load_list get2 v2 s2 (length v1) in
     match compare fuel v1 v2 s1 s2 with
     | None => None
     | Some (out, v1, v2, s1, s2) => Some (out1 ++ out2 ++ out, v1, v2, s1, s2)
     end).
  Proof. reflexivity. Qed.

  (** A round in terms of the lines still to come. *)
  Lemma compare_round fuel x v1 y v2 s1 s2 l1 l2 : gives get1 s1 l1 -> gives get2 s2 l2 ->
    exists c a b r1 r2 n m s1' s2', 
      let v1' := r1 ++ firstn n l1 in let v2' := r2 ++ firstn m l2 in
      gives get1 s1' (skipn n l1) /\ gives get2 s2' (skipn m l2) /\
      x :: v1 = c ++ a ++ r1 /\ y :: v2 = c ++ b ++ r2 /\
      (forall x, In x a -> ~ In x (b ++ r2)) /\ (forall x, In x b -> ~ In x r1) /\
      (r1 = [] /\ r2 = [] /\ v1' = [] /\ v2' = [] \/
       exists x y r1' r2', r1 = x :: r1' /\ r2 = y :: r2' /\ In x r2 /\ In y r1 /\ (c = [] -> a = [] -> b = [] -> x <> y)) /\
      compare (S fuel) (x :: v1) (y :: v2) s1 s2 =
        match compare fuel v1' v2' s1' s2' with
        | None => None
        | Some (out, v1, v2, s1, s2) => Some (map Left a ++ map Right b ++ out, v1, v2, s1, s2)
        end.
  Proof.
    intros G1 G2. rewrite compare_S. destruct (skip_matching (x :: v1) (y :: v2)) as [w1 w2] eqn:E1. destruct (dump_front Left w1 w2) as [o1 r1] eqn:E2.
    destruct (dump_front Right w2 r1) as [o2 r2] eqn:E3. destruct (round_ok _ _ _ _ _ _ _ _ E1 E2 E3) as (c & a & b & Hv1 & Hv2 & -> & -> & Ha & Hb & Hr).
    destruct (load_list_ok get1 r1 s1 (length r2) l1 G1) as (s1' & L1 & G1'). rewrite L1.
    set (v1' := r1 ++ firstn (length r2 - length r1) l1).
    destruct (load_list_ok get2 r2 s2 (length v1') l2 G2) as (s2' & L2 & G2'). rewrite L2.
    exists c, a, b, r1, r2, (length r2 - length r1)%nat, (length v1' - length r2)%nat, s1', s2'. cbv zeta. do 6 (split; [assumption|]). split; [|reflexivity].
    subst v1'. destruct r1 as [|x1 r1], r2 as [|y1 r2]; try destruct Hr; [left|right]; [conjs|]. destruct H0. exists x1, y1, r1, r2. conjs; assumption.
  Qed.

  Lemma compare_edit fuel : forall v1 v2 s1 s2 l1 l2 out v1' v2' s1' s2', gives get1 s1 l1 -> gives get2 s2 l2 ->
    v1 <> [] /\ v2 <> [] \/ v1 = [] /\ v2 = [] -> compare fuel v1 v2 s1 s2 = Some (out, v1', v2', s1', s2') ->
    v1' = [] /\ v2' = [] /\ exists a b l1' l2', v1 ++ l1 = a ++ l1' /\ v2 ++ l2 = b ++ l2' /\ gives get1 s1' l1' /\ gives get2 s2' l2' /\ edit a b out /\
      (length v1 <= length a)%nat /\ (length v2 <= length b)%nat.
  Proof.
    induction fuel as [|fuel IH]; intros v1 v2 s1 s2 l1 l2 out v1' v2' s1' s2' G1 G2 Hv H.
    - destruct Hv as [(N1 & N2)|(-> & ->)]; [destruct v1, v2; try congruence; discriminate|]. cbn in H. inversion H; subst. conjs.
      exists [], [], l1, l2. conjs; try assumption; constructor.
    - destruct Hv as [(N1 & N2)|(-> & ->)]; [|cbn in H; inversion H; subst; conjs; exists [], [], l1, l2; conjs; try assumption; constructor].
      destruct v1 as [|x v1], v2 as [|y v2]; try congruence.
      destruct (compare_round fuel x v1 y v2 s1 s2 l1 l2 G1 G2) as (c & a & b & r1 & r2 & n & m & t1 & t2 & G1' & G2' & E1 & E2 & _ & _ & Hr & E). rewrite E in H.
      destruct (compare fuel (r1 ++ firstn n l1) (r2 ++ firstn m l2) t1 t2) as [[[[[o w1] w2] u1] u2]|] eqn:EC; [|discriminate]. inversion H; subst.
      apply (IH _ _ _ _ _ _ _ _ _ _ _ G1' G2') in EC.
      + destruct EC as (-> & -> & a' & b' & l1' & l2' & F1 & F2 & K1 & K2 & HE & HL1 & HL2). conjs. exists (c ++ a ++ a'), (c ++ b ++ b'), l1', l2'.
        rewrite E1, E2. rewrite <- !app_assoc. rewrite <- F1, <- F2. rewrite <- !app_assoc, !firstn_skipn. conjs; try assumption;
          [|rewrite !app_length in *; lia..].
        apply (edit_app c c []); [apply edit_same|]. change (edit (a ++ a') ([] ++ b ++ b') (map Left a ++ map Right b ++ o)). apply edit_app; [apply edit_lefts|].
        change (edit ([] ++ a') (b ++ b') (map Right b ++ o)). apply edit_app; [apply edit_rights|exact HE].
      + destruct Hr as [(-> & -> & H1 & H2)|(x1 & y1 & r1' & r2' & -> & -> & _)]; [right; auto|left; split; discriminate].
  Qed.

  (** empty lines are no lines *)
  Definition proper (l : list bytes) : list bytes := filter (fun x => match x with [] => false | _ => true end) l.
  Lemma proper_app a b : proper (a ++ b) = proper a ++ proper b.
  Proof. apply filter_app. Qed.
  Lemma proper_all l : Forall (fun x => x <> []) l -> proper l = l.
  Proof. induction 1 as [|x l Hx H IH]; [reflexivity|]. unfold proper in *. cbn [filter]. destruct x; [congruence|]. rewrite IH. reflexivity. Qed.
  Lemma edit_proper a b o : edit a b o -> edit (proper a) (proper b) o.
  Proof. induction 1; try (constructor; assumption); destruct x; cbn; try (constructor; assumption); assumption. Qed.

  Lemma diff_S fuel s1 s2 : diff (S fuel) s1 s2 =
    (let '(l1, s1) := get1 s1 in
        let '(l2, s2) := get2 s2 in
        match l1, l2 with
        | [], [] => Some []
        | _, _ =>
            if same_line l1 l2 then diff fuel s1 s2
            else
              let '(v1, s1) := load_list get1 [l1] s1 1024 in
              let '(v2, s2) := load_list get2 [l2] s2 1024 in
              match compare (S fuel) v1 v2 s1 s2 with
              | None => None
              | Some (out, [], [], s1, s2) => option_map (app out) (diff fuel s1 s2)
              | Some (out, _, _, _, _) => Some (out ++ [Too_big])
              end
        end).
  Proof. reflexivity. Qed.

  (** A round of the outer loop in terms of the lines still to come. *)
  Lemma diff_round fuel s1 s2 l1 l2 : gives get1 s1 l1 -> gives get2 s2 l2 ->
    exists s1' s2',
      match l1, l2 with
      | [], [] => diff (S fuel) s1 s2 = Some []
      | _, _ =>
          if same_line (hd [] l1) (hd [] l2)
          then gives get1 s1' (tl l1) /\ gives get2 s2' (tl l2) /\ diff (S fuel) s1 s2 = diff fuel s1' s2'
          else let v1 := hd [] l1 :: firstn 1023 (tl l1) in let v2 := hd [] l2 :: firstn 1023 (tl l2) in
               gives get1 s1' (skipn 1023 (tl l1)) /\ gives get2 s2' (skipn 1023 (tl l2)) /\
               diff (S fuel) s1 s2 =
                 match compare (S fuel) v1 v2 s1' s2' with
                 | None => None
                 | Some (out, _, _, s1, s2) => option_map (app out) (diff fuel s1 s2)
                 end
      end.
  Proof.
    intros G1 G2. destruct (gives_step get1 s1 l1 G1) as (t1 & E1 & K1). destruct (gives_step get2 s2 l2 G2) as (t2 & E2 & K2). rewrite diff_S, E1, E2.
    destruct (same_line (hd [] l1) (hd [] l2)) eqn:Es.
    - exists t1, t2. destruct G1 as (N1 & _), G2 as (N2 & _). destruct l1 as [|x l1], l2 as [|y l2]; cbn [hd tl] in *; [reflexivity| | |].
      + inversion N2; subst. destruct y; [congruence|]. conjs; assumption.
      + inversion N1; subst. destruct x; [congruence|]. conjs; assumption.
      + inversion N1; subst. destruct x; [congruence|]. conjs; assumption.
    - pose (h1 := hd [] l1 : bytes). pose (h2 := hd [] l2 : bytes). change (hd [] l1) with h1 in Es |- *. change (hd [] l2) with h2 in Es |- *. assert (D1 : h1 = hd [] l1) by reflexivity. assert (D2 : h2 = hd [] l2) by reflexivity. clearbody h1 h2. destruct (load_list_ok get1 [h1] t1 1024 (tl l1) K1) as (u1 & F1 & H1). destruct (load_list_ok get2 [h2] t2 1024 (tl l2) K2) as (u2 & F2 & H2).
      exists u1, u2. rewrite F1, F2. change (1024 - length [h1])%nat with 1023%nat in *. change (1024 - length [h2])%nat with 1023%nat in *.
      cbn [app]. set (v1 := h1 :: firstn 1023 (tl l1)) in *. set (v2 := h2 :: firstn 1023 (tl l2)) in *.
      assert (HC : match compare (S fuel) v1 v2 u1 u2 with
                   | None => None
                   | Some (out, [], [], s1, s2) => option_map (app out) (diff fuel s1 s2)
                   | Some (out, _, _, _, _) => Some (out ++ [Too_big])
                   end = match compare (S fuel) v1 v2 u1 u2 with None => None | Some (out, _, _, s1, s2) => option_map (app out) (diff fuel s1 s2) end).
      { assert (V1 : v1 <> []) by (unfold v1; discriminate). assert (V2 : v2 <> []) by (unfold v2; discriminate). clearbody v1 v2. clear - H1 H2 V1 V2.
        destruct (compare (S fuel) v1 v2 u1 u2) as [[[[[o w1] w2] x1] x2]|] eqn:EC; [|reflexivity].
        destruct (compare_edit _ _ _ _ _ _ _ _ _ _ _ _ H1 H2 (or_introl (conj V1 V2)) EC) as (-> & -> & _). reflexivity. }
      assert (Hnn : h1 <> [] \/ h2 <> []). { destruct (h1) eqn:A; [|left; discriminate]. destruct (h2) eqn:B; [|right; discriminate]. discriminate. }
      assert (Hm : forall (X : Type) (p q : X), match h1, h2 with [], [] => p | _, _ => q end = q).
      { intros X p q. destruct (h1); [|reflexivity]. destruct (h2); [|reflexivity]. destruct Hnn; congruence. }
      rewrite Hm, HC. destruct l1, l2; [subst h1 h2; cbn in Es; discriminate|split; [exact H1|split; [exact H2|reflexivity]]..].
  Qed.

  Lemma diff_edit fuel : forall s1 s2 l1 l2 out, gives get1 s1 l1 -> gives get2 s2 l2 -> diff fuel s1 s2 = Some out -> edit l1 l2 out.
  Proof.
    induction fuel as [|fuel IH]; intros s1 s2 l1 l2 out G1 G2 H; [discriminate|].
    pose proof (proj1 G1) as N1. pose proof (proj1 G2) as N2.
    destruct (diff_round fuel s1 s2 l1 l2 G1 G2) as (t1 & t2 & HR).
    assert (Hd : (l1 = [] /\ l2 = []) \/ ~ (l1 = [] /\ l2 = [])) by (destruct l1, l2; [left; auto|right; intros []; discriminate..]).
    destruct Hd as [(-> & ->)|Hd]; [rewrite HR in H; inversion H; constructor|].
    assert (HR' : if same_line (hd [] l1) (hd [] l2)
          then gives get1 t1 (tl l1) /\ gives get2 t2 (tl l2) /\ diff (S fuel) s1 s2 = diff fuel t1 t2
          else let v1 := hd [] l1 :: firstn 1023 (tl l1) in let v2 := hd [] l2 :: firstn 1023 (tl l2) in
               gives get1 t1 (skipn 1023 (tl l1)) /\ gives get2 t2 (skipn 1023 (tl l2)) /\
               diff (S fuel) s1 s2 =
                 match compare (S fuel) v1 v2 t1 t2 with
                 | None => None
                 | Some (out, _, _, s1, s2) => option_map (app out) (diff fuel s1 s2)
                 end) by (destruct l1, l2; [exfalso; apply Hd; auto|exact HR..]). clear HR.
    destruct (same_line (hd [] l1) (hd [] l2)) eqn:Es.
    - destruct HR' as (K1 & K2 & E). rewrite E in H. apply same_line_iff in Es. specialize (IH _ _ _ _ _ K1 K2 H).
      destruct l1 as [|x l1], l2 as [|y l2]; cbn [hd tl] in *; [exfalso; apply Hd; auto|inversion N2; congruence|inversion N1; congruence|subst; constructor; exact IH].
    - cbv zeta in HR'. destruct HR' as (K1 & K2 & E). rewrite E in H. set (v1 := hd [] l1 :: firstn 1023 (tl l1)) in *. set (v2 := hd [] l2 :: firstn 1023 (tl l2)) in *.
      assert (V1 : v1 <> []) by (unfold v1; discriminate). assert (V2 : v2 <> []) by (unfold v2; discriminate).
      destruct (compare (S fuel) v1 v2 t1 t2) as [[[[[o w1] w2] x1] x2]|] eqn:EC; [|discriminate].
      destruct (diff fuel x1 x2) as [o2|] eqn:ED; [|discriminate]. cbn in H. inversion H; subst.
      destruct (compare_edit _ _ _ _ _ _ _ _ _ _ _ _ K1 K2 (or_introl (conj V1 V2)) EC) as (-> & -> & a & b & l1' & l2' & F1 & F2 & M1 & M2 & HE & _ & _).
      specialize (IH _ _ _ _ _ M1 M2 ED). unfold v1 in F1. unfold v2 in F2. rewrite <- app_comm_cons, firstn_skipn in F1, F2.
      assert (P1 : proper (hd [] l1 :: tl l1) = l1). { destruct l1 as [|x l1]; [reflexivity|]. apply proper_all. exact N1. }
      assert (P2 : proper (hd [] l2 :: tl l2) = l2). { destruct l2 as [|x l2]; [reflexivity|]. apply proper_all. exact N2. }
      rewrite F1, proper_app, (proper_all l1') in P1 by apply M1. rewrite F2, proper_app, (proper_all l2') in P2 by apply M2.
      rewrite <- P1, <- P2. apply edit_app; [apply edit_proper; exact HE|exact IH].
  Qed.
End Diff.
