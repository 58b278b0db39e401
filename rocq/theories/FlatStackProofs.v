(** The explicit-stack walk and the recursive walk are the same function. *)
From Verif Require Import Base Serial WordTree FlatScan FlatStack.
Local Open Scope N_scope.

Section Eq.
  Context {St : Type} (w : cwidth) (doitem : St -> bytes -> frag -> res (St * Z)) (capacity : nat).
  Notation run := (run w doitem capacity).
  Notation push := (push w capacity).

  Definition after (m : res (St * Z)) (below : list frame) (fuel : nat) : option (res (St * Z)) :=
    match m with
    | Ub => Some Ub
    | Ok (s', r) => if Z.eqb r 0 then run fuel below s' else Some (Ok (s', r))
    end.

  Lemma level_machine below src ch upper (descend : bytes -> St -> res (St * Z)) :
    (forall p s below', length below' = S (length below) ->
       exists k, forall k', match push p (fnext src) below' with
                            | Ub => Some Ub
                            | Ok st => run (k + k') st s
                            end = after (descend p s) below' k') ->
    forall n p s,
    exists k, forall k',
      run (S k + k') (Frame src ch p upper n :: below) s =
      after (scan_level doitem ch upper src descend n p s) below k'.
  Proof.
    intros Hd n. induction n as [|n IH]; intros p s; cbn [scan_level].
    - exists 0%nat. intros k'. cbn [plus FlatStack.run s_ch s_upper s_count s_dic findchar].
      destruct upper; cbn [s_str].
      + unfold after. destruct (doitem s p src) as [[s' r]|]; reflexivity.
      + reflexivity.
    - destruct (getchild p) as [[[c subdic] p']|] eqn:Eg.
      2:{ exists 0%nat. intros k'. cbn [plus FlatStack.run s_ch s_upper s_count s_dic findchar].
          rewrite Eg. reflexivity. }
      cbn [bind].
      destruct (N.eqb_spec ch c) as [->|Hne].
      + destruct (Hd subdic s (Frame src c p' upper n :: below) eq_refl) as [k1 Hk1].
        destruct (descend subdic s) as [[s' r]|] eqn:Ed.
        * destruct (Z.eqb_spec r 0) as [->|Hr].
          -- destruct (IH p' s') as [k2 Hk2]. exists (k1 + S k2)%nat. intros k'.
             replace (S (k1 + S k2) + k')%nat with (S (k1 + (S k2 + k'))) by lia.
             cbn [FlatStack.run s_ch s_upper s_count s_dic findchar]. rewrite Eg. cbn [bind].
             rewrite N.eqb_refl. cbn [s_str]. rewrite Hk1. cbn [after Z.eqb bind]. rewrite Hk2. reflexivity.
          -- exists k1. intros k'. replace (S k1 + k')%nat with (S (k1 + k')) by lia.
             cbn [FlatStack.run s_ch s_upper s_count s_dic findchar]. rewrite Eg. cbn [bind].
             rewrite N.eqb_refl. cbn [s_str]. rewrite Hk1. cbn [after bind].
             destruct (Z.eqb_spec r 0); [contradiction|]. cbn [after].
             destruct (Z.eqb_spec r 0); [contradiction|reflexivity].
        * exists k1. intros k'. replace (S k1 + k')%nat with (S (k1 + k')) by lia.
          cbn [FlatStack.run s_ch s_upper s_count s_dic findchar]. rewrite Eg. cbn [bind].
          rewrite N.eqb_refl. cbn [s_str]. rewrite Hk1. reflexivity.
      + destruct ((c <? ch) && negb upper) eqn:Eb.
        * exists 0%nat. intros k'. cbn [plus FlatStack.run s_ch s_upper s_count s_dic findchar].
          rewrite Eg. cbn [bind]. destruct (N.eqb_spec ch c); [contradiction|]. rewrite Eb.
          destruct upper; [rewrite andb_false_r in Eb; discriminate|]. reflexivity.
        * destruct (IH p' s) as [k Hk]. exists k. intros k'. rewrite <- Hk.
          cbn [plus FlatStack.run s_ch s_upper s_count s_dic findchar].
          rewrite Eg. cbn [bind]. destruct (N.eqb_spec ch c); [contradiction|]. rewrite Eb. reflexivity.
  Qed.

  Lemma tree_machine d : forall below thedic src s,
    (length below + d)%nat = capacity ->
    exists k, forall k',
      match push thedic src below with Ub => Some Ub | Ok st => run (k + k') st s end =
      after (scan_tree w doitem d thedic src s) below k'.
  Proof.
    induction d as [|d IH]; intros below thedic src s Hl.
    - exists 0%nat. intros k'. unfold FlatStack.push.
      destruct (Nat.ltb_spec (length below) capacity); [lia|reflexivity].
    - cbn [scan_tree]. unfold FlatStack.push, setlevel.
      destruct (Nat.ltb_spec (length below) capacity); [|lia].
      destruct (getcounter w thedic) as [[a p]|]; [|exists 0%nat; reflexivity]. cbn [bind].
      destruct (chfind src) as [ch|]; [|exists 0%nat; reflexivity]. cbn [bind].
      destruct (level_machine below src ch (hasupper w a)
                  (fun subdic s => scan_tree w doitem d subdic (fnext src) s)) with (n := getlower w a) (p := p) (s := s)
        as [k Hk].
      + intros p0 s0 below' Hlb. apply IH. lia.
      + exists (S k). exact Hk.
  Qed.

  Theorem machine_is_scan thedic src s :
    exists k, forall k', (k <= k')%nat ->
      scan_machine w doitem capacity k' thedic src s = Some (scan_tree w doitem capacity thedic src s).
  Proof.
    destruct (tree_machine capacity [] thedic src s eq_refl) as [k Hk].
    exists (S k). intros k' Hle. unfold scan_machine.
    specialize (Hk (S (k' - S k))). replace (k + S (k' - S k))%nat with k' in Hk by lia.
    unfold after in Hk. cbn [FlatStack.run] in Hk.
    replace (Some (scan_tree w doitem capacity thedic src s)) with
      (match scan_tree w doitem capacity thedic src s with
       | Ok (s', r) => if Z.eqb r 0 then Some (Ok (s', 0%Z)) else Some (Ok (s', r))
       | Ub => Some Ub end).
    - exact Hk.
    - destruct (scan_tree w doitem capacity thedic src s) as [[s' r]|]; [|reflexivity].
      destruct (Z.eqb_spec r 0) as [Hr|]; [rewrite Hr|]; reflexivity.
  Qed.
End Eq.
