(** * CapProofs: proofs about capitalisation. *)
From Verif Require Import Base CharTables CapScheme CapSpec.
Local Open Scope N_scope.

Section Proofs.
  Variable cs : casing.
  Notation parts := (parts cs).
  Notation dlm c := (ctype cs c =? 2).

  Definition nodelim (p : bytes) : Prop := Forall (fun c => dlm c = false) p.
  Definition fin (p : bytes) : N := capstate (fold_left (fun s c => capstate s (ctype cs c)) p 0) 2.

  Lemma parts_nonnil w : parts w <> [].
  Proof. destruct w as [|c w]; cbn; [discriminate|]. destruct (dlm c); [discriminate|]. destruct (parts w); discriminate. Qed.

  Lemma parts_nodelim p : nodelim p -> parts p = [p].
  Proof. induction 1 as [|c p Hc Hp IH]; [reflexivity|]. cbn. rewrite Hc, IH. reflexivity. Qed.

  Lemma parts_app p d w : nodelim p -> dlm d = true -> parts (p ++ d :: w) = p :: parts w.
  Proof. intros Hp Hd. induction Hp as [|c p Hc Hp IH]; cbn; [rewrite Hd; reflexivity|]. rewrite Hc, IH. reflexivity. Qed.

  Lemma word_cases w : nodelim w \/ exists p d w', w = p ++ d :: w' /\ nodelim p /\ dlm d = true.
  Proof.
    induction w as [|c w [IH|(p & d & w' & -> & Hp & Hd)]]; [left; constructor| |].
    - destruct (dlm c) eqn:E; [right; exists [], c, w; repeat split; [constructor|assumption]|left; constructor; assumption].
    - right. destruct (dlm c) eqn:E.
      + exists [], c, (p ++ d :: w'). repeat split; [constructor|assumption].
      + exists (c :: p), d, w'. repeat split; [constructor; assumption|assumption].
  Qed.

  (** induction over the parts of a word *)
  Lemma parts_ind (P : bytes -> Prop) :
    (forall p, nodelim p -> P p) ->
    (forall p d w, nodelim p -> dlm d = true -> P w -> P (p ++ d :: w)) ->
    forall w, P w.
  Proof.
    intros H1 H2 w. induction w as [w IH] using (well_founded_induction (Wf_nat.well_founded_ltof _ (@length N))).
    destruct (word_cases w) as [Hw|(p & d & w' & -> & Hp & Hd)]; [auto|].
    apply H2; auto. apply IH. unfold ltof. rewrite app_length. cbn. lia.
  Qed.

  Lemma get_part_all p : forall room s, nodelim p -> (length p <= room)%nat ->
    get_part cs p room s = (fold_left (fun s c => capstate s (ctype cs c)) p s, map (locase cs) p, [], (room - length p)%nat).
  Proof.
    induction p as [|c p IH]; intros room s Hp Hl; cbn; [rewrite Nat.sub_0_r; destruct room; reflexivity|].
    destruct room as [|room]; [cbn in Hl; lia|]. inversion Hp as [|? ? Hc Hp']; subst. rewrite Hc, IH by (auto; cbn in Hl; lia).
    reflexivity.
  Qed.

  Lemma get_part_stop p d w : forall room s, nodelim p -> dlm d = true -> (length p < room)%nat ->
    get_part cs (p ++ d :: w) room s =
    (fold_left (fun s c => capstate s (ctype cs c)) p s, map (locase cs) p, d :: w, (room - length p)%nat).
  Proof.
    induction p as [|c p IH]; intros room s Hp Hd Hl; cbn; destruct room as [|room]; try (cbn in Hl; lia); [rewrite Hd; reflexivity|].
    inversion Hp as [|? ? Hc Hp']; subst. rewrite Hc, IH by (auto; cbn in Hl; lia). reflexivity.
  Qed.

  Lemma get_part_full p w : forall room s, nodelim p -> (room <= length p)%nat ->
    exists s' r, get_part cs (p ++ w) room s = (s', map (locase cs) (firstn room p), r, O).
  Proof.
    induction p as [|c p IH]; intros [|room] s Hp Hl; cbn in Hl; try lia; cbn [get_part app firstn map].
    - destruct w; do 2 eexists; reflexivity.
    - do 2 eexists; reflexivity.
    - inversion Hp as [|? ? Hc Hp']; subst. rewrite Hc. destruct (IH room (capstate s (ctype cs c)) Hp') as (s' & r & E); [lia|].
      rewrite E. do 2 eexists; reflexivity.
  Qed.

  (** contribution of the parts to the scheme word, from part number [i] on; a trailing empty part adds nothing *)
  Fixpoint schs (i : N) (ps : list bytes) : N :=
    match ps with
    | [] => 0
    | [[]] => 0
    | p :: ps' => N.lor (N.shiftl (fin p - 1) (2 * i) mod 2 ^ 32) (schs (i + 1) ps')
    end.
  Fixpoint valids (ps : list bytes) : bool :=
    match ps with [] => true | [[]] => true | p :: ps' => negb (fin p =? 5) && valids ps' end.
  (** how many parts are shifted in *)
  Fixpoint shifted (ps : list bytes) : N :=
    match ps with [] => 0 | [[]] => 0 | _ :: ps' => 1 + shifted ps' end.

  Definition answer (len nparts scheme : N) (valid : bool) : N :=
    N.lor (N.lor (N.shiftl len 16 mod 2 ^ 32) (N.shiftl nparts 8 mod 2 ^ 32)) (if valid then scheme else 0xff).

  Hypothesis Hdlm : forall d, dlm d = true -> d < 256 -> locase cs d = d.

  Lemma schs_cons i p ps : ps <> [] ->
    schs i (p :: ps) = N.lor (N.shiftl (fin p - 1) (2 * i) mod 2 ^ 32) (schs (i + 1) ps).
  Proof. destruct p; [|reflexivity]. destruct ps; [congruence|reflexivity]. Qed.
  Lemma valids_cons p ps : ps <> [] -> valids (p :: ps) = negb (fin p =? 5) && valids ps.
  Proof. destruct p; [|reflexivity]. destruct ps; [congruence|reflexivity]. Qed.
  Lemma shifted_cons p ps : ps <> [] -> shifted (p :: ps) = 1 + shifted ps.
  Proof. destruct p; [|reflexivity]. destruct ps; [congruence|reflexivity]. Qed.

  Lemma get_loop_eq w : is_bytes w -> forall fuel room cdefis scheme bvalid out,
    (length w < fuel)%nat -> (length w < room)%nat -> cdefis + shifted (parts w) <= 16 ->
    get_loop cs fuel w room cdefis scheme bvalid out =
    Ok (answer (N.of_nat (length (out ++ w))) (cdefis + N.of_nat (length (parts w)))
               (N.lor scheme (schs cdefis (parts w))) (bvalid && valids (parts w)),
        out ++ map (locase cs) w ++ [0]).
  Proof.
    pattern w. apply parts_ind; clear w.
    - intros p Hp _ fuel room cdefis scheme bvalid out Hf Hr Hs. rewrite (parts_nodelim p Hp) in *.
      destruct fuel as [|fuel]; [lia|]. destruct p as [|c p].
      + cbn [get_loop schs valids length shifted]. destruct room as [|room]; [cbn in Hr; lia|].
        rewrite N.lor_0_r, andb_true_r, app_nil_r. reflexivity.
      + cbn [get_loop]. destruct room as [|room]; [cbn in Hr; lia|].
        rewrite (get_part_all (c :: p)) by (auto; lia).
        destruct (S room - length (c :: p))%nat as [|room'] eqn:Er; [cbn in *; lia|].
        cbn [shifted] in Hs.
        assert (Hlt : (32 <=? 2 * cdefis) = false) by lia. rewrite Hlt.
        destruct fuel as [|fuel]; [cbn in Hf; lia|]. cbn [get_loop].
        assert (Hl : length (out ++ map (locase cs) (c :: p)) = length (out ++ (c :: p))) by (rewrite !app_length, map_length; reflexivity).
        fold (fin (c :: p)). rewrite Hl. rewrite <- app_assoc. unfold answer. cbn [length valids schs]. rewrite N.lor_0_r.
        rewrite andb_true_r. reflexivity.
    - intros p d w Hp Hd IH Hw fuel room cdefis scheme bvalid out Hf Hr Hs.
      rewrite (parts_app p d w Hp Hd) in *.
      apply is_bytes_app in Hw as [_ Hw]. inversion Hw as [|? ? Hdb Hwb]; subst.
      rewrite app_length in *. cbn [length] in *.
      rewrite schs_cons, valids_cons, shifted_cons in * by apply parts_nonnil.
      destruct fuel as [|fuel]; [lia|]. cbn [get_loop].
      assert (Hne : exists x y, p ++ d :: w = x :: y) by (destruct p; cbn; eauto).
      destruct Hne as (x & y & Hxy). rewrite Hxy.
      destruct room as [|room]; [lia|]. rewrite <- Hxy.
      rewrite (get_part_stop p d w) by (auto; lia).
      destruct (S room - length p)%nat as [|room'] eqn:Er; [lia|].
      assert (Hlt : (32 <=? 2 * cdefis) = false) by lia. rewrite Hlt, Hd.
      fold (fin p). rewrite IH by (try assumption; lia).
      rewrite map_app. cbn [map]. rewrite (Hdlm d Hd Hdb). cbn [length].
      f_equal. f_equal.
      + unfold answer. rewrite !app_length, map_length. cbn [length].
        replace (length out + (length p + 1) + length w)%nat with (length out + (length p + S (length w)))%nat by lia.
        replace (cdefis + 1 + N.of_nat (length (parts w))) with (cdefis + N.of_nat (S (length (parts w)))) by lia.
        rewrite N.lor_assoc, andb_assoc. reflexivity.
      + rewrite <- !app_assoc. reflexivity.
  Qed.

  (** a word that does not fit *)
  Lemma get_loop_nofit w : forall fuel room cdefis scheme bvalid out,
    (length w < fuel)%nat -> (room <= length w)%nat ->
    get_loop cs fuel w room cdefis scheme bvalid out = Ub \/
    exists out', get_loop cs fuel w room cdefis scheme bvalid out = Ok (bad_cap, out ++ out') /\ (length out' <= room)%nat.
  Proof.
    pattern w. apply parts_ind; clear w.
    - intros p Hp fuel room cdefis scheme bvalid out Hf Hr. destruct fuel as [|fuel]; [lia|]. cbn [get_loop].
      destruct p as [|c p]; [destruct room; [right; exists []; rewrite app_nil_r; auto|cbn in Hr; lia]|].
      destruct room as [|room]; [right; exists []; rewrite app_nil_r; auto|].
      destruct (get_part_full (c :: p) [] (S room) 0 Hp Hr) as (s' & r & E). rewrite app_nil_r in E. rewrite E.
      right. eexists. split; [reflexivity|]. rewrite map_length. apply firstn_le_length.
    - intros p d w Hp Hd IH fuel room cdefis scheme bvalid out Hf Hr.
      rewrite app_length in *. cbn [length] in *. destruct fuel as [|fuel]; [lia|]. cbn [get_loop].
      assert (Hne : exists x y, p ++ d :: w = x :: y) by (destruct p; cbn; eauto).
      destruct Hne as (x & y & Hxy). rewrite Hxy.
      destruct room as [|room]; [right; exists []; rewrite app_nil_r; auto|]. rewrite <- Hxy.
      destruct (Nat.le_gt_cases (S room) (length p)) as [Hle|Hgt].
      + destruct (get_part_full p (d :: w) (S room) 0 Hp Hle) as (s' & r & E). rewrite E.
        right. eexists. split; [reflexivity|]. rewrite map_length. apply firstn_le_length.
      + rewrite (get_part_stop p d w) by (auto; lia).
        destruct (S room - length p)%nat as [|room'] eqn:Er; [lia|].
        destruct (32 <=? 2 * cdefis); [left; reflexivity|]. rewrite Hd.
        destruct (IH fuel room' (cdefis + 1)
                     (N.lor scheme (N.shiftl (capstate (fold_left (fun s c => capstate s (ctype cs c)) p 0) 2 - 1) (2 * cdefis) mod 2 ^ 32))
                     (bvalid && negb (capstate (fold_left (fun s c => capstate s (ctype cs c)) p 0) 2 =? 5))
                     (out ++ map (locase cs) p ++ [d])) as [E|(out' & E & Hl)]; [lia|lia|left; exact E|].
        right. exists (map (locase cs) p ++ [d] ++ out'). rewrite E. split; [rewrite <- !app_assoc; reflexivity|].
        rewrite !app_length, map_length. cbn. lia.
  Qed.

  (** any number of parts: undefined or exact *)
  Lemma get_loop_any w : is_bytes w -> forall fuel room cdefis scheme bvalid out,
    (length w < fuel)%nat -> (length w < room)%nat ->
    get_loop cs fuel w room cdefis scheme bvalid out = Ub \/
    exists v, get_loop cs fuel w room cdefis scheme bvalid out = Ok (v, out ++ map (locase cs) w ++ [0]).
  Proof.
    pattern w. apply parts_ind; clear w.
    - intros p Hp Hb fuel room cdefis scheme bvalid out Hf Hr.
      destruct fuel as [|fuel]; [lia|]. destruct p as [|c p].
      + right. cbn [get_loop]. destruct room as [|room]; [cbn in Hr; lia|]. eauto.
      + cbn [get_loop]. destruct room as [|room]; [cbn in Hr; lia|].
        rewrite (get_part_all (c :: p)) by (auto; lia).
        destruct (S room - length (c :: p))%nat as [|room'] eqn:Er; [cbn in *; lia|].
        destruct (32 <=? 2 * cdefis); [left; reflexivity|].
        destruct fuel as [|fuel]; [cbn in Hf; lia|]. cbn [get_loop]. right. rewrite <- app_assoc. eauto.
    - intros p d w Hp Hd IH Hw fuel room cdefis scheme bvalid out Hf Hr.
      apply is_bytes_app in Hw as [_ Hw]. inversion Hw as [|? ? Hdb Hwb]; subst.
      rewrite app_length in *. cbn [length] in *. destruct fuel as [|fuel]; [lia|]. cbn [get_loop].
      assert (Hne : exists x y, p ++ d :: w = x :: y) by (destruct p; cbn; eauto).
      destruct Hne as (x & y & Hxy). rewrite Hxy.
      destruct room as [|room]; [lia|]. rewrite <- Hxy.
      rewrite (get_part_stop p d w) by (auto; lia).
      destruct (S room - length p)%nat as [|room'] eqn:Er; [lia|].
      destruct (32 <=? 2 * cdefis); [left; reflexivity|]. rewrite Hd.
      rewrite map_app. cbn [map]. rewrite (Hdlm d Hd Hdb).
      destruct (IH Hwb fuel room' (cdefis + 1)
                     (N.lor scheme (N.shiftl (capstate (fold_left (fun s c => capstate s (ctype cs c)) p 0) 2 - 1) (2 * cdefis) mod 2 ^ 32))
                     (bvalid && negb (capstate (fold_left (fun s c => capstate s (ctype cs c)) p 0) 2 =? 5))
                     (out ++ map (locase cs) p ++ [d])) as [E|(v & E)]; [lia|lia|left; exact E|].
      right. exists v. rewrite E. rewrite <- !app_assoc. reflexivity.
  Qed.

End Proofs.

(** ** the automaton *)
Section Automaton.
  Variable cs : casing.
  Notation dlm c := (ctype cs c =? 2).
  Notation nodelim := (nodelim cs).
  Notation fin := (fin cs).
  Definition run (s : N) (p : bytes) : N := fold_left (fun s c => capstate s (ctype cs c)) p s.

  Lemma run_5 p : run 5 p = 5.
  Proof.
    unfold run. induction p as [|c p IH]; [reflexivity|]. cbn [fold_left].
    replace (capstate 5 (ctype cs c)) with 5; [exact IH|]. unfold capstate. cbn.
    destruct (N.to_nat (ctype cs c)) as [|[|[|[|[|n]]]]]; reflexivity.
  Qed.

  Definition hist (s : N) (p : bytes) : Prop :=
    (s = 0 /\ p = []) \/ (s = 1 /\ p <> [] /\ Forall (is_regular cs) p) \/
    (s = 2 /\ exists c q, p = c :: q /\ is_capital cs c /\ q <> [] /\ Forall (is_regular cs) q) \/
    (s = 3 /\ exists c d q, p = c :: d :: q /\ Forall (is_capital cs) p) \/
    (s = 4 /\ exists c, p = [c] /\ is_capital cs c) \/
    (s = 5 /\ forall q cl, ~ part_is cs (p ++ q) cl).

  Lemma part_invalid p c q cl : ctype cs c <> 0 -> ctype cs c <> 1 -> ~ part_is cs (p ++ c :: q) cl.
  Proof.
    intros H0 H1 H. inversion H as [l Hn Hf E|d l Hd Hn Hf E|l Hn Hf E]; subst.
    - rewrite Forall_forall in Hf. apply H1, Hf. apply in_or_app. right; left; reflexivity.
    - destruct p as [|x p]; cbn in E; injection E as -> ->.
      + apply H0. exact Hd.
      + rewrite Forall_forall in Hf. apply H1, Hf. apply in_or_app. right; left; reflexivity.
    - rewrite Forall_forall in Hf. apply H0, Hf. apply in_or_app. right; left; reflexivity.
  Qed.

  Lemma part_reg_then_cap p c q cl x y : p = x ++ y -> y <> [] -> Forall (is_regular cs) y ->
    is_capital cs c -> ~ part_is cs (p ++ c :: q) cl.
  Proof.
    unfold is_regular, is_capital. intros -> Hy Hr Hc H. destruct y as [|r y]; [congruence|]. inversion Hr as [|? ? Hr1 Hr2]; subst.
    inversion H as [l Hn Hf E|d l Hd Hn Hf E|l Hn Hf E]; subst; unfold is_regular, is_capital in *.
    - rewrite Forall_forall in Hf. assert (ctype cs c = 1); [|lia]. apply Hf, in_or_app. right; left; reflexivity.
    - destruct x as [|x0 x]; cbn in E; injection E as -> ->; [lia|].
      rewrite Forall_forall in Hf. assert (ctype cs c = 1); [|lia]. apply Hf, in_or_app. right; left; reflexivity.
    - rewrite Forall_forall in Hf. assert (ctype cs r = 0); [|lia]. apply Hf, in_or_app. left. apply in_or_app. right; left; reflexivity.
  Qed.

  Lemma part_caps_then_reg a b p c q cl : Forall (is_capital cs) (a :: b :: p) -> is_regular cs c ->
    ~ part_is cs ((a :: b :: p) ++ c :: q) cl.
  Proof.
    unfold is_regular, is_capital. intros Hc Hr H. inversion Hc as [|? ? Ha Hc']; subst. inversion Hc' as [|? ? Hb Hc'']; subst.
    inversion H as [l Hn Hf E|d l Hd Hn Hf E|l Hn Hf E]; subst; unfold is_regular, is_capital in *.
    - cbn in Hf. inversion Hf; subst. lia.
    - inversion Hf; subst. lia.
    - rewrite Forall_forall in Hf. assert (ctype cs c = 0); [|lia]. apply Hf, in_or_app. right; left; reflexivity.
  Qed.

  Lemma ctype_cases c : dlm c = false -> ctype cs c = 0 \/ ctype cs c = 1 \/ (2 < ctype cs c).
  Proof. lia. Qed.

  Lemma capstate_big s t : 2 < t -> s <= 5 -> capstate s t = 5.
  Proof.
    intros Ht Hs. unfold capstate.
    assert (Hn : exists m, N.to_nat t = S (S (S m))) by (exists (N.to_nat t - 3)%nat; lia). destruct Hn as (m & ->).
    assert (Hs' : s = 0 \/ s = 1 \/ s = 2 \/ s = 3 \/ s = 4 \/ s = 5) by lia.
    destruct Hs' as [->|[->|[->|[->|[->| ->]]]]]; cbn; destruct m as [|m]; reflexivity || (destruct m; reflexivity).
  Qed.

  Lemma hist_step s p c : hist s p -> dlm c = false -> hist (capstate s (ctype cs c)) (p ++ [c]).
  Proof.
    intros H Hc. destruct (ctype_cases c Hc) as [E|[E|E]].
    - rewrite E. destruct H as [(-> & ->)|[(-> & Hn & Hf)|[(-> & d & q & -> & Hd & Hn & Hf)|[(-> & d & e & q & -> & Hf)|[(-> & d & -> & Hd)|(-> & H)]]]]].
      + do 4 right. left. split; [reflexivity|]. exists c. split; [reflexivity|exact E].
      + do 5 right. split; [reflexivity|]. intros q cl. rewrite <- app_assoc. apply (part_reg_then_cap p c q cl [] p); auto.
      + do 5 right. split; [reflexivity|]. intros q0 cl. rewrite <- app_assoc. apply (part_reg_then_cap (d :: q) c q0 cl [d] q); auto.
      + do 3 right. left. split; [reflexivity|]. exists d, e, (q ++ [c]). split; [reflexivity|]. apply Forall_app. split; [assumption|]. repeat constructor. exact E.
      + do 3 right. left. split; [reflexivity|]. exists d, c, []. split; [reflexivity|]. repeat constructor; assumption.
      + do 5 right. split; [reflexivity|]. intros q cl. rewrite <- app_assoc. apply H.
    - rewrite E. destruct H as [(-> & ->)|[(-> & Hn & Hf)|[(-> & d & q & -> & Hd & Hn & Hf)|[(-> & d & e & q & -> & Hf)|[(-> & d & -> & Hd)|(-> & H)]]]]].
      + do 1 right. left. split; [reflexivity|]. split; [discriminate|]. repeat constructor. exact E.
      + do 1 right. left. split; [reflexivity|]. split; [destruct p; discriminate|]. apply Forall_app. split; [assumption|]. repeat constructor. exact E.
      + do 2 right. left. split; [reflexivity|]. exists d, (q ++ [c]). repeat split; [assumption|destruct q; discriminate|].
        apply Forall_app. split; [assumption|]. repeat constructor. exact E.
      + do 5 right. split; [reflexivity|]. intros q0 cl. rewrite <- app_assoc. apply (part_caps_then_reg d e q c q0 cl); auto.
      + do 2 right. left. split; [reflexivity|]. exists d, [c]. repeat split; [assumption|discriminate|]. repeat constructor. exact E.
      + do 5 right. split; [reflexivity|]. intros q cl. rewrite <- app_assoc. apply H.
    - assert (Hs : s <= 5) by (destruct H as [(-> & _)|[(-> & _)|[(-> & _)|[(-> & _)|[(-> & _)|(-> & _)]]]]]; lia).
      rewrite capstate_big by assumption. do 5 right. split; [reflexivity|]. intros q cl. rewrite <- app_assoc.
      apply part_invalid; lia.
  Qed.

  Lemma hist_run p : nodelim p -> hist (run 0 p) p.
  Proof.
    intros Hp. induction p as [|c p IH] using rev_ind; [left; split; reflexivity|].
    apply Forall_app in Hp as [Hp Hc]. inversion Hc as [|? ? Hc1 _]; subst.
    unfold run. rewrite fold_left_app. cbn [fold_left]. apply hist_step; [apply IH; assumption|assumption].
  Qed.

  Lemma fin_range p : nodelim p -> fin p = 1 \/ fin p = 2 \/ fin p = 3 \/ fin p = 5.
  Proof.
    intros Hp. pose proof (hist_run p Hp) as H. unfold CapProofs.fin. fold (run 0 p).
    destruct H as [(-> & _)|[(-> & _)|[(-> & _)|[(-> & _)|[(-> & _)|(-> & _)]]]]]; cbn; auto.
  Qed.

  Lemma part_is_fin p cl : nodelim p -> part_is cs p cl -> fin p = cl + 1 /\ cl < 3.
  Proof.
    intros Hp H. pose proof (hist_run p Hp) as G. unfold CapProofs.fin. fold (run 0 p).
    inversion H as [l Hn Hf E|d l Hd Hn Hf E|l Hn Hf E]; subst; unfold is_regular, is_capital in *.
    - destruct G as [(_ & ->)|[(-> & _)|[(_ & d & q & -> & Hd & _)|[(_ & d & e & q & -> & Hd)|[(_ & d & -> & Hd)|(_ & G)]]]]].
      + congruence.
      + split; reflexivity.
      + inversion Hf; subst; unfold is_capital in *; lia.
      + inversion Hf; inversion Hd; subst; unfold is_capital in *; lia.
      + inversion Hf; subst; unfold is_capital in *; lia.
      + exfalso. apply (G [] 0). rewrite app_nil_r. assumption.
    - destruct G as [(-> & [=])|[(_ & _ & G)|[(-> & _)|[(_ & e & f & q & [= -> ->] & G)|[(_ & e & [= -> ->] & G)|(_ & G)]]]]].
      + inversion G; subst; unfold is_regular in *; lia.
      + split; reflexivity.
      + inversion G as [|? ? ? G']; subst. inversion G'; inversion Hf; subst; unfold is_capital in *; lia.
      + congruence.
      + exfalso. apply (G [] 1). rewrite app_nil_r. assumption.
    - destruct G as [(-> & ->)|[(_ & _ & G)|[(_ & e & q & -> & Hc & Hq & G)|[(-> & _)|[(-> & _)|(_ & G)]]]]]; [congruence| | |split; reflexivity|split; reflexivity|].
      + destruct p; [congruence|]. inversion G; inversion Hf; subst. unfold is_regular in *; lia.
      + destruct q; [congruence|]. inversion G; subst. inversion Hf as [|? ? _ Hf']; subst. inversion Hf'; subst. unfold is_regular in *; lia.
      + exfalso. apply (G [] 2). rewrite app_nil_r. assumption.
  Qed.

  Lemma fin_part_is p : nodelim p -> fin p <> 5 -> part_is cs p (fin p - 1).
  Proof.
    intros Hp H. pose proof (hist_run p Hp) as G. unfold CapProofs.fin in *. fold (run 0 p) in *.
    destruct G as [(E & Ep)|[(E & Hn & Hf)|[(E & d & q & -> & Hd & Hn & Hf)|[(E & d & e & q & -> & Hf)|[(E & d & -> & Hd)|(E & G)]]]]];
      rewrite E in *; try (exfalso; apply H; reflexivity).
    - apply (part_small cs); assumption.
    - apply (part_first cs); assumption.
    - apply (part_caps cs); [discriminate|assumption].
    - apply (part_caps cs); [discriminate|repeat constructor; assumption].
  Qed.
End Automaton.
