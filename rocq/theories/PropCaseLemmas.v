(** Glue lemmas for Prop_Case.v *)
From Verif Require Import Base CharTables CapScheme CapSpec CapProofs CapProofs2.
Local Open Scope N_scope.

(** ** sweeps over all bytes *)
Definition all_bytes : list N := map N.of_nat (seq 0 256).
Lemma all_bytes_in c : c < 256 -> In c all_bytes.
Proof. intros H. apply in_map_iff. exists (N.to_nat c). split; [lia|]. apply in_seq. lia. Qed.
Lemma sweep (f : N -> bool) : forallb f all_bytes = true -> forall c, c < 256 -> f c = true.
Proof. intros H c Hc. rewrite forallb_forall in H. apply H, all_bytes_in, Hc. Qed.

Definition okb (cs : casing) (c : N) : bool :=
  (ctype cs c <? 4) && (locase cs c <? 256) && (upcase cs c <? 256) &&
  implb (ctype cs c =? 0) (ctype cs (locase cs c) =? 1) &&
  implb (ctype cs c =? 1) (ctype cs (locase cs c) =? 1) &&
  (locase cs (locase cs c) =? locase cs c) &&
  implb (ctype cs c =? 2) ((locase cs c =? c) && (upcase cs c =? c)) &&
  implb (ctype cs c =? 3) (ctype cs (locase cs c) =? 3) &&
  implb ((ctype cs c =? 1) && (locase cs c =? c)) (locase cs (upcase cs c) =? c).

Lemma okb_ok cs : ctype cs 0 = 2 -> forallb (okb cs) all_bytes = true -> casing_ok cs.
Proof.
  intros H0 H. assert (G : forall c, c < 256 -> okb cs c = true) by (apply sweep, H). clear H.
  split; try exact H0; intros c Hc; specialize (G c Hc); unfold okb in G; rewrite !andb_true_iff in G;
    destruct G as [[[[[[[[G1 G2] G3] G4] G5] G6] G7] G8] G9]; unfold is_capital, is_regular, is_delim in *.
  - lia.
  - intros E. rewrite E in G4. cbn in G4. apply N.eqb_eq, G4.
  - intros E. rewrite E in G5. cbn in G5. apply N.eqb_eq, G5.
  - apply N.eqb_eq, G6.
  - intros E. rewrite E in G7. cbn in G7. apply andb_true_iff in G7 as [A B]. split; apply N.eqb_eq; assumption.
  - intros E. rewrite E in G8. cbn in G8. apply N.eqb_eq, G8.
  - intros E1 E2. rewrite E1, E2 in G9. cbn in G9. rewrite N.eqb_refl in G9. apply N.eqb_eq, G9.
Qed.

Lemma rus_ok : casing_ok rus_casing. Proof. apply okb_ok; vm_compute; reflexivity. Qed.
Lemma eng_ok : casing_ok eng_casing. Proof. apply okb_ok; vm_compute; reflexivity. Qed.
Lemma ukr_ok : casing_ok ukr_casing. Proof. apply okb_ok; vm_compute; reflexivity. Qed.

Definition letterb (cs : casing) (exc : list N) (c : N) : bool :=
  implb ((ctype cs c =? 1) && (locase cs c =? c) && negb (existsb (N.eqb c) exc)) (ctype cs (upcase cs c) =? 0).
Lemma letterb_ok cs exc : forallb (letterb cs exc) all_bytes = true ->
  forall c, c < 256 -> is_regular cs c -> locase cs c = c -> ~ In c exc -> is_capital cs (upcase cs c).
Proof.
  intros H c Hc Hr Hl Hn. assert (G := sweep _ H c Hc). unfold letterb in G. unfold is_regular, is_capital in *.
  rewrite Hr, Hl in G. change (1 =? 1) with true in G. rewrite N.eqb_refl in G. replace (existsb (N.eqb c) exc) with false in G.
  - cbn in G. apply N.eqb_eq, G.
  - symmetry. apply Bool.not_true_is_false. intros E. apply existsb_exists in E as (x & Hin & E). apply N.eqb_eq in E. subst. auto.
Qed.

Lemma tables_consistent :
  casing_ok rus_casing /\ casing_ok eng_casing /\ casing_ok ukr_casing /\
  (forall c, c < 256 -> is_regular rus_casing c -> locase rus_casing c = c -> c <> 44 -> letter rus_casing c) /\
  (forall c, c < 256 -> is_regular eng_casing c -> locase eng_casing c = c -> c <> 44 -> c <> 39 -> letter eng_casing c) /\
  (forall c, c < 256 -> is_regular ukr_casing c -> locase ukr_casing c = c -> c <> 44 -> letter ukr_casing c).
Proof.
  split; [exact rus_ok|]. split; [exact eng_ok|]. split; [exact ukr_ok|]. split; [|split].
  - intros c Hc Hr Hl Hn. split; [assumption|]. split; [assumption|]. split; [assumption|]. apply (letterb_ok rus_casing [44] ltac:(vm_compute; reflexivity) c Hc Hr Hl). intros [E|[]]; auto.
  - intros c Hc Hr Hl Hn Hn'. split; [assumption|]. split; [assumption|]. split; [assumption|]. apply (letterb_ok eng_casing [44; 39] ltac:(vm_compute; reflexivity) c Hc Hr Hl). intros [E|[E|[]]]; auto.
  - intros c Hc Hr Hl Hn. split; [assumption|]. split; [assumption|]. split; [assumption|]. apply (letterb_ok ukr_casing [44] ltac:(vm_compute; reflexivity) c Hc Hr Hl). intros [E|[]]; auto.
Qed.

Lemma rus_letters c : 224 <= c < 256 -> letter rus_casing c.
Proof.
  intros H. assert (forallb (fun c => implb (224 <=? c) ((ctype rus_casing c =? 1) && (locase rus_casing c =? c))) all_bytes = true) as G
    by (vm_compute; reflexivity).
  assert (Hs := sweep _ G c ltac:(lia)). cbn beta in Hs. replace (224 <=? c) with true in Hs by lia. cbn in Hs.
  apply andb_true_iff in Hs as [H1 H2]. apply tables_consistent; try lia; apply N.eqb_eq; assumption.
Qed.

(** ** C12 *)
Lemma get_exact cs : casing_ok cs -> forall w outlen, is_bytes w -> (length w < outlen)%nat ->
  (length (parts cs w) <= 16)%nat ->
  exists v, cap_get cs outlen w = Ok (v, map (locase cs) w ++ [0]).
Proof. intros Hok w outlen Hb Hl Hp. rewrite cap_get_eq; eauto. intros d Hd H. apply (ok_delim cs Hok); assumption. Qed.

Lemma get_bounded cs : casing_ok cs -> forall w outlen v out, is_bytes w -> cap_get cs outlen w = Ok (v, out) ->
  (length out <= outlen)%nat /\
  ((length w < outlen)%nat -> out = map (locase cs) w ++ [0]) /\
  ((outlen <= length w)%nat -> v = 2 ^ 32 - 1).
Proof.
  intros Hok w outlen v out Hb H. unfold cap_get in H.
  destruct (Nat.lt_ge_cases (length w) outlen) as [Hl|Hl].
  - destruct (get_loop_any cs (Hdlm' cs (fun d Hd H => proj1 (ok_delim cs Hok d Hd H))) w Hb (S (length w)) outlen 0 0 true []) as [E|(v' & E)]; try lia.
    + rewrite E in H. discriminate.
    + rewrite E in H. injection H as <- <-. cbn [app]. split; [|split; [reflexivity|lia]].
      rewrite app_length, map_length. cbn. lia.
  - destruct (get_loop_nofit cs (Hdlm' cs (fun d Hd H => proj1 (ok_delim cs Hok d Hd H))) w (S (length w)) outlen 0 0 true []) as [E|(out' & E & Ho)]; try lia.
    + rewrite E in H. discriminate.
    + rewrite E in H. injection H as <- <-. cbn [app]. split; [assumption|]. split; [lia|reflexivity].
Qed.

(** ** C14 *)
Lemma get_corrupt :
  (exists w, (length w < 48)%nat /\ is_bytes w /\ cap_get rus_casing 48 w = Ub) /\
  (exists w v out, (length w < 48)%nat /\ is_bytes w /\ cap_get rus_casing 48 w = Ok (v, out) /\ N.shiftr v 16 <> N.of_nat (length w)).
Proof.
  split.
  - exists (concat (repeat [224; 45] 16) ++ [224]). split; [cbn; lia|]. split; [|vm_compute; reflexivity].
    repeat constructor.
  - exists (concat (repeat [192; 45] 8) ++ [192]). do 2 eexists. split; [cbn; lia|]. split; [repeat constructor|].
    split; [vm_compute; reflexivity|vm_compute; discriminate].
Qed.

(** ** C15 *)
Lemma good_monotone s m m' : m' <= m -> IsGoodSheme s m = true -> IsGoodSheme s m' = true.
Proof.
  unfold IsGoodSheme. intros Hm.
  destruct (N.eqb_spec m 2) as [->|H2]; [|destruct (N.eqb_spec m 1) as [->|H1]; [|destruct (N.eqb_spec m 0) as [->|H0]; [|discriminate]]].
  - assert (Hc : m' = 2 \/ m' = 1 \/ m' = 0) by lia. destruct Hc as [->|[->| ->]]; cbn [N.eqb Pos.eqb]; auto;
      unfold IsGoodShemeMin0, IsGoodShemeMin1; intros ->; rewrite !orb_true_r; reflexivity.
  - assert (Hc : m' = 1 \/ m' = 0) by lia. destruct Hc as [->| ->]; cbn [N.eqb Pos.eqb]; auto.
    unfold IsGoodShemeMin0; intros ->; rewrite !orb_true_r; reflexivity.
  - replace m' with 0 by lia. auto.
Qed.

Lemma parts_map_up cs : casing_ok cs -> forall w, Forall (good_char cs) w -> parts cs (map (upcase cs) w) = map (map (upcase cs)) (parts cs w).
Proof.
  intros Hok w H. induction H as [|c w Hc Hw IH]; [reflexivity|]. cbn [map parts].
  destruct Hc as [(Hb & Hr & Hl & Hu)|(Hb & Hd & _)]; unfold is_regular, is_capital, is_delim in *.
  - rewrite Hr, Hu, IH. change (0 =? 2) with false. change (1 =? 2) with false. cbn iota.
    destruct (parts cs w) eqn:E; [exfalso; apply (parts_nonnil cs w); assumption|]. reflexivity.
  - destruct (ok_delim cs Hok c Hb Hd) as [_ ->]. rewrite Hd. change (2 =? 2) with true. cbn iota. rewrite IH. reflexivity.
Qed.

Lemma good_parts cs w : Forall (good_char cs) w -> Forall (Forall (letter cs)) (parts cs w).
Proof.
  intros H. pose proof (parts_all_nodelim cs w) as Hn. revert Hn.
  pattern w. assert (G : forall w, Forall (good_char cs) w -> Forall (Forall (letter cs)) (parts cs w)).
  - clear. intros w. pattern w. apply (parts_ind cs).
    + intros p Hp Hg. rewrite parts_nodelim by assumption. repeat constructor. apply good_part; assumption.
    + intros p d w' Hp Hd IH Hg. rewrite parts_app by assumption. apply Forall_app in Hg as [G1 G2]. inversion G2; subst.
      constructor; [apply good_part; assumption|auto].
  - intros _. apply G, H.
Qed.

Lemma parts_are_all cs ps : ps <> [] -> forall cls, Forall2 (part_is cs) ps cls -> parts_are cs ps cls.
Proof.
  intros Hn cls H. induction H as [|p c ps cls Hp Hps IH]; [congruence|].
  destruct Hps as [|q d ps cls Hq Hps]; [apply parts_last; assumption|]. apply parts_more; [assumption|apply IH; discriminate].
Qed.

Lemma good_is_bytes cs w : Forall (good_char cs) w -> is_bytes w.
Proof. apply Forall_impl. intros c [(H & _)|(H & _)]; exact H. Qed.

Lemma all_caps_good cs : casing_ok cs -> forall w min outlen, Forall (good_char cs) w ->
  Forall (fun p => p <> []) (parts cs w) -> (length (parts cs w) <= 3)%nat -> min <= 2 ->
  (length w < outlen)%nat -> N.of_nat outlen <= 2 ^ 16 ->
  exists v out, cap_get cs outlen (map (upcase cs) w) = Ok (v, out) /\ IsGoodSheme (v mod 2 ^ 16) min = true.
Proof.
  intros Hok w min outlen Hg Hne Hp Hm Hl Ho.
  assert (Hcl : parts_are cs (parts cs (map (upcase cs) w)) (repeat 2 (length (parts cs w)))).
  { rewrite parts_map_up by assumption. apply parts_are_all; [pose proof (parts_nonnil cs w); destruct (parts cs w); [congruence|discriminate]|].
    pose proof (good_parts cs w Hg) as Hgp. revert Hgp Hne. generalize (parts cs w) as ps. clear.
    induction ps as [|p ps IH]; intros H1 H2; [constructor|]. inversion H1; subst; inversion H2; subst. cbn. constructor; [|auto].
    apply part_caps; [destruct p; [congruence|discriminate]|]. rewrite Forall_map. eapply Forall_impl; [|eassumption].
    intros c (_ & _ & _ & H); exact H. }
  assert (Hb : is_bytes (map (upcase cs) w)).
  { unfold is_bytes. rewrite Forall_map. eapply Forall_impl; [|apply (good_is_bytes cs w Hg)]. intros c Hc. apply (ok_range cs Hok c Hc). }
  assert (Hlp : length (parts cs (map (upcase cs) w)) = length (parts cs w)) by (rewrite parts_map_up, map_length by assumption; reflexivity).
  eexists _, _. split.
  - apply cap_get_class with (cls := repeat 2 (length (parts cs w))); try assumption; [|rewrite map_length; lia|lia].
    intros d Hd H. apply (ok_delim cs Hok); assumption.
  - apply good_monotone with 2; [assumption|]. rewrite Hlp, map_length.
    pose proof (parts_nonnil cs w). destruct (parts cs w) as [|p1 [|p2 [|p3 [|p4 ps]]]]; [congruence| | | |cbn in Hp; lia]; cbn [length repeat pack].
    + replace ((N.of_nat (length w) * 65536 + N.of_nat 1 * 256 + (2 + 4 * 0)) mod 2 ^ 16) with 0x102 by lia. reflexivity.
    + replace ((N.of_nat (length w) * 65536 + N.of_nat 2 * 256 + (2 + 4 * (2 + 4 * 0))) mod 2 ^ 16) with 0x20A by lia. reflexivity.
    + replace ((N.of_nat (length w) * 65536 + N.of_nat 3 * 256 + (2 + 4 * (2 + 4 * (2 + 4 * 0)))) mod 2 ^ 16) with 0x32A by lia. reflexivity.
Qed.

(** ** C16 *)
Lemma set_changes_case cs : casing_ok cs -> forall w tail min, Forall (good_char cs) w ->
  exists w', cap_set cs (w ++ 0 :: tail) (length w) min = Ok (w' ++ 0 :: tail) /\
    length w' = length w /\ map (locase cs) w' = w /\ is_bytes w' /\
    parts cs w' = recaps cs (set_scheme (length (parts cs w)) min) (parts cs w).
Proof.
  intros Hok w tail min Hg. unfold cap_set.
  assert (H0 : ~ In 0 w).
  { intros Hi. rewrite Forall_forall in Hg. destruct (Hg 0 Hi) as [(_ & Hr & _)|(_ & _ & H)]; [|congruence].
    pose proof (ok_nul cs Hok) as Hn. unfold is_delim, is_regular in *. congruence. }
  assert (Hf : firstn (length w) (w ++ 0 :: tail) = w) by (rewrite firstn_app, firstn_all, Nat.sub_diag; apply app_nil_r).
  rewrite Hf. rewrite app_length. destruct (Nat.ltb_spec (length w + length (0 :: tail)) (length w)); [lia|].
  rewrite count_parts_length.
  destruct (set_loop_recased cs (ok_nul cs Hok) w H0 (set_scheme (length (parts cs w)) min) tail) as (w' & Hr & E).
  exists w'. split; [exact E|].
  apply (recased_facts cs (fun d Hd H => proj1 (ok_delim cs Hok d Hd H)) (ok_up cs Hok) (fun c Hc => proj2 (proj2 (ok_range cs Hok c Hc))) _ _ _ Hr Hg).
Qed.

Lemma set_acceptable cs : casing_ok cs -> forall w tail min outlen, Forall (good_char cs) w ->
  Forall (fun p => p <> []) (parts cs w) -> (length (parts cs w) <= 3)%nat -> min <= 2 ->
  (min = 1 -> length (parts cs w) = 1%nat \/ Forall (fun p => 2 <= length p)%nat (parts cs w)) ->
  (length w < outlen)%nat -> N.of_nat outlen <= 2 ^ 16 ->
  exists w' v, cap_set cs (w ++ 0 :: tail) (length w) min = Ok (w' ++ 0 :: tail) /\
    length w' = length w /\ cap_get cs outlen w' = Ok (v, w ++ [0]) /\ IsGoodSheme (v mod 2 ^ 16) min = true.
Proof.
  intros Hok w tail min outlen Hg Hne Hp Hm H1 Hl Ho.
  destruct (set_changes_case cs Hok w tail min Hg) as (w' & E & Hlen & Hlo & Hb & Hps).
  assert (Hcl : exists cls, parts_are cs (parts cs w') cls /\ length (parts cs w') = length (parts cs w) /\
                IsGoodSheme (N.of_nat (length (parts cs w)) * 256 + pack cls) min = true).
  { rewrite Hps. pose proof (good_parts cs w Hg) as Hgp. pose proof (parts_nonnil cs w) as Hnn. clear - Hne Hgp Hp Hm H1 Hnn.
    destruct (parts cs w) as [|p1 ps]; [congruence|]. inversion Hne as [|? ? N1 Hne1]; inversion Hgp as [|? ? L1 Hgp1]; subst.
    assert (Hmin : min = 0 \/ min = 1 \/ min = 2) by lia.
    destruct ps as [|p2 ps].
    { assert (Hrec : recaps cs (set_scheme (length [p1]) min) [p1] = [recap cs min p1])
        by (destruct Hmin as [->|[->| ->]]; reflexivity). rewrite Hrec.
      destruct Hmin as [->|[->| ->]];
        [exists [0]|destruct p1 as [|c [|d p1]]; [congruence|exists [2]|exists [1]]|exists [2]]; (split; [|split; reflexivity]); apply parts_last.
      - apply (recap_class cs); auto; lia.
      - inversion L1; subst. apply (recap_single cs). assumption.
      - apply (recap_class cs); auto; cbn; lia.
      - apply (recap_class cs); auto; lia. }
    inversion Hne1 as [|? ? N2 Hne2]; inversion Hgp1 as [|? ? L2 Hgp2]; subst.
    assert (H2 : min = 1 -> Forall (fun p : bytes => 2 <= length p)%nat (p1 :: p2 :: ps))
      by (intros Hm1; destruct (H1 Hm1) as [Hx|Hx]; [cbn in Hx; lia|exact Hx]).
    destruct ps as [|p3 ps].
    { exists [min; min]. split; [|split; [reflexivity|]].
      - apply parts_are_all; [discriminate|].
        assert (Hrec : recaps cs (set_scheme (length [p1; p2]) min) [p1; p2] = [recap cs min p1; recap cs min p2])
          by (destruct Hmin as [->|[->| ->]]; reflexivity). rewrite Hrec.
        repeat constructor; apply (recap_class cs); auto; intros Hm1; specialize (H2 Hm1); inversion H2 as [|? ? G1 G2]; subst; auto.
        inversion G2; auto.
      - destruct Hmin as [->|[->| ->]]; reflexivity. }
    inversion Hne2 as [|? ? N3 Hne3]; inversion Hgp2 as [|? ? L3 Hgp3]; subst.
    destruct ps as [|p4 ps]; [|cbn in Hp; lia].
    exists [min; N.land min 2; min]. split; [|split; [reflexivity|]].
    - apply parts_are_all; [discriminate|].
      assert (Hrec : recaps cs (set_scheme (length [p1; p2; p3]) min) [p1; p2; p3] = [recap cs min p1; recap cs (N.land min 2) p2; recap cs min p3])
        by (destruct Hmin as [->|[->| ->]]; reflexivity). rewrite Hrec.
      assert (Hm2 : N.land min 2 <= 2 /\ N.land min 2 <> 1) by (destruct Hmin as [->|[->| ->]]; cbn; lia).
      constructor; [|constructor; [|constructor; [|constructor]]]; apply (recap_class cs); auto; try lia;
        intros Hm1; specialize (H2 Hm1); inversion H2 as [|? ? G1 G2]; subst; auto; inversion G2 as [|? ? G3 G4]; subst; inversion G4; auto.
    - destruct Hmin as [->|[->| ->]]; reflexivity. }
  destruct Hcl as (cls & Hcl & Hlp & Hgood).
  exists w', (N.of_nat (length w') * 65536 + N.of_nat (length (parts cs w')) * 256 + pack cls). split; [exact E|]. split; [exact Hlen|]. split.
  - rewrite <- Hlo. apply cap_get_class; auto; try lia. intros d Hd H. apply (ok_delim cs Hok); assumption.
  - rewrite Hlp. pose proof (pack_lt cls (parts_are_class cs _ _ Hcl)) as Hk. rewrite <- (parts_are_length cs _ _ Hcl), Hlp in Hk.
    assert (4 ^ N.of_nat (length (parts cs w)) <= 4 ^ 3) by (apply N.pow_le_mono_r; lia). change (4 ^ 3) with 64 in *.
    replace ((N.of_nat (length w') * 65536 + N.of_nat (length (parts cs w)) * 256 + pack cls) mod 2 ^ 16)
      with (N.of_nat (length (parts cs w)) * 256 + pack cls); [assumption|]. lia.
Qed.

Lemma set_unacceptable : exists w w' v out,
  Forall (fun c => letter rus_casing c \/ c = 45) w /\ Forall (fun p => p <> []) (parts rus_casing w) /\
  length (parts rus_casing w) = 2%nat /\
  cap_set rus_casing (w ++ [0]) (length w) 1 = Ok (w' ++ [0]) /\
  cap_get rus_casing 48 w' = Ok (v, out) /\ IsGoodSheme (v mod 2 ^ 16) 1 = false.
Proof.
  exists [254; 45; 225; 240], [222; 45; 193; 240]. do 2 eexists. split.
  - repeat constructor; (left; apply rus_letters; lia) || (right; reflexivity).
  - split; [cbn; repeat constructor; discriminate|]. split; [reflexivity|]. repeat split; vm_compute; reflexivity.
Qed.

Lemma set_only_case cs : casing_ok cs -> forall w tail min, Forall (good_char cs) w ->
  exists w', cap_set cs (w ++ 0 :: tail) (length w) min = Ok (w' ++ 0 :: tail) /\
    length w' = length w /\ map (locase cs) w' = w.
Proof.
  intros Hok w tail min Hg. destruct (set_changes_case cs Hok w tail min Hg) as (w' & E & Hlen & Hlo & _). eauto.
Qed.
