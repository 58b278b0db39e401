(** * MakeichProofs2: the bytes of one set of strings. *)
From Coq Require Import String.
From Verif Require Import Base Serial WordTree TreeSpec Stems StemSpec SerialProofs DictProofs GramMap RusRuntime LevelSpec RusSpec Compile CompileSpec CompileProofs Api EngCompile EngCompileSpec EngCompileProofs EngCompileProofs3 Utf8 RusText Tfc TfcSpec TfcProofs TfcProofs2 TfcProofs3 TfcProofs4 TfcProofs5 Makeich MakeichSpec MakeichProofs.
Local Open Scope N_scope.
Local Open Scope list_scope.
Notation length := List.length.

Definition fits_line (strings : list bytes) : Prop := (2 <= length strings <= 4)%nat /\ Forall (fun s => is_bytes s /\ (length s < 16)%nat) strings.
Definition mask_of (n : nat) (f : N) : N := if Nat.eqb n 2 && N.testbit f 0 then N.lor f 4 else f.
Definition mx_of (n : nat) (x : list (bytes * N)) : list (N * bytes) := map (fun p => (mask_of n (snd p), fst p)) x.

Lemma flags_small strings s f : (length strings <= 4)%nat -> In (s, f) (inter_of strings) -> f < 16.
Proof.
  intros Hl Hin. destruct (inter_set strings) as (_ & _ & H3). change 16 with (2 ^ 4). destruct (N.eq_dec f 0) as [->|Hf]; [reflexivity|]. apply N.log2_lt_pow2; [lia|]. destruct (N.lt_ge_cases (N.log2 f) 4) as [K|K]; [exact K|]. exfalso.
  pose proof (N.bit_log2 f Hf) as B. rewrite <- (N2Nat.id (N.log2 f)) in B. apply (H3 _ _ _ Hin) in B. destruct B as [_ B]. assert (nth_error strings (N.to_nat (N.log2 f)) <> None) by congruence. apply nth_error_Some in H. lia.
Qed.
Lemma fold_lor (x : list (bytes * N)) : forall u j, N.testbit (fold_left (fun u p => N.lor u (N.shiftl (snd p) 4)) x u) j = N.testbit u j || existsb (fun p => N.testbit (N.shiftl (snd p) 4) j) x.
Proof. induction x as [|p x IH]; intros u j; cbn [fold_left existsb]; [rewrite orb_false_r; reflexivity|]. rewrite IH, N.lor_spec, orb_assoc. reflexivity. Qed.
Lemma upper_value strings : (length strings <= 4)%nat -> fold_left (fun u p => N.lor u (N.shiftl (snd p) 4)) (inter_of strings) 0 = N.shiftl (N.ones (N.of_nat (length strings))) 4.
Proof.
  intros Hl. apply N.bits_inj. intros j. rewrite fold_lor, N.bits_0. cbn [orb]. destruct (inter_set strings) as (_ & H2 & H3). destruct (N.lt_ge_cases j 4) as [Hj|Hj].
  - rewrite (N.shiftl_spec_low _ _ _ Hj). apply not_true_is_false. intros K. apply existsb_exists in K. destruct K as (p & _ & K). rewrite (N.shiftl_spec_low _ _ _ Hj) in K. discriminate.
  - rewrite (N.shiftl_spec_high' _ _ _ Hj). destruct (N.lt_ge_cases (j - 4) (N.of_nat (length strings))) as [Hk|Hk].
    + rewrite N.ones_spec_low by exact Hk. apply existsb_exists. destruct (nth_error strings (N.to_nat (j - 4))) as [s|] eqn:E; [|apply nth_error_None in E; lia].
      assert (K : In s (map fst (inter_of strings))) by (apply H2; eapply nth_error_In, E). apply in_map_iff in K. destruct K as ([s' f] & <- & K). exists (s', f). split; [exact K|]. cbn [snd fst] in *. rewrite (N.shiftl_spec_high' _ _ _ Hj). rewrite <- (N2Nat.id (j - 4)).
      apply (H3 _ _ _ K). split; [lia|exact E].
    + rewrite N.ones_spec_high by exact Hk. apply not_true_is_false. intros K. apply existsb_exists in K. destruct K as ([s f] & K & B). cbn [snd] in B. rewrite (N.shiftl_spec_high' _ _ _ Hj), <- (N2Nat.id (j - 4)) in B. apply (H3 _ _ _ K) in B. destruct B as [_ B].
      assert (L : nth_error strings (N.to_nat (j - 4)) <> None) by congruence. apply nth_error_Some in L. lia.
Qed.
Definition flag_check (u n : N) : bool :=
  forallb (fun f => forallb (fun k =>
    (let bflags := N.lor k (N.shiftl f 4) mod 256 in
    let bflags := if negb (u =? 0) && negb (N.land bflags 0x10 =? 0) then N.lor bflags u else bflags in bflags) =? mask_of (N.to_nat n) f * 16 + k)
    (map N.of_nat (seq 0 16))) (map N.of_nat (seq 0 16)).
Lemma flag_checked : flag_check 0x40 2 = true /\ flag_check 0 3 = true /\ flag_check 0 4 = true.
Proof. vm_compute. auto. Qed.
Lemma flag_byte u n f k : flag_check u (N.of_nat n) = true -> f < 16 -> k < 16 ->
  (let bflags := N.lor k (N.shiftl f 4) mod 256 in if negb (u =? 0) && negb (N.land bflags 0x10 =? 0) then N.lor bflags u else bflags) = mask_of n f * 16 + k.
Proof.
  intros H Hf Hk. unfold flag_check in H. rewrite forallb_forall in H. assert (I : forall m, m < 16 -> In m (map N.of_nat (seq 0 16))). { intros m Hm. apply in_map_iff. exists (N.to_nat m). split; [lia|]. apply in_seq. lia. }
  specialize (H f (I f Hf)). rewrite forallb_forall in H. specialize (H k (I k Hk)). apply N.eqb_eq in H. rewrite Nat2N.id in H. exact H.
Qed.
Lemma sorted_nodup x : sorted x -> NoDup (map fst x).
Proof.
  induction x as [|p x IH]; cbn [sorted map]; [constructor|]. intros [Ha Hs]. constructor; [|apply IH, Hs]. intros K. apply in_map_iff in K. destruct K as (q & E & K). rewrite Forall_forall in Ha. specialize (Ha _ K). unfold key_lt in Ha. rewrite <- E, strcmp_refl in Ha. discriminate.
Qed.
Lemma inter_count strings : (length (inter_of strings) <= length strings)%nat.
Proof.
  destruct (inter_set strings) as (H1 & H2 & _). rewrite <- (map_length fst). apply NoDup_incl_length; [apply sorted_nodup, H1|]. intros s. apply H2.
Qed.
Lemma inter_ser_mix strings : fits_line strings -> inter_ser (inter_of strings) = mix_ser (mx_of (length strings) (inter_of strings)).
Proof.
  intros [[Hl1 Hl2] Hf]. unfold inter_ser. cbv zeta. rewrite (upper_value strings Hl2). set (u := N.land _ 0x70).
  assert (Hc : flag_check u (N.of_nat (length strings)) = true).
  { unfold u. clear u. destruct flag_checked as (C2 & C3 & C4). assert (E : length strings = 2%nat \/ length strings = 3%nat \/ length strings = 4%nat) by lia. unfold bytes in *. destruct E as [E|[E|E]]; rewrite E; [exact C2|exact C3|exact C4]. }
  pose proof (inter_count strings) as Hn. unfold mix_ser, mx_of. rewrite map_length. rewrite N.mod_small by lia. f_equal. rewrite !flat_map_concat_map, map_map. f_equal. apply map_ext_in. intros [s f] Hin. cbn [fst snd]. f_equal.
  apply (flag_byte u (length strings) f); [exact Hc|apply (flags_small strings s f Hl2 Hin)|]. destruct (inter_set strings) as (_ & H2 & _). assert (K : In s strings) by (apply H2, in_map_iff; exists (s, f); auto). rewrite Forall_forall in Hf. destruct (Hf _ K) as [_ K']. lia.
Qed.
Lemma mask_bit n f k : (k < 3)%nat -> N.testbit (mask_of n f) (N.of_nat k) = N.testbit f (N.of_nat k) || (Nat.eqb n 2 && Nat.eqb k 2 && N.testbit f 0).
Proof.
  intros Hk. unfold mask_of. destruct (Nat.eqb n 2) eqn:E; cbn [andb]; [|rewrite orb_false_r; reflexivity]. destruct (N.testbit f 0) eqn:B; [|rewrite andb_false_r, orb_false_r; reflexivity]. rewrite N.lor_spec, andb_true_r. f_equal. destruct k as [|[|[|k]]]; [reflexivity|reflexivity|reflexivity|lia].
Qed.
Lemma ascending_sorted n x : sorted x -> ascending (map snd (mx_of n x)).
Proof.
  intros H. unfold mx_of. rewrite map_map. cbn [snd]. induction x as [|p x IH]; cbn [map ascending]; [exact I|]. destruct H as [Ha Hs]. split; [|apply IH, Hs]. apply Forall_forall. intros t Ht. apply in_map_iff in Ht. destruct Ht as (q & <- & Hq). rewrite Forall_forall in Ha. specialize (Ha _ Hq). unfold key_lt in Ha.
  left. pose proof (strcmp_le (fst p) (fst q)) as K. rewrite Ha in K. exact K.
Qed.
Lemma mx_ok strings : fits_line strings -> mix_ok (mx_of (length strings) (inter_of strings)).
Proof.
  intros [[Hl1 Hl2] Hf]. destruct (inter_set strings) as (H1 & H2 & _). split; [|split; [|apply ascending_sorted, H1]].
  - unfold mx_of. rewrite map_length. pose proof (inter_count strings). lia.
  - apply Forall_forall. intros [m s] Hin. apply in_map_iff in Hin. destruct Hin as ([s' f] & E & Hin). cbn [fst snd] in *. injection E as <- <-. pose proof (flags_small strings s' f Hl2 Hin) as Hf16. split.
    + unfold mask_of. destruct (Nat.eqb (length strings) 2 && N.testbit f 0); [|exact Hf16]. assert (K : forallb (fun f => N.lor f 4 <? 16) (map N.of_nat (seq 0 16)) = true) by reflexivity. rewrite forallb_forall in K. apply N.ltb_lt, K. apply in_map_iff. exists (N.to_nat f). split; [lia|]. apply in_seq. lia.
    + assert (K : In s' strings) by (apply H2, in_map_iff; exists (s', f); auto). rewrite Forall_forall in Hf. apply (Hf _ K).
Qed.
Lemma mx_tells strings : (2 <= length strings <= 4)%nat -> mix_tells strings (mx_of (length strings) (inter_of strings)).
Proof.
  intros [Hl1 Hl2]. destruct (inter_set strings) as (H1 & H2 & H3). split.
  - intros k s Hk. unfold level_string. split.
    + intros (mask & Hin & B). apply in_map_iff in Hin. destruct Hin as ([s' f] & E & Hin). cbn [fst snd] in E. injection E as <- <-. rewrite (mask_bit _ _ _ Hk) in B. apply orb_true_iff in B. destruct B as [B|B].
      * apply (H3 _ _ _ Hin) in B. destruct B as [_ B]. symmetry. apply nth_error_nth, B.
      * apply andb_true_iff in B. destruct B as [B B0]. apply andb_true_iff in B. destruct B as [Bn Bk]. apply Nat.eqb_eq in Bn, Bk. change 0 with (N.of_nat 0) in B0. apply (H3 _ _ _ Hin) in B0. destruct B0 as [_ B0].
        rewrite nth_overflow by lia. symmetry. apply nth_error_nth, B0.
    + intros ->. assert (K : forall j, (j < length strings)%nat -> exists f, In (nth j strings [], f) (inter_of strings) /\ N.testbit f (N.of_nat j) = true).
      { intros j Hj. assert (Hin : In (nth j strings []) (map fst (inter_of strings))) by (apply H2, nth_In, Hj). apply in_map_iff in Hin. destruct Hin as ([s f] & E & Hin). cbn [fst] in E. subst s. exists f. split; [exact Hin|]. apply (H3 _ _ _ Hin). split; [lia|]. apply nth_error_nth', Hj. }
      destruct (Nat.lt_ge_cases k (length strings)) as [Hkl|Hkl].
      * destruct (K k Hkl) as (f & Hin & B). exists (mask_of (length strings) f). split.
        -- apply in_map_iff. exists (nth k strings [], f). split; [|exact Hin]. cbn [fst snd]. f_equal. apply nth_indep, Hkl.
        -- rewrite (mask_bit _ _ _ Hk), B. reflexivity.
      * destruct (K 0%nat ltac:(lia)) as (f & Hin & B). exists (mask_of (length strings) f). rewrite nth_overflow by exact Hkl. split; [apply in_map_iff; exists (nth 0 strings [], f); auto|]. rewrite (mask_bit _ _ _ Hk).
        rewrite (proj2 (Nat.eqb_eq _ _) (ltac:(lia) : length strings = 2%nat)), (proj2 (Nat.eqb_eq _ _) (ltac:(lia) : k = 2%nat)). change (N.of_nat 0) with 0 in B. rewrite B. apply orb_true_r.
  - intros s. rewrite <- H2. unfold mx_of. rewrite map_map. reflexivity.
Qed.
(** ** Sizes *)
Definition total_len (l : list bytes) : N := fold_right (fun s n => 1 + N.of_nat (length s) + n) 0 l.
Lemma total_len_app a b : total_len (a ++ b) = total_len a + total_len b.
Proof. induction a as [|s a IH]; cbn [app]; [reflexivity|]. unfold total_len in *. cbn [fold_right]. rewrite IH. lia. Qed.
Lemma total_len_incl a : forall b, NoDup a -> incl a b -> total_len a <= total_len b.
Proof.
  induction a as [|s a IH]; intros b Hn Hi; [unfold total_len at 1; cbn; lia|]. inversion Hn as [|? ? Hs Hn']. subst. destruct (in_split s b (Hi s (or_introl eq_refl))) as (b1 & b2 & ->).
  assert (K : total_len a <= total_len (b1 ++ b2)). { apply IH; [exact Hn'|]. intros t Ht. specialize (Hi t (or_intror Ht)). apply in_app_or in Hi. apply in_or_app. destruct Hi as [Hi|[->|Hi]]; [left; exact Hi|contradiction|right; exact Hi]. }
  rewrite !total_len_app in *. unfold total_len in *. cbn [fold_right]. lia.
Qed.
Definition ser_size (x : list (bytes * N)) : N := 1 + total_len (map fst x).
Lemma inter_ser_length x : N.of_nat (length (inter_ser x)) = ser_size x.
Proof.
  unfold inter_ser, ser_size. cbv zeta. set (u := N.land _ _). clearbody u. cbn [length]. rewrite Nat2N.inj_succ. rewrite <- N.add_1_l. f_equal. induction x as [|p x IH]; [reflexivity|]. cbn [flat_map map]. rewrite app_length. cbn [length]. unfold total_len in *. cbn [fold_right].
  rewrite Nat2N.inj_add, Nat2N.inj_succ, IH. unfold bytes in *. lia.
Qed.
Lemma inter_len_size x : ser_size x < 2 ^ 16 -> inter_len x = ser_size x.
Proof.
  intros H. unfold inter_len. assert (E : 1 + fold_right (fun p n => 1 + N.of_nat (length (fst p)) + n) 0 x = ser_size x).
  { unfold ser_size. f_equal. clear H. induction x as [|p x IH]; [reflexivity|]. unfold total_len in *. cbn [fold_right map]. rewrite IH. reflexivity. }
  rewrite E. apply N.mod_small, H.
Qed.
Lemma size_bound strings : ser_size (inter_of strings) <= 1 + total_len strings.
Proof. unfold ser_size. destruct (inter_set strings) as (H1 & H2 & _). apply N.add_le_mono_l, total_len_incl; [apply sorted_nodup, H1|]. intros s. apply H2. Qed.
Lemma mix_ser_bytes mx : mix_ok mx -> Forall (fun ma => is_bytes (snd ma)) mx -> is_bytes (mix_ser mx).
Proof.
  intros (H1 & H2 & _) H3. unfold mix_ser. constructor; [exact H1|]. clear H1. induction mx as [|ma mx IH]; cbn [flat_map]; [constructor|]. inversion H2 as [|? ? [Hm Hl] H2']. inversion H3 as [|? ? Hb H3']. subst. constructor; [|apply Forall_app; auto]. lia.
Qed.
Lemma inter_bytes strings : fits_line strings -> is_bytes (inter_ser (inter_of strings)).
Proof.
  intros H. rewrite (inter_ser_mix _ H). apply mix_ser_bytes; [apply mx_ok, H|]. destruct H as [_ H]. apply Forall_forall. intros [m s] Hin. apply in_map_iff in Hin. destruct Hin as ([s' f] & E & Hin). injection E as <- <-. cbn [snd fst].
  destruct (inter_set strings) as (_ & H2 & _). assert (K : In s' strings) by (apply H2, in_map_iff; exists (s', f); auto). rewrite Forall_forall in H. apply (H _ K).
Qed.
