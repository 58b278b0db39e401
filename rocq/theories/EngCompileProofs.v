(** * EngCompileProofs: reading the lines.  PROOFS. *)
From Coq Require Import String Ascii.
From Verif Require Import Base Serial WordTree TreeSpec Stems StemSpec CharTables CapScheme CapSpec CapProofs RusRuntime RusSpec EngRuntime EngSpec Api
  EngCompile EngCompileSpec.
Local Open Scope N_scope.
Local Open Scope list_scope.

(** ** Characters *)
Lemma blank_space c : blank c -> is_space c = true.
Proof. unfold is_space. intros [-> | ->]; reflexivity. Qed.
Lemma end_space c : line_end c -> is_space c = true.
Proof. unfold is_space. intros [[-> | ->]|[-> | ->]]; reflexivity. Qed.
Lemma visible_space c : visible c -> is_space c = false.
Proof. unfold visible, is_space. intros H. apply N.leb_gt. lia. Qed.

Lemma below_128 (p : N -> bool) : forallb p (map N.of_nat (seq 0 128)) = true -> forall c, c < 128 -> p c = true.
Proof.
  intros H c Hc. rewrite forallb_forall in H. apply H. apply in_map_iff. exists (N.to_nat c). split; [lia|]. apply in_seq. lia.
Qed.
Lemma low_small c : c < 128 -> tab eng_toLoCaseMatrix c = if capital c then c + 32 else c.
Proof.
  intros H. apply N.eqb_eq. apply (below_128 (fun c => tab eng_toLoCaseMatrix c =? (if capital c then c + 32 else c))); [vm_compute; reflexivity|exact H].
Qed.
Lemma low_small_map s : Forall (fun c => c < 128) s -> map (tab eng_toLoCaseMatrix) s = to_small s.
Proof. intros H. unfold to_small. apply map_ext_Forall. eapply Forall_impl; [|exact H]. intros c Hc. apply low_small, Hc. Qed.
Lemma is_capital_some c : c < 128 -> is_capital (Some c) = capital c.
Proof.
  intros H. unfold is_capital. destruct (N.ltb_spec c 128); [|lia]. rewrite low_small by exact H. unfold capital.
  destruct (N.leb_spec 65 c), (N.leb_spec c 90); cbn [andb]; try (rewrite N.eqb_refl; reflexivity).
  destruct (N.eqb_spec (c + 32) c); [lia|reflexivity].
Qed.

Lemma word_low s : word_text s -> Forall (fun c => c < 128) s.
Proof. apply Forall_impl. unfold visible. intros c H. lia. Qed.

(** ** Searching *)
Lemma take_until_all stop s : Forall (fun c => stop c = false) s -> take_until stop s = (s, []).
Proof. induction 1 as [|c s Hc Hs IH]; [reflexivity|]. cbn. rewrite Hc, IH. reflexivity. Qed.
Lemma take_until_app stop a c s : Forall (fun c => stop c = false) a -> stop c = true -> take_until stop (a ++ c :: s) = (a, c :: s).
Proof. intros Ha Hc. induction Ha as [|d a Hd Ha IH]; cbn; [rewrite Hc; reflexivity|]. rewrite Hd, IH. reflexivity. Qed.
Lemma skip_space_app a c s : Forall (fun c => is_space c = true) a -> is_space c = false -> skip_space (a ++ c :: s) = c :: s.
Proof. intros Ha Hc. induction Ha as [|d a Hd Ha IH]; cbn; [rewrite Hc; reflexivity|]. rewrite Hd. exact IH. Qed.
Lemma skip_space_all a : Forall (fun c => is_space c = true) a -> skip_space a = [].
Proof. induction 1 as [|d a Hd Ha IH]; cbn; [reflexivity|]. rewrite Hd. exact IH. Qed.

Lemma trim_all s : Forall (fun c => is_space c = true) s -> trim_end s = [].
Proof. induction 1 as [|c s Hc Hs IH]; cbn; [reflexivity|]. rewrite IH, Hc. reflexivity. Qed.
Lemma trim_end_app a c s : is_space c = false -> Forall (fun c => is_space c = true) s -> trim_end (a ++ c :: s) = a ++ [c].
Proof.
  intros Hc Hs. induction a as [|d a IH]; cbn [app trim_end].
  - rewrite trim_all, Hc by exact Hs. reflexivity.
  - rewrite IH. destruct a; reflexivity.
Qed.

Lemma starts_iff pat s : starts pat s = true <-> exists r, s = pat ++ r.
Proof.
  unfold starts. destruct (list_eq_dec N.eq_dec (firstn (length pat) s) pat) as [E|E]; split; try discriminate; try reflexivity.
  - intros _. exists (skipn (length pat) s). rewrite <- E at 1. symmetry. apply firstn_skipn.
  - intros (r & ->). exfalso. apply E. rewrite firstn_app, Nat.sub_diag, firstn_all, firstn_O, app_nil_r. reflexivity.
Qed.
Lemma strstr_some pat s a b : strstr pat s = Some (a, b) -> s = a ++ b /\ exists r, b = pat ++ r.
Proof.
  revert a b. induction s as [|c s IH]; intros a b; cbn [strstr]; destruct (starts pat _) eqn:E.
  - intros [= <- <-]. split; [reflexivity|]. apply starts_iff, E.
  - discriminate.
  - intros [= <- <-]. split; [reflexivity|]. apply starts_iff, E.
  - destruct (strstr pat s) as [[a' b']|]; [|discriminate]. intros [= <- <-]. destruct (IH _ _ eq_refl) as [-> H]. auto.
Qed.
Lemma strstr_here pat r : strstr pat (pat ++ r) = Some ([], pat ++ r).
Proof.
  assert (E : starts pat (pat ++ r) = true) by (apply starts_iff; exists r; reflexivity).
  destruct (pat ++ r) eqn:Ep; cbn [strstr]; rewrite E; reflexivity.
Qed.
(** no occurrence begins within [a] *)
Lemma strstr_skip pat a s : (forall a1 c a2, a = a1 ++ c :: a2 -> starts pat (c :: a2 ++ s) = false) ->
  strstr pat (a ++ s) = match strstr pat s with None => None | Some (x, y) => Some (a ++ x, y) end.
Proof.
  induction a as [|c a IH]; intros H; [cbn [app]; destruct (strstr pat s) as [[x y]|]; reflexivity|].
  cbn [app strstr]. rewrite (H [] c a eq_refl), IH; [destruct (strstr pat s) as [[x y]|]; reflexivity|].
  intros a1 d a2 ->. apply (H (c :: a1) d a2). reflexivity.
Qed.

Definition no_colon (s : bytes) : Prop := Forall (fun c => c <> 58) s.
Lemma colon_split a b a' b' : no_colon a -> no_colon a' -> a ++ 58 :: b = a' ++ 58 :: b' -> a = a' /\ b = b'.
Proof.
  intros Ha. revert a'. induction Ha as [|c a Hc Ha IH]; intros a' Ha' E.
  - destruct Ha' as [|d a' Hd Ha']; cbn in E; [injection E as <-; auto|]. injection E as <- _. contradiction.
  - destruct Ha' as [|d a' Hd Ha']; cbn in E; [injection E as -> _; contradiction|]. injection E as -> E.
    destruct (IH _ Ha' E) as [-> ->]. auto.
Qed.
(** the colon of a pattern that ends with the colon is the first colon of the text *)
Lemma starts_colon q s a b : no_colon q -> starts (q ++ [58]) s = true -> s = a ++ 58 :: b -> no_colon a -> a = q.
Proof.
  intros Hq H E Ha. apply starts_iff in H as (r & Hr). rewrite <- app_assoc in Hr. cbn [app] in Hr. rewrite E in Hr.
  destruct (colon_split _ _ _ _ Ha Hq Hr) as [-> _]. reflexivity.
Qed.
(** skipping text without colons before [q':] *)
Lemma strstr_plain q a q' b : no_colon q -> no_colon a -> no_colon q' ->
  (forall a1 a2, a = a1 ++ a2 -> a2 <> [] -> a2 ++ q' <> q) ->
  strstr (q ++ [58]) (a ++ q' ++ 58 :: b) =
  match strstr (q ++ [58]) (q' ++ 58 :: b) with None => None | Some (x, y) => Some (a ++ x, y) end.
Proof.
  intros Hq Ha Hq' Hne. apply strstr_skip. intros a1 c a2 Ea.
  destruct (starts (q ++ [58]) (c :: a2 ++ q' ++ 58 :: b)) eqn:E; [|reflexivity]. exfalso.
  assert (Hc : no_colon (c :: a2)) by (rewrite Ea in Ha; apply Forall_app in Ha; apply Ha).
  assert (Es : (c :: a2) ++ q' = q).
  { eapply starts_colon; [exact Hq|exact E| |apply Forall_app; split; [exact Hc|exact Hq']]. cbn [app]. rewrite <- app_assoc. reflexivity. }
  apply (Hne a1 (c :: a2) Ea); [discriminate|exact Es].
Qed.
Lemma strstr_none_plain q s : no_colon s -> strstr (q ++ [58]) s = None.
Proof.
  intros H. destruct (strstr (q ++ [58]) s) as [[a b]|] eqn:E; [|reflexivity]. exfalso. apply strstr_some in E as (-> & r & ->).
  apply Forall_app in H as [_ H]. rewrite <- app_assoc in H. apply Forall_app in H as [_ H]. apply Forall_inv in H. contradiction.
Qed.

Definition qlid : bytes := [76; 73; 68].
Definition qpost : bytes := [112; 111; 115; 116].
Lemma lid_eq : text "LID:" = qlid ++ [58]. Proof. reflexivity. Qed.
Lemma post_eq : text "post:" = qpost ++ [58]. Proof. reflexivity. Qed.
Lemma qlid_plain : no_colon qlid. Proof. repeat constructor; discriminate. Qed.
Lemma qpost_plain : no_colon qpost. Proof. repeat constructor; discriminate. Qed.

Lemma longer {X} (a2 q q' : list X) : a2 <> [] -> (length q <= length q')%nat -> a2 ++ q' <> q.
Proof. intros H1 H2 E. apply (f_equal (@List.length X)) in E. rewrite app_length in E. destruct a2; [contradiction|]. cbn in E. lia. Qed.

(** ** The number *)
Lemma digits_ten t : forall n, Forall (fun c => 48 <= c <= 57) t -> digits 10 t n = fold_left (fun a c => 10 * a + (c - 48)) t n.
Proof.
  induction t as [|c t IH]; intros n H; [reflexivity|]. pose proof (Forall_inv H) as Hc. cbn beta in Hc. cbn [digits fold_left].
  assert (E : digit c = Some (c - 48)) by (unfold digit; destruct (N.leb_spec 48 c), (N.leb_spec c 57); cbn [andb]; try lia; reflexivity).
  rewrite E. destruct (N.ltb_spec (c - 48) 10); [|lia]. apply IH, (Forall_inv_tail H).
Qed.
Lemma strtoul_decimal t n : decimal t n -> n < 2 ^ 32 -> strtoul t mod 2 ^ 32 = n.
Proof.
  intros (H1 & H2 & H3 & H4) Hn. destruct t as [|c t]; [contradiction|]. clear H2. cbn [hd] in H3.
  pose proof (Forall_inv H1) as Hc. cbn beta in Hc. pose proof (digits_ten (c :: t) 0 H1) as E. rewrite H4 in E.
  assert (K : strtoul (c :: t) = n); [|rewrite K; apply N.mod_small, Hn].
  unfold strtoul. cbn [skip_blank]. 
  assert (S : (c =? 32) || (9 <=? c) && (c <=? 13) = false) by (destruct (N.eqb_spec c 32), (N.leb_spec 9 c), (N.leb_spec c 13); try lia; reflexivity).
  rewrite S. clear S.
  assert (K1 : c = 49 \/ c = 50 \/ c = 51 \/ c = 52 \/ c = 53 \/ c = 54 \/ c = 55 \/ c = 56 \/ c = 57) by lia.
  assert (K2 : n <? 2 ^ 64 = true) by (apply N.ltb_lt; change (2 ^ 32) with 4294967296 in Hn; change (2 ^ 64) with 18446744073709551616; lia).
  assert (K3 : 2 ^ 64 <=? n = false) by (apply N.leb_gt, N.ltb_lt, K2).
  destruct K1 as [->|[->|[->|[->|[->|[->|[->|[->| ->]]]]]]]]; cbv iota beta; rewrite E, K3; reflexivity.
Qed.
Lemma digits_eight t : forall n, Forall (fun c => 48 <= c <= 55) t -> digits 8 t n = fold_left (fun a c => 8 * a + (c - 48)) t n.
Proof.
  induction t as [|c t IH]; intros n H; [reflexivity|]. pose proof (Forall_inv H) as Hc. cbn beta in Hc. cbn [digits fold_left].
  assert (E : digit c = Some (c - 48)) by (unfold digit; destruct (N.leb_spec 48 c), (N.leb_spec c 57); cbn [andb]; try lia; reflexivity).
  rewrite E. destruct (N.ltb_spec (c - 48) 8); [|lia]. apply IH, (Forall_inv_tail H).
Qed.
Lemma digit_hex c : 48 <= c <= 57 \/ 97 <= c <= 102 \/ 65 <= c <= 70 ->
  digit c = Some (if c <? 58 then c - 48 else if c <? 71 then c - 55 else c - 87) /\ (if c <? 58 then c - 48 else if c <? 71 then c - 55 else c - 87) < 16.
Proof.
  intros H. unfold digit. destruct (N.leb_spec 48 c), (N.leb_spec c 57), (N.leb_spec 97 c), (N.leb_spec c 122), (N.leb_spec 65 c), (N.leb_spec c 90),
    (N.ltb_spec c 58), (N.ltb_spec c 71); cbn [andb]; try lia; (split; [reflexivity|lia]).
Qed.
Lemma digits_sixteen t : forall n, Forall (fun c => 48 <= c <= 57 \/ 97 <= c <= 102 \/ 65 <= c <= 70) t ->
  digits 16 t n = fold_left (fun a c => 16 * a + (if c <? 58 then c - 48 else if c <? 71 then c - 55 else c - 87)) t n.
Proof.
  induction t as [|c t IH]; intros n H; [reflexivity|]. pose proof (Forall_inv H) as Hc. cbn beta in Hc. cbn [digits fold_left].
  destruct (digit_hex c Hc) as [E1 E2]. rewrite E1. destruct (N.ltb_spec (if c <? 58 then c - 48 else if c <? 71 then c - 55 else c - 87) 16); [|lia].
  apply IH, (Forall_inv_tail H).
Qed.
Lemma strtoul_numeral t n : numeral t n -> n < 2 ^ 32 -> strtoul t mod 2 ^ 32 = n.
Proof.
  intros [H|[(u & -> & Hu & E)|(x & u & -> & Hx & Hne & Hu & E)]] Hn; [apply strtoul_decimal; assumption| |].
  - assert (K3 : 2 ^ 64 <=? n = false) by (apply N.leb_gt; change (2 ^ 32) with 4294967296 in Hn; change (2 ^ 64) with 18446744073709551616; lia).
    assert (K : strtoul (48 :: u) = n); [|rewrite K; apply N.mod_small, Hn].
    unfold strtoul. cbn [skip_blank]. change ((48 =? 32) || (9 <=? 48) && (48 <=? 13)) with false. cbv iota beta.
    rewrite <- (digits_eight u 0 Hu) in E. destruct u as [|a [|b v]].
    + cbn in E |- *. exact E.
    + rewrite E, K3. reflexivity.
    + pose proof (Forall_inv Hu) as Ha. cbn beta in Ha.
      assert (Hax : (a =? 120) || (a =? 88) = false) by (destruct (N.eqb_spec a 120), (N.eqb_spec a 88); try lia; reflexivity).
      rewrite Hax. cbn [andb]. change (digits 8 (48 :: a :: b :: v) 0) with (digits 8 (a :: b :: v) 0). rewrite E, K3. reflexivity.
  - assert (K3 : 2 ^ 64 <=? n = false) by (apply N.leb_gt; change (2 ^ 32) with 4294967296 in Hn; change (2 ^ 64) with 18446744073709551616; lia).
    assert (K : strtoul (48 :: x :: u) = n); [|rewrite K; apply N.mod_small, Hn].
    unfold strtoul. cbn [skip_blank]. change ((48 =? 32) || (9 <=? 48) && (48 <=? 13)) with false. cbv iota beta.
    rewrite <- (digits_sixteen u 0 Hu) in E. destruct u as [|d v]; [contradiction|].
    assert (Hax : (x =? 120) || (x =? 88) = true) by (destruct Hx as [-> | ->]; reflexivity).
    destruct (digit_hex d (Forall_inv Hu)) as [E1 E2]. apply N.ltb_lt in E2. rewrite Hax, E1, E2. cbn [andb]. rewrite E, K3. reflexivity.
Qed.

