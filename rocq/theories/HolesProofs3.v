(** * HolesProofs3: reading the ids. *)
From Coq Require Import String Sorting.Sorted.
From Verif Require Import Base Api EngCompile EngCompileSpec EngCompileProofs RusTextSpec RusTextProofs RusTextProofs2 RusTextProofs3 Dump Holes HolesSpec HolesProofs HolesProofs2.
Local Open Scope N_scope.
Local Open Scope list_scope.
Notation length := List.length.
Notation digit := EngCompile.digit.

Definition stops (rest : bytes) : Prop := match rest with [] => True | c :: _ => c <= 32 end.
Lemma digits_stop b rest n : stops rest -> digits b rest n = n.
Proof.
  destruct rest as [|c rest]; [reflexivity|]. cbn [stops digits]. intros H.
  assert (E : digit c = None).
  { unfold EngCompile.digit. destruct (N.leb_spec 48 c); [lia|]. destruct (N.leb_spec 97 c); [lia|]. destruct (N.leb_spec 65 c); [lia|]. reflexivity. }
  rewrite E. reflexivity.
Qed.
Lemma digits_app b t : forall rest n, Forall (fun c => match digit c with Some d => d < b | None => False end) t -> stops rest -> digits b (t ++ rest) n = digits b t n.
Proof.
  induction t as [|c t IH]; intros rest n H Hs; cbn [app]; [rewrite digits_stop by assumption; reflexivity|]. inversion H as [|? ? Hc Ht]; subst. cbn [digits].
  destruct (digit c) as [d|]; [|contradiction]. apply N.ltb_lt in Hc. rewrite Hc. apply IH; assumption.
Qed.
Lemma dec_digit c b : 48 <= c <= 57 -> c < 48 + b -> match digit c with Some d => d < b | None => False end.
Proof. intros H Hb. unfold EngCompile.digit. destruct (N.leb_spec 48 c), (N.leb_spec c 57); cbn [andb]; lia. Qed.

Lemma strtol_numeral t n rest : numeral t n -> 0 < n < 2 ^ 32 -> stops rest -> strtol (t ++ rest) = n.
Proof.
  intros H [Hp Hn] Hs. assert (K3 : 2 ^ 63 <=? n = false) by (apply N.leb_gt; change (2 ^ 32) with 4294967296 in Hn; change (2 ^ 63) with 9223372036854775808; lia).
  destruct H as [(H1 & H2 & H3 & H4)|[(u & -> & Hu & E)|(x & u & -> & Hx & Hne & Hu & E)]].
  - destruct t as [|c t]; [contradiction|]. clear H2. cbn [hd] in H3. pose proof (Forall_inv H1) as Hc. cbn beta in Hc. pose proof (digits_ten (c :: t) 0 H1) as E. rewrite H4 in E.
    rewrite <- (digits_app 10 (c :: t) rest) in E; [| |assumption].
    2:{ revert H1. apply Forall_impl. intros a Ha. apply dec_digit; lia. }
    unfold strtol. cbn [skip_blank app]. 
    assert (S : (c =? 32) || (9 <=? c) && (c <=? 13) = false) by (destruct (N.eqb_spec c 32), (N.leb_spec 9 c), (N.leb_spec c 13); try lia; reflexivity).
    rewrite S. clear S. cbn [app] in E.
    assert (K1 : c = 49 \/ c = 50 \/ c = 51 \/ c = 52 \/ c = 53 \/ c = 54 \/ c = 55 \/ c = 56 \/ c = 57) by lia.
    destruct K1 as [->|[->|[->|[->|[->|[->|[->|[->| ->]]]]]]]]; cbv iota beta; rewrite E, K3; reflexivity.
  - unfold strtol. cbn [skip_blank app]. change ((48 =? 32) || (9 <=? 48) && (48 <=? 13)) with false. cbv iota beta.
    rewrite <- (digits_eight u 0 Hu) in E. rewrite <- (digits_app 8 u rest) in E; [| |assumption].
    2:{ revert Hu. apply Forall_impl. intros a Ha. apply dec_digit; lia. }
    assert (Hax : forall a v, u ++ rest = a :: v -> (a =? 120) || (a =? 88) = false).
    { intros a v Ea. assert (a < 88). { destruct u as [|a' u']; [|injection Ea as -> _; pose proof (Forall_inv Hu) as Ha; cbn beta in Ha; lia].
        cbn [app] in Ea. rewrite Ea in Hs. cbn [stops] in Hs. lia. }
      destruct (N.eqb_spec a 120), (N.eqb_spec a 88); try lia; reflexivity. }
    destruct (u ++ rest) as [|a [|b v]] eqn:Eu; [cbn in E |- *; subst n; reflexivity|rewrite E, K3; reflexivity|].
    rewrite (Hax a (b :: v) eq_refl). cbn [andb]. change (digits 8 (48 :: a :: b :: v) 0) with (digits 8 (a :: b :: v) 0). rewrite E, K3. reflexivity.
  - unfold strtol. cbn [skip_blank app]. change ((48 =? 32) || (9 <=? 48) && (48 <=? 13)) with false. cbv iota beta.
    rewrite <- (digits_sixteen u 0 Hu) in E. rewrite <- (digits_app 16 u rest) in E; [| |assumption].
    2:{ revert Hu. apply Forall_impl. intros a Ha. destruct (digit_hex a Ha) as [-> L]. exact L. }
    destruct u as [|d v]; [contradiction|]. cbn [app] in *.
    assert (Hax : (x =? 120) || (x =? 88) = true) by (destruct Hx as [-> | ->]; reflexivity).
    destruct (digit_hex d (Forall_inv Hu)) as [E1 E2]. apply N.ltb_lt in E2. rewrite Hax, E1, E2. cbn [andb]. rewrite E, K3. reflexivity.
Qed.

Lemma lacks_tail pat c s : lacks pat (c :: s) -> lacks pat s.
Proof. intros H a b E. apply (H (c :: a) b). rewrite E. reflexivity. Qed.
Lemma lacks_front pat s t : lacks pat (s ++ t) -> lacks pat s.
Proof. intros H a b E. apply (H a (b ++ t)). rewrite E, <- !app_assoc. reflexivity. Qed.

Lemma get_lid_none line : line <> [] -> lacks (text "LID:") line -> get_lid line = Ok 0.
Proof.
  destruct line as [|c s]; [congruence|]. intros _ H. unfold get_lid. cbn [length string_lid]. rewrite (strstr_lacks _ s (lacks_tail _ _ _ H)). reflexivity.
Qed.
Lemma get_lid_id line id : shows_id line id -> get_lid line = Ok id.
Proof.
  intros (a & num & rest & -> & Ha & Hl & Hk & Hn & Hid & Hr). destruct a as [|c a]; [congruence|]. cbn [app get_lid length string_lid].
  assert (E : strstr (text "LID:") (a ++ text "LID:" ++ num ++ rest) = Some (a, text "LID:" ++ num ++ rest)).
  { apply lacks_tail in Hk. destruct a as [|a0 a1]; [cbn [app]; rewrite strstr_here; reflexivity|]. destruct (exists_last (l := a0 :: a1)) as (a' & b & Eb); [discriminate|]. rewrite Eb in *.
    assert (Hb : b <= 32). { assert (L : last (c :: a' ++ [b]) 0 = b) by (rewrite app_comm_cons; apply last_last). rewrite L in Hl. exact Hl. }
    rewrite <- app_assoc. rewrite strstr_token; [|unfold visible; repeat constructor|discriminate|eapply lacks_front; exact Hk|constructor; [assumption|constructor]|discriminate].
    rewrite strstr_here. rewrite app_nil_r. reflexivity. }
  rewrite E. apply N.leb_le in Hl. rewrite Hl. change (skipn 4 (text "LID:" ++ num ++ rest)) with (num ++ rest).
  rewrite (strtol_numeral num id rest Hn Hid Hr). destruct (N.eqb_spec id 0) as [|_]; [lia|]. rewrite N.mod_small by lia. reflexivity.
Qed.

Lemma again_ext ids : forall s1 s2 us, (forall n, In n s1 <-> In n s2) -> again s1 ids us -> again s2 ids us.
Proof.
  intros s1 s2 us H A. revert s2 H. induction A as [seen|seen id ids us Hn A IH|seen id ids us Hi A IH]; intros s2 H.
  - constructor.
  - apply ag_new; [rewrite <- H; assumption|]. apply IH. intros n. cbn [In]. rewrite H. reflexivity.
  - apply ag_old; [apply H; assumption|]. apply IH. assumption.
Qed.
Lemma again_total ids : forall seen, exists us, again seen ids us.
Proof.
  induction ids as [|id ids IH]; intros seen; [exists []; constructor|]. destruct (in_dec N.eq_dec id seen) as [H|H].
  - destruct (IH seen) as (us & U). exists (id :: us). apply ag_old; assumption.
  - destruct (IH (id :: seen)) as (us & U). exists us. apply ag_new; assumption.
Qed.
Lemma map_lines_shown lines ids : shown lines ids -> forall map seen used us, maps map seen -> again seen ids us -> exists map', map_lines map used lines = Ok (map', used ++ us) /\ maps map' (rev ids ++ seen).
Proof.
  induction 1 as [|line lines ids H1 H2 H IH|line lines id ids H1 H IH]; intros map seen used us M A.
  - inversion A; subst. exists map. rewrite app_nil_r. split; [reflexivity|assumption].
  - cbn [map_lines]. rewrite get_lid_none by assumption. cbn [bind]. change (0 =? 0) with true. cbv iota. apply IH; assumption.
  - cbn [map_lines]. rewrite (get_lid_id _ _ H1). cbn [bind]. assert (Hid : 0 < id) by (destruct H1 as (? & ? & ? & _ & _ & _ & _ & _ & ? & _); lia).
    destruct (N.eqb_spec id 0) as [|_]; [lia|]. pose proof (maps_insert _ _ id M) as M'. pose proof (insert_again map id) as G. destruct (insert_lex map id) as [map1 ag]. cbn [fst snd] in *.
    destruct (in_dec N.eq_dec id seen) as [Hi|Hi].
    + pose proof (proj2 (mp_bit _ _ M id) Hi) as B. rewrite B in G. subst ag. inversion A as [|? ? ? ? Hn ?|? ? ? us' _ A']; subst; [contradiction|].
      destruct (IH map1 (id :: seen) (used ++ [id]) us' M') as (map' & E & M2).
      { apply (again_ext _ seen); [|assumption]. intros n. cbn [In]. intuition congruence. }
      exists map'. rewrite E, <- app_assoc. split; [reflexivity|]. cbn [rev]. rewrite <- app_assoc. assumption.
    + assert (B : bitof map id = false) by (destruct (bitof map id) eqn:B; [apply (mp_bit _ _ M) in B; contradiction|reflexivity]). rewrite B in G. subst ag.
      inversion A as [|? ? ? ? _ A'|? ? ? ? Hn ?]; subst; [|contradiction]. destruct (IH map1 (id :: seen) used us M' A') as (map' & E & M2).
      exists map'. rewrite E. split; [reflexivity|]. cbn [rev]. rewrite <- app_assoc. assumption.
Qed.

Lemma fgets_front size line : forall room acc file, ~ In 10 line -> (length line < room)%nat -> fgets_split size room acc (line ++ file) = fgets_split size (room - length line) (acc ++ line) file.
Proof.
  induction line as [|c line IH]; intros room acc file H Hr; cbn [app length] in *; [rewrite app_nil_r, Nat.sub_0_r; reflexivity|]. cbn [fgets_split].
  destruct (N.eqb_spec c 10) as [->|_]; [exfalso; apply H; left; reflexivity|]. destruct (Nat.leb_spec room 1); [lia|]. cbn [orb].
  rewrite IH by (try lia; intros Hin; apply H; right; assumption). rewrite <- app_assoc. cbn [app]. f_equal. lia.
Qed.
Lemma fgets_lines file lines : in_lines file lines -> fgets_split 1023 1023 [] file = lines.
Proof.
  induction 1 as [|line H1 H2 H3|line file lines H1 H2 H IH]; [reflexivity| |].
  - rewrite <- (app_nil_r line) at 1. rewrite fgets_front by (assumption || lia). cbn [app fgets_split]. destruct line; [congruence|reflexivity].
  - rewrite fgets_front by (assumption || lia). cbn [app fgets_split]. change (10 =? 10) with true. cbn [orb]. rewrite IH. reflexivity.
Qed.

Lemma maps_same map s1 s2 : (forall n, In n s1 <-> In n s2) -> maps map s1 -> maps map s2.
Proof.
  intros H [M1 M2 M3]. constructor; [assumption|intros n; rewrite M2; apply H|]. destruct M3 as [->|(id & Hid & E)]; [left; reflexivity|right; exists id; split; [apply H; assumption|assumption]].
Qed.
Theorem get_holes_spec file lines ids us : in_lines file lines -> shown lines ids -> again [] ids us ->
  exists map, maps map ids /\ get_holes file = (let! l := print_map map in Ok (l, us)).
Proof.
  intros HL HS HA. destruct (map_lines_shown lines ids HS [] [] [] us maps_nil HA) as (map & E & M). exists map. split.
  - revert M. apply maps_same. intros n. rewrite app_nil_r, <- in_rev. reflexivity.
  - unfold get_holes. rewrite (fgets_lines _ _ HL), E. reflexivity.
Qed.

(** ** Articles *)
Lemma article_shows x line body : rwritten x line body -> shows_id line (r_id x).
Proof.
  intros (Hok & sp0 & sp5 & -> & H0 & H5 & Ht). destruct Ht as [sp1 sp2 sp3 notes sp4 num H1 H2 H3 Hn H4 Hnum].
  destruct (find_lid x sp1 sp2 sp3 notes sp4 num Hok H1 H2 H3 Hn H4) as (before & E).
  assert (Hp : Forall (fun c => c <= 32) sp0). { revert H0. apply Forall_impl. intros c [-> | ->]; lia. }
  set (body := r_head x ++ _) in *. destruct (strstr_some _ _ _ _ E) as (Eb & _). pose proof (strstr_before _ _ _ _ (proj2 (lid_pat)) E) as L.
  exists (sp0 ++ before ++ sp4), num, sp5. rewrite Eb. destruct H4 as [B4 N4]. destruct (exists_last N4) as (s & b & Es).
  split; [rewrite <- !app_assoc; reflexivity|]. split; [destruct sp4; [congruence|destruct sp0, before; discriminate]|].
  split; [rewrite Es, !app_assoc, last_last; rewrite Es in B4; apply Forall_app in B4 as [_ B4]; apply Forall_inv in B4; destruct B4 as [-> | ->]; lia|].
  split.
  { apply lacks_front in L. destruct sp0 as [|c0 sp0]; [exact L|]. apply strstr_none_lacks. pose proof (strstr_token (text "LID:") [] (c0 :: sp0) (before ++ sp4)) as T. cbn [app] in T |- *.
    rewrite T; [rewrite (strstr_lacks _ _ L); reflexivity|unfold visible; repeat constructor|discriminate|intros u v; destruct u; discriminate|assumption|discriminate]. }
  split; [assumption|]. split; [apply (ro_id x Hok)|]. destruct sp5 as [|c sp5]; [exact I|]. apply Forall_inv in H5. destruct H5 as [[-> | ->]|[-> | ->]]; lia.
Qed.
