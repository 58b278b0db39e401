(** * RusLemmaProofs: one step of Lemmatize. *)
From Verif Require Import Base Serial SerialProofs WordTree TreeSpec WordTreeProofs FlatScan FlatScanProofs LidsProofs TrackProofs TreeWalk Stems StemSpec StemsProofs
  DictProofs CharTables CapScheme CapSpec CapProofs CapProofs2 PropCaseLemmas PropTreesLemmas GramMap RusRuntime LevelSpec LevelProofs RusSpec RusProofs RusProofs2 RusProofs3
  RusBuild RusBuildSpec RusBuildProofs RusBuildProofs2 RusBuildProofs3 RusReadings RusReadingsProofs RusLemmaSpec.
Local Open Scope N_scope.

Lemma low_bits a k : a < 2 ^ k <-> forall i, k <= i -> N.testbit a i = false.
Proof.
  split.
  - intros H i Hi. destruct (N.eq_dec a 0) as [->|Hn]; [apply N.bits_0|]. apply N.bits_above_log2. apply N.log2_lt_pow2 in H; lia.
  - intros H. destruct (N.eq_dec a 0) as [->|Hn]; [apply N.neq_0_lt_0, N.pow_nonzero; discriminate|].
    apply N.log2_lt_pow2; [lia|]. destruct (N.lt_ge_cases (N.log2 a) k) as [|Hge]; [assumption|].
    specialize (H _ Hge). rewrite N.bit_log2 in H by assumption. discriminate.
Qed.
Lemma lor_lt k a b : a < 2 ^ k -> b < 2 ^ k -> N.lor a b < 2 ^ k.
Proof. rewrite !low_bits. intros H1 H2 i Hi. rewrite N.lor_spec, H1, H2 by assumption. reflexivity. Qed.
Lemma land_lt k a b : a < 2 ^ k -> N.land a b < 2 ^ k.
Proof. rewrite !low_bits. intros H1 i Hi. rewrite N.land_spec, H1 by assumption. reflexivity. Qed.

(** ** Dictionary forms *)
Lemma dict_gramm_eq st c dwsets gf : wdinfo st = c_word c ->
  FindDictForm st (Flexinfo (fst gf) (snd gf)) dwsets = Flexinfo (dict_gramm c dwsets gf) 3 /\ dict_gramm c dwsets gf < 2 ^ 15.
Proof.
  intros Hw. unfold FindDictForm, dict_gramm. rewrite Hw. cbn [gramm]. destruct (IsVerb (c_word c)).
  - destruct (bit 8 dwsets && IsParticiple (fst gf)) eqn:E; unfold bit in E; rewrite E; [|split; reflexivity].
    assert (Hlt : N.lor (N.land (fst gf) 0x67) 0x200 < 2 ^ 15).
    { rewrite (N.land_comm (fst gf)). assert (H1 : N.land 0x67 (fst gf) < 2 ^ 10) by (apply land_lt; reflexivity).
      assert (H2 : 0x200 < 2 ^ 10) by reflexivity. pose proof (lor_lt 10 _ _ H1 H2). change (2 ^ 15) with (2 ^ 10 * 32). lia. }
    split; [|exact Hlt]. f_equal. unfold u16. rewrite N.mod_small; [reflexivity|]. eapply N.lt_trans; [exact Hlt|reflexivity].
  - unfold bit. destruct (IsAdjective (c_word c)), (N.testbit (c_word c) 6); split; reflexivity.
Qed.

Lemma dict_forms_eq A st cl dwsets gf pre x suffix post :
  stands_for A st cl -> (length pre <= 48)%nat -> (forall ft, c_flex cl = Some ft -> within 64 ft) -> fbytes suffix = Ok post ->
  dict_forms cl pre post dwsets gf <> [] ->
  collected fmbuff (dict_forms cl pre post dwsets gf)
    (get_dict_forms A fmbuff dwsets st (Flexinfo (fst gf) (snd gf)) (Frag (pre ++ x) (N.of_nat (length pre))) suffix).
Proof.
  intros Hst Hlen Hwi Hsuf Hne. unfold get_dict_forms. pose proof (stands_word A st cl Hst) as Hw.
  destruct (dict_gramm_eq st cl dwsets gf Hw) as [-> Hlt]. unfold dict_forms in *. set (g := dict_gramm cl dwsets gf) in *.
  destruct (word_forms_eq A fmbuff st cl (Flexinfo g 3) pre x suffix post Hst Hlen Hwi Hsuf) as (c1 & z & -> & H). cbn [bind].
  destruct (raw_forms cl pre post (Flexinfo g 3)) as [|f fs].
  - cbn [total fold_right joined flat_map length] in H. destruct H as [(_ & -> & ->)|(H & _)]; [|cbn in H; lia]. cbn [Z.of_nat Z.eqb negb].
    change (Collector (croom fmbuff - 0) (cout fmbuff ++ [])) with fmbuff.
    assert (Hb : bit 15 (gramm (Flexinfo g 3)) = false).
    { unfold bit. cbn [gramm]. apply N.bits_above_log2. destruct (N.eq_dec g 0) as [->|]; [reflexivity|]. apply N.log2_lt_pow2; lia. }
    rewrite Hb, Hw. cbn [negb andb]. destruct (IsVerb (c_word cl) || IsAdjective (c_word cl)); [|contradiction].
    assert (Hu : u16 (N.lor g 0x8000) = N.lor g 0x8000).
    { unfold u16. apply N.mod_small. apply lor_lt; [|reflexivity]. eapply N.lt_trans; [exact Hlt|reflexivity]. }
    cbn [gramm flags]. rewrite Hu.
    destruct (word_forms_eq A fmbuff st cl (Flexinfo (N.lor g 0x8000) 3) pre x suffix post Hst Hlen Hwi Hsuf) as (c2 & z2 & -> & H2). cbn [bind].
    assert (Hz : (z2 =? 0)%Z = false).
    { destruct H2 as [(_ & _ & ->)|(_ & ->)]; [|reflexivity]. destruct (raw_forms cl pre post (Flexinfo (N.lor g 0x8000) 3)); [contradiction|reflexivity]. }
    rewrite Hz. exists c2, z2. split; [reflexivity|exact H2].
  - assert (Hz : (z =? 0)%Z = false) by (destruct H as [(_ & _ & ->)|(_ & ->)]; reflexivity).
    rewrite Hz. exists c1, z. split; [reflexivity|exact H].
Qed.

Lemma dict_no_nul c key post dwsets gf : no_nul c -> ~ In 0 key -> ~ In 0 post -> Forall (fun f => ~ In 0 f) (dict_forms c key post dwsets gf).
Proof.
  intros H1 H2 H3. unfold dict_forms. pose proof (raw_no_nul c key post (Flexinfo (dict_gramm c dwsets gf) 3) H1 H2 H3) as H.
  destruct (raw_forms c key post (Flexinfo (dict_gramm c dwsets gf) 3)); [|exact H].
  destruct (IsVerb (c_word c) || IsAdjective (c_word c)); [apply raw_no_nul; assumption|constructor].
Qed.

(** ** The least string *)
Definition lex_le (x y : bytes) : Prop := lex_lt x y \/ x = y.
Lemma lex_le_trans x y z : lex_le x y -> lex_le y z -> lex_le x z.
Proof. intros [H| ->]; [|trivial]. intros [H2| <-]; [left; eapply lex_lt_trans; eassumption|left; exact H]. Qed.
Lemma strcmp_le a b : strcmp a b <> Lt -> lex_le b a.
Proof.
  intros H. destruct (strcmp a b) eqn:E; [right; symmetry; apply strcmp_eq, E|contradiction|].
  left. apply strcmp_lex. rewrite strcmp_antisym, E. reflexivity.
Qed.

Lemma skip_str_eq f y : ~ In 0 f -> skip_str (f ++ 0 :: y) = Ok y.
Proof.
  induction f as [|c f IH]; intros H; [reflexivity|]. cbn [app skip_str]. destruct (N.eqb_spec c 0) as [->|]; [exfalso; apply H; left; reflexivity|].
  apply IH. intros Hin. apply H. right. exact Hin.
Qed.

Lemma select_min_eq fs : forall f y x z, Forall (fun f => ~ In 0 f) (f :: fs) -> ~ In 0 x ->
  exists x' z', select_min (length fs) (joined (f :: fs) ++ y) (x ++ 0 :: z) = Ok (x' ++ 0 :: z') /\
    In x' (x :: fs) /\ Forall (lex_le x') (x :: fs).
Proof.
  induction fs as [|g fs IH]; intros f y x z Hf Hx; cbn [length select_min].
  - exists x, z. split; [reflexivity|]. split; [left; reflexivity|]. constructor; [right; reflexivity|constructor].
  - inversion Hf as [|? ? Hf1 Hf2]; subst. inversion Hf2 as [|? ? Hg _]; subst.
    assert (E0 : joined (f :: g :: fs) ++ y = f ++ 0 :: (g ++ 0 :: (joined fs ++ y)))
      by (cbn [joined flat_map]; fold (joined fs); rewrite <- !app_assoc; reflexivity).
    rewrite E0, skip_str_eq by assumption. cbn [bind]. rewrite !cstr_app by assumption. cbn [bind].
    assert (E : g ++ 0 :: (joined fs ++ y) = joined (g :: fs) ++ y) by (cbn [joined flat_map]; fold (joined fs); rewrite <- !app_assoc; reflexivity).
    destruct (strcmp g x) eqn:Es.
    + rewrite E. destruct (IH g y x z Hf2 Hx) as (x' & z' & E1 & H1 & H2). exists x', z'. split; [exact E1|]. split; [destruct H1; [left|right; right]; assumption|].
      inversion H2 as [|? ? H3 H4]; subst. constructor; [exact H3|]. constructor; [|exact H4]. eapply lex_le_trans; [exact H3|]. apply strcmp_le. congruence.
    + destruct (IH g y g (joined fs ++ y) Hf2 Hg) as (x' & z' & E1 & H1 & H2). rewrite <- E in E1. exists x', z'. split; [exact E1|]. split; [right; exact H1|].
      inversion H2 as [|? ? H3 H4]; subst. constructor; [eapply lex_le_trans; [exact H3|]; left; apply strcmp_lex, Es|]. constructor; assumption.
    + rewrite E. destruct (IH g y x z Hf2 Hx) as (x' & z' & E1 & H1 & H2). exists x', z'. split; [exact E1|]. split; [destruct H1; [left|right; right]; assumption|].
      inversion H2 as [|? ? H3 H4]; subst. constructor; [exact H3|]. constructor; [|exact H4]. eapply lex_le_trans; [exact H3|]. apply strcmp_le. congruence.
Qed.

Lemma select_least f fs y : Forall (fun f => ~ In 0 f) (f :: fs) ->
  exists x z, select_min (Z.to_nat (Z.of_nat (length (f :: fs)) - 1)) (joined (f :: fs) ++ y) (joined (f :: fs) ++ y) = Ok (x ++ 0 :: z) /\
    In x (f :: fs) /\ Forall (lex_le x) (f :: fs).
Proof.
  intros H. replace (Z.to_nat (Z.of_nat (length (f :: fs)) - 1)) with (length fs) by (cbn [length]; lia).
  inversion H as [|? ? Hf _]; subst.
  destruct (select_min_eq fs f y f (joined fs ++ y) H Hf) as (x & z & E & H1). exists x, z. split; [|exact H1]. rewrite <- E. f_equal.
  cbn [joined flat_map]. fold (joined fs). rewrite <- !app_assoc. reflexivity.
Qed.

(** ** The normal form *)
Lemma put_lemma_eq A st cl dwsets gf gfs pre x inf suffix post done rest :
  stands_for A st cl -> no_nul cl -> ~ In 0 pre -> ~ In 0 post -> (length pre <= 48)%nat -> (forall ft, c_flex cl = Some ft -> within 64 ft) ->
  fbytes suffix = Ok post -> fstr inf = x ->
  let fs := dict_forms cl pre post dwsets gf in fs <> [] ->
  exists s, (exists y, In y fs /\ Forall (lex_le y) fs /\ s = respell rus_casing (min_case cl) y) /\
    let r := put_lemma A (pre ++ x) dwsets (Coder (done ++ rest) (length done)) st inf suffix (map to_gram (gf :: gfs)) in
    (small fs /\ (length s + 2 <= length rest)%nat ->
       r = Ok (Coder ((done ++ s ++ [0]) ++ 0 :: skipn (length s + 2) rest) (length (done ++ s ++ [0])), None)) /\
    (~ (small fs /\ (length s + 2 <= length rest)%nat) -> exists c, r = Ok (c, Some (-1)%Z) /\ length (cmem c) = length (done ++ rest)).
Proof.
  intros Hst Hnn Hk Hp Hlen Hwi Hsuf Hinf fs Hne.
  pose proof (dict_forms_eq A st cl dwsets gf pre x suffix post Hst Hlen Hwi Hsuf Hne) as (c1 & z & E & H). fold fs in H.
  pose proof (dict_no_nul cl pre post dwsets gf Hnn Hk Hp) as Hfs. fold fs in Hfs.
  assert (Hmin : min_cap st = min_case cl) by (unfold min_cap, min_case; rewrite (stands_word A st cl Hst); apply required_eq).
  clearbody fs. destruct fs as [|f fs]; [contradiction|].
  destruct (select_least f fs [] Hfs) as (y & y' & Esel & Hy1 & Hy2). rewrite app_nil_r in Esel.
  exists (respell rus_casing (min_case cl) y). split; [exists y; auto|].
  assert (Hy0 : ~ In 0 y) by (rewrite Forall_forall in Hfs; apply Hfs, Hy1).
  unfold put_lemma, to_gram. cbn [map ggrInfo gbFlags]. cbn zeta.
  replace (N.of_nat (length (pre ++ x) - length (fstr inf))) with (N.of_nat (length pre)) by (rewrite Hinf, app_length; lia).
  rewrite E. cbn [bind]. destruct H as [(Hsm & -> & ->)|(Hbig & ->)].
  - cbn [croom fmbuff] in Hsm. replace (Z.of_nat (length (f :: fs)) <=? 0)%Z with false by (symmetry; apply Z.leb_gt; cbn [length]; lia).
    cbn [cout]. change (cout fmbuff ++ joined (f :: fs)) with (joined (f :: fs)). match goal with |- context [select_min ?n ?a ?b] => replace (select_min n a b) with (Ok (y ++ 0 :: y')) by (symmetry; exact Esel) end. cbn [bind].
    rewrite cstr_app by assumption. cbn [bind]. rewrite Hmin, (set_respell rus_casing rus_ok _ _ _ Hy0 (min_case_le2 cl)). cbn [bind].
    rewrite <- (respell_length rus_casing (min_case cl) y), firstn_app, Nat.sub_diag, firstn_all, app_nil_r.
    set (s := respell rus_casing (min_case cl) y). pose proof (put_eq done rest s) as Hput.
    destruct (Nat.leb_spec (length s + 2) (length rest)) as [Hle|Hgt].
    + rewrite Hput. cbn [bind]. split; [reflexivity|]. intros Hn. exfalso. apply Hn. split; assumption.
    + destruct Hput as (c & -> & Hl). cbn [bind]. split; [lia|]. intros _. exists c. split; [reflexivity|exact Hl].
  - cbn [croom fmbuff] in Hbig. cbn. split; [unfold small; lia|]. intros _. eexists. split; [reflexivity|reflexivity].
Qed.
