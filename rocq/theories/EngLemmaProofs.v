(** * EngLemmaProofs: one step of the English Lemmatize.  PROOFS. *)
From Verif Require Import Base Serial SerialProofs WordTree TreeSpec WordTreeProofs FlatScan FlatScanProofs LidsProofs TrackProofs
  TreeWalk Stems StemSpec StemsProofs DictProofs CharTables CapScheme CapSpec CapProofs CapProofs2 CapProofs3 PropCaseLemmas PropTreesLemmas
  GramMap RusRuntime RusBuild RusSpec RusProofs RusProofs2 RusProofs3 RusBuildSpec RusBuildProofs RusBuildProofs2 RusBuildProofs3 RusReadings
  RusReadingsProofs RusLemmaSpec RusLemmaProofs RusLemmaProofs2 RusLemmaProofs3 RusLemmaProofs4 RusLemmaProofs5 RusLemmaProofs6
  EngRuntime EngSpec EngProofs EngProofs2 EngFormsSpec EngBuildProofs EngReadingsProofs EngLemmaSpec.
Local Open Scope N_scope.

(** ** Dictionary forms *)
Lemma edict_loop_eq A st c pre x suffix post : estands_for A st c -> fbytes suffix = Ok post -> (k_ends c = None -> post = []) -> forall n k,
  collected fmbuff (match find nonempty (map (fun n => eraw_forms c pre post (N.of_nat n)) (seq k n)) with Some fs => fs | None => [] end)
    (eget_dict_forms A fmbuff (Frag (pre ++ x) (N.of_nat (length pre))) suffix st n (N.of_nat k)).
Proof.
  intros Hst Hs Hfix. induction n as [|n IH]; intros k; cbn [eget_dict_forms seq map find].
  - do 2 eexists. split; [reflexivity|]. left. cbn. repeat split; lia.
  - destruct (eword_forms_eq A fmbuff st c (N.of_nat k) pre x suffix post Hst Hs Hfix) as (c1 & z & -> & H). cbn [bind].
    destruct (eraw_forms c pre post (N.of_nat k)) as [|f fs] eqn:Ef; cbn [nonempty].
    + cbn [total fold_right joined flat_map length] in H. destruct H as [(_ & -> & ->)|(H & _)]; [|cbn in H; lia]. cbn [Z.of_nat Z.eqb].
      change (Collector (croom fmbuff - 0) (cout fmbuff ++ [])) with fmbuff.
      replace (N.of_nat k + 1) with (N.of_nat (S k)) by lia. apply IH.
    + assert (Hz : (z =? 0)%Z = false) by (destruct H as [(_ & _ & ->)|(_ & ->)]; reflexivity).
      rewrite Hz. exists c1, z. split; [reflexivity|exact H].
Qed.

Lemma edict_forms_eq A st c pre x suffix post : estands_for A st c -> fbytes suffix = Ok post -> (k_ends c = None -> post = []) ->
  collected fmbuff (edict_forms c pre post) (eget_dict_forms A fmbuff (Frag (pre ++ x) (N.of_nat (length pre))) suffix st 16 0).
Proof. intros H1 H2 H3. exact (edict_loop_eq A st c pre x suffix post H1 H2 H3 16 0). Qed.

Lemma edict_no_nul c key post : eno_nul c -> ~ In 0 key -> ~ In 0 post -> Forall (fun f => ~ In 0 f) (edict_forms c key post).
Proof.
  intros H1 H2 H3. unfold edict_forms. destruct (find _ _) as [fs|] eqn:E; [|constructor].
  apply find_some in E as [E _]. apply in_map_iff in E as (n & <- & _). apply eraw_no_nul; assumption.
Qed.

Lemma eput_lemma_eq A st cl pre x inf suffix post done rest :
  estands_for A st cl -> eno_nul cl -> ecase cl <= 2 -> ~ In 0 pre -> ~ In 0 post -> (k_ends cl = None -> post = []) ->
  fbytes suffix = Ok post -> fstr inf = x ->
  forall y more, edict_forms cl pre post = y :: more ->
    let s := respell eng_casing (ecase cl) y in
    let r := eput_lemma A (pre ++ x) (Coder (done ++ rest) (length done)) st inf suffix in
    (small (edict_forms cl pre post) /\ (length s + 2 <= length rest)%nat ->
       r = Ok (Coder ((done ++ s ++ [0]) ++ 0 :: skipn (length s + 2) rest) (length (done ++ s ++ [0])), None)) /\
    (~ (small (edict_forms cl pre post) /\ (length s + 2 <= length rest)%nat) -> exists c, r = Ok (c, Some (-1)%Z) /\ length (cmem c) = length (done ++ rest)).
Proof.
  intros Hst Hnn Hcap Hk Hp Hfix Hsuf Hinf y more Efs s r.
  pose proof (edict_forms_eq A st cl pre x suffix post Hst Hsuf Hfix) as (c1 & z & E & H). 
  pose proof (edict_no_nul cl pre post Hnn Hk Hp) as Hfs. rewrite Efs in *.
  assert (Hy0 : ~ In 0 y) by apply (Forall_inv Hfs).
  unfold r, eput_lemma.
  replace (N.of_nat (length (pre ++ x) - length (fstr inf))) with (N.of_nat (length pre)) by (rewrite Hinf, app_length; lia).
  rewrite E. cbn [bind]. destruct H as [(Hsm & -> & ->)|(Hbig & ->)].
  - cbn [croom fmbuff] in Hsm. replace (Z.of_nat (length (y :: more)) <=? 0)%Z with false by (symmetry; apply Z.leb_gt; cbn [length]; lia).
    cbn [cout]. change (cout fmbuff ++ joined (y :: more)) with (joined (y :: more)).
    cbn [joined flat_map]. fold (joined more). rewrite <- app_assoc. cbn [app].
    rewrite cstr_app by assumption. cbn [bind]. rewrite (estands_cap A st cl Hst), (set_respell eng_casing eng_okay _ _ _ Hy0 Hcap). cbn [bind].
    rewrite <- (respell_length eng_casing (ecase cl) y), firstn_app, Nat.sub_diag, firstn_all, app_nil_r. fold s.
    pose proof (put_eq done rest s) as Hput.
    destruct (Nat.leb_spec (length s + 2) (length rest)) as [Hle|Hgt].
    + rewrite Hput. cbn [bind]. split; [reflexivity|]. intros Hn. exfalso. apply Hn. split; assumption.
    + destruct Hput as (c & -> & Hl). cbn [bind]. split; [lia|]. intros _. exists c. split; [reflexivity|exact Hl].
  - cbn [croom fmbuff] in Hbig. cbn [Z.leb Z.compare]. split; [unfold small; lia|]. intros _. eexists. split; [reflexivity|reflexivity].
Qed.

(** ** Arrays of descriptions *)
Section EGrams.
  Variables (st : estem) (c : eclass).
  Hypothesis Hshown : forall id, eset_graminfo st (eto_gram c id) = eshown c id.

  Lemma eput_grams_eq ds : forall gd gr,
    ((length ds <= length gr)%nat ->
       eput_grams st (map (eto_gram c) ds) (gd ++ gr) (length gd) =
       Ok (0%nat, (gd ++ map (eshown c) ds) ++ skipn (length ds) gr, length (gd ++ map (eshown c) ds))) /\
    ((length gr < length ds)%nat -> exists togo mem cur,
       eput_grams st (map (eto_gram c) ds) (gd ++ gr) (length gd) = Ok (S togo, mem, cur) /\ length mem = length (gd ++ gr)).
  Proof.
    induction ds as [|id ds IH]; intros gd gr; cbn [map eput_grams length].
    - split; [|lia]. intros _. rewrite app_nil_r. reflexivity.
    - destruct gr as [|x gr].
      + rewrite app_nil_r, Nat.eqb_refl. split; [cbn; lia|]. intros _. eexists _, _, _. split; [reflexivity|reflexivity].
      + replace (Nat.eqb (length gd) (length (gd ++ x :: gr))) with false by (symmetry; apply Nat.eqb_neq; rewrite app_length; cbn; lia).
        rewrite mem_write_eq, Hshown. cbn [bind].
        destruct (IH (gd ++ [eshown c id]) gr) as [H1 H2]. rewrite <- app_assoc, app_length in H1, H2. cbn [app length] in H1, H2. rewrite Nat.add_1_r in H1, H2.
        split; intros Hle; cbn [length] in Hle.
        * rewrite H1 by lia. cbn [skipn]. do 2 f_equal; [f_equal|]; rewrite <- !app_assoc; reflexivity.
        * destruct H2 as (togo & mem & cur & -> & Hl); [lia|]. exists togo, mem, cur. split; [reflexivity|]. rewrite Hl, !app_length. cbn. lia.
  Qed.

  Lemma emerge_grams_eq last g1 sl ds : lm_grams last = N.of_nat (length g1) -> lm_ngrams last = N.of_nat (length sl) -> forall g2 gr,
    let gd := g1 ++ sl ++ g2 in
    let xs := map (fun id => if existsb (fun g => gidForm g =? ecompared c id) sl then [] else [eshown c id]) ds in
    (grams_fit (length gr) xs ->
       emerge_grams st last (map (eto_gram c) ds) (gd ++ gr) (length gd) =
       Ok (0%nat, (gd ++ concat xs) ++ skipn (length (concat xs)) gr, length (gd ++ concat xs))) /\
    (~ grams_fit (length gr) xs -> exists togo mem cur,
       emerge_grams st last (map (eto_gram c) ds) (gd ++ gr) (length gd) = Ok (S togo, mem, cur) /\ length mem = length (gd ++ gr)).
  Proof.
    intros Eg En. induction ds as [|id ds IH]; intros g2 gr; cbn zeta; cbn [map emerge_grams concat].
    - split; [intros _; rewrite app_nil_r; reflexivity|]. intros H. exfalso. apply H. exact I.
    - assert (Hid : gidForm (eto_gram c id) = ecompared c id) by (unfold eto_gram, ecompared; destruct (k_ends c); reflexivity).
      destruct gr as [|x gr].
      + rewrite app_nil_r, Nat.eqb_refl. cbn [grams_fit length]. split; [intros [H _]; lia|]. intros _. eexists _, _, _. split; reflexivity.
      + replace (Nat.eqb (length (g1 ++ sl ++ g2)) (length ((g1 ++ sl ++ g2) ++ x :: gr))) with false
          by (symmetry; apply Nat.eqb_neq; rewrite !app_length; cbn; lia).
        assert (Eh : has_graminfo ((g1 ++ sl ++ g2) ++ x :: gr) (N.to_nat (lm_grams last)) (N.to_nat (lm_ngrams last)) (gidForm (eto_gram c id)) =
                     Ok (existsb (fun g => gidForm g =? ecompared c id) sl)).
        { rewrite Eg, En, !Nat2N.id, <- !app_assoc, has_graminfo_eq, Hid. reflexivity. }
        rewrite Eh. cbn [bind]. cbn [grams_fit length].
        destruct (existsb (fun g => gidForm g =? ecompared c id) sl).
        * cbn [length app Nat.max]. destruct (IH g2 (x :: gr)) as [H1 H2]. cbn zeta in H1, H2. rewrite Nat.sub_0_r. cbn [length] in H1, H2. split.
          -- intros [_ H]. apply H1, H.
          -- intros H. apply H2. intros H'. apply H. split; [lia|exact H'].
        * rewrite mem_write_eq, Hshown. cbn [bind length Nat.max app].
          destruct (IH (g2 ++ [eshown c id]) gr) as [H1 H2]. cbn zeta in H1, H2.
          replace (g1 ++ sl ++ g2 ++ [eshown c id]) with ((g1 ++ sl ++ g2) ++ [eshown c id]) in H1, H2 by (rewrite <- !app_assoc; reflexivity).
          rewrite (app_length _ [eshown c id]) in H1, H2. cbn [length] in H1, H2. rewrite Nat.add_1_r in H1, H2. rewrite <- app_assoc in H1, H2. cbn [app] in H1, H2.
          replace (S (length gr) - 1)%nat with (length gr) by lia. split.
          -- intros [_ H]. rewrite (H1 H). cbn [skipn]. do 2 f_equal; [f_equal|]; rewrite <- !app_assoc; reflexivity.
          -- intros H. destruct H2 as (togo & mem & cur & -> & Hl); [intros H'; apply H; split; [lia|exact H']|].
             exists togo, mem, cur. split; [reflexivity|]. rewrite Hl, !app_length. cbn. lia.
  Qed.
End EGrams.
