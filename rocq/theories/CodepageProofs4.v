(** * CodepageProofs4: Lemmatize in the caller's code page, one reading.  PROOFS (as RusLemmaProofs, RusLemmaProofs2). *)
From Verif Require Import Base Serial SerialProofs WordTree TreeSpec WordTreeProofs FlatScan FlatScanProofs LidsProofs TrackProofs TreeWalk Stems StemSpec StemsProofs
  DictProofs CharTables CapScheme CapSpec CapProofs CapProofs2 PropCaseLemmas PropTreesLemmas GramMap RusRuntime LevelSpec LevelProofs RusSpec RusProofs RusProofs2 RusProofs3
  RusBuild RusBuildSpec RusBuildProofs RusBuildProofs2 RusBuildProofs3 RusReadings RusReadingsProofs RusLemmaSpec RusLemmaProofs RusLemmaProofs2 RusLemmaProofs3 RusLemmaProofs4 RusLemmaProofs5
  Codepage CodepageSpec CodepageProofs.
Local Open Scope N_scope.

(** ** The normal form *)
Lemma cp_lemma_eq Cp (Hnul : enc Cp 0 = [0]) A st cl dwsets gf gfs pre x inf suffix post done rest :
  stands_for A st cl -> no_nul cl -> ~ In 0 pre -> ~ In 0 post -> (length pre <= 48)%nat -> (forall ft, c_flex cl = Some ft -> within 64 ft) ->
  fbytes suffix = Ok post -> fstr inf = x ->
  let fs := dict_forms cl pre post dwsets gf in fs <> [] ->
  exists s, (exists y, In y fs /\ Forall (lex_le y) fs /\ s = respell rus_casing (min_case cl) y) /\
    let r := put_lemma_with (cp_put Cp) A (pre ++ x) dwsets (Coder (done ++ rest) (length done)) st inf suffix (map to_gram (gf :: gfs)) in
    (small fs /\ (length (encode Cp s) + 1 + slack Cp <= length rest)%nat ->
       r = Ok (Coder ((done ++ encode Cp s ++ [0]) ++ behind (length (encode Cp s) + 1) rest) (length (done ++ encode Cp s ++ [0])), None)) /\
    (~ (small fs /\ (length (encode Cp s) + 1 + slack Cp <= length rest)%nat) -> exists c, r = Ok (c, Some (-1)%Z) /\ length (cmem c) = length (done ++ rest)).
Proof.
  intros Hst Hnn Hk Hp Hlen Hwi Hsuf Hinf fs Hne.
  pose proof (dict_forms_eq A st cl dwsets gf pre x suffix post Hst Hlen Hwi Hsuf Hne) as (c1 & z & E & H). fold fs in H.
  pose proof (dict_no_nul cl pre post dwsets gf Hnn Hk Hp) as Hfs. fold fs in Hfs.
  assert (Hmin : min_cap st = min_case cl) by (unfold min_cap, min_case; rewrite (stands_word A st cl Hst); apply required_eq).
  clearbody fs. destruct fs as [|f fs]; [contradiction|].
  destruct (select_least f fs [] Hfs) as (y & y' & Esel & Hy1 & Hy2). rewrite app_nil_r in Esel.
  exists (respell rus_casing (min_case cl) y). split; [exists y; auto|].
  assert (Hy0 : ~ In 0 y) by (rewrite Forall_forall in Hfs; apply Hfs, Hy1).
  unfold put_lemma_with, to_gram. cbn [map ggrInfo gbFlags]. cbn zeta.
  replace (N.of_nat (length (pre ++ x) - length (fstr inf))) with (N.of_nat (length pre)) by (rewrite Hinf, app_length; lia).
  rewrite E. cbn [bind]. destruct H as [(Hsm & -> & ->)|(Hbig & ->)].
  - cbn [croom fmbuff] in Hsm. replace (Z.of_nat (length (f :: fs)) <=? 0)%Z with false by (symmetry; apply Z.leb_gt; cbn [length]; lia).
    cbn [cout]. change (cout fmbuff ++ joined (f :: fs)) with (joined (f :: fs)). match goal with |- context [select_min ?n ?a ?b] => replace (select_min n a b) with (Ok (y ++ 0 :: y')) by (symmetry; exact Esel) end. cbn [bind].
    rewrite cstr_app by assumption. cbn [bind]. rewrite Hmin, (set_respell rus_casing rus_ok _ _ _ Hy0 (min_case_le2 cl)). cbn [bind].
    rewrite <- (respell_length rus_casing (min_case cl) y), firstn_app, Nat.sub_diag, firstn_all, app_nil_r.
    set (s := respell rus_casing (min_case cl) y). pose proof (cp_put_eq Cp Hnul done rest s) as Hput.
    destruct (Nat.leb_spec (length (encode Cp s) + 1 + slack Cp) (length rest)) as [Hle|Hgt].
    + rewrite Hput. cbn [bind]. split; [reflexivity|]. intros Hn. exfalso. apply Hn. split; assumption.
    + destruct Hput as (c & -> & Hl). cbn [bind]. split; [lia|]. intros _. exists c. split; [reflexivity|exact Hl].
  - cbn [croom fmbuff] in Hbig. cbn [Z.leb Z.compare]. split; [unfold small; lia|]. intros _. eexists. split; [reflexivity|reflexivity].
Qed.

(** The string stored for the normal form. *)
Definition lemma_in (Cp : encoding) (dwsets : N) (r : reading) (l : bytes) : Prop := exists l0, lemma_of dwsets r l0 /\ l = encode Cp l0.

Lemma lemmatizer_with_suffix s1 s2 (put : coder -> bytes -> res (coder * bool)) A sz dwsets s lid st fr gr : fbytes s1 = fbytes s2 ->
  lemmatizer_with put A sz dwsets s lid st fr s1 gr = lemmatizer_with put A sz dwsets s lid st fr s2 gr.
Proof.
  intros Hs. unfold lemmatizer_with. destruct (l_built s <? 0)%Z; [reflexivity|].
  destruct (start_lemm s lid) as [[[s' m]|]|]; cbn [bind]; try reflexivity.
  destruct (l_forms s') as [c|]; [|reflexivity]. destruct m; [reflexivity|].
  unfold put_lemma_with. destruct gr as [|g gr]; [reflexivity|]. rewrite (dict_forms_suffix s1 s2 Hs). reflexivity.
Qed.

Section Steps.
  Variable Cp : encoding.
  Hypothesis Hnul : enc Cp 0 = [0].
  Variables (A : arrays) (L : lexicon).
  Hypothesis HL : holds A L.
  Hypothesis HB : buildable L.
  Variables (w tail : bytes) (dwsets : N).

  Definition ccall (s : lstate) (r : reading) : res (lstate * Z) := visit (tgt_of (lemmatizer_with (cp_put Cp) A (w ++ tail) dwsets)) tail s (to_analysis L r).

  Lemma cp_reading_call r : rd_ok L w r -> exists st,
    (forall s, ccall s r = lemmatizer_with (cp_put Cp) A (rd_key r ++ (rd_part r ++ stpost (rd_entry r) ++ tail)) dwsets s (rd_id r) st
                            (Frag (rd_part r ++ stpost (rd_entry r) ++ tail) (N.of_nat (length (rd_part r)))) (whole (stpost (rd_entry r))) (map to_gram (rd_descs r))) /\
    stands_for A st (rd_class r) /\ no_nul (rd_class r) /\ ~ In 0 (rd_key r) /\ ~ In 0 (stpost (rd_entry r)) /\ (length (rd_key r) <= 48)%nat /\
    (forall ft, c_flex (rd_class r) = Some ft -> within 64 ft) /\ (forall gf, set_graminfo st (to_gram gf) = shown (rd_class r) gf).
  Proof.
    intros [Hw Hrec (st0 & Ec) _]. destruct (record_facts A L HL HB _ _ Hrec) as (st1 & c1 & Ec1 & _ & Hrep & Hnn & Hk & Hp & Hlen & Hwi).
    rewrite Ec in Ec1. injection Ec1 as <- <-.
    exists (handed (rd_class r) st0). repeat match goal with |- _ /\ _ => split end; try assumption.
    - intros s. unfold ccall, visit, tgt_of, to_analysis. cbn [an_entry an_stem an_part an_grams]. rewrite Ec. rewrite Hw at 1.
      rewrite <- !app_assoc. reflexivity.
    - unfold handed, stands_for. destruct (c_flex (rd_class r)) eqn:Ef; [left; exact Hrep|right]. split; [reflexivity|]. destruct Hrep as (-> & _). reflexivity.
    - intros gf. unfold set_graminfo, handed, shown, to_gram. cbn [ggrInfo gbFlags]. destruct Hrep as (Hwd & _ & _ & Hf & _).
      destruct (c_flex (rd_class r)) as [ft|].
      + destruct Hf as (Ht & _). destruct (N.eqb_spec (tfoffs st0) 0) as [|_]; [contradiction|]. cbn [negb]. rewrite Hwd. reflexivity.
      + cbn [tfoffs wdinfo]. cbn [N.eqb negb]. rewrite Hwd. reflexivity.
  Qed.

  (** a reading that starts a lexeme *)
  Definition cstarted (s : astate) (r : reading) (l : bytes) : astate :=
    AState (match a_cells s with
            | None => None
            | Some (cells, rest) =>
                Some (cells ++ [Lemm (rd_id r) (option_map (fun p => length (fst p)) (a_forms s))
                                   (match a_grams s with None => 0 | Some (gd, _) => N.of_nat (length gd) end)
                                   (match a_grams s with None => 0 | Some _ => N.of_nat (length (rd_shown r)) end)], tl rest)
            end)
           (match a_forms s with None => None | Some (done, rest) => Some (done ++ l ++ [0], behind (length l + 1) rest) end)
           (match a_cells s, a_grams s with
            | Some _, Some (gd, gr) => Some (gd ++ rd_shown r, skipn (length (rd_shown r)) gr)
            | _, g => g
            end)
           (S (a_n s)).

  Definition cstart_ok (s : astate) (r : reading) (l : bytes) : Prop :=
    (forall cells rest, a_cells s = Some (cells, rest) -> rest <> []) /\
    (forall done rest, a_forms s = Some (done, rest) -> small (rd_dict_forms dwsets r) /\ (length l + 1 + slack Cp <= length rest)%nat) /\
    (forall gd gr, a_cells s <> None -> a_grams s = Some (gd, gr) -> (length (rd_shown r) <= length gr)%nat).

  Ltac use_inf H := match goal with |- context [put_infos ?a ?b ?c ?d] =>
    match type of H with _ = ?rhs => replace (put_infos a b c d) with rhs by (symmetry; exact H) end end.

  Ltac sz := unfold sizes; cbn [conc a_cells a_forms a_grams l_lemms l_forms l_grams option_map fst snd cmem tl];
    repeat match goal with H : _ /\ _ |- _ => destruct H end;
    repeat match goal with |- (_, _) = (_, _) => apply f_equal2 | |- Some _ = Some _ => apply f_equal end; try reflexivity;
    rewrite ?app_length in *; cbn [length] in *; rewrite ?skipn_length, ?map_length in *; try match goal with |- context [behind ?n ?m] => pose proof (behind_length n m ltac:(lia)) end; lia.

  Lemma cp_step_start s r l : rd_ok L w r -> fresh s (rd_id r) -> (forall cells rest, a_cells s = Some (cells, rest) -> length cells = a_n s) ->
    (a_forms s <> None -> lemma_in Cp dwsets r l) -> stepped s (cstart_ok s r l) (cstarted s r l) (ccall (conc s) r).
  Proof.
    intros Hok Hf Hn Hl. destruct (cp_reading_call r Hok) as (st & Ecall & Hst & Hnn & Hk & Hp & Hlen & Hwi & Hsh). rewrite Ecall.
    destruct (ok_descs L w r Hok) as [Hds Hds64].
    unfold lemmatizer_with. replace (l_built (conc s) <? 0)%Z with false by (symmetry; apply Z.ltb_ge; cbn; lia).
    rewrite (start_fresh s (rd_id r) Hf Hn). unfold stepped, cstart_ok, cstarted, rd_shown.
    destruct s as [cs fm gm n]. cbn [a_cells a_forms a_grams a_n] in *.
    assert (Hput : forall done rest, fm = Some (done, rest) ->
      let q := put_lemma_with (cp_put Cp) A (rd_key r ++ (rd_part r ++ stpost (rd_entry r) ++ tail)) dwsets (Coder (done ++ rest) (length done)) st
                 (Frag (rd_part r ++ stpost (rd_entry r) ++ tail) (N.of_nat (length (rd_part r)))) (whole (stpost (rd_entry r))) (map to_gram (rd_descs r)) in
      let okf := small (rd_dict_forms dwsets r) /\ (length l + 1 + slack Cp <= length rest)%nat in
      (okf /\ q = Ok (Coder ((done ++ l ++ [0]) ++ behind (length l + 1) rest) (length (done ++ l ++ [0])), None)) \/
      (~ okf /\ exists c, q = Ok (c, Some (-1)%Z) /\ length (cmem c) = length (done ++ rest))).
    { intros done rest ->. cbn zeta. assert (Hlm0 : lemma_in Cp dwsets r l) by (apply Hl; discriminate). destruct Hlm0 as (l0 & Hlm & El).
      destruct (rd_descs r) as [|gf ds] eqn:Ed; [contradiction|].
      assert (Hfs : rd_dict_forms dwsets r = dict_forms (rd_class r) (rd_key r) (stpost (rd_entry r)) dwsets gf)
        by (unfold rd_dict_forms; rewrite Ed; reflexivity).
      assert (Hne : dict_forms (rd_class r) (rd_key r) (stpost (rd_entry r)) dwsets gf <> []).
      { rewrite <- Hfs. destruct Hlm as (x & Hin & _). intros E. rewrite E in Hin. destruct Hin. }
      destruct (cp_lemma_eq Cp Hnul A st (rd_class r) dwsets gf ds (rd_key r) (rd_part r ++ stpost (rd_entry r) ++ tail)
                  (Frag (rd_part r ++ stpost (rd_entry r) ++ tail) (N.of_nat (length (rd_part r)))) (whole (stpost (rd_entry r))) (stpost (rd_entry r)) done rest
                  Hst Hnn Hk Hp Hlen Hwi (fbytes_whole _) eq_refl Hne) as (s & (y & Hy1 & Hy2 & Hy3) & H1 & H2).
      assert (s = l0) as ->. { eapply lemma_unique; [|exact Hlm]. exists y. rewrite Hfs. auto. }
      rewrite <- El in H1, H2. rewrite Hfs.
      assert (Hdec : {small (dict_forms (rd_class r) (rd_key r) (stpost (rd_entry r)) dwsets gf) /\ (length l + 1 + slack Cp <= length rest)%nat} +
                     {~ (small (dict_forms (rd_class r) (rd_key r) (stpost (rd_entry r)) dwsets gf) /\ (length l + 1 + slack Cp <= length rest)%nat)}).
      { unfold small. destruct (le_dec (total (dict_forms (rd_class r) (rd_key r) (stpost (rd_entry r)) dwsets gf)) 256), (le_dec (length l + 1 + slack Cp) (length rest));
          [left; split; assumption|right; tauto..]. }
      destruct Hdec as [Hd|Hd]; [left; split; [exact Hd|apply H1, Hd]|right; split; [exact Hd|apply H2, Hd]]. }
    assert (Hinf : forall cells rest fm' m, length cells = n -> cs = Some (cells, m :: rest) ->
      let cell k := Lemm (rd_id r) (option_map (fun p => length (fst p)) fm)
                        (match gm with None => 0 | Some (gd, _) => N.of_nat (length gd) end) k in
      let q := put_infos (LState (Some (cells ++ cell 0 :: rest, length cells)) fm' (option_map (fun p => (fst p ++ snd p, length (fst p))) gm) (Z.of_nat n))
                 false st (map to_gram (rd_descs r)) in
      match gm with
      | None => q = Ok (LState (Some (cells ++ cell 0 :: rest, length cells)) fm' None (Z.of_nat n), None)
      | Some (gd, gr) =>
          ((length (map (shown (rd_class r)) (rd_descs r)) <= length gr)%nat /\
             q = Ok (LState (Some (cells ++ cell (N.of_nat (length (map (shown (rd_class r)) (rd_descs r)))) :: rest, length cells)) fm'
                       (Some ((gd ++ map (shown (rd_class r)) (rd_descs r)) ++ skipn (length (map (shown (rd_class r)) (rd_descs r))) gr,
                              length (gd ++ map (shown (rd_class r)) (rd_descs r)))) (Z.of_nat n), None)) \/
          (~ (length (map (shown (rd_class r)) (rd_descs r)) <= length gr)%nat /\ exists gmem gcur,
             q = Ok (LState (Some (cells ++ cell 0 :: rest, length cells)) fm' (Some (gmem, gcur)) (Z.of_nat n), Some (-3)%Z) /\ length gmem = length (gd ++ gr))
      end).
    { intros cells rest fm' m Hc _. cbn zeta. unfold put_infos. cbn [l_lemms l_grams l_forms l_built].
      destruct gm as [[gd gr]|]; [|reflexivity]. cbn [option_map fst snd]. rewrite map_length.
      destruct (put_grams_eq st (rd_class r) Hsh (rd_descs r) gd gr) as [H1 H2].
      destruct (le_dec (length (rd_descs r)) (length gr)) as [Hle|Hgt].
      - left. split; [exact Hle|]. rewrite (H1 Hle). cbn [bind Nat.eqb]. unfold mem_read. rewrite nth_error_app2, Nat.sub_diag by lia.
        cbn [nth_error bind]. rewrite mem_write_eq. cbn [bind lm_id lm_form lm_grams].
        assert (Hcount : (N.of_nat (length (gd ++ map (shown (rd_class r)) (rd_descs r))) + 2 ^ 64 - N.of_nat (length gd) mod 2 ^ 64) mod 2 ^ 32 = N.of_nat (length (rd_descs r)))
          by (rewrite app_length, map_length, Nat2N.inj_add; apply sub_mod; change (2 ^ 32) with 4294967296; lia).
        rewrite Hcount. reflexivity.
      - right. split; [exact Hgt|]. destruct H2 as (togo & mem & cur & -> & Hlm); [lia|]. cbn [bind Nat.eqb]. eexists _, _. split; [reflexivity|exact Hlm]. }
    destruct cs as [[cells [|m rest]]|].
    - (* no room for a lexeme *)
      cbn [bind]. split.
      + intros (H & _). exfalso. apply (H cells []); reflexivity.
      + intros _. eexists _, _. split; [reflexivity|]. split; [right; left; reflexivity|reflexivity].
    - specialize (Hn _ _ eq_refl). specialize (fun fm' => Hinf cells rest fm' m Hn eq_refl). cbn zeta in Hinf.
      cbn [bind l_forms conc option_map fst snd]. cbn [a_forms a_grams].
      destruct fm as [[done frest]|]; cbn [option_map fst snd] in *.
      + destruct (Hput _ _ eq_refl) as [(Hof & ->)|(Hof & c & -> & Hcl)]; cbn [bind].
        * cbn [l_lemms l_forms l_grams l_built].
          match goal with |- context [put_infos (LState _ (Some ?f) _ _)] => specialize (Hinf (Some f)) end.
          destruct gm as [[gd gr]|]; cbn [option_map fst snd] in *.
          -- destruct Hinf as [(Hog & Hq)|(Hog & gmem & gcur & Hq & Hgl)]; use_inf Hq; cbn [bind l_lemms l_forms l_grams l_built].
             ++ split.
                ** intros _. split; [|sz].
                   unfold conc. cbn [a_cells a_forms a_grams a_n option_map fst snd tl]. do 2 f_equal. f_equal; [|lia]. do 2 f_equal.
                   --- rewrite <- app_assoc. reflexivity.
                   --- rewrite app_length. cbn. lia.
                ** intros Hno. exfalso. apply Hno. split; [intros ? ? [= <- <-]; discriminate|]. split; [intros ? ? [= <- <-]; exact Hof|].
                   intros ? ? _ [= <- <-]. exact Hog.
             ++ split; [intros (_ & _ & H); exfalso; apply Hog, (H gd gr); [discriminate|reflexivity]|]. intros _. eexists _, _. split; [reflexivity|].
                split; [right; right; reflexivity|]. sz.
          -- use_inf Hinf. cbn [bind l_lemms l_forms l_grams l_built]. split.
             ++ intros _. split; [|sz].
                unfold conc. cbn [a_cells a_forms a_grams a_n option_map fst snd tl]. do 2 f_equal. f_equal; [|lia]. do 2 f_equal.
                ** rewrite <- app_assoc. reflexivity.
                ** rewrite app_length. cbn. lia.
             ++ intros Hno. exfalso. apply Hno. split; [intros ? ? [= <- <-]; discriminate|]. split; [intros ? ? [= <- <-]; exact Hof|discriminate].
        * cbn [l_lemms l_forms l_grams l_built]. split; [intros (_ & H & _); exfalso; apply Hof, (H done frest eq_refl)|]. intros _. eexists _, _. split; [reflexivity|].
          split; [left; reflexivity|]. sz.
      + specialize (Hinf None). cbn [bind]. destruct gm as [[gd gr]|]; cbn [option_map fst snd] in *.
        * destruct Hinf as [(Hog & Hq)|(Hog & gmem & gcur & Hq & Hgl)]; use_inf Hq; cbn [bind l_lemms l_forms l_grams l_built].
          -- split.
             ++ intros _. split; [|sz].
                unfold conc. cbn [a_cells a_forms a_grams a_n option_map fst snd tl]. do 2 f_equal. f_equal; [|lia]. do 2 f_equal.
                ** rewrite <- app_assoc. reflexivity.
                ** rewrite app_length. cbn. lia.
             ++ intros Hno. exfalso. apply Hno. split; [intros ? ? [= <- <-]; discriminate|]. split; [discriminate|]. intros ? ? _ [= <- <-]. exact Hog.
          -- split; [intros (_ & _ & H); exfalso; apply Hog, (H gd gr); [discriminate|reflexivity]|]. intros _. eexists _, _. split; [reflexivity|].
             split; [right; right; reflexivity|]. sz.
        * use_inf Hinf. cbn [bind l_lemms l_forms l_grams l_built]. split.
          -- intros _. split; [|sz].
             unfold conc. cbn [a_cells a_forms a_grams a_n option_map fst snd tl]. do 2 f_equal. f_equal; [|lia]. do 2 f_equal.
             ++ rewrite <- app_assoc. reflexivity.
             ++ rewrite app_length. cbn. lia.
          -- intros Hno. exfalso. apply Hno. split; [intros ? ? [= <- <-]; discriminate|]. split; discriminate.
    - (* no array of lexemes *)
      assert (Hpi : forall fm' gm' k, put_infos (LState None fm' gm' k) false st (map to_gram (rd_descs r)) = Ok (LState None fm' gm' k, None)) by reflexivity.
      cbn [bind l_forms conc option_map fst snd]. cbn [a_cells a_forms a_grams].
      destruct fm as [[done frest]|]; cbn [option_map fst snd] in *.
      + destruct (Hput _ _ eq_refl) as [(Hof & ->)|(Hof & c & -> & Hcl)]; cbn [bind].
        * cbn [l_lemms l_forms l_grams l_built option_map a_n]. rewrite Hpi. cbn [bind l_lemms l_forms l_grams l_built]. split.
          -- intros _. split; [|sz].
             unfold conc. cbn [a_cells a_forms a_grams a_n option_map fst snd tl]. do 2 f_equal. destruct gm as [[? ?]|]; f_equal; try reflexivity; cbn [l_built]; lia.
          -- intros Hno. exfalso. apply Hno. split; [discriminate|]. split; [intros ? ? [= <- <-]; exact Hof|]. intros ? ? H. contradiction.
        * cbn [l_lemms l_forms l_grams l_built]. split; [intros (_ & H & _); exfalso; apply Hof, (H done frest eq_refl)|]. intros _. eexists _, _. split; [reflexivity|].
          split; [left; reflexivity|]. sz.
      + unfold conc at 1 3. cbn [a_cells a_forms a_grams option_map bind a_n]. rewrite Hpi. cbn [bind l_lemms l_forms l_grams l_built]. split.
        * intros _. split; [|destruct gm as [[? ?]|]; reflexivity].
          unfold conc. cbn [a_cells a_forms a_grams a_n option_map fst snd tl]. do 2 f_equal. destruct gm as [[? ?]|]; f_equal; try reflexivity; cbn [l_built]; lia.
        * intros Hno. exfalso. apply Hno. split; [discriminate|]. split; [discriminate|]. intros ? ? H. contradiction.
  Qed.
End Steps.
