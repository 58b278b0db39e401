(** * EngLemmaProofs2: the steps of the English Lemmatize.  PROOFS. *)
From Verif Require Import Base Serial SerialProofs WordTree TreeSpec WordTreeProofs FlatScan FlatScanProofs LidsProofs TrackProofs
  TreeWalk Stems StemSpec StemsProofs DictProofs CharTables CapScheme CapSpec CapProofs CapProofs2 CapProofs3 PropCaseLemmas PropTreesLemmas
  GramMap RusRuntime RusBuild RusSpec RusProofs RusProofs2 RusProofs3 RusBuildSpec RusBuildProofs RusBuildProofs2 RusBuildProofs3 RusReadings
  RusReadingsProofs RusLemmaSpec RusLemmaProofs RusLemmaProofs2 RusLemmaProofs3 RusLemmaProofs4 RusLemmaProofs5 RusLemmaProofs6
  EngRuntime EngSpec EngProofs EngProofs2 EngFormsSpec EngBuildProofs EngReadingsProofs EngLemmaSpec EngLemmaProofs.
Local Open Scope N_scope.

Section Steps.
  Variables (A : earrays) (L : elexicon).
  Hypothesis HL : eholds A L.
  Hypothesis HB : ebuildable L.
  Variables (w tail : bytes).

  Definition ecall (s : lstate) (r : ereading) : res (lstate * Z) := evisit (etgt_of (elemmatizer A (w ++ tail))) tail s (to_eanal L r).

  (** what is known of a ereading found *)
  Record er_ok (r : ereading) : Prop := {
    eok_word : w = er_key r ++ er_part r ++ stpost (er_entry r);
    eok_rec : has_record (ewords L) (er_key r) (er_entry r);
    eok_class : exists st, eclass_of L (oclass (er_entry r)) = Some (st, er_class r);
    eok_ids : er_ids r <> [] /\ (length (er_ids r) <= 64)%nat;
  }.

  Lemma ereading_call r : er_ok r -> exists st,
    (forall s, ecall s r = elemmatizer A (er_key r ++ (er_part r ++ stpost (er_entry r) ++ tail)) s (er_id r) st
                            (Frag (er_part r ++ stpost (er_entry r) ++ tail) (N.of_nat (length (er_part r)))) (whole (stpost (er_entry r))) (map (eto_gram (er_class r)) (er_ids r))) /\
    estands_for A st (er_class r) /\ eno_nul (er_class r) /\ ecase (er_class r) <= 2 /\ ~ In 0 (er_key r) /\ ~ In 0 (stpost (er_entry r)) /\
    (k_ends (er_class r) = None -> stpost (er_entry r) = []) /\ (forall id, eset_graminfo st (eto_gram (er_class r) id) = eshown (er_class r) id).
  Proof.
    intros [Hw Hrec (st0 & Ec) _]. destruct (erecord_facts A L HL HB _ _ Hrec) as (st1 & c1 & Ec1 & Hat & Hrep & Hnn & Hcap & Hk & Hpost & Hlen & Hfix).
    rewrite Ec in Ec1. injection Ec1 as <- <-.
    exists (ehanded (er_class r) st0). repeat match goal with |- _ /\ _ => split end; try assumption.
    - intros s. unfold ecall, evisit, etgt_of, to_eanal. cbn [ea_entry ea_stem ea_part ea_grams]. rewrite Ec. rewrite Hw at 1.
      rewrite <- !app_assoc. reflexivity.
    - unfold ehanded, estands_for. destruct (k_ends (er_class r)) eqn:Ef; [left; exact Hrep|right]. split; [reflexivity|]. destruct Hrep as (-> & _). reflexivity.
    - intros id. unfold eset_graminfo, ehanded, eshown, eto_gram. destruct Hrep as (Hwd & _ & Hf).
      destruct (k_ends (er_class r)) as [t|].
      + destruct Hf as (Ht & _). destruct (N.eqb_spec (e_tfoffs st0) 0) as [|_]; [contradiction|]. cbn [negb]. unfold mark.
        change 0x7f with (N.ones 7). rewrite N.land_ones. reflexivity.
      + cbn [e_tfoffs e_wdinfo]. cbn [N.eqb negb]. rewrite Hwd. reflexivity.
  Qed.

  Definition estarted (s : astate) (r : ereading) (l : bytes) : astate :=
    AState (match a_cells s with
            | None => None
            | Some (cells, rest) =>
                Some (cells ++ [Lemm (er_id r) (option_map (fun p => length (fst p)) (a_forms s))
                                   (match a_grams s with None => 0 | Some (gd, _) => N.of_nat (length gd) end)
                                   (match a_grams s with None => 0 | Some _ => N.of_nat (length (er_shown r)) end)], tl rest)
            end)
           (match a_forms s with None => None | Some (done, rest) => Some (done ++ l ++ [0], 0 :: skipn (length l + 2) rest) end)
           (match a_cells s, a_grams s with
            | Some _, Some (gd, gr) => Some (gd ++ er_shown r, skipn (length (er_shown r)) gr)
            | _, g => g
            end)
           (S (a_n s)).

  Definition estart_ok (s : astate) (r : ereading) (l : bytes) : Prop :=
    (forall cells rest, a_cells s = Some (cells, rest) -> rest <> []) /\
    (forall done rest, a_forms s = Some (done, rest) -> small (er_dict_forms r) /\ (length l + 2 <= length rest)%nat) /\
    (forall gd gr, a_cells s <> None -> a_grams s = Some (gd, gr) -> (length (er_shown r) <= length gr)%nat).

  Lemma elemma_unique r l l' : elemma_of r l -> elemma_of r l' -> l = l'.
  Proof. intros (x & m & E1 & ->) (y & m' & E2 & ->). rewrite E1 in E2. injection E2 as <- _. reflexivity. Qed.

  Ltac use_inf H := match goal with |- context [eput_infos ?a ?b ?c ?d] =>
    match type of H with _ = ?rhs => replace (eput_infos a b c d) with rhs by (symmetry; exact H) end end.

  Ltac sz := unfold sizes; cbn [conc a_cells a_forms a_grams l_lemms l_forms l_grams option_map fst snd cmem tl];
    repeat match goal with H : _ /\ _ |- _ => destruct H end;
    repeat match goal with |- (_, _) = (_, _) => apply f_equal2 | |- Some _ = Some _ => apply f_equal end; try reflexivity;
    rewrite ?app_length in *; cbn [length] in *; rewrite ?skipn_length, ?map_length in *; lia.

  Lemma estep_start s r l : er_ok r -> fresh s (er_id r) -> (forall cells rest, a_cells s = Some (cells, rest) -> length cells = a_n s) ->
    (a_forms s <> None -> elemma_of r l) -> stepped s (estart_ok s r l) (estarted s r l) (ecall (conc s) r).
  Proof.
    intros Hok Hf Hn Hl. destruct (ereading_call r Hok) as (st & Ecall & Hst & Hnn & Hcap & Hk & Hp & Hfix & Hsh). rewrite Ecall.
    destruct (eok_ids r Hok) as [Hds Hds64].
    unfold elemmatizer. replace (l_built (conc s) <? 0)%Z with false by (symmetry; apply Z.ltb_ge; cbn; lia).
    rewrite (start_fresh s (er_id r) Hf Hn). unfold stepped, estart_ok, estarted, er_shown.
    destruct s as [cs fm gm n]. cbn [a_cells a_forms a_grams a_n] in *.
    assert (Hput : forall done rest, fm = Some (done, rest) ->
      let q := eput_lemma A (er_key r ++ (er_part r ++ stpost (er_entry r) ++ tail)) (Coder (done ++ rest) (length done)) st
                 (Frag (er_part r ++ stpost (er_entry r) ++ tail) (N.of_nat (length (er_part r)))) (whole (stpost (er_entry r))) in
      let okf := small (er_dict_forms r) /\ (length l + 2 <= length rest)%nat in
      (okf /\ q = Ok (Coder ((done ++ l ++ [0]) ++ 0 :: skipn (length l + 2) rest) (length (done ++ l ++ [0])), None)) \/
      (~ okf /\ exists c, q = Ok (c, Some (-1)%Z) /\ length (cmem c) = length (done ++ rest))).
    { intros done rest ->. cbn zeta. assert (Hlm : elemma_of r l) by (apply Hl; discriminate).
      destruct Hlm as (y & more & Ey & ->). unfold er_dict_forms in *.
      pose proof (eput_lemma_eq A st (er_class r) (er_key r) (er_part r ++ stpost (er_entry r) ++ tail)
                  (Frag (er_part r ++ stpost (er_entry r) ++ tail) (N.of_nat (length (er_part r)))) (whole (stpost (er_entry r))) (stpost (er_entry r)) done rest
                  Hst Hnn Hcap Hk Hp Hfix (fbytes_whole _) eq_refl y more Ey) as [H1 H2].
      match goal with |- (?P /\ _) \/ _ => assert (Hdec : {P} + {~ P}) end.
      { unfold small. match goal with |- sumbool ((?a <= ?b)%nat /\ (?c <= ?d)%nat) _ => destruct (le_dec a b), (le_dec c d) end;
          [left; split; assumption|right; tauto..]. }
      destruct Hdec as [Hd|Hd]; [left; split; [exact Hd|apply H1, Hd]|right; split; [exact Hd|apply H2, Hd]]. }
    assert (Hinf : forall cells rest fm' m, length cells = n -> cs = Some (cells, m :: rest) ->
      let cell k := Lemm (er_id r) (option_map (fun p => length (fst p)) fm)
                        (match gm with None => 0 | Some (gd, _) => N.of_nat (length gd) end) k in
      let q := eput_infos (LState (Some (cells ++ cell 0 :: rest, length cells)) fm' (option_map (fun p => (fst p ++ snd p, length (fst p))) gm) (Z.of_nat n))
                 false st (map (eto_gram (er_class r)) (er_ids r)) in
      match gm with
      | None => q = Ok (LState (Some (cells ++ cell 0 :: rest, length cells)) fm' None (Z.of_nat n), None)
      | Some (gd, gr) =>
          ((length (map (eshown (er_class r)) (er_ids r)) <= length gr)%nat /\
             q = Ok (LState (Some (cells ++ cell (N.of_nat (length (map (eshown (er_class r)) (er_ids r)))) :: rest, length cells)) fm'
                       (Some ((gd ++ map (eshown (er_class r)) (er_ids r)) ++ skipn (length (map (eshown (er_class r)) (er_ids r))) gr,
                              length (gd ++ map (eshown (er_class r)) (er_ids r)))) (Z.of_nat n), None)) \/
          (~ (length (map (eshown (er_class r)) (er_ids r)) <= length gr)%nat /\ exists gmem gcur,
             q = Ok (LState (Some (cells ++ cell 0 :: rest, length cells)) fm' (Some (gmem, gcur)) (Z.of_nat n), Some (-3)%Z) /\ length gmem = length (gd ++ gr))
      end).
    { intros cells rest fm' m Hc _. cbn zeta. unfold eput_infos. cbn [l_lemms l_grams l_forms l_built].
      destruct gm as [[gd gr]|]; [|reflexivity]. cbn [option_map fst snd]. rewrite map_length.
      destruct (eput_grams_eq st (er_class r) Hsh (er_ids r) gd gr) as [H1 H2].
      destruct (le_dec (length (er_ids r)) (length gr)) as [Hle|Hgt].
      - left. split; [exact Hle|]. rewrite (H1 Hle). cbn [bind Nat.eqb]. unfold mem_read. rewrite nth_error_app2, Nat.sub_diag by lia.
        cbn [nth_error bind]. rewrite mem_write_eq. cbn [bind lm_id lm_form lm_grams].
        assert (Hcount : (N.of_nat (length (gd ++ map (eshown (er_class r)) (er_ids r))) + 2 ^ 64 - N.of_nat (length gd) mod 2 ^ 64) mod 2 ^ 32 = N.of_nat (length (er_ids r)))
          by (rewrite app_length, map_length, Nat2N.inj_add; apply sub_mod; change (2 ^ 32) with 4294967296; lia).
        rewrite Hcount. reflexivity.
      - right. split; [exact Hgt|]. destruct H2 as (togo & mem & cur & -> & Hlm); [lia|]. cbn [bind Nat.eqb]. eexists _, _. split; [reflexivity|exact Hlm]. }
    destruct cs as [[cells [|m rest]]|].
    - (* no room for a elexeme *)
      cbn [bind]. split.
      + intros (H & _). exfalso. apply (H cells []); reflexivity.
      + intros _. eexists _, _. split; [reflexivity|]. split; [right; left; reflexivity|reflexivity].
    - specialize (Hn _ _ eq_refl). specialize (fun fm' => Hinf cells rest fm' m Hn eq_refl). cbn zeta in Hinf.
      cbn [bind l_forms conc option_map fst snd]. cbn [a_forms a_grams].
      destruct fm as [[done frest]|]; cbn [option_map fst snd] in *.
      + destruct (Hput _ _ eq_refl) as [(Hof & ->)|(Hof & c & -> & Hcl)]; cbn [bind].
        * cbn [l_lemms l_forms l_grams l_built].
          match goal with |- context [eput_infos (LState _ (Some ?f) _ _)] => specialize (Hinf (Some f)) end.
          destruct gm as [[gd gr]|]; cbn [option_map fst snd] in *.
          -- destruct Hinf as [(Hog & Hq)|(Hog & gmem & gcur & Hq & Hgl)]; use_inf Hq; cbn [bind l_lemms l_forms l_grams l_built].
             ++ split.
                ** intros _. split; [|sz].
                   unfold conc. cbn [a_cells a_forms a_grams a_n option_map fst snd tl]. do 2 f_equal. f_equal; [|lia]. do 2 f_equal.
                   --- rewrite <- app_assoc. reflexivity.
                   --- rewrite app_length. cbn. lia.
                ** intros Hno. exfalso. apply Hno. split; [intros ? ? [= <- <-]; discriminate|]. split; [intros ? ? [= <- <-]; exact Hof|].
                   intros ? ? _ [= <- <-]. exact Hog.
             ++ split; [intros (_ & _ & H); exfalso; apply Hog, (H gd gr); [discriminate|reflexivity]|]. intros _. eexists _, _. split; [reflexivity|].
                split; [right; right; reflexivity|]. sz.
          -- use_inf Hinf. cbn [bind l_lemms l_forms l_grams l_built]. split.
             ++ intros _. split; [|sz].
                unfold conc. cbn [a_cells a_forms a_grams a_n option_map fst snd tl]. do 2 f_equal. f_equal; [|lia]. do 2 f_equal.
                ** rewrite <- app_assoc. reflexivity.
                ** rewrite app_length. cbn. lia.
             ++ intros Hno. exfalso. apply Hno. split; [intros ? ? [= <- <-]; discriminate|]. split; [intros ? ? [= <- <-]; exact Hof|discriminate].
        * cbn [l_lemms l_forms l_grams l_built]. split; [intros (_ & H & _); exfalso; apply Hof, (H done frest eq_refl)|]. intros _. eexists _, _. split; [reflexivity|].
          split; [left; reflexivity|]. sz.
      + specialize (Hinf None). cbn [bind]. destruct gm as [[gd gr]|]; cbn [option_map fst snd] in *.
        * destruct Hinf as [(Hog & Hq)|(Hog & gmem & gcur & Hq & Hgl)]; use_inf Hq; cbn [bind l_lemms l_forms l_grams l_built].
          -- split.
             ++ intros _. split; [|sz].
                unfold conc. cbn [a_cells a_forms a_grams a_n option_map fst snd tl]. do 2 f_equal. f_equal; [|lia]. do 2 f_equal.
                ** rewrite <- app_assoc. reflexivity.
                ** rewrite app_length. cbn. lia.
             ++ intros Hno. exfalso. apply Hno. split; [intros ? ? [= <- <-]; discriminate|]. split; [discriminate|]. intros ? ? _ [= <- <-]. exact Hog.
          -- split; [intros (_ & _ & H); exfalso; apply Hog, (H gd gr); [discriminate|reflexivity]|]. intros _. eexists _, _. split; [reflexivity|].
             split; [right; right; reflexivity|]. sz.
        * use_inf Hinf. cbn [bind l_lemms l_forms l_grams l_built]. split.
          -- intros _. split; [|sz].
             unfold conc. cbn [a_cells a_forms a_grams a_n option_map fst snd tl]. do 2 f_equal. f_equal; [|lia]. do 2 f_equal.
             ++ rewrite <- app_assoc. reflexivity.
             ++ rewrite app_length. cbn. lia.
          -- intros Hno. exfalso. apply Hno. split; [intros ? ? [= <- <-]; discriminate|]. split; discriminate.
    - (* no array of lexemes *)
      assert (Hpi : forall fm' gm' k, eput_infos (LState None fm' gm' k) false st (map (eto_gram (er_class r)) (er_ids r)) = Ok (LState None fm' gm' k, None)) by reflexivity.
      cbn [bind l_forms conc option_map fst snd]. cbn [a_cells a_forms a_grams].
      destruct fm as [[done frest]|]; cbn [option_map fst snd] in *.
      + destruct (Hput _ _ eq_refl) as [(Hof & ->)|(Hof & c & -> & Hcl)]; cbn [bind].
        * cbn [l_lemms l_forms l_grams l_built option_map a_n]. rewrite Hpi. cbn [bind l_lemms l_forms l_grams l_built]. split.
          -- intros _. split; [|sz].
             unfold conc. cbn [a_cells a_forms a_grams a_n option_map fst snd tl]. do 2 f_equal. destruct gm as [[? ?]|]; f_equal; try reflexivity; cbn [l_built]; lia.
          -- intros Hno. exfalso. apply Hno. split; [discriminate|]. split; [intros ? ? [= <- <-]; exact Hof|]. intros ? ? H. contradiction.
        * cbn [l_lemms l_forms l_grams l_built]. split; [intros (_ & H & _); exfalso; apply Hof, (H done frest eq_refl)|]. intros _. eexists _, _. split; [reflexivity|].
          split; [left; reflexivity|]. sz.
      + unfold conc at 1 3. cbn [a_cells a_forms a_grams option_map bind a_n]. rewrite Hpi. cbn [bind l_lemms l_forms l_grams l_built]. split.
        * intros _. split; [|destruct gm as [[? ?]|]; reflexivity].
          unfold conc. cbn [a_cells a_forms a_grams a_n option_map fst snd tl]. do 2 f_equal. destruct gm as [[? ?]|]; f_equal; try reflexivity; cbn [l_built]; lia.
        * intros Hno. exfalso. apply Hno. split; [discriminate|]. split; [discriminate|]. intros ? ? H. contradiction.
  Qed.
End Steps.
