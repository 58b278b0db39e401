(** * RusLemmaProofs2: the steps of Lemmatize and their sequence. *)
From Verif Require Import Base Serial SerialProofs WordTree TreeSpec WordTreeProofs FlatScan FlatScanProofs LidsProofs TrackProofs TreeWalk Stems StemSpec StemsProofs
  DictProofs CharTables CapScheme CapSpec CapProofs CapProofs2 PropCaseLemmas PropTreesLemmas GramMap RusRuntime RusSpec RusProofs RusProofs2 RusProofs3
  RusBuild RusBuildSpec RusBuildProofs RusBuildProofs2 RusBuildProofs3 RusReadings RusReadingsProofs RusLemmaSpec RusLemmaProofs.
Local Open Scope N_scope.

(** ** Arrays of descriptions *)
Section Grams.
  Variables (st : steminfo) (c : aclass).
  Hypothesis Hshown : forall gf, set_graminfo st (to_gram gf) = shown c gf.

  Lemma put_grams_eq ds : forall gd gr,
    ((length ds <= length gr)%nat ->
       put_grams st (map to_gram ds) (gd ++ gr) (length gd) =
       Ok (0%nat, (gd ++ map (shown c) ds) ++ skipn (length ds) gr, length (gd ++ map (shown c) ds))) /\
    ((length gr < length ds)%nat -> exists togo mem cur,
       put_grams st (map to_gram ds) (gd ++ gr) (length gd) = Ok (S togo, mem, cur) /\ length mem = length (gd ++ gr)).
  Proof.
    induction ds as [|gf ds IH]; intros gd gr; cbn [map put_grams length].
    - split; [|lia]. intros _. rewrite app_nil_r. reflexivity.
    - destruct gr as [|x gr].
      + rewrite app_nil_r, Nat.eqb_refl. split; [cbn; lia|]. intros _. eexists _, _, _. split; [reflexivity|reflexivity].
      + replace (Nat.eqb (length gd) (length (gd ++ x :: gr))) with false by (symmetry; apply Nat.eqb_neq; rewrite app_length; cbn; lia).
        rewrite mem_write_eq, Hshown. cbn [bind].
        destruct (IH (gd ++ [shown c gf]) gr) as [H1 H2]. rewrite <- app_assoc, app_length in H1, H2. cbn [app length] in H1, H2. rewrite Nat.add_1_r in H1, H2.
        split; intros Hle; cbn [length] in Hle.
        * rewrite H1 by lia. cbn [skipn]. do 2 f_equal; [f_equal|]; rewrite <- !app_assoc; reflexivity.
        * destruct H2 as (togo & mem & cur & -> & Hl); [lia|]. exists togo, mem, cur. split; [reflexivity|]. rewrite Hl, !app_length. cbn. lia.
  Qed.

  Lemma has_graminfo_eq id g1 sl g2 : has_graminfo (g1 ++ sl ++ g2) (length g1) (length sl) id = Ok (existsb (fun g => gidForm g =? id) sl).
  Proof.
    revert g1. induction sl as [|g sl IH]; intros g1; [reflexivity|]. cbn [length has_graminfo existsb]. unfold mem_read.
    rewrite nth_error_app2, Nat.sub_diag by lia. cbn [app nth_error bind]. destruct (gidForm g =? id); [reflexivity|]. cbn [orb].
    specialize (IH (g1 ++ [g])). rewrite <- app_assoc, app_length, Nat.add_1_r in IH. exact IH.
  Qed.

  Lemma merge_grams_eq last g1 sl g2 ds : ds <> [] -> lm_grams last = N.of_nat (length g1) -> lm_ngrams last = N.of_nat (length sl) -> forall gr,
    let gd := g1 ++ sl ++ g2 in
    let x := if existsb (fun g => gidForm g =? 0) sl then [] else map (shown c) ds in
    ((Nat.max 1 (length x) <= length gr)%nat ->
       merge_grams st last (map to_gram ds) (gd ++ gr) (length gd) = Ok (0%nat, (gd ++ x) ++ skipn (length x) gr, length (gd ++ x))) /\
    ((length gr < Nat.max 1 (length x))%nat -> exists togo mem cur,
       merge_grams st last (map to_gram ds) (gd ++ gr) (length gd) = Ok (S togo, mem, cur) /\ length mem = length (gd ++ gr)).
  Proof.
    intros Hds Eg En gr. cbn zeta.
    destruct (existsb (fun g => gidForm g =? 0) sl) eqn:Ex.
    - cbn [length Nat.max]. assert (Hskip : forall ds' gd, gr <> [] -> gd = g1 ++ sl ++ g2 ->
        merge_grams st last (map to_gram ds') (gd ++ gr) (length gd) = Ok (0%nat, gd ++ gr, length gd)).
      { induction ds' as [|gf ds' IH]; intros gd Hgr Hgd; [reflexivity|]. cbn [map merge_grams].
        replace (Nat.eqb (length gd) (length (gd ++ gr))) with false
          by (symmetry; apply Nat.eqb_neq; rewrite app_length; destruct gr; [contradiction|cbn; lia]).
        rewrite Eg, En, !Nat2N.id. rewrite Hgd at 1. rewrite <- !app_assoc, has_graminfo_eq. cbn [to_gram gidForm]. rewrite Ex. cbn [bind].
        apply IH; assumption. }
      split.
      + intros Hle. rewrite Hskip; [|destruct gr; [cbn in Hle; lia|discriminate]|reflexivity]. rewrite app_nil_r. reflexivity.
      + intros Hlt. assert (gr = []) as -> by (destruct gr; [reflexivity|cbn in Hlt; lia]). destruct ds as [|gf ds]; [contradiction|].
        cbn [map merge_grams]. rewrite app_nil_r, Nat.eqb_refl. eexists _, _, _. split; reflexivity.
    - assert (Hput : forall ds' g2' gr', merge_grams st last (map to_gram ds') ((g1 ++ sl ++ g2') ++ gr') (length (g1 ++ sl ++ g2')) =
                                         put_grams st (map to_gram ds') ((g1 ++ sl ++ g2') ++ gr') (length (g1 ++ sl ++ g2'))).
      { induction ds' as [|gf ds' IH]; intros g2' gr'; [reflexivity|]. cbn [map merge_grams put_grams].
        destruct (Nat.eqb (length (g1 ++ sl ++ g2')) (length ((g1 ++ sl ++ g2') ++ gr'))) eqn:E; [reflexivity|].
        assert (Eh : has_graminfo ((g1 ++ sl ++ g2') ++ gr') (N.to_nat (lm_grams last)) (N.to_nat (lm_ngrams last)) (gidForm (to_gram gf)) = Ok false).
        { rewrite Eg, En, !Nat2N.id, <- !app_assoc, has_graminfo_eq. cbn [to_gram gidForm]. rewrite Ex. reflexivity. }
        rewrite Eh. cbn [bind]. destruct gr' as [|x gr']; [rewrite app_nil_r, Nat.eqb_refl in E; discriminate|].
        rewrite mem_write_eq, Hshown. cbn [bind]. specialize (IH (g2' ++ [shown c gf]) gr').
        replace (g1 ++ sl ++ g2' ++ [shown c gf]) with ((g1 ++ sl ++ g2') ++ [shown c gf]) in IH by (rewrite <- !app_assoc; reflexivity).
        rewrite app_length in IH. cbn [length] in IH. rewrite Nat.add_1_r in IH. rewrite <- app_assoc in IH. exact IH. }
      rewrite Hput. destruct (put_grams_eq ds (g1 ++ sl ++ g2) gr) as [H1 H2]. rewrite map_length.
      assert (1 <= length ds)%nat by (destruct ds; [contradiction|cbn; lia]).
      split; intros Hle; [apply H1|apply H2]; lia.
  Qed.
End Grams.

(** ** States *)
Record astate := AState { a_cells : option (list lemm * list lemm); a_forms : option (bytes * bytes); a_grams : option (list gram * list gram); a_n : nat }.
Definition conc (s : astate) : lstate :=
  LState (option_map (fun p => (fst p ++ snd p, length (fst p))) (a_cells s))
         (option_map (fun p => Coder (fst p ++ snd p) (length (fst p))) (a_forms s))
         (option_map (fun p => (fst p ++ snd p, length (fst p))) (a_grams s)) (Z.of_nat (a_n s)).
Definition sizes (s : lstate) : option nat * option nat * option nat :=
  (option_map (fun p => length (fst p)) (l_lemms s), option_map (fun c => length (cmem c)) (l_forms s), option_map (fun p => length (fst p)) (l_grams s)).
Definition code (z : Z) : Prop := z = (-1)%Z \/ z = (-2)%Z \/ z = (-3)%Z.
Definition stepped (s : astate) (ok : Prop) (s' : astate) (r : res (lstate * Z)) : Prop :=
  (ok -> r = Ok (conc s', 0%Z) /\ sizes (conc s') = sizes (conc s)) /\
  (~ ok -> exists ls z, r = Ok (ls, z) /\ code z /\ sizes ls = sizes (conc s)).

Section Steps.
  Variables (A : arrays) (L : lexicon).
  Hypothesis HL : holds A L.
  Hypothesis HB : buildable L.
  Variables (w tail : bytes) (dwsets : N).

  Definition call (s : lstate) (r : reading) : res (lstate * Z) := visit (tgt_of (lemmatizer A (w ++ tail) dwsets)) tail s (to_analysis L r).

  (** what is known of a reading found *)
  Record rd_ok (r : reading) : Prop := {
    ok_word : w = rd_key r ++ rd_part r ++ stpost (rd_entry r);
    ok_rec : has_record (words L) (rd_key r) (rd_entry r);
    ok_class : exists st, class_of L (oclass (rd_entry r)) = Some (st, rd_class r);
    ok_descs : rd_descs r <> [] /\ (length (rd_descs r) <= 64)%nat;
  }.

  Lemma reading_call r : rd_ok r -> exists st,
    (forall s, call s r = lemmatizer A (rd_key r ++ (rd_part r ++ stpost (rd_entry r) ++ tail)) dwsets s (rd_id r) st
                            (Frag (rd_part r ++ stpost (rd_entry r) ++ tail) (N.of_nat (length (rd_part r)))) (whole (stpost (rd_entry r))) (map to_gram (rd_descs r))) /\
    stands_for A st (rd_class r) /\ no_nul (rd_class r) /\ ~ In 0 (rd_key r) /\ ~ In 0 (stpost (rd_entry r)) /\ (length (rd_key r) <= 48)%nat /\
    (forall ft, c_flex (rd_class r) = Some ft -> within 64 ft) /\ (forall gf, set_graminfo st (to_gram gf) = shown (rd_class r) gf).
  Proof.
    intros [Hw Hrec (st0 & Ec) _]. destruct (record_facts A L HL HB _ _ Hrec) as (st1 & c1 & Ec1 & _ & Hrep & Hnn & Hk & Hp & Hlen & Hwi).
    rewrite Ec in Ec1. injection Ec1 as <- <-.
    exists (handed (rd_class r) st0). repeat match goal with |- _ /\ _ => split end; try assumption.
    - intros s. unfold call, visit, tgt_of, to_analysis. cbn [an_entry an_stem an_part an_grams]. rewrite Ec. rewrite Hw at 1.
      rewrite <- !app_assoc. reflexivity.
    - unfold handed, stands_for. destruct (c_flex (rd_class r)) eqn:Ef; [left; exact Hrep|right]. split; [reflexivity|]. destruct Hrep as (-> & _). reflexivity.
    - intros gf. unfold set_graminfo, handed, shown, to_gram. cbn [ggrInfo gbFlags]. destruct Hrep as (Hwd & _ & _ & Hf & _).
      destruct (c_flex (rd_class r)) as [ft|].
      + destruct Hf as (Ht & _). destruct (N.eqb_spec (tfoffs st0) 0) as [|_]; [contradiction|]. cbn [negb]. rewrite Hwd. reflexivity.
      + cbn [tfoffs wdinfo]. cbn [N.eqb negb]. rewrite Hwd. reflexivity.
  Qed.

  (** a reading that starts a lexeme *)
  Definition fresh (s : astate) (id : N) : Prop :=
    match a_cells s with
    | None => True
    | Some (cells, _) => a_n s = 0%nat \/ exists cells' last, cells = cells' ++ [last] /\ lm_id last <> id
    end.

  Definition started (s : astate) (r : reading) (l : bytes) : astate :=
    AState (match a_cells s with
            | None => None
            | Some (cells, rest) =>
                Some (cells ++ [Lemm (rd_id r) (option_map (fun p => length (fst p)) (a_forms s))
                                   (match a_grams s with None => 0 | Some (gd, _) => N.of_nat (length gd) end)
                                   (match a_grams s with None => 0 | Some _ => N.of_nat (length (rd_shown r)) end)], tl rest)
            end)
           (match a_forms s with None => None | Some (done, rest) => Some (done ++ l ++ [0], 0 :: skipn (length l + 2) rest) end)
           (match a_cells s, a_grams s with
            | Some _, Some (gd, gr) => Some (gd ++ rd_shown r, skipn (length (rd_shown r)) gr)
            | _, g => g
            end)
           (S (a_n s)).

  Definition start_ok (s : astate) (r : reading) (l : bytes) : Prop :=
    (forall cells rest, a_cells s = Some (cells, rest) -> rest <> []) /\
    (forall done rest, a_forms s = Some (done, rest) -> small (rd_dict_forms dwsets r) /\ (length l + 2 <= length rest)%nat) /\
    (forall gd gr, a_cells s <> None -> a_grams s = Some (gd, gr) -> (length (rd_shown r) <= length gr)%nat).

  Lemma sub_mod a n : (n < 2 ^ 32)%N -> (N.of_nat a + n + 2 ^ 64 - N.of_nat a mod 2 ^ 64) mod 2 ^ 32 = n.
  Proof.
    intros Hn. pose proof (N.div_mod' (N.of_nat a) (2 ^ 64)) as E. set (q := N.of_nat a / 2 ^ 64) in *. set (m := N.of_nat a mod 2 ^ 64) in *.
    replace (N.of_nat a + n + 2 ^ 64 - m) with (n + (2 ^ 32 * q + 2 ^ 32) * 2 ^ 32).
    - rewrite N.mod_add by discriminate. apply N.mod_small, Hn.
    - change (2 ^ 64) with (2 ^ 32 * 2 ^ 32) in *. lia.
  Qed.

  Lemma lemma_unique r l l' : lemma_of dwsets r l -> lemma_of dwsets r l' -> l = l'.
  Proof.
    intros (x & H1 & H2 & ->) (y & H3 & H4 & ->). rewrite Forall_forall in H2, H4.
    destruct (H2 y H3) as [Hlt| ->]; [|reflexivity]. destruct (H4 x H1) as [Hlt2| ->]; [|reflexivity].
    exfalso. eapply lex_lt_irrefl, lex_lt_trans; eassumption.
  Qed.

  Lemma start_fresh s id : fresh s id -> (forall cells rest, a_cells s = Some (cells, rest) -> length cells = a_n s) ->
    start_lemm (conc s) id =
    match a_cells s with
    | None => Ok (Some (conc s, false))
    | Some (cells, []) => Ok None
    | Some (cells, _ :: rest) =>
        Ok (Some (LState (Some (cells ++ Lemm id (option_map (fun p => length (fst p)) (a_forms s))
                                   (match a_grams s with None => 0 | Some (gd, _) => N.of_nat (length gd) end) 0 :: rest, length cells))
                         (l_forms (conc s)) (l_grams (conc s)) (Z.of_nat (a_n s)), false))
    end.
  Proof.
    intros Hf Hn. unfold start_lemm, fresh in *. destruct s as [cs fm gm n]. cbn [a_cells a_forms a_grams a_n conc l_lemms l_forms l_grams l_built option_map fst snd] in *.
    destruct cs as [[cells rest]|]; [|reflexivity]. cbn [option_map fst snd]. specialize (Hn _ _ eq_refl).
    assert (Es : (if (Z.of_nat n =? 0)%Z then Ok false
                  else match length cells with O => Ub | S prev => let! last := mem_read (cells ++ rest) prev in Ok (lm_id last =? id) end) = Ok false).
    { destruct (Z.eqb_spec (Z.of_nat n) 0) as [|Hz]; [reflexivity|]. destruct Hf as [->|(cells' & last & -> & Hid)]; [contradiction|].
      rewrite app_length, Nat.add_1_r. unfold mem_read. rewrite <- app_assoc, nth_error_app2, Nat.sub_diag by lia. cbn [app nth_error bind].
      apply N.eqb_neq in Hid. rewrite Hid. reflexivity. }
    rewrite Es. cbn [bind]. destruct rest as [|x rest].
    - rewrite app_nil_r, Nat.eqb_refl. reflexivity.
    - replace (Nat.eqb (length cells) (length (cells ++ x :: rest))) with false by (symmetry; apply Nat.eqb_neq; rewrite app_length; cbn; lia).
      rewrite mem_write_eq. cbn [bind]. destruct fm as [[]|], gm as [[]|]; reflexivity.
  Qed.

  Ltac use_inf H := match goal with |- context [put_infos ?a ?b ?c ?d] =>
    match type of H with _ = ?rhs => replace (put_infos a b c d) with rhs by (symmetry; exact H) end end.

  Ltac sz := unfold sizes; cbn [conc a_cells a_forms a_grams l_lemms l_forms l_grams option_map fst snd cmem tl];
    repeat match goal with H : _ /\ _ |- _ => destruct H end;
    repeat match goal with |- (_, _) = (_, _) => apply f_equal2 | |- Some _ = Some _ => apply f_equal end; try reflexivity;
    rewrite ?app_length in *; cbn [length] in *; rewrite ?skipn_length, ?map_length in *; lia.

  Lemma step_start s r l : rd_ok r -> fresh s (rd_id r) -> (forall cells rest, a_cells s = Some (cells, rest) -> length cells = a_n s) ->
    (a_forms s <> None -> lemma_of dwsets r l) -> stepped s (start_ok s r l) (started s r l) (call (conc s) r).
  Proof.
    intros Hok Hf Hn Hl. destruct (reading_call r Hok) as (st & Ecall & Hst & Hnn & Hk & Hp & Hlen & Hwi & Hsh). rewrite Ecall.
    destruct (ok_descs r Hok) as [Hds Hds64].
    unfold lemmatizer. replace (l_built (conc s) <? 0)%Z with false by (symmetry; apply Z.ltb_ge; cbn; lia).
    rewrite (start_fresh s (rd_id r) Hf Hn). unfold stepped, start_ok, started, rd_shown.
    destruct s as [cs fm gm n]. cbn [a_cells a_forms a_grams a_n] in *.
    assert (Hput : forall done rest, fm = Some (done, rest) ->
      let q := put_lemma A (rd_key r ++ (rd_part r ++ stpost (rd_entry r) ++ tail)) dwsets (Coder (done ++ rest) (length done)) st
                 (Frag (rd_part r ++ stpost (rd_entry r) ++ tail) (N.of_nat (length (rd_part r)))) (whole (stpost (rd_entry r))) (map to_gram (rd_descs r)) in
      let okf := small (rd_dict_forms dwsets r) /\ (length l + 2 <= length rest)%nat in
      (okf /\ q = Ok (Coder ((done ++ l ++ [0]) ++ 0 :: skipn (length l + 2) rest) (length (done ++ l ++ [0])), None)) \/
      (~ okf /\ exists c, q = Ok (c, Some (-1)%Z) /\ length (cmem c) = length (done ++ rest))).
    { intros done rest ->. cbn zeta. assert (Hlm : lemma_of dwsets r l) by (apply Hl; discriminate).
      destruct (rd_descs r) as [|gf ds] eqn:Ed; [contradiction|].
      assert (Hfs : rd_dict_forms dwsets r = dict_forms (rd_class r) (rd_key r) (stpost (rd_entry r)) dwsets gf)
        by (unfold rd_dict_forms; rewrite Ed; reflexivity).
      assert (Hne : dict_forms (rd_class r) (rd_key r) (stpost (rd_entry r)) dwsets gf <> []).
      { rewrite <- Hfs. destruct Hlm as (x & Hin & _). intros E. rewrite E in Hin. destruct Hin. }
      destruct (put_lemma_eq A st (rd_class r) dwsets gf ds (rd_key r) (rd_part r ++ stpost (rd_entry r) ++ tail)
                  (Frag (rd_part r ++ stpost (rd_entry r) ++ tail) (N.of_nat (length (rd_part r)))) (whole (stpost (rd_entry r))) (stpost (rd_entry r)) done rest
                  Hst Hnn Hk Hp Hlen Hwi (fbytes_whole _) eq_refl Hne) as (s & (y & Hy1 & Hy2 & Hy3) & H1 & H2).
      assert (s = l) as ->. { eapply lemma_unique; [|exact Hlm]. exists y. rewrite Hfs. auto. }
      rewrite Hfs.
      assert (Hdec : {small (dict_forms (rd_class r) (rd_key r) (stpost (rd_entry r)) dwsets gf) /\ (length l + 2 <= length rest)%nat} +
                     {~ (small (dict_forms (rd_class r) (rd_key r) (stpost (rd_entry r)) dwsets gf) /\ (length l + 2 <= length rest)%nat)}).
      { unfold small. destruct (le_dec (total (dict_forms (rd_class r) (rd_key r) (stpost (rd_entry r)) dwsets gf)) 256), (le_dec (length l + 2) (length rest));
          [left; split; assumption|right; tauto..]. }
      destruct Hdec as [Hd|Hd]; [left; split; [exact Hd|apply H1, Hd]|right; split; [exact Hd|apply H2, Hd]]. }
    assert (Hinf : forall cells rest fm' m, length cells = n -> cs = Some (cells, m :: rest) ->
      let cell k := Lemm (rd_id r) (option_map (fun p => length (fst p)) fm)
                        (match gm with None => 0 | Some (gd, _) => N.of_nat (length gd) end) k in
      let q := put_infos (LState (Some (cells ++ cell 0 :: rest, length cells)) fm' (option_map (fun p => (fst p ++ snd p, length (fst p))) gm) (Z.of_nat n))
                 false st (map to_gram (rd_descs r)) in
      match gm with
      | None => q = Ok (LState (Some (cells ++ cell 0 :: rest, length cells)) fm' None (Z.of_nat n), None)
      | Some (gd, gr) =>
          ((length (map (shown (rd_class r)) (rd_descs r)) <= length gr)%nat /\
             q = Ok (LState (Some (cells ++ cell (N.of_nat (length (map (shown (rd_class r)) (rd_descs r)))) :: rest, length cells)) fm'
                       (Some ((gd ++ map (shown (rd_class r)) (rd_descs r)) ++ skipn (length (map (shown (rd_class r)) (rd_descs r))) gr,
                              length (gd ++ map (shown (rd_class r)) (rd_descs r)))) (Z.of_nat n), None)) \/
          (~ (length (map (shown (rd_class r)) (rd_descs r)) <= length gr)%nat /\ exists gmem gcur,
             q = Ok (LState (Some (cells ++ cell 0 :: rest, length cells)) fm' (Some (gmem, gcur)) (Z.of_nat n), Some (-3)%Z) /\ length gmem = length (gd ++ gr))
      end).
    { intros cells rest fm' m Hc _. cbn zeta. unfold put_infos. cbn [l_lemms l_grams l_forms l_built].
      destruct gm as [[gd gr]|]; [|reflexivity]. cbn [option_map fst snd]. rewrite map_length.
      destruct (put_grams_eq st (rd_class r) Hsh (rd_descs r) gd gr) as [H1 H2].
      destruct (le_dec (length (rd_descs r)) (length gr)) as [Hle|Hgt].
      - left. split; [exact Hle|]. rewrite (H1 Hle). cbn [bind Nat.eqb]. unfold mem_read. rewrite nth_error_app2, Nat.sub_diag by lia.
        cbn [nth_error bind]. rewrite mem_write_eq. cbn [bind lm_id lm_form lm_grams].
        assert (Hcount : (N.of_nat (length (gd ++ map (shown (rd_class r)) (rd_descs r))) + 2 ^ 64 - N.of_nat (length gd) mod 2 ^ 64) mod 2 ^ 32 = N.of_nat (length (rd_descs r)))
          by (rewrite app_length, map_length, Nat2N.inj_add; apply sub_mod; change (2 ^ 32) with 4294967296; lia).
        rewrite Hcount. reflexivity.
      - right. split; [exact Hgt|]. destruct H2 as (togo & mem & cur & -> & Hlm); [lia|]. cbn [bind Nat.eqb]. eexists _, _. split; [reflexivity|exact Hlm]. }
    destruct cs as [[cells [|m rest]]|].
    - (* no room for a lexeme *)
      cbn [bind]. split.
      + intros (H & _). exfalso. apply (H cells []); reflexivity.
      + intros _. eexists _, _. split; [reflexivity|]. split; [right; left; reflexivity|reflexivity].
    - specialize (Hn _ _ eq_refl). specialize (fun fm' => Hinf cells rest fm' m Hn eq_refl). cbn zeta in Hinf.
      cbn [bind l_forms conc option_map fst snd]. cbn [a_forms a_grams].
      destruct fm as [[done frest]|]; cbn [option_map fst snd] in *.
      + destruct (Hput _ _ eq_refl) as [(Hof & ->)|(Hof & c & -> & Hcl)]; cbn [bind].
        * cbn [l_lemms l_forms l_grams l_built].
          match goal with |- context [put_infos (LState _ (Some ?f) _ _)] => specialize (Hinf (Some f)) end.
          destruct gm as [[gd gr]|]; cbn [option_map fst snd] in *.
          -- destruct Hinf as [(Hog & Hq)|(Hog & gmem & gcur & Hq & Hgl)]; use_inf Hq; cbn [bind l_lemms l_forms l_grams l_built].
             ++ split.
                ** intros _. split; [|sz].
                   unfold conc. cbn [a_cells a_forms a_grams a_n option_map fst snd tl]. do 2 f_equal. f_equal; [|lia]. do 2 f_equal.
                   --- rewrite <- app_assoc. reflexivity.
                   --- rewrite app_length. cbn. lia.
                ** intros Hno. exfalso. apply Hno. split; [intros ? ? [= <- <-]; discriminate|]. split; [intros ? ? [= <- <-]; exact Hof|].
                   intros ? ? _ [= <- <-]. exact Hog.
             ++ split; [intros (_ & _ & H); exfalso; apply Hog, (H gd gr); [discriminate|reflexivity]|]. intros _. eexists _, _. split; [reflexivity|].
                split; [right; right; reflexivity|]. sz.
          -- use_inf Hinf. cbn [bind l_lemms l_forms l_grams l_built]. split.
             ++ intros _. split; [|sz].
                unfold conc. cbn [a_cells a_forms a_grams a_n option_map fst snd tl]. do 2 f_equal. f_equal; [|lia]. do 2 f_equal.
                ** rewrite <- app_assoc. reflexivity.
                ** rewrite app_length. cbn. lia.
             ++ intros Hno. exfalso. apply Hno. split; [intros ? ? [= <- <-]; discriminate|]. split; [intros ? ? [= <- <-]; exact Hof|discriminate].
        * cbn [l_lemms l_forms l_grams l_built]. split; [intros (_ & H & _); exfalso; apply Hof, (H done frest eq_refl)|]. intros _. eexists _, _. split; [reflexivity|].
          split; [left; reflexivity|]. sz.
      + specialize (Hinf None). cbn [bind]. destruct gm as [[gd gr]|]; cbn [option_map fst snd] in *.
        * destruct Hinf as [(Hog & Hq)|(Hog & gmem & gcur & Hq & Hgl)]; use_inf Hq; cbn [bind l_lemms l_forms l_grams l_built].
          -- split.
             ++ intros _. split; [|sz].
                unfold conc. cbn [a_cells a_forms a_grams a_n option_map fst snd tl]. do 2 f_equal. f_equal; [|lia]. do 2 f_equal.
                ** rewrite <- app_assoc. reflexivity.
                ** rewrite app_length. cbn. lia.
             ++ intros Hno. exfalso. apply Hno. split; [intros ? ? [= <- <-]; discriminate|]. split; [discriminate|]. intros ? ? _ [= <- <-]. exact Hog.
          -- split; [intros (_ & _ & H); exfalso; apply Hog, (H gd gr); [discriminate|reflexivity]|]. intros _. eexists _, _. split; [reflexivity|].
             split; [right; right; reflexivity|]. sz.
        * use_inf Hinf. cbn [bind l_lemms l_forms l_grams l_built]. split.
          -- intros _. split; [|sz].
             unfold conc. cbn [a_cells a_forms a_grams a_n option_map fst snd tl]. do 2 f_equal. f_equal; [|lia]. do 2 f_equal.
             ++ rewrite <- app_assoc. reflexivity.
             ++ rewrite app_length. cbn. lia.
          -- intros Hno. exfalso. apply Hno. split; [intros ? ? [= <- <-]; discriminate|]. split; discriminate.
    - (* no array of lexemes *)
      assert (Hpi : forall fm' gm' k, put_infos (LState None fm' gm' k) false st (map to_gram (rd_descs r)) = Ok (LState None fm' gm' k, None)) by reflexivity.
      cbn [bind l_forms conc option_map fst snd]. cbn [a_cells a_forms a_grams].
      destruct fm as [[done frest]|]; cbn [option_map fst snd] in *.
      + destruct (Hput _ _ eq_refl) as [(Hof & ->)|(Hof & c & -> & Hcl)]; cbn [bind].
        * cbn [l_lemms l_forms l_grams l_built option_map a_n]. rewrite Hpi. cbn [bind l_lemms l_forms l_grams l_built]. split.
          -- intros _. split; [|sz].
             unfold conc. cbn [a_cells a_forms a_grams a_n option_map fst snd tl]. do 2 f_equal. destruct gm as [[? ?]|]; f_equal; try reflexivity; cbn [l_built]; lia.
          -- intros Hno. exfalso. apply Hno. split; [discriminate|]. split; [intros ? ? [= <- <-]; exact Hof|]. intros ? ? H. contradiction.
        * cbn [l_lemms l_forms l_grams l_built]. split; [intros (_ & H & _); exfalso; apply Hof, (H done frest eq_refl)|]. intros _. eexists _, _. split; [reflexivity|].
          split; [left; reflexivity|]. sz.
      + unfold conc at 1 3. cbn [a_cells a_forms a_grams option_map bind a_n]. rewrite Hpi. cbn [bind l_lemms l_forms l_grams l_built]. split.
        * intros _. split; [|destruct gm as [[? ?]|]; reflexivity].
          unfold conc. cbn [a_cells a_forms a_grams a_n option_map fst snd tl]. do 2 f_equal. destruct gm as [[? ?]|]; f_equal; try reflexivity; cbn [l_built]; lia.
        * intros Hno. exfalso. apply Hno. split; [discriminate|]. split; [discriminate|]. intros ? ? H. contradiction.
  Qed.
End Steps.
