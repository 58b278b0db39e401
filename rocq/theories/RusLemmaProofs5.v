(** * RusLemmaProofs5: Lemmatize as a whole. *)
From Verif Require Import Base Serial SerialProofs WordTree TreeSpec WordTreeProofs FlatScan FlatScanProofs LidsProofs TrackProofs TreeWalk Stems StemSpec StemsProofs
  DictProofs CharTables CapScheme CapSpec CapProofs CapProofs2 PropCaseLemmas PropTreesLemmas GramMap RusRuntime RusSpec RusProofs RusProofs2 RusProofs3
  RusBuild RusBuildSpec RusBuildProofs RusBuildProofs2 RusBuildProofs3 RusReadings RusReadingsProofs RusLemmaSpec RusLemmaProofs RusLemmaProofs2 RusLemmaProofs3
  RusLemmaProofs4.
Local Open Scope N_scope.

Lemma F2_length {X Y} (R : X -> Y -> Prop) a b : Forall2 R a b -> length a = length b.
Proof. induction 1; cbn; congruence. Qed.

Lemma sublist_in {X} (a b : list X) x : sublist a b -> In x a -> In x b.
Proof. induction 1; intros Hin; [destruct Hin|destruct Hin as [->|Hin]; [left; reflexivity|right; auto]|right; auto]. Qed.

Lemma filter_le {X} (f : X -> bool) l : (length (filter f l) <= length l)%nat.
Proof. induction l as [|x l IH]; [cbn; lia|]. cbn. destruct (f x); cbn; lia. Qed.

Lemma part_readings_64 A st c part ds : class_repr A st c -> In ds (part_readings c part) -> (length ds <= 64)%nat.
Proof.
  intros (_ & _ & _ & Hf & _) Hin. unfold part_readings in Hin. destruct (c_flex c) as [ft|].
  - destruct Hf as (_ & _ & (_ & _ & Hd) & _).
    assert (H64 : forall e, (length (match lookup e ft with Some l => l | None => [] end) <= 64)%nat).
    { intros e. destruct (lookup e ft) as [l|] eqn:E; [|cbn; lia]. apply (all_data_lookup _ _ _ _ Hd E). }
    apply filter_In in Hin as [Hin _]. destruct (c_mix c) as [mx|].
    + apply in_flat_map in Hin as (ma & _ & Hin). destruct (cut_front (snd ma) part) as [e|]; [|destruct Hin]. destruct Hin as [<-|[]].
      eapply Nat.le_trans; [apply filter_le|apply H64].
    + destruct Hin as [<-|[]]. eapply Nat.le_trans; [apply filter_le|apply H64].
  - destruct part; [|destruct Hin]. destruct Hin as [<-|[]]. cbn. lia.
Qed.

Lemma hits_ok A L scheme dwsets w r : holds A L -> In r (hits L scheme dwsets w) -> rd_ok L w r.
Proof.
  intros HL Hin. eapply sublist_in in Hin; [|apply hits_sublist]. apply filter_In in Hin as [Hin _].
  apply readings_in in Hin as (rest & Hw & Hrec & Hin). apply record_readings_in in Hin as (st & c & Ec & Hr & Hrest & Hd).
  assert (c = rd_class r) as -> by (rewrite Hr; reflexivity). constructor.
  - rewrite Hw, Hrest. reflexivity.
  - exact Hrec.
  - exists st. exact Ec.
  - split; [apply (part_readings_form _ _ _ Hd)|]. destruct (holds_classes A L HL _ _ Hrec) as (st' & c' & Ec' & _ & Hrep).
    rewrite Ec in Ec'. injection Ec' as <- <-. eapply part_readings_64; eassumption.
Qed.

Lemma lemma_exists dwsets r : rd_dict_forms dwsets r <> [] -> exists l, lemma_of dwsets r l.
Proof.
  intros Hne. assert (H : forall fs : list bytes, fs <> [] -> exists x, In x fs /\ Forall (lex_le x) fs).
  { induction fs as [|f fs IH]; [contradiction|]. intros _. destruct fs as [|f' fs].
    - exists f. split; [left; reflexivity|]. constructor; [right; reflexivity|constructor].
    - destruct IH as (x & Hx & Hall); [discriminate|]. destruct (strcmp f x) eqn:E.
      + exists x. split; [right; exact Hx|]. constructor; [apply strcmp_le; congruence|exact Hall].
      + exists f. split; [left; reflexivity|]. constructor; [right; reflexivity|]. eapply Forall_impl; [|exact Hall].
        intros y Hy. eapply lex_le_trans; [left; apply strcmp_lex, E|exact Hy].
      + exists x. split; [right; exact Hx|]. constructor; [apply strcmp_le; congruence|exact Hall]. }
  destruct (H _ Hne) as (x & Hx & Hall). exists (respell rus_casing (min_case (rd_class r)) x), x. auto.
Qed.

Lemma new_cells_nth fm gm gs : forall ls i g, length ls = length gs -> nth_error gs i = Some g ->
  nth_error (new_cells fm gm gs ls) i =
  Some (Lemm (rd_id (lx_first g)) (option_map (fun p => (p + total (firstn i ls))%nat) fm)
             (match gm with None => 0 | Some p => N.of_nat (p + length (concat (flat_map stored (firstn i gs)))) end)
             (match gm with None => 0 | Some _ => N.of_nat (length (rd_shown (lx_first g))) end)).
Proof.
  revert fm gm. induction gs as [|h gs IH]; intros fm gm ls i g Hlen Hnth; [destruct i; discriminate|].
  destruct ls as [|l ls]; [discriminate|]. injection Hlen as Hlen. destruct i as [|i].
  - injection Hnth as <-. cbn [new_cells nth_error firstn total fold_right flat_map concat length]. do 2 f_equal.
    + destruct fm; [|reflexivity]. cbn. f_equal. lia.
    + destruct gm; [|reflexivity]. f_equal. lia.
  - cbn [new_cells nth_error] in *. rewrite (IH _ _ ls i g Hlen Hnth). cbn [firstn flat_map total fold_right]. fold (total (firstn i ls)).
    rewrite concat_app, app_length. do 2 f_equal.
    + destruct fm; [|reflexivity]. cbn. f_equal. lia.
    + destruct gm; [|reflexivity]. cbn. f_equal. lia.
    + destruct gm; reflexivity.
Qed.
Lemma new_cells_length fm gm gs : forall ls, length ls = length gs -> length (new_cells fm gm gs ls) = length gs.
Proof. revert fm gm. induction gs as [|g gs IH]; intros fm gm [|l ls] H; try discriminate; [reflexivity|]. cbn. rewrite IH; [reflexivity|]. injection H as ->. reflexivity. Qed.

Lemma until_map {S X Y} (h : S -> Y -> res (S * Z)) (f : X -> Y) l : forall s,
  until_nonzero h (map f l) s = until_nonzero (fun s x => h s (f x)) l s.
Proof. induction l as [|x l IH]; intros s; [reflexivity|]. cbn. destruct (h s (f x)) as [[s' r]|]; cbn; [|reflexivity]. destruct (r =? 0)%Z; [apply IH|reflexivity]. Qed.

Lemma lemmas_exist dwsets gs : Forall (fun g => rd_dict_forms dwsets (lx_first g) <> []) gs ->
  exists ls, Forall2 (fun g l => lemma_of dwsets (lx_first g) l) gs ls.
Proof.
  induction 1 as [|g gs Hg _ IH]; [exists []; constructor|]. destruct IH as (ls & H), (lemma_exists dwsets _ Hg) as (l & Hl).
  exists (l :: ls). constructor; assumption.
Qed.

Lemma all_fit_dec dwsets gs ls plemma pforms pgrams : all_fit dwsets gs ls plemma pforms pgrams \/ ~ all_fit dwsets gs ls plemma pforms pgrams.
Proof.
  unfold all_fit.
  assert (D1 : (forall mem, plemma = Some mem -> (length gs <= length mem)%nat) \/ ~ (forall mem, plemma = Some mem -> (length gs <= length mem)%nat)).
  { destruct plemma as [mem|]; [|left; discriminate]. destruct (le_dec (length gs) (length mem)) as [H|H]; [left; intros ? [= <-]; exact H|].
    right. intros H'. apply H, (H' mem eq_refl). }
  assert (Dsm : Forall (fun g => small (rd_dict_forms dwsets (lx_first g))) gs \/ ~ Forall (fun g => small (rd_dict_forms dwsets (lx_first g))) gs).
  { destruct (Forall_dec (fun g => small (rd_dict_forms dwsets (lx_first g))) (fun g => le_dec _ _) gs); [left|right]; assumption. }
  assert (D2 : (forall mem, pforms = Some mem -> Forall (fun g => small (rd_dict_forms dwsets (lx_first g))) gs /\ fit (length mem) ls) \/
             ~ (forall mem, pforms = Some mem -> Forall (fun g => small (rd_dict_forms dwsets (lx_first g))) gs /\ fit (length mem) ls)).
  { destruct pforms as [mem|]; [|left; discriminate]. destruct (fit_dec (length mem) ls) as [H|H].
    - destruct Dsm as [H2|H2]; [left; intros ? [= <-]; split; assumption|right; intros H'; apply H2, (H' mem eq_refl)].
    - right. intros H'. apply H, (H' mem eq_refl). }
  assert (D3 : (forall mem, plemma <> None -> pgrams = Some mem -> grams_fit (length mem) (flat_map stored gs)) \/
             ~ (forall mem, plemma <> None -> pgrams = Some mem -> grams_fit (length mem) (flat_map stored gs))).
  { destruct plemma as [lm|]; [|left; intros ? H; contradiction]. destruct pgrams as [mem|]; [|left; discriminate].
    destruct (grams_fit_dec (flat_map stored gs) (length mem)) as [H|H]; [left; intros ? _ [= <-]; exact H|].
    right. intros H'. apply H, (H' mem); [discriminate|reflexivity]. }
  tauto.
Qed.

Section Lemmatize.
  Variables (A : arrays) (L : lexicon).
  Hypothesis HL : holds A L.
  Hypothesis HB : buildable L.

  Lemma lexemes_members {X} (plemma : option X) hs : flat_map members (lexemes_of plemma hs) = hs.
  Proof.
    destruct plemma; [apply grouped_wg|]. cbn [lexemes_of]. induction hs as [|r hs IH]; [reflexivity|]. cbn [map flat_map members lx_first lx_more app].
    f_equal. exact IH.
  Qed.

  Lemma run_answer w tail dwsets hs plemma pforms pgrams : Forall (rd_ok L w) hs -> safe_call dwsets (lexemes_of plemma hs) plemma pforms pgrams ->
    answer dwsets hs plemma pforms pgrams
      (let! (s, nerror) := until_nonzero (call A L w tail dwsets) hs
           (LState (option_map (fun m => (m, 0%nat)) plemma) (option_map (fun m => Coder m 0) pforms) (option_map (fun m => (m, 0%nat)) pgrams) 0%Z) in
       Ok (if (nerror <? 0)%Z then nerror else l_built s, (option_map fst (l_lemms s), option_map cmem (l_forms s), option_map fst (l_grams s)))).
  Proof.
    intros Hok [Hsafe1 Hsafe2]. unfold answer. set (gs := lexemes_of plemma hs) in *.
    assert (Hls : exists ls, length ls = length gs /\ (pforms <> None -> Forall2 (fun g l => lemma_of dwsets (lx_first g) l) gs ls)).
    { destruct pforms as [fm|].
      - destruct (lemmas_exist dwsets gs (Hsafe1 ltac:(discriminate))) as (ls & H). exists ls. split; [symmetry; eapply F2_length, H|auto].
      - exists (map (fun _ => []) gs). rewrite map_length. split; [reflexivity|]. intros H. contradiction. }
    destruct Hls as (ls & Hlen & Hlem). exists ls.
    set (s0 := AState (option_map (fun m => ([], m)) plemma) (option_map (fun m => ([], m)) pforms) (option_map (fun m => ([], m)) pgrams) 0).
    assert (E0 : LState (option_map (fun m => (m, 0%nat)) plemma) (option_map (fun m => Coder m 0) pforms) (option_map (fun m => (m, 0%nat)) pgrams) 0%Z = conc s0).
    { unfold conc, s0. cbn [a_cells a_forms a_grams a_n]. destruct plemma, pforms, pgrams; reflexivity. }
    rewrite E0. replace (until_nonzero (call A L w tail dwsets) hs) with (until_nonzero (call A L w tail dwsets) (flat_map members gs))
      by (unfold gs; rewrite lexemes_members; reflexivity).
    assert (Hokg : Forall (fun g => Forall (rd_ok L w) (members g)) gs).
    { apply Forall_forall. intros g Hg. apply Forall_forall. intros r Hr. rewrite Forall_forall in Hok. apply Hok.
      rewrite <- (lexemes_members plemma hs). apply in_flat_map. exists g. split; assumption. }
    assert (Hcells : forall cells rest, a_cells s0 = Some (cells, rest) -> cells = [] /\ plemma = Some rest).
    { cbn [s0 a_cells]. destruct plemma; [|discriminate]. intros ? ? [= <- <-]. auto. }
    destruct (sequence A L HL HB w tail dwsets gs ls s0) as [R1 R2].
    - unfold gs, s0. cbn [a_cells]. destruct plemma; [left; apply grouped_wg|right; reflexivity].
    - unfold gs, s0. cbn [a_cells]. destruct plemma; [discriminate|]. intros _. cbn [lexemes_of]. apply Forall_map, Forall_forall. reflexivity.
    - exact Hokg.
    - exact Hlen.
    - cbn [s0 a_forms]. intros Hf. apply Hlem. intros ->. apply Hf. reflexivity.
    - intros cells rest E. destruct (Hcells _ _ E) as [-> _]. reflexivity.
    - intros g gs' _. unfold fresh. cbn [s0 a_cells a_n]. destruct plemma; [left; reflexivity|exact I].
    - intros cells rest g E Hg Hr Hnth. destruct (Hcells _ _ E) as [_ Hp]. eapply Hsafe2; [exact Hp| |exact Hr|exact Hnth].
      intros ->. apply Hg. reflexivity.
    - assert (Hwhole : whole_ok dwsets s0 gs ls <-> all_fit dwsets gs ls plemma pforms pgrams).
      { unfold whole_ok, all_fit, s0. cbn [a_cells a_forms a_grams]. split.
        - intros (W1 & W2 & W3). split; [|split].
          + intros mem ->. apply (W1 [] mem eq_refl).
          + intros mem ->. apply (W2 [] mem eq_refl).
          + intros mem Hp ->. apply (W3 [] mem); [destruct plemma; [discriminate|contradiction]|reflexivity].
        - intros (W1 & W2 & W3). split; [|split].
          + intros cells rest E. destruct plemma as [m|]; [|discriminate]. injection E as <- <-. apply W1. reflexivity.
          + intros done rest E. destruct pforms as [m|]; [|discriminate]. injection E as <- <-. apply W2. reflexivity.
          + intros gd gr Hc E. destruct pgrams as [m|]; [|discriminate]. injection E as <- <-. apply W3; [|reflexivity]. intros ->. apply Hc. reflexivity. }
      assert (Hsz : forall s', sizes s' = sizes (conc s0) -> same_size (option_map fst (l_lemms s')) plemma /\ same_size (option_map cmem (l_forms s')) pforms /\
                                same_size (option_map fst (l_grams s')) pgrams).
      { intros s' E. unfold sizes in E. injection E as E1 E2 E3. unfold same_size. cbn [s0 a_cells a_forms a_grams] in *.
        destruct plemma, pforms, pgrams, (l_lemms s') as [[]|], (l_forms s'), (l_grams s') as [[]|]; cbn in *; repeat split; congruence. }
      destruct (all_fit_dec dwsets gs ls plemma pforms pgrams) as [Hfit|Hno].
      + destruct (R1 (proj2 Hwhole Hfit)) as (s' & Hfin & E & Es). rewrite E. cbn [bind]. cbn [Z.ltb Z.compare].
        destruct (Hsz _ Es) as (Z1 & Z2 & Z3). eexists _, _, _, _. split; [exact Hlen|]. split; [exact Hlem|]. split; [reflexivity|].
        split; [exact Z1|]. split; [exact Z2|]. split; [exact Z3|]. split; [|intros H; contradiction]. intros _.
        unfold finished in Hfin. destruct Hfin as (F1 & F2 & F3 & F4). cbn [s0 a_n] in F4. split; [cbn [conc l_built]; rewrite F4; reflexivity|].
        unfold described. split; [|split].
        * intros mem ->. cbn [s0 a_cells option_map] in F1. destruct F1 as (rest' & F1 & Ht). cbn [conc l_lemms]. rewrite F1. cbn [option_map fst snd app].
          eexists. split; [reflexivity|].
          split.
          -- intros i g Hnth. rewrite nth_error_app1 by (rewrite new_cells_length by exact Hlen; apply nth_error_Some; congruence). rewrite (new_cells_nth _ _ gs ls i g Hlen Hnth).
             unfold lemm_cell. cbn [s0 a_forms a_grams]. destruct pforms, pgrams; reflexivity.
          -- rewrite <- Ht. match goal with |- skipn _ (?c ++ _) = _ => assert (Hnl : length c = length gs) by (apply new_cells_length, Hlen); rewrite <- Hnl end.
             rewrite <- tl_skipn, skipn_app, skipn_all, Nat.sub_diag. reflexivity.
        * intros mem ->. cbn [conc l_forms]. rewrite F2. reflexivity.
        * intros mem ->. cbn [conc l_grams]. rewrite F3. cbn [s0 a_cells a_grams option_map fst snd app]. destruct plemma; reflexivity.
      + destruct R2 as (s' & z & E & Hz & Es); [rewrite Hwhole; exact Hno|]. rewrite E. cbn [bind].
        destruct (Hsz _ Es) as (Z1 & Z2 & Z3). exists z. eexists _, _, _. split; [exact Hlen|]. split; [exact Hlem|].
        split; [destruct Hz as [->|[->| ->]]; reflexivity|]. split; [exact Z1|]. split; [exact Z2|]. split; [exact Z3|].
        split; [intros H; contradiction|]. intros _. exact Hz.
  Qed.

  Lemma lemmatize_eq w psz cch plemma pforms pgrams dwsets junk :
    given w psz cch -> is_bytes w -> w <> [] -> (length w < 48)%nat -> (length (rparts w) <= 8)%nat ->
    exists scheme tail, (forall m, IsGoodSheme scheme m = true <-> suits w m) /\
      lemmatize A junk psz cch plemma pforms pgrams dwsets =
      (let! (s, nerror) := until_nonzero (call A L (rlow w) tail dwsets) (hits L scheme dwsets (rlow w))
           (LState (option_map (fun m => (m, 0%nat)) plemma) (option_map (fun m => Coder m 0) pforms) (option_map (fun m => (m, 0%nat)) pgrams) 0%Z) in
       Ok (if (nerror <? 0)%Z then nerror else l_built s, (option_map fst (l_lemms s), option_map cmem (l_forms s), option_map fst (l_grams s)))).
  Proof.
    intros Hg Hb Hw Hlen Hp. unfold lemmatize.
    match goal with |- context [prologue psz cch dwsets junk ?f ?g] => set (fl := f); set (go := g) end.
    destruct (prologue_word w psz cch dwsets junk fl go Hg Hb Hw Hlen Hp) as (scheme & tail & Hs & E & Hff & Ht).
    exists scheme, tail. split; [exact Hs|]. rewrite E.
    assert (Hgo : go (rlow w ++ tail) (N.of_nat (length w)) scheme =
      (let! (s, nerror) := until_nonzero (call A L (rlow w) tail dwsets) (hits L scheme dwsets (rlow w))
           (LState (option_map (fun m => (m, 0%nat)) plemma) (option_map (fun m => Coder m 0) pforms) (option_map (fun m => (m, 0%nat)) pgrams) 0%Z) in
       Ok (if (nerror <? 0)%Z then nerror else l_built s, (option_map fst (l_lemms s), option_map cmem (l_forms s), option_map fst (l_grams s))))).
    { unfold go. replace (length w) with (length (rlow w)) by apply map_length.
      rewrite (scan_words_eq A L (lemmatizer A (rlow w ++ tail) dwsets) (tgt_of (lemmatizer A (rlow w ++ tail) dwsets)));
        [|intros; unfold tgt_of; apply lemmatizer_suffix, fbytes_post_whole|exact HL|replace (length (rlow w)) with (length w) by (symmetry; apply map_length); lia].
      rewrite analyses_hits, until_map. reflexivity. }
    rewrite <- Hgo. destruct (N.eqb_spec (scheme mod 256) 255) as [H255|]; [|reflexivity]. destruct (bit 1 dwsets) eqn:Eb; [reflexivity|]. cbn [negb andb].
    rewrite Hgo. assert (Hnil : hits L scheme dwsets (rlow w) = []).
    { destruct (hits L scheme dwsets (rlow w)) as [|r hs] eqn:Eh; [reflexivity|]. exfalso.
      assert (Hin : In r (hits L scheme dwsets (rlow w))) by (rewrite Eh; left; reflexivity).
      eapply sublist_in in Hin; [|apply hits_sublist]. apply filter_In in Hin as [_ Hc]. unfold good_case in Hc. rewrite Eb in Hc. cbn in Hc.
      apply Hs in Hc. eapply Hff; eassumption. }
    rewrite Hnil. cbn [until_nonzero bind Z.ltb Z.compare l_lemms l_forms l_grams l_built]. unfold fl. destruct plemma, pforms, pgrams; reflexivity.
  Qed.
End Lemmatize.
