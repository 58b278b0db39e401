(** * CodepageProofs7: Lemmatize in the caller's code page, the answer.  PROOFS (as RusLemmaProofs5). *)
From Verif Require Import Base Serial SerialProofs WordTree TreeSpec WordTreeProofs FlatScan FlatScanProofs LidsProofs TrackProofs TreeWalk Stems StemSpec StemsProofs
  DictProofs CharTables CapScheme CapSpec CapProofs CapProofs2 PropCaseLemmas PropTreesLemmas GramMap RusRuntime LevelSpec LevelProofs RusSpec RusProofs RusProofs2 RusProofs3
  RusBuild RusBuildSpec RusBuildProofs RusBuildProofs2 RusBuildProofs3 RusReadings RusReadingsProofs RusLemmaSpec RusLemmaProofs RusLemmaProofs2 RusLemmaProofs3 RusLemmaProofs4 RusLemmaProofs5
  Codepage CodepageSpec CodepageProofs CodepageProofs2 CodepageProofs3 CodepageProofs4 CodepageProofs5 CodepageProofs6.
Local Open Scope N_scope.

Lemma map_encode_in Cp dwsets gs : forall ls, Forall2 (fun g l => lemma_of dwsets (lx_first g) l) gs ls ->
  Forall2 (fun g l => lemma_in Cp dwsets (lx_first g) l) gs (map (encode Cp) ls).
Proof. induction 1 as [|g l gs ls H _ IH]; cbn [map]; constructor; [exists l; auto|exact IH]. Qed.
Lemma fit_b_in Cp size ls : fit_b (slack Cp) size (map (encode Cp) ls) <-> fit_in Cp size ls.
Proof. unfold fit_b, fit_in. destruct ls; [cbn [map]; tauto|]. cbn [map]. split; (intros [H|H]; [discriminate|right; exact H]). Qed.
Lemma after_b_in Cp ls mem : after_b (map (encode Cp) ls) mem = after_in Cp ls mem.
Proof. destruct ls; reflexivity. Qed.
Lemma fit_in_dec Cp size ls : fit_in Cp size ls \/ ~ fit_in Cp size ls.
Proof. unfold fit_in. destruct ls as [|l ls]; [left; left; reflexivity|].
  destruct (le_dec (total (map (encode Cp) (l :: ls)) + slack Cp) size); [left; right; assumption|right; intros [?|?]; [discriminate|contradiction]]. Qed.

Lemma all_fit_in_dec Cp dwsets gs ls plemma pforms pgrams : all_fit_in Cp dwsets gs ls plemma pforms pgrams \/ ~ all_fit_in Cp dwsets gs ls plemma pforms pgrams.
Proof.
  unfold all_fit_in.
  assert (D1 : (forall mem, plemma = Some mem -> (length gs <= length mem)%nat) \/ ~ (forall mem, plemma = Some mem -> (length gs <= length mem)%nat)).
  { destruct plemma as [mem|]; [|left; discriminate]. destruct (le_dec (length gs) (length mem)) as [H|H]; [left; intros ? [= <-]; exact H|].
    right. intros H'. apply H, (H' mem eq_refl). }
  assert (Dsm : Forall (fun g => small (rd_dict_forms dwsets (lx_first g))) gs \/ ~ Forall (fun g => small (rd_dict_forms dwsets (lx_first g))) gs).
  { destruct (Forall_dec (fun g => small (rd_dict_forms dwsets (lx_first g))) (fun g => le_dec _ _) gs); [left|right]; assumption. }
  assert (D2 : (forall mem, pforms = Some mem -> Forall (fun g => small (rd_dict_forms dwsets (lx_first g))) gs /\ fit_in Cp (length mem) ls) \/
             ~ (forall mem, pforms = Some mem -> Forall (fun g => small (rd_dict_forms dwsets (lx_first g))) gs /\ fit_in Cp (length mem) ls)).
  { destruct pforms as [mem|]; [|left; discriminate]. destruct (fit_in_dec Cp (length mem) ls) as [H|H].
    - destruct Dsm as [H2|H2]; [left; intros ? [= <-]; split; assumption|right; intros H'; apply H2, (H' mem eq_refl)].
    - right. intros H'. apply H, (H' mem eq_refl). }
  assert (D3 : (forall mem, plemma <> None -> pgrams = Some mem -> grams_fit (length mem) (flat_map stored gs)) \/
             ~ (forall mem, plemma <> None -> pgrams = Some mem -> grams_fit (length mem) (flat_map stored gs))).
  { destruct plemma as [lm|]; [|left; intros ? H; contradiction]. destruct pgrams as [mem|]; [|left; discriminate].
    destruct (grams_fit_dec (flat_map stored gs) (length mem)) as [H|H]; [left; intros ? _ [= <-]; exact H|].
    right. intros H'. apply H, (H' mem); [discriminate|reflexivity]. }
  tauto.
Qed.

Section Lemmatize.
  Variable Cp : encoding.
  Hypothesis Hnul : enc Cp 0 = [0].
  Variables (A : arrays) (L : lexicon).
  Hypothesis HL : holds A L.
  Hypothesis HB : buildable L.

  Lemma cp_run_answer w tail dwsets hs plemma pforms pgrams : Forall (rd_ok L w) hs -> safe_call dwsets (lexemes_of plemma hs) plemma pforms pgrams ->
    answer_in Cp dwsets hs plemma pforms pgrams
      (let! (s, nerror) := until_nonzero (ccall Cp A L w tail dwsets) hs
           (LState (option_map (fun m => (m, 0%nat)) plemma) (option_map (fun m => Coder m 0) pforms) (option_map (fun m => (m, 0%nat)) pgrams) 0%Z) in
       Ok (if (nerror <? 0)%Z then nerror else l_built s, (option_map fst (l_lemms s), option_map cmem (l_forms s), option_map fst (l_grams s)))).
  Proof.
    intros Hok [Hsafe1 Hsafe2]. unfold answer_in. set (gs := lexemes_of plemma hs) in *.
    assert (Hls : exists ls, length ls = length gs /\ (pforms <> None -> Forall2 (fun g l => lemma_of dwsets (lx_first g) l) gs ls)).
    { destruct pforms as [fm|].
      - destruct (lemmas_exist dwsets gs (Hsafe1 ltac:(discriminate))) as (ls & H). exists ls. split; [symmetry; eapply F2_length, H|auto].
      - exists (map (fun _ => []) gs). rewrite map_length. split; [reflexivity|]. intros H. contradiction. }
    destruct Hls as (ls & Hlen & Hlem). exists ls.
    set (s0 := AState (option_map (fun m => ([], m)) plemma) (option_map (fun m => ([], m)) pforms) (option_map (fun m => ([], m)) pgrams) 0).
    assert (E0 : LState (option_map (fun m => (m, 0%nat)) plemma) (option_map (fun m => Coder m 0) pforms) (option_map (fun m => (m, 0%nat)) pgrams) 0%Z = conc s0).
    { unfold conc, s0. cbn [a_cells a_forms a_grams a_n]. destruct plemma, pforms, pgrams; reflexivity. }
    rewrite E0. replace (until_nonzero (ccall Cp A L w tail dwsets) hs) with (until_nonzero (ccall Cp A L w tail dwsets) (flat_map members gs))
      by (unfold gs; rewrite lexemes_members; reflexivity).
    assert (Hokg : Forall (fun g => Forall (rd_ok L w) (members g)) gs).
    { apply Forall_forall. intros g Hg. apply Forall_forall. intros r Hr. rewrite Forall_forall in Hok. apply Hok.
      rewrite <- (lexemes_members plemma hs). apply in_flat_map. exists g. split; assumption. }
    assert (Hcells : forall cells rest, a_cells s0 = Some (cells, rest) -> cells = [] /\ plemma = Some rest).
    { cbn [s0 a_cells]. destruct plemma; [|discriminate]. intros ? ? [= <- <-]. auto. }
    destruct (cp_sequence Cp Hnul A L HL HB w tail dwsets gs (map (encode Cp) ls) s0) as [R1 R2].
    - unfold gs, s0. cbn [a_cells]. destruct plemma; [left; apply grouped_wg|right; reflexivity].
    - unfold gs, s0. cbn [a_cells]. destruct plemma; [discriminate|]. intros _. cbn [lexemes_of]. apply Forall_map, Forall_forall. reflexivity.
    - exact Hokg.
    - rewrite map_length. exact Hlen.
    - cbn [s0 a_forms]. intros Hf. apply map_encode_in, Hlem. intros ->. apply Hf. reflexivity.
    - intros cells rest E. destruct (Hcells _ _ E) as [-> _]. reflexivity.
    - intros g gs' _. unfold fresh. cbn [s0 a_cells a_n]. destruct plemma; [left; reflexivity|exact I].
    - intros cells rest g E Hg Hr Hnth. destruct (Hcells _ _ E) as [_ Hp]. eapply Hsafe2; [exact Hp| |exact Hr|exact Hnth].
      intros ->. apply Hg. reflexivity.
    - assert (Hwhole : cwhole_ok Cp dwsets s0 gs (map (encode Cp) ls) <-> all_fit_in Cp dwsets gs ls plemma pforms pgrams).
      { unfold cwhole_ok, all_fit_in, s0. cbn [a_cells a_forms a_grams]. split.
        - intros (W1 & W2 & W3). split; [|split].
          + intros mem ->. apply (W1 [] mem eq_refl).
          + intros mem ->. rewrite <- fit_b_in. apply (W2 [] mem eq_refl).
          + intros mem Hp ->. apply (W3 [] mem); [destruct plemma; [discriminate|contradiction]|reflexivity].
        - intros (W1 & W2 & W3). split; [|split].
          + intros cells rest E. destruct plemma as [m|]; [|discriminate]. injection E as <- <-. apply W1. reflexivity.
          + intros done rest E. destruct pforms as [m|]; [|discriminate]. injection E as <- <-. rewrite fit_b_in. apply W2. reflexivity.
          + intros gd gr Hc E. destruct pgrams as [m|]; [|discriminate]. injection E as <- <-. apply W3; [|reflexivity]. intros ->. apply Hc. reflexivity. }
      assert (Hsz : forall s', sizes s' = sizes (conc s0) -> same_size (option_map fst (l_lemms s')) plemma /\ same_size (option_map cmem (l_forms s')) pforms /\
                                same_size (option_map fst (l_grams s')) pgrams).
      { intros s' E. unfold sizes in E. injection E as E1 E2 E3. unfold same_size. cbn [s0 a_cells a_forms a_grams] in *.
        destruct plemma, pforms, pgrams, (l_lemms s') as [[]|], (l_forms s'), (l_grams s') as [[]|]; cbn in *; repeat split; congruence. }
      destruct (all_fit_in_dec Cp dwsets gs ls plemma pforms pgrams) as [Hfit|Hno].
      + destruct (R1 (proj2 Hwhole Hfit)) as (s' & Hfin & E & Es). rewrite E. cbn [bind]. cbn [Z.ltb Z.compare].
        destruct (Hsz _ Es) as (Z1 & Z2 & Z3). eexists _, _, _, _. split; [exact Hlen|]. split; [exact Hlem|]. split; [reflexivity|].
        split; [exact Z1|]. split; [exact Z2|]. split; [exact Z3|]. split; [|intros H; contradiction]. intros _.
        unfold cfinished in Hfin. destruct Hfin as (F1 & F2 & F3 & F4). cbn [s0 a_n] in F4. split; [cbn [conc l_built]; rewrite F4; reflexivity|].
        unfold described_in. split; [|split].
        * intros mem ->. cbn [s0 a_cells option_map] in F1. destruct F1 as (rest' & F1 & Ht). cbn [conc l_lemms]. rewrite F1. cbn [option_map fst snd app].
          eexists. split; [reflexivity|].
          split.
          -- intros i g Hnth. rewrite nth_error_app1 by (rewrite new_cells_length by (rewrite map_length; exact Hlen); apply nth_error_Some; congruence). rewrite (new_cells_nth _ _ gs (map (encode Cp) ls) i g (eq_trans (map_length _ _) Hlen) Hnth).
             unfold lemm_cell. cbn [s0 a_forms a_grams]. destruct pforms, pgrams; reflexivity.
          -- rewrite <- Ht. match goal with |- skipn _ (?c ++ _) = _ => assert (Hnl : length c = length gs) by (apply new_cells_length; rewrite map_length; exact Hlen); rewrite <- Hnl end.
             rewrite <- tl_skipn, skipn_app, skipn_all, Nat.sub_diag. reflexivity.
        * intros mem ->. cbn [conc l_forms]. rewrite F2. cbn [s0 a_forms option_map fst snd app]. rewrite after_b_in. reflexivity.
        * intros mem ->. cbn [conc l_grams]. rewrite F3. cbn [s0 a_cells a_grams option_map fst snd app]. destruct plemma; reflexivity.
      + destruct R2 as (s' & z & E & Hz & Es); [rewrite Hwhole; exact Hno|]. rewrite E. cbn [bind].
        destruct (Hsz _ Es) as (Z1 & Z2 & Z3). exists z. eexists _, _, _. split; [exact Hlen|]. split; [exact Hlem|].
        split; [destruct Hz as [->|[->| ->]]; reflexivity|]. split; [exact Z1|]. split; [exact Z2|]. split; [exact Z3|].
        split; [intros H; contradiction|]. intros _. exact Hz.
  Qed.

  Lemma cp_lemmatize_eq t psz cch plemma pforms pgrams dwsets junk : is_bytes t -> t <> [] -> (length t < 48)%nat -> (length (rparts t) <= 8)%nat ->
    cp_canonic Cp psz cch = to_canonic (Some (t ++ [])) (N.of_nat (length t)) ->
    exists scheme tail, (forall m, IsGoodSheme scheme m = true <-> suits t m) /\
      cp_lemmatize Cp A junk psz cch plemma pforms pgrams dwsets =
      (let! (s, nerror) := until_nonzero (ccall Cp A L (rlow t) tail dwsets) (hits L scheme dwsets (rlow t))
           (LState (option_map (fun m => (m, 0%nat)) plemma) (option_map (fun m => Coder m 0) pforms) (option_map (fun m => (m, 0%nat)) pgrams) 0%Z) in
       Ok (if (nerror <? 0)%Z then nerror else l_built s, (option_map fst (l_lemms s), option_map cmem (l_forms s), option_map fst (l_grams s)))).
  Proof.
    intros Hb Hw Hlen Hp Hcan. unfold cp_lemmatize, lemmatize_with. rewrite Hcan.
    assert (Hgt : given t (Some (t ++ [])) (N.of_nat (length t))) by (constructor; lia).
    match goal with |- context [prologue_with _ dwsets junk ?f ?g] => set (fl := f); set (go := g) end.
    destruct (prologue_with_word t _ _ dwsets junk fl go Hgt Hb Hw Hlen Hp) as (scheme & tail & Hs & Ep & Hff & Ht).
    exists scheme, tail. split; [exact Hs|]. rewrite Ep.
    assert (Hgo : go (rlow t ++ tail) (N.of_nat (length t)) scheme =
      (let! (s, nerror) := until_nonzero (ccall Cp A L (rlow t) tail dwsets) (hits L scheme dwsets (rlow t))
           (LState (option_map (fun m => (m, 0%nat)) plemma) (option_map (fun m => Coder m 0) pforms) (option_map (fun m => (m, 0%nat)) pgrams) 0%Z) in
       Ok (if (nerror <? 0)%Z then nerror else l_built s, (option_map fst (l_lemms s), option_map cmem (l_forms s), option_map fst (l_grams s))))).
    { unfold go. replace (length t) with (length (rlow t)) by apply map_length.
      rewrite (scan_words_eq A L (lemmatizer_with (cp_put Cp) A (rlow t ++ tail) dwsets) (tgt_of (lemmatizer_with (cp_put Cp) A (rlow t ++ tail) dwsets)));
        [|intros; unfold tgt_of; apply lemmatizer_with_suffix, fbytes_post_whole|exact HL|replace (length (rlow t)) with (length t) by (symmetry; apply map_length); lia].
      rewrite analyses_hits, until_map. reflexivity. }
    rewrite <- Hgo. destruct (N.eqb_spec (scheme mod 256) 255) as [H255|]; [|reflexivity]. destruct (bit 1 dwsets) eqn:Eb; [reflexivity|]. cbn [negb andb].
    rewrite Hgo. assert (Hnil : hits L scheme dwsets (rlow t) = []).
    { destruct (hits L scheme dwsets (rlow t)) as [|r hs] eqn:Eh; [reflexivity|]. exfalso.
      assert (Hin : In r (hits L scheme dwsets (rlow t))) by (rewrite Eh; left; reflexivity).
      eapply sublist_in in Hin; [|apply hits_sublist]. apply filter_In in Hin as [_ Hc]. unfold good_case in Hc. rewrite Eb in Hc. cbn in Hc.
      apply Hs in Hc. eapply Hff; eassumption. }
    rewrite Hnil. cbn [until_nonzero bind Z.ltb Z.compare l_lemms l_forms l_grams l_built]. unfold fl. destruct plemma, pforms, pgrams; reflexivity.
  Qed.

  Lemma cp_lemmatize_answer t dwsets : is_bytes t -> t <> [] -> (length t < 48)%nat -> (length (rparts t) <= 8)%nat -> (length t + slack Cp <= 48)%nat ->
    exists hs, found L (bit 1 dwsets) t hs /\
      forall w psz cch plemma pforms pgrams junk, given w psz cch -> w <> [] -> dec Cp w = t ->
        safe_call dwsets (lexemes_of plemma hs) plemma pforms pgrams ->
        answer_in Cp dwsets hs plemma pforms pgrams (cp_lemmatize Cp A junk psz cch plemma pforms pgrams dwsets).
  Proof.
    intros Hb Ht Hlen Hp Hsl. destruct (scheme_exists t Hb Ht Hlen Hp) as (scheme & Hs).
    exists (hits L scheme dwsets (rlow t)). split; [apply hits_found with A; assumption|].
    intros w psz cch plemma pforms pgrams junk Hg Hw Ed Hsafe.
    assert (Hgt : given t (Some (t ++ [])) (N.of_nat (length t))) by (constructor; lia).
    destruct (cp_lemmatize_eq t psz cch plemma pforms pgrams dwsets junk Hb Ht Hlen Hp) as (scheme' & tail & Hs' & Er).
    { apply (cp_canonic_text Cp w psz cch (Some (t ++ [])) (N.of_nat (length t))); rewrite ?Ed; assumption. }
    rewrite Er. replace (hits L scheme' dwsets (rlow t)) with (hits L scheme dwsets (rlow t))
      by (apply hits_scheme; intros m; rewrite Hs, Hs'; reflexivity).
    apply cp_run_answer; [|exact Hsafe]. apply Forall_forall. intros r Hr. eapply hits_ok; eassumption.
  Qed.
End Lemmatize.
