(** * RusLemmaProofs4: the result of Lemmatize. *)
From Verif Require Import Base Serial SerialProofs WordTree TreeSpec WordTreeProofs FlatScan FlatScanProofs LidsProofs TrackProofs TreeWalk Stems StemSpec StemsProofs
  DictProofs CharTables CapScheme CapSpec CapProofs CapProofs2 PropCaseLemmas PropTreesLemmas GramMap RusRuntime RusSpec RusProofs RusProofs2 RusProofs3
  RusBuild RusBuildSpec RusBuildProofs RusBuildProofs2 RusBuildProofs3 RusReadings RusReadingsProofs RusLemmaSpec RusLemmaProofs RusLemmaProofs2 RusLemmaProofs3.
Local Open Scope N_scope.

(** Lexemes formed from a sequence of readings. *)
Inductive well_grouped : list lexeme -> Prop :=
| wg_nil : well_grouped []
| wg_one g : Forall (fun r => rd_id r = rd_id (lx_first g)) (lx_more g) -> well_grouped [g]
| wg_cons g h gs : Forall (fun r => rd_id r = rd_id (lx_first g)) (lx_more g) -> rd_id (lx_first g) <> rd_id (lx_first h) ->
    well_grouped (h :: gs) -> well_grouped (g :: h :: gs).

Lemma grouped_wg hs : well_grouped (grouped hs) /\ flat_map members (grouped hs) = hs.
Proof.
  induction hs as [|r hs [IH1 IH2]]; [split; [constructor|reflexivity]|]. cbn [grouped]. destruct (grouped hs) as [|g gs] eqn:E.
  - cbn in IH2. subst hs. split; [constructor; constructor|reflexivity].
  - destruct (N.eqb_spec (rd_id (lx_first g)) (rd_id r)) as [Hid|Hid].
    + split; [|cbn in *; rewrite <- IH2; reflexivity].
      assert (Hm : Forall (fun r0 => rd_id r0 = rd_id r) (lx_first g :: lx_more g)).
      { inversion IH1 as [|? H|? ? ? H]; subst; (constructor; [exact Hid|]); rewrite <- Hid; exact H. }
      inversion IH1 as [|? H|? h gs' H Hne Hw]; subst; constructor; try assumption. cbn [lx_first]. rewrite <- Hid. exact Hne.
    + split; [|cbn in *; rewrite <- IH2; reflexivity]. constructor; [constructor|cbn; congruence|exact IH1].
Qed.

Fixpoint new_cells (fm gm : option nat) (gs : list lexeme) (ls : list bytes) : list lemm :=
  match gs, ls with
  | g :: gs, l :: ls =>
      Lemm (rd_id (lx_first g)) fm (match gm with None => 0 | Some p => N.of_nat p end)
           (match gm with None => 0 | Some _ => N.of_nat (length (rd_shown (lx_first g))) end)
      :: new_cells (option_map (fun p => (p + length l + 1)%nat) fm) (option_map (fun p => (p + length (concat (stored g)))%nat) gm) gs ls
  | _, _ => []
  end.

Section Sequence.
  Variables (A : arrays) (L : lexicon).
  Hypothesis HL : holds A L.
  Hypothesis HB : buildable L.
  Variables (w tail : bytes) (dwsets : N).
  Local Notation call := (call A L w tail dwsets).
  Local Notation rd_ok := (rd_ok L w).

  Definition whole_ok (s : astate) (gs : list lexeme) (ls : list bytes) : Prop :=
    (forall cells rest, a_cells s = Some (cells, rest) -> (length gs <= length rest)%nat) /\
    (forall done rest, a_forms s = Some (done, rest) -> Forall (fun g => small (rd_dict_forms dwsets (lx_first g))) gs /\ fit (length rest) ls) /\
    (forall gd gr, a_cells s <> None -> a_grams s = Some (gd, gr) -> grams_fit (length gr) (flat_map stored gs)).

  Definition finished (s : astate) (gs : list lexeme) (ls : list bytes) (s' : astate) : Prop :=
    match a_cells s with
    | None => a_cells s' = None
    | Some (cells, rest) => exists rest', 
        a_cells s' = Some (cells ++ new_cells (option_map (fun p => length (fst p)) (a_forms s)) (option_map (fun p => length (fst p)) (a_grams s)) gs ls, rest') /\
        tl rest' = skipn (S (length gs)) rest
    end /\
    a_forms s' = option_map (fun p => (fst p ++ joined ls, after ls (snd p))) (a_forms s) /\
    a_grams s' = (if a_cells s then option_map (fun p => (fst p ++ concat (flat_map stored gs), skipn (length (concat (flat_map stored gs))) (snd p))) (a_grams s) else a_grams s) /\
    a_n s' = (a_n s + length gs)%nat.

  Lemma skipn_tl {X} n (l : list X) : skipn n (tl l) = skipn (S n) l.
  Proof. destruct l; [destruct n|]; reflexivity. Qed.
  Lemma tl_skipn {X} n (l : list X) : tl (skipn n l) = skipn (S n) l.
  Proof. revert n. induction l as [|x l IH]; intros [|n]; try reflexivity. cbn [skipn]. rewrite IH. reflexivity. Qed.

  Lemma after_one l mem : after [l] mem = 0 :: skipn (length l + 2) mem.
  Proof. unfold after, total. cbn [fold_right]. do 2 f_equal. lia. Qed.

  Lemma sequence gs : forall ls s, well_grouped gs \/ a_cells s = None -> (a_cells s = None -> Forall (fun g => lx_more g = []) gs) ->
    Forall (fun g => Forall rd_ok (members g)) gs -> length ls = length gs ->
    (a_forms s <> None -> Forall2 (fun g l => lemma_of dwsets (lx_first g) l) gs ls) ->
    (forall cells rest, a_cells s = Some (cells, rest) -> length cells = a_n s) ->
    (forall g gs', gs = g :: gs' -> fresh s (rd_id (lx_first g))) ->
    (forall cells rest g, a_cells s = Some (cells, rest) -> a_grams s <> None -> rest <> [] -> nth_error gs (length rest - 1) = Some g -> lx_more g = []) ->
    ran s (whole_ok s gs ls) (finished s gs ls) (until_nonzero call (flat_map members gs) (conc s)).
  Proof.
    induction gs as [|g gs IH]; intros ls s Hwg Hnone Hok Hlen Hlem Hn Hfr Hsafe.
    - destruct ls; [|discriminate]. cbn [flat_map until_nonzero]. split.
      + intros _. exists s. split; [|split; reflexivity]. unfold finished. cbn [new_cells flat_map concat length joined after].
        split; [|split; [|split]].
        * destruct (a_cells s) as [[cells rest]|]; [|reflexivity]. exists rest. rewrite app_nil_r. split; [reflexivity|]. destruct rest; reflexivity.
        * destruct (a_forms s) as [[? ?]|]; [|reflexivity]. cbn. rewrite app_nil_r. reflexivity.
        * destruct (a_cells s); [|reflexivity]. destruct (a_grams s) as [[? ?]|]; [|reflexivity]. cbn. rewrite app_nil_r. reflexivity.
        * lia.
      + intros H. exfalso. apply H. split; [intros; cbn; lia|]. split; [intros; split; [constructor|left; reflexivity]|]. intros; exact I.
    - destruct ls as [|l ls]; [discriminate|]. injection Hlen as Hlen. inversion Hok as [|? ? Hokg Hokgs]; subst. clear Hok.
      inversion Hokg as [|? ? Hokf Hokm]; subst. clear Hokg.
      assert (Hlem1 : a_forms s <> None -> lemma_of dwsets (lx_first g) l) by (intros H; specialize (Hlem H); inversion Hlem; assumption).
      assert (Hlem2 : a_forms s <> None -> Forall2 (fun g l => lemma_of dwsets (lx_first g) l) gs ls) by (intros H; specialize (Hlem H); inversion Hlem; assumption).
      clear Hlem. change (flat_map members (g :: gs)) with ([lx_first g] ++ (lx_more g ++ flat_map members gs)).
      set (s1 := started s (lx_first g) l).
      pose proof (step_start A L HL HB w tail dwsets s (lx_first g) l Hokf (Hfr g gs eq_refl) Hn Hlem1) as [St1 St2]. fold s1 in St1.
      set (ok2 := forall gd gr, a_cells s <> None -> a_grams s = Some (gd, gr) -> grams_fit (length gr - length (rd_shown (lx_first g))) (map (added (lx_first g)) (lx_more g))).
      set (ok3 := (forall cells rest, a_cells s = Some (cells, rest) -> (S (length gs) <= length rest)%nat) /\
        (forall done rest, a_forms s = Some (done, rest) -> Forall (fun g => small (rd_dict_forms dwsets (lx_first g))) gs /\ fit (length (after [l] rest)) ls) /\
        (forall gd gr, a_cells s <> None -> a_grams s = Some (gd, gr) -> grams_fit (length gr - length (concat (stored g))) (flat_map stored gs))).
      apply ran_app with (ok1 := start_ok dwsets s (lx_first g) l) (P1 := fun s' => s' = s1 /\ start_ok dwsets s (lx_first g) l) (ok2 := ok2 /\ ok3).
      { apply start_ok_dec. }
      { cbn [until_nonzero]. split.
        - intros Ho. destruct (St1 Ho) as [E Hsz]. exists s1. rewrite E. cbn [bind Z.eqb]. auto.
        - intros Hno. destruct (St2 Hno) as (ls' & z & E & Hz & Hsz). exists ls', z. rewrite E. cbn [bind].
          rewrite (code_nonzero z Hz). auto. }
      2:{ (* the conditions *)
        unfold whole_ok, start_ok, ok2, ok3. change (flat_map stored (g :: gs)) with (rd_shown (lx_first g) :: (map (added (lx_first g)) (lx_more g) ++ flat_map stored gs)). cbn [length grams_fit].
        assert (Hpos : (1 <= length (rd_shown (lx_first g)))%nat).
        { unfold rd_shown. rewrite map_length. destruct (ok_descs L w _ Hokf) as [H _]. destruct (rd_descs (lx_first g)); [contradiction|cbn; lia]. }
        assert (Hst : forall n, (n - length (concat (stored g)) = n - length (rd_shown (lx_first g)) - length (concat (map (added (lx_first g)) (lx_more g))))%nat).
        { intros n. unfold stored. cbn [concat]. rewrite app_length. lia. }
        split.
        - intros (W1 & W2 & W3). split; [split; [|split]|split; [|split; [|split]]].
          + intros cells rest E. specialize (W1 _ _ E). destruct rest; [cbn in W1; lia|discriminate].
          + intros done rest E. destruct (W2 _ _ E) as [H1 H2]. inversion H1; subst. split; [assumption|].
            apply (proj1 (fit_cons _ l ls rest eq_refl)) in H2. apply H2.
          + intros gd gr Hc E. destruct (W3 _ _ Hc E) as [H _]. lia.
          + intros gd gr Hc E. destruct (W3 _ _ Hc E) as [_ H]. apply grams_fit_app in H. apply H.
          + intros cells rest E. specialize (W1 _ _ E). lia.
          + intros done rest E. destruct (W2 _ _ E) as [H1 H2]. inversion H1; subst. split; [assumption|].
            apply (proj1 (fit_cons _ l ls rest eq_refl)) in H2. apply H2.
          + intros gd gr Hc E. destruct (W3 _ _ Hc E) as [_ H]. apply grams_fit_app in H. rewrite Hst. apply H.
        - intros ((S1 & S2 & S3) & M & T1 & T2 & T3). split; [|split].
          + intros cells rest E. apply (T1 _ _ E).
          + intros done rest E. destruct (S2 _ _ E) as [H1 H2]. destruct (T2 _ _ E) as [H3 H4]. split; [constructor; assumption|].
            apply (proj2 (fit_cons _ l ls rest eq_refl)). split; assumption.
          + intros gd gr Hc E. specialize (S3 _ _ Hc E). specialize (M _ _ Hc E). specialize (T3 _ _ Hc E). split; [lia|].
            apply grams_fit_app. split; [exact M|]. rewrite <- Hst. exact T3. }
      intros ? [-> Hstart].
      assert (Hfl1 : forall f, a_forms s = Some f -> a_forms s1 = Some (fst f ++ l ++ [0], after [l] (snd f))).
      { intros [done rest] E. unfold s1, started. cbn [a_forms]. rewrite E, after_one. reflexivity. }
      assert (Hfn1 : a_forms s = None -> a_forms s1 = None) by (intros E; unfold s1, started; cbn [a_forms]; rewrite E; reflexivity).
      destruct (a_cells s) as [[cells rest]|] eqn:Ec.
      + (* with an array of lexemes *)
        specialize (Hn _ _ eq_refl). destruct Hstart as (S1 & S2 & S3). specialize (S1 _ _ Ec). destruct rest as [|m rest]; [contradiction|]. clear S1.
        set (cell := Lemm (rd_id (lx_first g)) (option_map (fun p => length (fst p)) (a_forms s)) (match a_grams s with None => 0 | Some (gd, _) => N.of_nat (length gd) end)
                          (match a_grams s with None => 0 | Some _ => N.of_nat (length (rd_shown (lx_first g))) end)).
        assert (Ec1 : a_cells s1 = Some (cells ++ [cell], rest)) by (unfold s1, started; cbn [a_cells]; rewrite Ec; reflexivity).
        assert (Eg1 : a_grams s1 = option_map (fun p => (fst p ++ rd_shown (lx_first g), skipn (length (rd_shown (lx_first g))) (snd p))) (a_grams s)).
        { unfold s1, started. cbn [a_grams]. rewrite Ec. destruct (a_grams s) as [[? ?]|]; reflexivity. }
        assert (En1 : a_n s1 = S (a_n s)) by reflexivity.
        assert (Hsl : slice_ok s1 cell (lx_first g)).
        { intros gd1 gr1 E. rewrite Eg1 in E. unfold cell. destruct (a_grams s) as [[gd gr]|]; [|discriminate]. cbn in E. injection E as <- <-.
          exists gd, []. rewrite app_nil_r. auto. }
        assert (Hids : Forall (fun r => rd_id r = lm_id cell) (lx_more g)) by (destruct Hwg as [Hwg|Hwg]; [inversion Hwg; assumption|discriminate]).
        assert (Hroom : a_grams s1 <> None -> lx_more g <> [] -> rest <> []).
        { intros Hg Hm ->. apply Hm. eapply Hsafe; [reflexivity| |discriminate|reflexivity]. rewrite Eg1 in Hg. destruct (a_grams s); [discriminate|contradiction]. }
        assert (Hok2 : ok2 <-> forall gd gr, a_grams s1 = Some (gd, gr) -> grams_fit (length gr) (map (added (lx_first g)) (lx_more g))).
        { unfold ok2. rewrite Eg1. destruct (a_grams s) as [[gd gr]|]; [|split; [discriminate|intros _ ? ? _; discriminate]]. cbn [option_map fst snd]. split; intros H.
          - intros ? ? [= <- <-]. rewrite skipn_length. apply (H _ _ ltac:(discriminate) eq_refl).
          - intros ? ? _ [= <- <-]. specialize (H _ _ eq_refl). rewrite skipn_length in H. exact H. }
        pose proof (merges A L HL HB w tail dwsets (lx_first g) cells cell (lx_more g) s1 rest Hokm Hids Ec1 ltac:(rewrite En1; discriminate) Hsl Hroom) as Hmerge.
        eapply ran_app with (ok1 := ok2) (ok2 := ok3).
        * unfold ok2. destruct (a_grams s) as [[gd gr]|]; [|left; intros ? ? _; discriminate].
          destruct (grams_fit_dec (map (added (lx_first g)) (lx_more g)) (length gr - length (rd_shown (lx_first g)))) as [H|H].
          -- left. intros ? ? _ [= <- <-]. exact H.
          -- right. intros H'. apply H, (H' gd gr); [discriminate|reflexivity].
        * destruct Hmerge as [M1 M2]. split; [intros Ho; apply M1, Hok2, Ho|intros Ho; apply M2; rewrite <- Hok2; exact Ho].
        * intros s2 ((rest2 & Ec2 & Hl2 & Ht2) & Ef2 & En2 & Eg2).
          assert (Eg2' : a_grams s2 = option_map (fun p => (fst p ++ concat (stored g), skipn (length (concat (stored g))) (snd p))) (a_grams s)).
          { rewrite Eg2, Eg1. destruct (a_grams s) as [[gd gr]|]; [|reflexivity]. unfold stored. cbn [option_map fst snd concat].
            rewrite <- app_assoc, app_length, skipn_skipn'. do 3 f_equal. lia. }
          assert (Hok3 : ok3 <-> whole_ok s2 gs ls).
          { unfold ok3, whole_ok. rewrite Ec2, Ef2, Eg2'. split.
            - intros (T1 & T2 & T3). split; [|split].
              + intros ? ? [= <- <-]. specialize (T1 _ _ eq_refl). cbn [length] in T1. lia.
              + intros done frest E. destruct (a_forms s) as [[fd fr]|] eqn:Ef; [|rewrite (Hfn1 eq_refl) in E; discriminate].
                rewrite (Hfl1 _ eq_refl) in E. injection E as <- <-. apply (T2 _ _ eq_refl).
              + intros gd gr _ E. destruct (a_grams s) as [[gd0 gr0]|]; [|discriminate]. cbn in E. injection E as <- <-. rewrite skipn_length.
                apply (T3 gd0 gr0); [discriminate|reflexivity].
            - intros (T1 & T2 & T3). split; [|split].
              + intros ? ? [= <- <-]. specialize (T1 _ _ eq_refl). cbn [length]. lia.
              + intros done frest E. rewrite (Hfl1 _ E) in T2. apply (T2 _ _ eq_refl).
              + intros gd gr _ E. rewrite E in T3. cbn [option_map fst snd] in T3. specialize (T3 _ _ ltac:(discriminate) eq_refl).
                rewrite skipn_length in T3. exact T3. }
          assert (Hrun : ran s2 (whole_ok s2 gs ls) (finished s2 gs ls) (until_nonzero call (flat_map members gs) (conc s2))).
          { apply IH.
            - left. destruct Hwg as [Hwg|Hwg]; [inversion Hwg; [constructor|assumption]|discriminate].
            - rewrite Ec2. discriminate.
            - exact Hokgs.
            - exact Hlen.
            - rewrite Ef2. intros Hf. apply Hlem2. intros E. apply Hf, Hfn1, E.
            - rewrite Ec2, En2, En1. intros ? ? [= <- <-]. rewrite app_length. cbn. lia.
            - intros h gs' ->. unfold fresh. rewrite Ec2. right. exists cells, cell. split; [reflexivity|]. cbn [cell lm_id].
              destruct Hwg as [Hwg|Hwg]; [inversion Hwg; assumption|discriminate].
            - rewrite Ec2, Eg2'. intros ? ? h [= <- <-] Hg Hr Hnth. eapply (Hsafe _ _ h eq_refl); [destruct (a_grams s); [discriminate|contradiction]|discriminate|].
              cbn [length]. destruct rest2 as [|m2 rest2']; [contradiction|]. rewrite <- Hl2. cbn [length] in Hnth |- *. replace (S (S (length rest2')) - 1)%nat with (S (S (length rest2') - 1)) by lia. exact Hnth. }
          assert (Hsz : sizes (conc s2) = sizes (conc s2)) by reflexivity.
          destruct Hrun as [R1 R2]. split; [|intros Hno; apply R2; rewrite <- Hok3; exact Hno]. intros Ho.
          destruct (R1 (proj1 Hok3 Ho)) as (s3 & Hfin & E3 & Hsz3). exists s3. split; [|split; assumption].
          unfold finished in Hfin |- *. rewrite Ec2 in Hfin. rewrite Ec. destruct Hfin as ((rest3 & Ec3 & Ht3) & Ef3 & Eg3 & En3).
          split; [|split; [|split]].
          -- exists rest3. split.
             ++ rewrite Ec3, Ef2, Eg2'. cbn [new_cells]. rewrite <- app_assoc. cbn [app].
                assert (Ecell : cell = Lemm (rd_id (lx_first g)) (option_map (fun p : list N * bytes => length (fst p)) (a_forms s))
                   (match option_map (fun p => length (fst p)) (a_grams s) with Some p => N.of_nat p | None => 0 end)
                   (match option_map (fun p => length (fst p)) (a_grams s) with Some _ => N.of_nat (length (rd_shown (lx_first g))) | None => 0 end))
                  by (unfold cell; destruct (a_grams s) as [[? ?]|]; reflexivity).
                rewrite Ecell. do 3 f_equal. f_equal. f_equal.
                ** destruct (a_forms s) as [[fd fr]|] eqn:Ef; [rewrite (Hfl1 _ eq_refl)|rewrite (Hfn1 eq_refl); reflexivity].
                   cbn [option_map fst]. f_equal. rewrite !app_length. cbn. lia.
                ** destruct (a_grams s) as [[? ?]|]; [|reflexivity]. cbn [option_map fst]. rewrite app_length. reflexivity.
             ++ rewrite Ht3. cbn [length]. rewrite <- skipn_tl, Ht2, skipn_tl. destruct gs; [destruct rest; reflexivity|]. cbn [length skipn]. reflexivity.
          -- rewrite Ef3, Ef2. destruct (a_forms s) as [[fd fr]|] eqn:Ef; [rewrite (Hfl1 _ eq_refl)|rewrite (Hfn1 eq_refl); reflexivity].
             cbn [option_map fst snd]. change (l :: ls) with ([l] ++ ls). rewrite joined_app, after_app. cbn [joined flat_map]. rewrite app_nil_r, <- !app_assoc. reflexivity.
          -- rewrite Eg3, Eg2'. destruct (a_grams s) as [[? ?]|]; [|reflexivity]. cbn [option_map fst snd flat_map].
             rewrite concat_app, app_length, <- app_assoc, skipn_skipn'. do 3 f_equal. lia.
          -- rewrite En3, En2, En1. cbn [length]. lia.
        * reflexivity.
      + (* without *)
        specialize (Hnone eq_refl). inversion Hnone as [|? ? Hm Hms]; subst. rewrite Hm. cbn [app].
        assert (Ec1 : a_cells s1 = None) by (unfold s1, started; cbn [a_cells]; rewrite Ec; reflexivity).
        assert (Eg1 : a_grams s1 = a_grams s) by (unfold s1, started; cbn [a_grams]; rewrite Ec; reflexivity).
        assert (Hok3 : (ok2 /\ ok3) <-> whole_ok s1 gs ls).
        { unfold ok2, ok3, whole_ok. rewrite Ec1. split.
          - intros (_ & T1 & T2 & T3). split; [discriminate|]. split; [|intros ? ? H; contradiction].
            intros done frest E. destruct (a_forms s) as [[fd fr]|] eqn:Ef; [|rewrite (Hfn1 eq_refl) in E; discriminate].
            rewrite (Hfl1 _ eq_refl) in E. injection E as <- <-. apply (T2 _ _ eq_refl).
          - intros (T1 & T2 & T3). split; [intros ? ? H; contradiction|]. split; [discriminate|]. split; [|intros ? ? H; contradiction].
            intros done frest E. rewrite (Hfl1 _ E) in T2. apply (T2 _ _ eq_refl). }
        assert (Hrun : ran s1 (whole_ok s1 gs ls) (finished s1 gs ls) (until_nonzero call (flat_map members gs) (conc s1))).
        { apply IH.
          - right. exact Ec1.
          - intros _. exact Hms.
          - exact Hokgs.
          - exact Hlen.
          - intros Hf. apply Hlem2. intros E. apply Hf, Hfn1, E.
          - rewrite Ec1. discriminate.
          - intros h gs' _. unfold fresh. rewrite Ec1. exact I.
          - rewrite Ec1. discriminate. }
        destruct Hrun as [R1 R2]. split; [|intros Hno; apply R2; rewrite <- Hok3; exact Hno]. intros Ho.
        destruct (R1 (proj1 Hok3 Ho)) as (s3 & Hfin & E3 & Hsz3). exists s3. split; [|split; assumption].
        unfold finished in Hfin |- *. rewrite Ec1 in Hfin. rewrite Ec. destruct Hfin as (Ec3 & Ef3 & Eg3 & En3).
        split; [exact Ec3|]. split; [|split].
        * rewrite Ef3. destruct (a_forms s) as [[fd fr]|] eqn:Ef; [rewrite (Hfl1 _ eq_refl)|rewrite (Hfn1 eq_refl); reflexivity].
          cbn [option_map fst snd]. change (l :: ls) with ([l] ++ ls). rewrite joined_app, after_app. cbn [joined flat_map]. rewrite app_nil_r, <- !app_assoc. reflexivity.
        * congruence.
        * rewrite En3. change (a_n s1) with (S (a_n s)). cbn [length]. lia.
  Qed.
End Sequence.
