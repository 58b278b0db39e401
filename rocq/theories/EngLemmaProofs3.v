(** * EngLemmaProofs3: the sequence of readings the English Lemmatize goes through.  PROOFS. *)
From Verif Require Import Base Serial SerialProofs WordTree TreeSpec WordTreeProofs FlatScan FlatScanProofs LidsProofs TrackProofs
  TreeWalk Stems StemSpec StemsProofs DictProofs CharTables CapScheme CapSpec CapProofs CapProofs2 CapProofs3 PropCaseLemmas PropTreesLemmas
  GramMap RusRuntime RusBuild RusSpec RusProofs RusProofs2 RusProofs3 RusBuildSpec RusBuildProofs RusBuildProofs2 RusBuildProofs3 RusReadings
  RusReadingsProofs RusLemmaSpec RusLemmaProofs RusLemmaProofs2 RusLemmaProofs3 RusLemmaProofs4 RusLemmaProofs5 RusLemmaProofs6
  EngRuntime EngSpec EngProofs EngProofs2 EngFormsSpec EngBuildProofs EngReadingsProofs EngLemmaSpec EngLemmaProofs EngLemmaProofs2.
Local Open Scope N_scope.

Definition emembers (g : elexeme) : list ereading := ex_first g :: ex_more g.

Section Runs.
  Variables (A : earrays) (L : elexicon).
  Hypothesis HL : eholds A L.
  Hypothesis HB : ebuildable L.
  Variables (w tail : bytes).
  Local Notation ecall := (ecall A L w tail).
  Local Notation er_ok := (er_ok L w).

  Lemma eran_app s l1 l2 ok1 P1 ok2 ok P2 : ok1 \/ ~ ok1 -> ran s ok1 P1 (until_nonzero ecall l1 (conc s)) ->
    (forall s1, P1 s1 -> ran s1 ok2 P2 (until_nonzero ecall l2 (conc s1))) -> (ok <-> ok1 /\ ok2) ->
    ran s ok P2 (until_nonzero ecall (l1 ++ l2) (conc s)).
  Proof.
    intros Hdec [H1 H2] H3 Hok. rewrite until_app'. destruct Hdec as [Hd|Hd].
    - destruct (H1 Hd) as (s1 & HP & -> & Hsz). cbn [bind Z.eqb]. destruct (H3 s1 HP) as [H4 H5]. split.
      + intros Ho. apply Hok in Ho as [_ Ho]. destruct (H4 Ho) as (s2 & HP2 & -> & Hsz2). exists s2. split; [exact HP2|]. split; [reflexivity|congruence].
      + intros Hn. destruct H5 as (ls & z & -> & Hz & Hsz2); [tauto|]. exists ls, z. split; [reflexivity|]. split; [exact Hz|congruence].
    - destruct (H2 Hd) as (ls & z & -> & Hz & Hsz). cbn [bind]. rewrite (code_nonzero z Hz). split; [tauto|]. intros _. exists ls, z. auto.
  Qed.

  Lemma estart_ok_dec s r l : estart_ok s r l \/ ~ estart_ok s r l.
  Proof.
    unfold estart_ok. destruct s as [cs fm gm n]. cbn [a_cells a_forms a_grams].
    assert (D1 : (forall cells rest, cs = Some (cells, rest) -> rest <> []) \/ ~ (forall cells rest, cs = Some (cells, rest) -> rest <> [])).
    { destruct cs as [[cells [|x rest]]|].
      - right. intros H. apply (H cells []); reflexivity.
      - left. intros ? ? [= <- <-]. discriminate.
      - left. discriminate. }
    assert (D2 : (forall done rest, fm = Some (done, rest) -> small (er_dict_forms r) /\ (length l + 2 <= length rest)%nat) \/
                 ~ (forall done rest, fm = Some (done, rest) -> small (er_dict_forms r) /\ (length l + 2 <= length rest)%nat)).
    { destruct fm as [[done rest]|]; [|left; discriminate]. unfold small.
      destruct (le_dec (total (er_dict_forms r)) 256) as [H1|H1]; [destruct (le_dec (length l + 2) (length rest)) as [H2|H2]|].
      - left. intros ? ? [= <- <-]. split; assumption.
      - right. intros H. apply H2, (H done rest eq_refl).
      - right. intros H. apply H1, (H done rest eq_refl). }
    assert (D3 : (forall gd gr, cs <> None -> gm = Some (gd, gr) -> (length (er_shown r) <= length gr)%nat) \/
                 ~ (forall gd gr, cs <> None -> gm = Some (gd, gr) -> (length (er_shown r) <= length gr)%nat)).
    { destruct cs as [p|]; [|left; intros ? ? H; contradiction]. destruct gm as [[gd gr]|]; [|left; discriminate].
      destruct (le_dec (length (er_shown r)) (length gr)) as [H2|H2].
      - left. intros ? ? _ [= <- <-]. exact H2.
      - right. intros H. apply H2, (H gd gr); [discriminate|reflexivity]. }
    tauto.
  Qed.

  (** ** A further ereading of the last elexeme *)
  Lemma emerge_call s r cells' last rest : er_ok r -> a_cells s = Some (cells' ++ [last], rest) -> lm_id last = er_id r -> a_n s <> 0%nat ->
    exists st, (forall id, eset_graminfo st (eto_gram (er_class r) id) = eshown (er_class r) id) /\
      ecall (conc s) r = (let! (s', ret) := eput_infos (conc s) true st (map (eto_gram (er_class r)) (er_ids r)) in
                         match ret with Some r => Ok (s', r) | None => Ok (s', 0%Z) end).
  Proof.
    intros Hok Ec Hid Hn. destruct (ereading_call A L HL HB w tail r Hok) as (st & Ecall & _ & _ & _ & _ & _ & _ & Hsh). exists st. split; [exact Hsh|].
    rewrite Ecall. unfold elemmatizer. replace (l_built (conc s) <? 0)%Z with false by (symmetry; apply Z.ltb_ge; cbn; lia).
    assert (Est : start_lemm (conc s) (er_id r) = Ok (Some (conc s, true))).
    { unfold start_lemm. destruct s as [cs fm gm n]. cbn [a_cells a_n] in *. subst cs. cbn [conc a_cells option_map fst snd l_lemms l_built].
      cbn [a_n]. destruct (Z.eqb_spec (Z.of_nat n) 0); [lia|]. rewrite app_length, Nat.add_1_r. unfold mem_read.
      rewrite <- app_assoc, nth_error_app2, Nat.sub_diag by lia. cbn [app nth_error bind]. rewrite Hid, N.eqb_refl. reflexivity. }
    rewrite Est. cbn [bind]. destruct (l_forms (conc s)); reflexivity.
  Qed.

  (** where the descriptions of the last elexeme are *)
  Definition eslice_ok (s : astate) (last : lemm) (first : ereading) : Prop :=
    forall gd gr, a_grams s = Some (gd, gr) -> exists g1 g2, gd = g1 ++ er_shown first ++ g2 /\
      lm_grams last = N.of_nat (length g1) /\ lm_ngrams last = N.of_nat (length (er_shown first)).

  Lemma estep_merge s first r cells' last rest : er_ok r -> a_cells s = Some (cells' ++ [last], rest) -> lm_id last = er_id r -> a_n s <> 0%nat ->
    eslice_ok s last first -> (a_grams s <> None -> rest <> []) ->
    ran s (forall gd gr, a_grams s = Some (gd, gr) -> grams_fit (length gr) (eadded first r))
        (merged (cells' ++ [last]) rest s (concat (eadded first r))) (until_nonzero ecall [r] (conc s)).
  Proof.
    intros Hok Ec Hid Hn Hsl Hrest. destruct (emerge_call s r cells' last rest Hok Ec Hid Hn) as (st & Hsh & Ecall). cbn [until_nonzero]. rewrite Ecall. clear Ecall.
    destruct s as [cs fm gm n]. cbn [a_cells a_forms a_grams a_n] in *. subst cs. unfold eput_infos, ran, merged, eslice_ok in *.
    cbn [conc a_cells a_forms a_grams a_n option_map fst snd l_lemms l_forms l_grams l_built] in *.
    destruct gm as [[gd gr]|]; cbn [option_map fst snd].
    - destruct (Hsl gd gr eq_refl) as (g1 & g2 & -> & Eg & En). clear Hsl. destruct rest as [|m rest]; [exfalso; apply Hrest; [discriminate|reflexivity]|].
      assert (Hlast : mem_read ((cells' ++ [last]) ++ m :: rest) (length cells') = Ok last).
      { unfold mem_read. rewrite <- app_assoc, nth_error_app2, Nat.sub_diag by lia. reflexivity. }
      assert (Hlen : length (cells' ++ [last]) = S (length cells')) by (rewrite app_length; cbn; lia).
      rewrite Hlen, Hlast. cbn [bind]. clear Hlast.
      destruct (emerge_grams_eq st (er_class r) Hsh last g1 (er_shown first) (er_ids r) Eg En g2 gr) as [H1 H2]. cbn zeta in H1, H2.
      fold (eadded first r) in H1, H2.
      destruct (grams_fit_dec (eadded first r) (length gr)) as [Hle|Hgt]; [pose proof (grams_fit_length _ _ Hle) as Hfl|].
      + rewrite (H1 Hle). cbn [bind Nat.eqb]. set (cells := cells' ++ [last]).
        change (length cells = S (length cells')) in Hlen. rewrite <- Hlen.
        unfold mem_read. rewrite nth_error_app2, Nat.sub_diag by lia. cbn [nth_error bind]. rewrite mem_write_eq. cbn [bind]. cbn [Z.eqb].
        split.
        * intros _. match goal with |- context [cells ++ ?m' :: rest] =>
            exists (AState (Some (cells, m' :: rest)) fm (Some ((g1 ++ er_shown first ++ g2) ++ concat (eadded first r), skipn (length (concat (eadded first r))) gr)) n) end.
          split; [|split].
          -- split; [eexists; split; [reflexivity|split; reflexivity]|]. split; [reflexivity|]. split; reflexivity.
          -- reflexivity.
          -- unfold sizes. cbn [conc a_cells a_forms a_grams l_lemms l_forms l_grams option_map fst snd].
             repeat match goal with |- (_, _) = (_, _) => apply f_equal2 | |- Some _ = Some _ => apply f_equal end; try reflexivity;
             rewrite !app_length; cbn [length]; rewrite ?skipn_length; lia.
        * intros Hno. exfalso. apply Hno. intros ? ? [= <- <-]. exact Hle.
      + destruct (H2 Hgt) as (togo & mem & cur & -> & Hlm). cbn [bind Nat.eqb Z.eqb]. split.
        * intros H. exfalso. apply Hgt, (H _ _ eq_refl).
        * intros _. eexists _, _. split; [reflexivity|]. split; [right; right; reflexivity|]. unfold sizes.
          cbn [conc a_cells a_forms a_grams l_lemms l_forms l_grams option_map fst snd]. rewrite Hlm. reflexivity.
    - cbn [bind Z.eqb]. split.
      + intros _. exists (AState (Some (cells' ++ [last], rest)) fm None n). split; [|split; reflexivity].
        split; [eexists; split; [reflexivity|split; reflexivity]|]. split; [reflexivity|]. split; reflexivity.
      + intros Hno. exfalso. apply Hno. discriminate.
  Qed.

  Lemma emerges first cells' last rs : forall s rest, Forall er_ok rs -> Forall (fun r => er_id r = lm_id last) rs ->
    a_cells s = Some (cells' ++ [last], rest) -> a_n s <> 0%nat -> eslice_ok s last first -> (a_grams s <> None -> rs <> [] -> rest <> []) ->
    ran s (forall gd gr, a_grams s = Some (gd, gr) -> grams_fit (length gr) (flat_map (eadded first) rs))
        (merged (cells' ++ [last]) rest s (concat (flat_map (eadded first) rs))) (until_nonzero ecall rs (conc s)).
  Proof.
    induction rs as [|r rs IH]; intros s rest Hok Hid Ec Hn Hsl Hrest.
    - cbn [until_nonzero flat_map concat]. split; [|intros H; exfalso; apply H; intros; exact I]. intros _. exists s. split; [|split; reflexivity].
      split; [exists rest; auto|]. split; [reflexivity|]. split; [reflexivity|]. destruct (a_grams s) as [[gd gr]|]; [|reflexivity].
      cbn. rewrite app_nil_r. reflexivity.
    - inversion Hok as [|? ? Hr Hrs]; subst. inversion Hid as [|? ? Hi His]; subst.
      change (r :: rs) with ([r] ++ rs) at 3.
      eapply eran_app with (ok1 := forall gd gr, a_grams s = Some (gd, gr) -> grams_fit (length gr) (eadded first r))
                          (P1 := merged (cells' ++ [last]) rest s (concat (eadded first r)))
                          (ok2 := forall gd gr, a_grams s = Some (gd, gr) -> grams_fit (length gr - length (concat (eadded first r))) (flat_map (eadded first) rs)).
      + destruct (a_grams s) as [[gd gr]|]; [|left; discriminate]. destruct (grams_fit_dec (eadded first r) (length gr)) as [H|H].
        * left. intros ? ? [= <- <-]. exact H.
        * right. intros H'. apply H, (H' gd gr eq_refl).
      + apply estep_merge; try assumption; [symmetry; assumption|]. intros Hg. apply Hrest; [exact Hg|discriminate].
      + intros s1 ((rest1 & Ec1 & Hl1 & Ht1) & Ef1 & En1 & Eg1).
        assert (Hsl1 : eslice_ok s1 last first).
        { intros gd1 gr1 E. rewrite Eg1 in E. destruct (a_grams s) as [[gd gr]|] eqn:Eg; [|discriminate]. cbn in E. injection E as <- <-.
          destruct (Hsl gd gr Eg) as (g1 & g2 & -> & H1 & H2). exists g1, (g2 ++ concat (eadded first r)). rewrite <- !app_assoc. auto. }
        assert (Hrest1 : a_grams s1 <> None -> rs <> [] -> rest1 <> []).
        { intros Hg _. intros ->. apply Hrest; [|discriminate|destruct rest; [reflexivity|discriminate]]. rewrite Eg1 in Hg. destruct (a_grams s); [discriminate|contradiction]. }
        destruct (IH s1 rest1 Hrs His Ec1 ltac:(rewrite En1; exact Hn) Hsl1 Hrest1) as [H1 H2].
        assert (Hokeq : (forall gd gr, a_grams s1 = Some (gd, gr) -> grams_fit (length gr) (flat_map (eadded first) rs)) <->
                        (forall gd gr, a_grams s = Some (gd, gr) -> grams_fit (length gr - length (concat (eadded first r))) (flat_map (eadded first) rs))).
        { rewrite Eg1. destruct (a_grams s) as [[gd gr]|]; [|split; discriminate]. cbn [option_map fst snd]. split; intros H.
          - intros ? ? [= <- <-]. specialize (H _ _ eq_refl). rewrite skipn_length in H. exact H.
          - intros ? ? [= <- <-]. rewrite skipn_length. apply (H _ _ eq_refl). }
        split.
        * intros Ho. destruct (H1 (proj2 Hokeq Ho)) as (s2 & ((rest2 & Ec2 & Hl2 & Ht2) & Ef2 & En2 & Eg2) & E2 & Hsz2). exists s2. split; [|split; assumption].
          split; [exists rest2; split; [exact Ec2|split; congruence]|]. split; [congruence|]. split; [congruence|]. rewrite Eg2, Eg1.
          destruct (a_grams s) as [[gd gr]|]; [|reflexivity]. cbn [option_map fst snd flat_map]. rewrite concat_app, <- app_assoc, app_length, skipn_skipn'. do 3 f_equal. lia.
        * intros Hno. apply H2. rewrite Hokeq. exact Hno.
      + cbn [flat_map]. destruct (a_grams s) as [[gd gr]|]; [|split; [intros _; split|]; discriminate]. split.
        * intros H. split; intros ? ? [= <- <-]; specialize (H _ _ eq_refl); apply grams_fit_app in H; tauto.
        * intros [H H'] ? ? [= <- <-]. specialize (H _ _ eq_refl). specialize (H' _ _ eq_refl). apply grams_fit_app. tauto.
  Qed.
End Runs.
