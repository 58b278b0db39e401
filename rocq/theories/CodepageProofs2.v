(** * CodepageProofs2: BuildForm and FindForms in the caller's code page.  PROOFS. *)
From Verif Require Import Base Serial SerialProofs WordTree TreeSpec WordTreeProofs FlatScan FlatScanProofs LidsProofs TrackProofs
  TreeWalk Stems StemSpec StemsProofs DictProofs CharTables CapScheme CapSpec CapProofs CapProofs2 PropCaseLemmas GramMap RusRuntime LevelSpec LevelProofs RusSpec
  RusProofs RusProofs2 RusProofs3 RusBuild RusBuildSpec RusBuildProofs RusBuildProofs2 RusBuildProofs3 RusReadings RusReadingsProofs RusLemmaSpec
  PropBuildLemmas CxxApi CxxProofs CxxProofs2 Codepage CodepageSpec CodepageProofs.
Local Open Scope N_scope.

Lemma cstr_inv p : forall f, cstr p = Ok f -> ~ In 0 f /\ exists t, p = f ++ 0 :: t.
Proof.
  induction p as [|c p IH]; intros f H; cbn [cstr] in H; [discriminate|]. destruct (N.eqb_spec c 0) as [->|Hc].
  - injection H as <-. split; [intros []|]. exists p. reflexivity.
  - destruct (cstr p) as [w|]; cbn [bind] in H; [|discriminate]. injection H as <-. destruct (IH w eq_refl) as (Hn & t & ->).
    split; [intros [?|?]; [congruence|tauto]|]. exists t. reflexivity.
Qed.

Lemma min_cap_le2 st : min_cap st <= 2.
Proof. unfold min_cap. rewrite required_eq. apply (min_case_le2 (AClass (wdinfo st) 0 None None)). Qed.

(** the string given to the output buffer has no NUL *)
Lemma spelled p st f p' : cstr p = Ok f -> cap_set rus_casing p (length f) (min_cap st) = Ok p' -> ~ In 0 (firstn (length f) p').
Proof.
  intros Hf Hp. destruct (cstr_inv p f Hf) as (Hn & t & ->).
  rewrite set_respell in Hp by (first [assumption|apply rus_ok|apply min_cap_le2]). injection Hp as <-.
  rewrite <- (respell_length rus_casing (min_cap st) f), firstn_app, firstn_all, Nat.sub_diag, firstn_O, app_nil_r.
  apply respell_no_nul; [exact rus_upper|assumption].
Qed.

Section Forms.
  Variable E : encoding.
  Hypothesis Hnul : enc E 0 = [0].
  Hypothesis Hwide : forall c, enc E c <> [].
  Variables (mem : bytes) (B : nat).
  Hypothesis HB : (length mem < B)%nat.

  Definition f_large (fs : list bytes) (s : coder * Z) : Prop := big B fs (fst s) /\ snd s = Z.of_nat (length fs).
  Definition f_related (fs : list bytes) (s1 s2 : coder * Z) : Prop :=
    paired E mem B fs (fst s1) (fst s2) /\ snd s1 = Z.of_nat (length fs) /\ snd s2 = Z.of_nat (length fs).
  Definition f_sized (s : coder * Z) : Prop := length (cmem (fst s)) = length mem.
  Notation fside := (side f_large f_related f_sized (fit_in E (length mem))).
  Notation fgrows := (grows f_large).

  Lemma f_related_large fs s1 s2 : f_related fs s1 s2 -> f_large fs s1.
  Proof. intros ((H & _) & H1 & _). split; assumption. Qed.
  Lemma f_related_sized fs s1 s2 : f_related fs s1 s2 -> f_sized s2.
  Proof. intros ((_ & H & Hf) & _). unfold f_sized. rewrite H. cbn [cmem]. apply filled_in_length; assumption. Qed.

  Lemma side_here fs s1 s2 z : f_related fs s1 s2 -> (z <= 0)%Z -> fside fs (Ok (s1, z)) (Ok (s2, z)).
  Proof.
    intros Hr Hz s z1 [= <- <-]. split; [exact Hz|]. exists s2, z, []. rewrite app_nil_r. split; [reflexivity|].
    split; [intros _; eapply f_related_large, Hr|]. destruct (Z.eq_dec z 0) as [->|Hne]; [left; auto|].
    right. split; [right; lia|]. split; [eapply f_related_sized, Hr|]. intros H. contradiction.
  Qed.
  Lemma grows_here fs s z : f_large fs s -> (z <= 0)%Z -> fgrows fs (Ok (s, z)).
  Proof. intros Hl Hz s1 z1 [= <- <-]. split; [exact Hz|]. intros _. exists []. rewrite app_nil_r. exact Hl. Qed.

  Lemma put_forms_grows st n : forall p fs s, f_large fs s -> fgrows fs (put_forms_with coder_put st n p s).
  Proof.
    induction n as [|n IH]; intros p fs s Hl; cbn [put_forms_with]; [apply grows_here; [exact Hl|lia]|].
    intros s1 z1. destruct (cstr p) as [f|] eqn:Ef; cbn [bind]; [|discriminate].
    destruct (cap_set rus_casing p (length f) (min_cap st)) as [p'|] eqn:Ep; cbn [bind]; [|discriminate].
    pose proof (spelled p st f p' Ef Ep) as Hs. destruct Hl as [Hb Hn].
    destruct (put_big B fs (fst s) _ Hb Hs) as (c' & ok & -> & H1 & _). cbn [bind]. destruct ok.
    - intros Hr. assert (Hl' : f_large (fs ++ [firstn (length f) p']) (c', (snd s + 1)%Z)).
      { split; [exact (H1 eq_refl)|]. cbn [snd]. rewrite Hn, app_length. cbn [length]. lia. }
      destruct (IH _ _ _ Hl' s1 z1 Hr) as [Hz Hg]. split; [exact Hz|]. intros H0. destruct (Hg H0) as (gs & Hg'). rewrite <- app_assoc in Hg'. eexists. exact Hg'.
    - intros [= <- <-]. split; [lia|]. intros H. discriminate H.
  Qed.

  Lemma put_forms_side st n : forall p fs s1 s2, f_related fs s1 s2 ->
    fside fs (put_forms_with coder_put st n p s1) (put_forms_with (cp_put E) st n p s2).
  Proof.
    induction n as [|n IH]; intros p fs s1 s2 Hr; cbn [put_forms_with]; [apply side_here; [exact Hr|lia]|].
    intros r1 z1. destruct (cstr p) as [f|] eqn:Ef; cbn [bind]; [|discriminate].
    destruct (cap_set rus_casing p (length f) (min_cap st)) as [p'|] eqn:Ep; cbn [bind]; [|discriminate].
    pose proof (spelled p st f p' Ef Ep) as Hs. destruct Hr as (Hp & Hn1 & Hn2).
    destruct (put_pair E Hnul mem B HB Hwide fs _ _ _ Hp Hs) as (c' & ok & cE & okE & -> & -> & H1 & H2 & H3 & H4). cbn [bind]. intros Hr. destruct okE.
    - destruct (H3 eq_refl) as [-> Hp']. 
      assert (Hr' : f_related (fs ++ [firstn (length f) p']) (c', (snd s1 + 1)%Z) (cE, (snd s2 + 1)%Z)).
      { split; [exact Hp'|]. cbn [snd]. rewrite Hn1, Hn2, app_length. cbn [length]. split; lia. }
      destruct (IH _ _ _ _ Hr' r1 z1 Hr) as (Hz & r2 & z2 & gs & E2 & Hl & Ho). split; [exact Hz|]. rewrite <- app_assoc in *. do 3 eexists. split; [exact E2|]. split; [exact Hl|exact Ho].
    - specialize (H4 eq_refl). destruct ok.
      + assert (Hl' : f_large (fs ++ [firstn (length f) p']) (c', (snd s1 + 1)%Z)).
        { split; [exact (H1 eq_refl)|]. cbn [snd]. rewrite Hn1, app_length. cbn [length]. lia. }
        destruct (put_forms_grows st n _ _ _ Hl' r1 z1 Hr) as [Hz Hg]. split; [exact Hz|]. destruct (Z.eq_dec z1 0) as [->|Hne].
        * destruct (Hg eq_refl) as (gs & Hl). exists (cE, snd s2), (-1)%Z, ([firstn (length f) p'] ++ gs). split; [reflexivity|]. rewrite app_assoc.
          split; [auto|]. right. split; [auto|]. split; [exact H2|]. intros _ H. apply H4. eapply fit_in_prefix, H.
        * exists (cE, snd s2), (-1)%Z, []. split; [reflexivity|]. split; [contradiction|]. right. split; [auto|]. split; [exact H2|contradiction].
      + injection Hr as <- <-. split; [lia|]. exists (cE, snd s2), (-1)%Z, []. split; [reflexivity|]. split; [discriminate|].
        right. split; [auto|]. split; [exact H2|discriminate].
  Qed.

  Lemma form_build_grows A sz id fs s lid st fr suf gr : f_large fs s -> fgrows fs (form_build_with coder_put A sz id s lid st fr suf gr).
  Proof.
    intros Hl. unfold form_build_with. destruct (_ && _); [apply grows_here; [exact Hl|lia]|]. destruct (negb _); [apply grows_here; [exact Hl|lia]|].
    match goal with |- fgrows fs (bind ?m _) => destruct m as [[c n]|] end; cbn [bind]; [|intros ? ? H; discriminate H].
    destruct (Z.leb_spec n 0); [apply grows_here; assumption|apply put_forms_grows, Hl].
  Qed.
  Lemma form_build_side A sz id fs s1 s2 lid st fr suf gr : f_related fs s1 s2 ->
    fside fs (form_build_with coder_put A sz id s1 lid st fr suf gr) (form_build_with (cp_put E) A sz id s2 lid st fr suf gr).
  Proof.
    intros Hl. unfold form_build_with. destruct (_ && _); [apply side_here; [exact Hl|lia]|]. destruct (negb _); [apply side_here; [exact Hl|lia]|].
    match goal with |- fside fs (bind ?m _) _ => destruct m as [[c n]|] end; cbn [bind]; [|intros ? ? H; discriminate H].
    destruct (Z.leb_spec n 0); [apply side_here; assumption|apply put_forms_side, Hl].
  Qed.

  (** what follows for the second run when the first one has returned [fs] *)
  Lemma joined_unique : forall fs gs r1 r2, Forall (fun f => ~ In 0 f) fs -> Forall (fun f => ~ In 0 f) gs -> length fs = length gs ->
    joined fs ++ r1 = joined gs ++ r2 -> fs = gs.
  Proof.
    intros fs gs r1 r2 Hf Hg Hl He. pose proof (take_strings_ok fs r1 Hf) as E1. pose proof (take_strings_ok gs r2 Hg) as E2.
    rewrite He, Hl, E2 in E1. injection E1 as ->. reflexivity.
  Qed.

  Definition found_result (fs : list bytes) (limits : Prop) (r2 : res (coder * Z * Z)) : Prop :=
    (limits /\ fit_in E (length mem) fs -> exists c, r2 = Ok ((c, Z.of_nat (length fs)), 0%Z) /\ cmem c = filled_in E fs mem) /\
    (~ (limits /\ fit_in E (length mem) fs) -> exists c z, r2 = Ok ((c, z), (-1)%Z) /\ length (cmem c) = length mem).

  Lemma second_run fs (limits : Prop) r1 r2 : Forall (fun f => ~ In 0 f) fs -> fside [] r1 r2 ->
    (limits /\ fit B fs -> exists rest pos, r1 = Ok ((Coder (joined fs ++ rest) pos, Z.of_nat (length fs)), 0%Z)) ->
    (~ (limits /\ fit B fs) -> exists s, r1 = Ok (s, (-1)%Z)) -> limits \/ ~ limits -> found_result fs limits r2.
  Proof.
    intros Hn Hs H1 H2 Hdec.
    assert (Hfit : fit_in E (length mem) fs -> fit B fs).
    { intros [->|H]; [left; reflexivity|]. right. pose proof (total_wide E Hwide fs). lia. }
    assert (Hcase : limits /\ fit B fs \/ ~ (limits /\ fit B fs)).
    { destruct Hdec as [Hd|Hd]; [|right; tauto]. destruct (fit_dec B fs); [left; tauto|right; tauto]. }
    destruct Hcase as [Hyes|Hno].
    - destruct (H1 Hyes) as (rest & pos & Er). destruct (Hs _ _ Er) as (_ & s2 & z2 & gs & E2 & Hl & Ho). cbn [app] in *.
      destruct (Hl eq_refl) as [(Hg & rest' & Ec & _) Hc]. cbn [fst snd] in *. injection Ec as Ej _.
      assert (Hlen : length fs = length gs) by lia. assert (gs = fs) as -> by (symmetry; eapply joined_unique; eauto).
      split.
      + intros [_ Hf]. destruct Ho as [(_ & -> & Hr)|(_ & _ & Hx)]; [|exfalso; exact (Hx eq_refl Hf)].
        destruct Hr as ((_ & Ec & _) & _ & Hz). destruct s2 as [c z]. cbn [fst snd] in *. exists c. split; [rewrite E2, Hz; reflexivity|]. rewrite Ec. reflexivity.
      + intros Hx. destruct Ho as [(_ & -> & Hr)|(Hb & Hsz & _)].
        * exfalso. apply Hx. split; [tauto|]. apply Hr.
        * destruct s2 as [c z]. exists c, z. split; [|exact Hsz]. rewrite E2. do 2 f_equal. destruct Hb as [->|[_ ?]]; [reflexivity|lia].
    - destruct (H2 Hno) as (s & Er). destruct (Hs _ _ Er) as (_ & s2 & z2 & gs & E2 & _ & Ho). split; [intros [? ?]; tauto|].
      intros _. destruct Ho as [(? & _)|(Hb & Hsz & _)]; [discriminate|]. destruct s2 as [c z]. exists c, z. split; [|exact Hsz].
      rewrite E2. do 2 f_equal. destruct Hb as [->|[-> _]]; reflexivity.
  Qed.
End Forms.
