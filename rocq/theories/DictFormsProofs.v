(** * DictFormsProofs: the notions of [DictFormsSpec] are those of the compiled lexemes. *)
From Coq Require Import String.
From Verif Require Import Base Serial SerialProofs WordTree TreeSpec Stems StemSpec CharTables CapScheme CapSpec GramMap RusRuntime LevelSpec RusSpec RusProofs RusBuild RusBuildSpec RusReadings RusLemmaSpec Wild WildSpec Compile CompileSpec CompileFormsSpec CompileProofs CompileProofs2 CompileProofs5
  Resolve ResolveSpec ResolveProofs ResolveProofs2 StripSpec StripProofs StripProofs2 StripProofs3 Api EngCompileSpec Utf8 RusText RusTextSpec RusTextProofs RusTextProofs2 RusTextProofs3 RusTextProofs4 RusTextProofs5 RusTextProofs6 PropRusTextLemmas
  Tfc TfcSpec TfcProofs2 PropTfcLemmas Makeich MakeichSpec PropMakeichLemmas DictTextSpec DictTextProofs DictTextProofs2 DictTextProofs3 PropDictTextLemmas DictFormsSpec.
Local Open Scope N_scope.
Local Open Scope list_scope.
Notation length := List.length.
Notation lookup := RusText.lookup.
Notation lexeme := Compile.lexeme.
Notation tells := TfcSpec.tells.

Lemma first_with (mx : list (N * bytes)) k mask s : In (mask, s) mx -> N.testbit mask k = true ->
  exists before mask' s' behind, mx = before ++ (mask', s') :: behind /\ N.testbit mask' k = true /\ forall m a, In (m, a) before -> N.testbit m k = false.
Proof.
  induction mx as [|[m a] mx IH]; [intros []|]. intros Hin Hb. destruct (N.testbit m k) eqn:E.
  - exists [], m, a, mx. split; [reflexivity|]. split; [exact E|]. intros ? ? [].
  - destruct Hin as [K|K]; [injection K as -> ->; congruence|]. destruct (IH K Hb) as (before & m' & a' & behind & -> & K1 & K2). exists ((m, a) :: before), m', a', behind. split; [reflexivity|]. split; [exact K1|].
    intros m0 a0 [Q|Q]; [injection Q as <- <-; exact E|exact (K2 _ _ Q)].
Qed.

Section Same.
  Variables (ds : list definition) (b mb : bytes) (x : rarticle) (l : lexeme) (tw : tword).
  Hypothesis HS : same_word ds b mb x l tw.

  Lemma asked_same fx part : asked_part b mb (l_class l) fx part <-> word_asked ds tw fx part.
  Proof using HS.
    destruct HS as [S1 S2 S3 S4 S5 S6 S7 S8 S9 S10 S11]. split.
    - intros H. inversion H as [K|s f K Hm He Hf E|before mask alt behind s f K Hm Hx level Hbit Hb He Hf E].
      + apply wa_fixed. rewrite S7 in K. destruct (tw_table tw); [discriminate|reflexivity].
      + subst. rewrite S7 in K. destruct (tw_table tw) as [name|] eqn:En; [|discriminate]. eapply wa_ending; [exact En|apply S4, Hm|apply (S9 name _ _ _ eq_refl), He|exact Hf].
      + subst. rewrite S7 in K. destruct (tw_table tw) as [name|] eqn:En; [|discriminate]. destruct (tw_mix tw) as [y|] eqn:Ey; [|exfalso; apply Hm, S4; reflexivity].
        cbn [same_mix] in S10. destruct S10 as [_ (mx & Hx' & Ht & _)]. pose proof (mix_unique _ _ _ _ Hx' Hx) as Emx. pose proof (level_below (m_wdinfo (l_class l)) (gramm fx) (flags fx)) as Hlv.
        assert (Ea : alt = level_string (ml_strings y) (N.to_nat (alternation_level (m_wdinfo (l_class l)) (gramm fx) (flags fx) - 1))).
        { apply Ht; [lia|]. exists mask. rewrite N2Nat.id. split; [|exact Hbit]. rewrite Emx. apply in_or_app. right. left. reflexivity. }
        rewrite Ea, S2. eapply wa_mixed; [exact En|exact Ey|apply (S9 name _ _ _ eq_refl), He|exact Hf].
    - intros H. inversion H as [K|name s f En Ey He Hf E|name y s f En Ey He Hf E].
      + apply asked_never. rewrite S7, K. reflexivity.
      + subst. eapply asked_ending; [rewrite S7, En; reflexivity|apply S4, Ey|apply (S9 name), He; exact En|exact Hf].
      + subst. pose proof S10 as S10'. rewrite Ey in S10'. cbn [same_mix] in S10'. destruct S10' as [Hr (mx & Hx & Ht & _)]. pose proof (level_below (tw_class tw) (gramm fx) (flags fx)) as Hlv.
        set (k := N.to_nat (alternation_level (tw_class tw) (gramm fx) (flags fx) - 1)) in *. destruct (proj2 (Ht k (level_string (ml_strings y) k) ltac:(unfold k; lia)) eq_refl) as (mask & Hin & Hbit).
        destruct (first_with _ _ _ _ Hin Hbit) as (before & mask' & s' & behind & Emx & Hb' & Hbe). assert (Es : s' = level_string (ml_strings y) k).
        { apply Ht; [unfold k; lia|]. exists mask'. split; [rewrite Emx; apply in_or_app; right; left; reflexivity|exact Hb']. }
        rewrite <- Es. rewrite Emx in Hx. unfold k in Hb', Hbe. rewrite N2Nat.id, <- S2 in Hb', Hbe.
        eapply asked_mixed; [rewrite S7, En; reflexivity|lia|exact Hx|exact Hb'|exact Hbe|apply (S9 name), He; exact En|exact Hf].
  Qed.
  Lemma number_same id : has_number (l_class l) id <-> word_number tw id.
  Proof using HS.
    destruct HS as [S1 S2 S3 S4 S5 S6 S7 S8 S9 S10 S11]. unfold has_number, word_number. rewrite <- S8, <- S2. destruct (N.eqb_spec (m_tfoffs (l_class l)) 0) as [E|E]; [split; [intros ->; split; [auto|intros K; contradiction]|intros [K _]; apply K, E]|].
    split; [intros K; split; [intros Q; contradiction|auto]|intros [_ K]; apply K, E].
  Qed.
  Lemma found_same id : found_number (l_class l) id <-> word_found_number tw id.
  Proof using HS. destruct HS as [S1 S2 S3 S4 S5 S6 S7 S8 S9 S10 S11]. unfold found_number, word_found_number. rewrite S7, S2. destruct (tw_table tw); reflexivity. Qed.
  Lemma spelled_same part : spelled l part = word_spelled x tw part.
  Proof using HS. destruct HS as [S1 S2 S3 S4 S5 S6 S7 S8 S9 S10 S11]. unfold spelled, word_spelled. rewrite S1, S2, S3. reflexivity. Qed.
  Lemma gramm_same dwsets gf : class_gramm (l_class l) dwsets gf = word_gramm tw dwsets gf.
  Proof using HS. unfold class_gramm, word_gramm. rewrite (sw_class _ _ _ _ _ _ HS). reflexivity. Qed.
  Lemma dict_same dwsets gf part : dict_part b mb (l_class l) dwsets gf part <-> word_dict ds tw dwsets gf part.
  Proof using HS.
    unfold dict_part, word_dict. cbv zeta. rewrite gramm_same, (sw_class _ _ _ _ _ _ HS), !asked_same. apply or_iff_compat_l, and_iff_compat_l, and_iff_compat_r. split; intros H p K; apply (H p), asked_same, K.
  Qed.
  Lemma lemma_same dwsets gf s : source_lemma b mb l dwsets gf s <-> word_lemma ds x tw dwsets gf s.
  Proof using HS.
    unfold source_lemma, word_lemma. pose proof (sw_stem _ _ _ _ _ _ HS) as S1. pose proof (sw_post _ _ _ _ _ _ HS) as S3. split; intros (part & H1 & H2 & H3); exists part.
    - split; [apply dict_same, H1|]. split; [|rewrite H3; apply spelled_same]. intros p K. rewrite <- S1, <- S3. apply H2, dict_same, K.
    - split; [apply dict_same, H1|]. split; [|rewrite H3; symmetry; apply spelled_same]. intros p K. rewrite S1, S3. apply H2, dict_same, K.
  Qed.
  Lemma shown_same gf : source_shown (l_class l) gf = word_shown tw gf.
  Proof using HS. unfold source_shown, word_shown. rewrite (sw_inflected _ _ _ _ _ _ HS), (sw_class _ _ _ _ _ _ HS). destruct (tw_table tw); reflexivity. Qed.
  Lemma form_id_same g f : source_form_id (l_class l) g f = word_form_id tw g f.
  Proof using HS. unfold source_form_id, word_form_id. rewrite (sw_inflected _ _ _ _ _ _ HS), (sw_class _ _ _ _ _ _ HS). destruct (tw_table tw); reflexivity. Qed.

  Lemma strings_same (P : bytes -> Prop) mx : m_mtoffs (l_class l) <> 0 -> mix_at mb (m_mtoffs (l_class l)) mx -> (forall y, tw_mix tw = Some y -> Forall P (ml_strings y)) -> Forall (fun ma => P (snd ma)) mx.
  Proof using HS.
    intros Hne Hx HP. pose proof (sw_same_mix _ _ _ _ _ _ HS) as S. destruct (tw_mix tw) as [y|]; [|contradiction]. cbn [same_mix] in S. destruct S as [_ (mx' & Hx' & _ & Hs)]. rewrite (mix_unique _ _ _ _ Hx Hx').
    specialize (HP y eq_refl). rewrite Forall_forall in *. intros ma K. apply HP, Hs, in_map, K.
  Qed.
  Lemma buildable_same : word_buildable ds x tw -> lexeme_buildable b mb l.
  Proof using HS.
    intros [B1 B2 B3 B4 B5]. pose proof HS as [S1 S2 S3 S4 S5 S6 S7 S8 S9 S10 S11]. constructor.
    - rewrite S1. exact B1.
    - rewrite S3. exact B2.
    - intros Hi s g f He. rewrite S7 in Hi. destruct (tw_table tw) as [name|] eqn:En; [|discriminate]. apply (S9 name _ _ _ eq_refl) in He. apply (B3 name s g f eq_refl He).
    - intros mx Hne Hx. apply (strings_same (fun s => ~ In 0 s) mx Hne Hx B4).
    - rewrite S6. exact B5.
  Qed.
  Lemma searchable_same : word_searchable ds x tw -> lexeme_searchable b mb l.
  Proof using HS.
    intros [B1 B2 B3 B4]. pose proof HS as [S1 S2 S3 S4 S5 S6 S7 S8 S9 S10 S11]. constructor.
    - rewrite S1. exact B1.
    - intros Hi. rewrite S7 in Hi. destruct (tw_table tw) as [name|] eqn:En; [|discriminate]. destruct (B2 name eq_refl) as (h & a & H1 & H2 & H3). exists h, a. split; [|split].
      + intros s g f He. apply (S9 name _ _ _ eq_refl) in He. apply (H1 _ _ _ He).
      + intros mx Hne Hx. apply (strings_same (fun s => (length s <= a)%nat) mx Hne Hx H2).
      + rewrite S1, S3. exact H3.
    - intros Hi. rewrite S7 in Hi. rewrite S3. apply B3. destruct (tw_table tw); [discriminate|reflexivity].
    - rewrite S6. exact B4.
  Qed.
  Lemma reached_same part : bounds_cover b mb l -> postfix_reached ds x tw part -> part <> [] \/ match l_post l with [] => True | c :: _ => c <= l_max l end.
  Proof using HS.
    intros Hc [Q|Q]; [left; exact Q|right]. rewrite (sw_post _ _ _ _ _ _ HS). destruct (post_of (r_notes x)) as [|c r]; [exact I|]. destruct Q as (c' & s & g' & f' & Q1 & Q2). apply (sw_parts _ _ _ _ _ _ HS) in Q1.
    pose proof (Hc c' s g' f' Q1). lia.
  Qed.
  Lemma between_same part : bounds_cover b mb l -> postfix_between ds x tw part -> part <> [] \/ match l_post l with [] => True | c :: _ => l_min l <= c <= l_max l end.
  Proof using HS.
    intros Hc [Q|Q]; [left; exact Q|right]. rewrite (sw_post _ _ _ _ _ _ HS). destruct (post_of (r_notes x)) as [|c r]; [exact I|]. destruct Q as ((c1 & s1 & g1 & f1 & Q1 & Q2) & (c2 & s2 & g2 & f2 & Q3 & Q4)).
    apply (sw_parts _ _ _ _ _ _ HS) in Q1, Q3. pose proof (Hc _ _ _ _ Q1). pose proof (Hc _ _ _ _ Q3). lia.
  Qed.
  Lemma recognisable_same : bounds_cover b mb l -> word_recognisable ds x tw -> lexeme_recognisable b mb l.
  Proof using HS.
    intros Hc [B1 B2 B3 B4]. pose proof HS as [S1 S2 S3 S4 S5 S6 S7 S8 S9 S10 S11]. constructor.
    - exact Hc.
    - rewrite S2. exact B1.
    - rewrite S2, S7. intros Hin Hi s g f He. destruct (tw_table tw) as [name|] eqn:En; [|discriminate]. apply (S9 name _ _ _ eq_refl) in He. apply (B2 Hin name s g f eq_refl He).
    - intros fx Ha. apply asked_same in Ha. destruct (reached_same [] Hc (B3 fx Ha)) as [K|K]; [exfalso; apply K; reflexivity|exact K].
    - intros fx part Ha. apply asked_same in Ha. rewrite S1, S3. apply (B4 fx part Ha).
  Qed.
End Same.
