(** * StripProofs: the ending of the normal form is found.  PROOFS. *)
From Verif Require Import Base Serial SerialProofs WordTree TreeSpec Stems StemSpec GramMap RusRuntime LevelSpec LevelProofs RusSpec RusProofs Compile CompileSpec CompileProofs CompileProofs2
  Resolve ResolveSpec ResolveProofs ResolveProofs2 StripSpec.
Local Open Scope N_scope.

Definition outcome (l : list described) (s : bytes) (done : bool) (stem : bytes) : Prop :=
  if done then exists d, taken_off l s stem d else stem = s /\ none_there l s.

Lemma outcome_none l l' s done stem : none_there l s -> outcome l' s done stem -> outcome (l ++ l') s done stem.
Proof.
  intros Hn. unfold outcome, none_there in *. destruct done.
  - intros (d & before & behind & -> & E & Hb). exists d, (l ++ before), behind. split; [rewrite <- app_assoc; reflexivity|]. split; [exact E|]. apply Forall_app. auto.
  - intros [E H]. split; [exact E|]. apply Forall_app. auto.
Qed.
Lemma outcome_taken l l' s stem d : taken_off l s stem d -> outcome (l ++ l') s true stem.
Proof. intros (before & behind & -> & E & Hb). exists d, before, (behind ++ l'). split; [rewrite <- app_assoc; reflexivity|]. auto. Qed.

Lemma tail_true s t : (length t < 16)%nat -> has_tail s (N.of_nat (length t)) t = true -> exists a, s = a ++ t /\ cut s (N.of_nat (length t)) = Ok a.
Proof.
  intros H E. destruct (has_tail_app s (N.of_nat (length t)) t) as (a & E1 & E2); [lia|lia|exact E|]. rewrite Nnat.Nat2N.id, firstn_all in E1. eauto.
Qed.
Lemma tail_false s t : (length t < 16)%nat -> has_tail s (N.of_nat (length t)) t = false -> ~ ends_with s t.
Proof.
  intros H E (a & ->). unfold has_tail in E. assert (L : N.land (N.of_nat (length t)) 15 = N.of_nat (length t)) by (change 15 with (N.ones 4); rewrite N.land_ones; apply N.mod_small; change (2 ^ 4) with 16; lia).
  rewrite L, Nnat.Nat2N.id, app_length in E. destruct (Nat.leb_spec (length t) (length a + length t)); [|lia]. cbn [andb] in E.
  replace (length a + length t - length t)%nat with (length a) in E by lia. rewrite skipn_app, skipn_all, Nat.sub_diag, firstn_all in E. cbn [skipn app] in E.
  destruct (list_eq_dec N.eq_dec t t); [discriminate|congruence].
Qed.

Lemma strip_table depth levels tables s g off cl items : table_at tables off items -> (length items < 128)%nat -> exists rest,
  strip_str (S depth) levels tables s g off cl = strip_items depth levels tables g off cl (length items) (flat_map item_ser items ++ rest) s.
Proof.
  intros (H1 & H2 & pre & rest & Et & Ep) Hl. exists rest. rewrite strip_str_S.
  rewrite (advance_pre tables pre (N.of_nat (length items) :: flat_map item_ser items ++ rest)); [|exact Et|rewrite N.shiftl_mul_pow2; lia].
  cbn [bind rd]. rewrite land127_id by lia. rewrite Nnat.Nat2N.id. reflexivity.
Qed.

(** ** Nouns and the like *)
Section Search.
  Variables (tables : bytes) (top : N) (s : bytes) (verb : bool) (nf : N).
  Hypothesis tidy : tidy_links tables top.
  Hypothesis whole : continued_whole tables verb nf top s.
  Hypothesis Hnf : nf < 2 ^ 16.
  Hypothesis Hverb : verb = true -> nf = 0x8001.
  Let levels := if verb then verb_levels else noun_levels.

  Lemma item_info items it off : table_at tables off items -> In it items -> fi_info it < 2 ^ 16.
  Proof using. intros (H & _) Hin. rewrite Forall_forall in H. apply (H it Hin). Qed.

  (** the element is looked at on level 0 just when it is one of the normal form *)
  Lemma suits_level0 it : fi_info it < 2 ^ 16 ->
    (if negb (N.land nf (nth 0 levels 0) =? N.land (fi_info it) (nth 0 levels 0)) then true else (N.land nf (nth 0 levels 0) =? 0) && negb (nth 0 levels 0 =? 0xffff)) = false <->
    normal_element verb nf it.
  Proof using Hnf Hverb.
    clear tidy whole. intros Hi. unfold levels, normal_element. destruct verb.
    - rewrite (Hverb eq_refl). cbn [nth verb_levels]. change (N.land 32769 127) with 1. change (1 =? 0) with false. cbn [andb]. change 127 with (N.ones 7). rewrite N.land_ones. change (2 ^ 7) with 128.
      destruct (N.eqb_spec 1 (fi_info it mod 128)); cbn [negb]; split; intros; congruence.
    - cbn [nth noun_levels]. rewrite !land_ffff by assumption. change (65535 =? 65535) with true. cbn [negb]. rewrite andb_false_r. destruct (N.eqb_spec nf (fi_info it)); cbn [negb]; split; intros; congruence.
  Qed.

  (** level 2: reflexive elements of verbs *)
  Lemma strip_last depth off items : linked tables top off -> table_at tables off items -> forall done stem,
    strip_str depth verb_levels tables s 0x8001 off 2 = Ok (done, stem) -> outcome (map describe (filter reflexive_element items)) s done stem.
  Proof using tidy.
    clear whole Hnf Hverb. intros Hl T done stem E. destruct depth as [|depth]; [discriminate|]. destruct (tidy _ _ Hl T) as [Hn Hit].
    destruct (strip_table depth verb_levels tables s 0x8001 off 2 items T Hn) as (rest & Es). rewrite Es in E. clear Es.
    destruct T as (T1 & _). clear Hn Hl. revert T1 Hit E. generalize items as l. induction l as [|it l IH]; intros T1 Hit E.
    - cbn [length flat_map app] in E. rewrite strip_items_nil in E. cbn [Nat.ltb Nat.leb andb] in E. injection E as <- <-. split; [reflexivity|constructor].
    - inversion T1 as [|? ? K1 K2]; subst. rewrite strip_items_cons in E by exact K1. cbv zeta in E. cbn [nth verb_levels] in E. change (N.land 32769 32768) with 32768 in E. change (32768 =? 0) with false in E. cbn [andb] in E.
      assert (Hb : (32768 =? N.land (fi_info it) 32768) = reflexive_element it).
      { unfold reflexive_element. change 32768 with (2 ^ 15). destruct (N.testbit (fi_info it) 15) eqn:Et.
        - apply N.eqb_eq. apply N.bits_inj. intros i. rewrite N.land_spec, N.pow2_bits_eqb. destruct (N.eqb_spec 15 i) as [<-|]; [rewrite Et; reflexivity|rewrite andb_false_r; reflexivity].
        - apply N.eqb_neq. intros K. assert (K' : N.testbit (N.land (fi_info it) (2 ^ 15)) 15 = true) by (rewrite <- K; reflexivity). rewrite N.land_spec, Et in K'. discriminate. }
      rewrite Hb in E. cbn [filter]. destruct (Hit it (or_introl eq_refl)) as [Hlen _]. assert (Hit' : forall it, In it l -> (length (fi_text it) < 16)%nat /\ (N.testbit (fi_flags it) 7 = true -> fi_next it <> 0)) by (intros; apply Hit; right; assumption).
      destruct (reflexive_element it) eqn:Er; cbn [negb] in E; [|apply IH; assumption]. change ((2 <? 2)%nat && bit 7 (fi_flags it)) with false in E. cbn beta iota in E.
      destruct (has_tail s (N.of_nat (length (fi_text it))) (fi_text it)) eqn:Eh.
      + destruct (tail_true _ _ Hlen Eh) as (a & Ea & Ec). rewrite Ec in E. cbn [bind] in E. injection E as <- <-. exists (describe it), [], (map describe (filter reflexive_element l)). split; [reflexivity|]. split; [exact Ea|constructor].
      + cbn [map]. apply (outcome_none [describe it]); [|apply IH; assumption]. constructor; [|constructor]. cbn [describe fst]. apply tail_false; assumption.
  Qed.

  (** level 1: nothing *)
  Lemma strip_middle depth off items : table_at tables off items -> (length items < 128)%nat -> forall done stem,
    strip_str depth verb_levels tables s 0x8001 off 1 = Ok (done, stem) -> exists depth', strip_str depth' verb_levels tables s 0x8001 off 2 = Ok (done, stem).
  Proof using.
    clear tidy whole Hnf Hverb. intros T Hn done stem E. destruct depth as [|depth]; [discriminate|]. destruct (strip_table depth verb_levels tables s 0x8001 off 1 items T Hn) as (rest & Es). rewrite Es in E. clear Es.
    destruct T as (T1 & _). clear Hn. revert T1 E. generalize items as l. induction l as [|it l IH]; intros T1 E.
    - exists depth. exact E.
    - inversion T1 as [|? ? K1 K2]; subst. rewrite strip_items_cons in E by exact K1. cbv zeta in E. cbn [nth verb_levels] in E. change (N.land 32769 32640) with 0 in E. change ((0 =? 0) && negb (32640 =? 65535)) with true in E.
      destruct (negb (0 =? N.land (fi_info it) 32640)); apply IH; assumption.
  Qed.

  Lemma after_text it d : fst (fst (after it d)) = fi_text it ++ fst (fst d).
  Proof using. destruct d as [[t g] f]. reflexivity. Qed.

  Lemma strip_eq depth : forall off ls done stem, linked tables top off -> normal_endings tables verb nf off ls ->
    strip_str depth levels tables s nf off 0 = Ok (done, stem) -> outcome ls s done stem.
  Proof using tidy whole Hnf Hverb.
    induction depth as [|depth IH]; intros off ls done stem Hl Hne E; [discriminate|]. inversion Hne as [off' items lss T Hlss]; subst off' ls. destruct (tidy _ _ Hl T) as [Hn Hit].
    destruct (strip_table depth levels tables s nf off 0 items T Hn) as (rest & Es). rewrite Es in E. clear Es.
    assert (G : forall l, incl l items -> forall lss, Forall2 (normal_of tables verb nf) l lss ->
      strip_items depth levels tables nf off 0 (length l) (flat_map item_ser l ++ rest) s = Ok (done, stem) ->
      outcome (concat lss ++ if verb then map describe (filter reflexive_element items) else []) s done stem).
    { induction l as [|it l IHl]; intros Hi lss0 HF E0.
      - inversion HF; subst. cbn [concat app]. cbn [length flat_map app] in E0. rewrite strip_items_nil in E0. unfold levels in E0. destruct verb.
        + change ((0 <? 2)%nat && negb (up_levels verb_levels 0 =? 0)) with true in E0. cbn beta iota in E0. rewrite (Hverb eq_refl) in E0. destruct (strip_middle depth off items T Hn done stem E0) as (d' & E1).
          exact (strip_last d' off items Hl T done stem E1).
        + change ((0 <? 2)%nat && negb (up_levels noun_levels 0 =? 0)) with false in E0. cbn beta iota in E0. injection E0 as <- <-. split; [reflexivity|constructor].
      - inversion HF as [|it' l1 l' ls' Hit1 HF']; subst. assert (Hin : In it items) by (apply Hi; left; reflexivity). assert (Hi' : incl l items) by (intros y Hy; apply Hi; right; exact Hy).
        destruct (Hit it Hin) as [Hlen Hnext]. assert (Hok : item_ok it) by (destruct T as (T1 & _); rewrite Forall_forall in T1; apply T1, Hin).
        rewrite strip_items_cons in E0 by exact Hok. cbv zeta in E0. cbn [concat]. rewrite <- app_assoc. pose proof (suits_level0 it (item_info items it off T Hin)) as Hsuit.
        destruct (negb (N.land nf (nth 0 levels 0) =? N.land (fi_info it) (nth 0 levels 0))) eqn:Es1.
        { assert (Hns : ~ normal_element verb nf it) by (intros K; apply Hsuit in K; discriminate). inversion Hit1; subst; try contradiction. cbn [app]. apply IHl; assumption. }
        destruct ((N.land nf (nth 0 levels 0) =? 0) && negb (nth 0 levels 0 =? 65535)) eqn:Es2.
        { assert (Hns : ~ normal_element verb nf it) by (intros K; apply Hsuit in K; discriminate). inversion Hit1; subst; try contradiction. cbn [app]. apply IHl; assumption. }
        assert (Hs : normal_element verb nf it) by (apply Hsuit; reflexivity). cbn [Nat.ltb Nat.leb andb] in E0. unfold bit in E0.
        inversion Hit1 as [it0 Hno|it0 _ Hb|it0 l0 _ Hb Hne0]; subst; [contradiction| |].
        + rewrite Hb in E0. destruct (has_tail s (N.of_nat (length (fi_text it))) (fi_text it)) eqn:Eh.
          * destruct (tail_true _ _ Hlen Eh) as (a & Ea & Ec). rewrite Ec in E0. cbn [bind] in E0. injection E0 as <- <-.
            apply (outcome_taken [describe it] _ _ _ (describe it)). exists [], []. split; [reflexivity|]. split; [exact Ea|constructor].
          * apply outcome_none; [|apply IHl; assumption]. constructor; [|constructor]. cbn [describe fst]. apply tail_false; assumption.
        + rewrite Hb in E0. destruct (strip_str depth levels tables s nf (fi_next it) 0) as [[done1 s1]|] eqn:E1; [|discriminate]. cbn [bind] in E0.
          assert (Hlk : linked tables top (fi_next it)).
          { assert (Hgo : forall a b, linked tables a b -> b = off -> linked tables a (fi_next it)).
            { intros a b Hab. induction Hab as [a|a its i b Ta Hia Hna Hab IHab]; intros Eb; [subst a|].
              - eapply linked_next; [exact T|exact Hin|apply Hnext, Hb|apply linked_self].
              - eapply linked_next; [exact Ta|exact Hia|exact Hna|apply IHab, Eb]. }
            apply (Hgo top off Hl eq_refl). }
          pose proof (IH (fi_next it) l0 done1 s1 Hlk Hne0 E1) as Ho. destruct done1; cbn [outcome] in Ho.
          * destruct Ho as (d & before & behind & El0 & Es0 & Hbef).
            assert (Hend : ends_with s (fi_text it ++ fst (fst d))).
            { eapply whole; [exact Hl|exact T|exact Hin|exact Hs|exact Hb|exact Hne0|rewrite El0; apply in_or_app; right; left; reflexivity|exists s1; exact Es0]. }
            destruct Hend as (a & Ea). assert (Es1' : s1 = a ++ fi_text it) by (rewrite Es0, app_assoc in Ea; apply app_inv_tail in Ea; exact Ea).
            assert (Eh : has_tail s1 (N.of_nat (length (fi_text it))) (fi_text it) = true).
            { destruct (has_tail s1 (N.of_nat (length (fi_text it))) (fi_text it)) eqn:Eh; [reflexivity|]. exfalso. apply (tail_false _ _ Hlen Eh). exists a. exact Es1'. }
            rewrite Eh in E0. cbn [andb] in E0. destruct (tail_true _ _ Hlen Eh) as (a' & Ea' & Ec). rewrite Ec in E0. cbn [bind] in E0. injection E0 as <- <-.
            assert (a' = a) by (rewrite Es1' in Ea'; apply app_inv_tail in Ea'; congruence). subst a'.
            apply (outcome_taken _ _ _ _ (after it d)). exists (map (after it) before), (map (after it) behind). split; [rewrite El0, map_app; reflexivity|]. split; [rewrite after_text; exact Ea|].
            apply Forall_forall. intros d' Hd'. apply in_map_iff in Hd' as (d0 & <- & Hd0). rewrite after_text. rewrite Forall_forall in Hbef. intros (b & Eb). apply (Hbef d0 Hd0). exists (b ++ fi_text it). rewrite <- app_assoc. exact Eb.
          * destruct Ho as [-> Hno]. cbn [andb] in E0. apply outcome_none; [|apply IHl; assumption].
            apply Forall_forall. intros d' Hd'. apply in_map_iff in Hd' as (d0 & <- & Hd0). rewrite after_text. unfold none_there in Hno. rewrite Forall_forall in Hno. intros (b & Eb). apply (Hno d0 Hd0). exists (b ++ fi_text it). rewrite <- app_assoc. exact Eb. }
    apply (G items); [intros y Hy; exact Hy|exact Hlss|exact E].
  Qed.
End Search.
