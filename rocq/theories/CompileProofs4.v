(** * CompileProofs4: the compiled arrays hold the lexicon of the sources.  PROOFS. *)
From Verif Require Import Base Serial SerialProofs WordTree TreeSpec WordTreeProofs FlatScan LidsProofs TreeWalk Stems StemSpec StemsProofs DictProofs CharTables CapScheme CapSpec GramMap RusRuntime LevelSpec LevelProofs
  RusSpec RusProofs Compile CompileSpec CompileProofs CompileProofs2 CompileProofs3.
Local Open Scope N_scope.

(** ** A function from finitely many choices *)
Lemma finite_choice {T} (P : N -> T -> Prop) (l : list N) :
  (forall o, In o l -> exists x, P o x) -> exists f : N -> option T, forall o, In o l -> exists x, f o = Some x /\ P o x.
Proof.
  induction l as [|o l IH]; intros H; [exists (fun _ => None); intros o []|].
  destruct IH as (f & Hf); [intros o' Ho; apply H; right; exact Ho|]. destruct (H o (or_introl eq_refl)) as (x & Hx).
  exists (fun o' => if o' =? o then Some x else f o'). intros o' Ho. destruct (N.eqb_spec o' o) as [->|Hne]; [exists x; auto|].
  destruct Ho as [->|Ho]; [contradiction|]. apply Hf, Ho.
Qed.

(** ** What only depends on the low 13 bits *)
Lemma level_mod13 wd g f : alternation_level (wd mod 2 ^ 13) g f = alternation_level wd g f.
Proof.
  unfold alternation_level. rewrite <- (mod13_type wd (wd mod 2 ^ 13) eq_refl).
  assert (E : (wd mod 2 ^ 13 / 2048) mod 4 = (wd / 2048) mod 4).
  { change (2 ^ 13) with (2048 * 4). rewrite N.mod_mul_r by discriminate. rewrite (N.mul_comm 2048), N.div_add by discriminate.
    rewrite (N.div_small (wd mod 2048)) by (apply N.mod_lt; discriminate). rewrite N.add_0_l. apply N.mod_mod. discriminate. }
  rewrite E. reflexivity.
Qed.
Lemma required_mod13 wd : required_case (wd mod 2 ^ 13) = required_case wd.
Proof. unfold required_case. rewrite <- (mod13_type wd (wd mod 2 ^ 13) eq_refl). reflexivity. Qed.
Lemma plural_bit g : plural_of g = N.testbit g 11.
Proof. unfold plural_of. rewrite N.testbit_eqb, odd_mod2. reflexivity. Qed.

Section Holds.
  Variable depth : nat.
  Variables ftable mtable alphabet : bytes.
  Hypothesis ft_bytes : is_bytes ftable.
  Hypothesis al_ok : alphabet_ok alphabet.

  Lemma flag_inflected x : lexeme_ok ftable mtable alphabet x ->
    negb (m_tfoffs (l_class x) =? 0) && negb (m_wdinfo (l_class x) =? 51) = inflected (l_class x).
  Proof using Type.
    intros H. unfold inflected. f_equal. f_equal. destruct (N.eqb_spec (m_wdinfo (l_class x)) 51) as [E|E]; destruct (N.eqb_spec (m_wdinfo (l_class x) mod 64) 51) as [E'|E']; try reflexivity.
    - rewrite E in E'. contradiction E'. reflexivity.
    - destruct (lo_prep _ _ _ _ H E') as [K _]. contradiction.
  Qed.

  Section Final.
    Variable b : builder.
    Hypothesis Hb : bld_inv depth ftable b.
    Hypothesis Hfit : arrays_fit (save_tables mtable b).

    Lemma offset_back k o : In (k, o) (iplain b) -> N.shiftr o 4 mod 2 ^ 16 = o / 16 /\ o / 16 < 2 ^ 16 /\ o / 16 <> 0 /\ 16 * (o / 16) = o.
    Proof using Hb Hfit.
      intros Hin. destruct (bi_tables _ _ _ Hb k o Hin) as (M & R & _). destruct Hfit as (F & _). cbn [save_tables flexTree] in F.
      change (2 ^ 20) with 1048576 in F. change (2 ^ 16) with 65536. rewrite N.shiftr_div_pow2. change (2 ^ 4) with 16. lia.
    Qed.

    Lemma mapped_inj x y m' : lexeme_ok ftable mtable alphabet x -> lexeme_ok ftable mtable alphabet y ->
      mapped b (l_class x) m' -> mapped b (l_class y) m' -> l_class x = l_class y.
    Proof using Hb Hfit.
      intros Hx Hy. unfold mapped. rewrite (flag_inflected x Hx), (flag_inflected y Hy).
      destruct (inflected (l_class x)) eqn:Ix, (inflected (l_class y)) eqn:Iy.
      - intros (o & H1 & ->) (o' & H2 & E). destruct (offset_back _ _ H1) as (A1 & _ & _ & A2). destruct (offset_back _ _ H2) as (B1 & _ & _ & B2).
        rewrite A1, B1 in E. injection E as E1 E2 E3. assert (o = o') by congruence. subst o'. pose proof (bi_inj _ _ _ Hb _ _ _ H1 H2).
        destruct (l_class x), (l_class y). cbn in *. congruence.
      - intros (o & H1 & ->) E. destruct (offset_back _ _ H1) as (A1 & _ & A3 & A2). exfalso. unfold inflected in Ix, Iy. rewrite <- E in Iy. cbn [m_wdinfo m_tfoffs] in Iy. rewrite A1 in Iy.
        destruct (N.eqb_spec (o / 16) 0); [contradiction|]. cbn [negb andb] in Iy. rewrite Iy in Ix. rewrite andb_false_r in Ix. discriminate.
      - intros E (o & H1 & ->). destruct (offset_back _ _ H1) as (A1 & _ & A3 & A2). exfalso. unfold inflected in Ix, Iy. rewrite <- E in Ix. cbn [m_wdinfo m_tfoffs] in Ix. rewrite A1 in Ix.
        destruct (N.eqb_spec (o / 16) 0); [contradiction|]. cbn [negb andb] in Ix. rewrite Ix in Iy. rewrite andb_false_r in Iy. discriminate.
      - intros -> E. exact E.
    Qed.

    Lemma mapped_fits x m' : lexeme_ok ftable mtable alphabet x -> mapped b (l_class x) m' -> class_fits m'.
    Proof using Hb Hfit.
      intros Hx. unfold mapped. rewrite (flag_inflected x Hx). destruct (lo_class _ _ _ _ Hx) as [C1 C2].
      assert (C3 : m_mtoffs (l_class x) < 2 ^ 16) by (destruct (lo_mix _ _ _ _ Hx) as [->|[H _]]; [reflexivity|exact H]).
      destruct (inflected (l_class x)) eqn:Ix.
      - intros (o & H1 & ->). destruct (offset_back _ _ H1) as (A1 & A2 & A3 & _). unfold class_fits. cbn [m_wdinfo m_tfoffs m_mtoffs]. rewrite A1. repeat split; assumption || (intros; assumption).
      - intros ->. unfold class_fits. repeat split; try assumption. intros E. apply (lo_prep _ _ _ _ Hx E).
    Qed.

    Lemma flex_found x o : lexeme_ok ftable mtable alphabet x -> inflected (l_class x) = true -> In (m_tfoffs (l_class x), o) (iplain b) ->
      exists t pre rest, flex_ok t /\ ((forall s g f, listed t s g f <-> ending ftable (m_tfoffs (l_class x)) s g f) /\
        (forall n, (forall s g f, ending ftable (m_tfoffs (l_class x)) s g f -> (length s <= n)%nat) -> within n t)) /\
        aplain b = pre ++ serialize C8 flex_ser flex_len t ++ rest /\ N.of_nat (length pre) = o.
    Proof using Hb Hfit ft_bytes al_ok.
      intros Hx Hi Hin. destruct (bi_tables _ _ _ Hb _ _ Hin) as (_ & R & t & pre & rest & Et & Ep & El).
      destruct (plain_tree _ _ _ _ ft_bytes Et) as (T1 & T2 & T3 & T4 & T5).
      assert (D : all_data descs_ok t).
      { apply lookup_all_data; [exact T1|]. intros key l Hl. split.
        - apply (lo_descs _ _ _ _ Hx Hi key l (T3 _ _ Hl)). intros [g f] Hgf. apply T2. exists l. auto.
        - apply Forall_forall. intros [g f] Hgf. apply (ending_range ftable (m_tfoffs (l_class x)) key). apply T2. exists l. auto. }
      assert (S : serialize C8 gramlist_ser gramlist_len t = serialize C8 flex_ser flex_len t).
      { apply serialize_ext. apply (all_data_impl descs_ok); [|exact D]. intros l [Hl _]. apply gramlist_flex, Hl. }
      assert (Le : letters_in alphabet t) by (apply T4; intros s g f H; eapply (lo_endings _ _ _ _ Hx Hi); exact H).
      exists t, pre, rest. split; [|split; [split; [exact T2|exact T5]|split; [rewrite <- S; exact Ep|exact El]]].
      split; [|split; [|exact D]].
      - apply dumpable_intro; [exact T1|eapply letters_counts; [apply al_ok|exact T1|exact Le]|].
        rewrite <- (sized_len C8 flex_ser flex_len t) by (apply (all_data_impl descs_ok); [intros l; apply flex_sized|exact D]). rewrite <- S.
        destruct Hfit as (F & _). cbn [save_tables flexTree] in F. rewrite Ep, !app_length in F. change (2 ^ 20) with 1048576 in F. change (2 ^ 32) with 4294967296. lia.
      - eapply letters_nonzero; [|exact Le]. apply al_ok.
    Qed.

    Lemma mix_found x : lexeme_ok ftable mtable alphabet x ->
      exists om, match om with
                 | None => m_mtoffs (l_class x) = 0
                 | Some mx => m_mtoffs (l_class x) <> 0 /\ mix_at mtable (m_mtoffs (l_class x)) mx
                 end.
    Proof using Type.
      intros Hx. destruct (N.eq_dec (m_mtoffs (l_class x)) 0) as [E|E]; [exists None; exact E|].
      destruct (lo_mix _ _ _ _ Hx) as [K|(_ & mx & Hm)]; [contradiction|]. exists (Some mx). auto.
    Qed.

    Lemma class_one x m' off : lexeme_ok ftable mtable alphabet x -> mapped b (l_class x) m' -> In (m', off) (clsset (classes b)) ->
      exists st c, class_at (save_tables mtable b) off st /\ class_repr (save_tables mtable b) st c /\ class_means ftable mtable (l_class x) c.
    Proof using Hb Hfit ft_bytes al_ok.
      intros Hx Hm Hin. pose proof (mapped_fits x m' Hx Hm) as Hf. exists (stored m').
      destruct (cls_at _ _ _ (bi_cls _ _ _ Hb) Hin) as (pre & rest & Ec & Eo). rewrite (ser_stored _ Hf) in Ec.
      destruct (stored_side m' Hf) as (S1 & S2 & S3).
      assert (Hat : class_at (save_tables mtable b) off (stored m')) by (split; [exact S1|split; [exact S2|split; [exact S3|exists pre, rest; auto]]]).
      destruct (mix_found x Hx) as (om & Hom). destruct (lo_class _ _ _ _ Hx) as [C1 C2].
      assert (W : m_wdinfo m' = m_wdinfo (l_class x) /\ m_mtoffs m' = m_mtoffs (l_class x)).
      { clear - Hm. unfold mapped in Hm. destruct (_ && _); [destruct Hm as (o & _ & ->)|subst m']; split; reflexivity. }
      destruct W as [W1 W2]. assert (Hw : stored_word m' mod 2 ^ 13 = m_wdinfo (l_class x)) by (rewrite <- W1; apply stored_word_facts; rewrite W1; exact C1).
      assert (Hlev : forall g f, alternation_level (stored_word m') g f = alternation_level (m_wdinfo (l_class x)) g f) by (intros; rewrite <- Hw; symmetry; apply level_mod13).
      assert (Hnum : forall fl mx cs g, number_ok (AClass (stored_word m') cs fl mx) g <-> number_agrees (l_class x) g).
      { intros. unfold number_ok, number_agrees. cbn [c_word]. rewrite plural_bit, <- Hw, N.mod_pow2_bits_low by reflexivity. reflexivity. }
      pose proof Hm as Hm2. unfold mapped in Hm2. rewrite (flag_inflected x Hx) in Hm2.
      destruct (inflected (l_class x)) eqn:Ix.
      - destruct Hm2 as (o & Ho & Em). destruct (flex_found x o Hx Ix Ho) as (t & pre' & rest' & Ft & [Lt Dt] & Ep & El).
        destruct (offset_back _ _ Ho) as (A1 & A2 & A3 & A4). exists (AClass (stored_word m') 0 (Some t) om).
        assert (Etf : m_tfoffs m' = o / 16) by (rewrite Em; exact A1).
        split; [exact Hat|]. split.
        + unfold class_repr. cbn [c_word c_case c_flex c_mix stored wdinfo tfoffs mtoffs]. rewrite Etf. destruct Hf as (F1 & F2 & F3 & F4).
          split; [reflexivity|]. split; [exact A2|]. split; [exact F3|]. split.
          * split; [exact A3|]. split; [|split; [exact Ft|exists pre', rest'; split; [exact Ep|rewrite El; symmetry; exact A4]]].
            rewrite <- mod64, (mod13_type _ _ Hw). unfold inflected in Ix. apply andb_true_iff in Ix as [_ Ix]. apply negb_true_iff, N.eqb_neq in Ix. exact Ix.
          * rewrite W2. destruct om as [mx|]; [|exact Hom]. destruct Hom as (H1 & H2 & H3). split; [exact H1|split; [exact H2|exact H3]].
        + constructor; cbn [c_word c_flex c_mix]; [exact Hw| |split; [exact Ix|split; [exact Lt|exact Dt]]|destruct om; exact Hom]. intros part g f. split.
          * intros H. remember (AClass (stored_word m') 0 (Some t) om) as c eqn:Ecl.
            destruct H as [Hn|ft e g f Hf1 Hm1 Hl Hn|ft mx mask alt e g f Hf1 Hm1 Hin1 Hb1 Hl Hn]; subst c; cbn [c_flex c_mix c_word] in *; try discriminate.
            -- injection Hf1 as <-. subst om. apply changing_ending; [exact Ix|exact Hom|apply Lt, Hl|eapply Hnum, Hn].
            -- injection Hf1 as <-. subst om. destruct Hom as [M1 M2]. eapply changing_mixed; [exact Ix|exact M1|exact M2|exact Hin1|rewrite <- Hlev; exact Hb1|apply Lt, Hl|eapply Hnum, Hn].
          * intros H. destruct H as [Hn|s g f _ Hz He Hn|mx mask alt s g f _ Hz Hmx Hin1 Hb1 He Hn]; [congruence|..].
            -- destruct om as [mx|]; [destruct Hom; contradiction|]. eapply form_plain; [reflexivity|reflexivity|apply Lt, He|apply Hnum, Hn].
            -- destruct om as [mx'|]; [|contradiction]. destruct Hom as [M1 M2]. rewrite (mix_unique _ _ _ _ Hmx M2) in Hin1.
               eapply form_mixed; [reflexivity|reflexivity|exact Hin1|cbn [c_word]; rewrite Hlev; exact Hb1|apply Lt, He|apply Hnum, Hn].
      - subst m'. exists (AClass (stored_word (l_class x)) (m_tfoffs (l_class x)) None om). split; [exact Hat|]. split.
        + unfold class_repr. cbn [c_word c_case c_flex c_mix stored wdinfo tfoffs mtoffs]. destruct Hf as (F1 & F2 & F3 & F4).
          split; [reflexivity|]. split; [exact F2|]. split; [exact F3|]. split.
          * split; [|reflexivity]. rewrite <- mod64, (mod13_type _ _ Hw). unfold inflected in Ix. apply andb_false_iff in Ix as [Ix|Ix]; apply negb_false_iff, N.eqb_eq in Ix; auto.
          * destruct om as [mx|]; [|exact Hom]. destruct Hom as (H1 & H2 & H3). split; [exact H1|split; [exact H2|exact H3]].
        + constructor; cbn [c_word c_flex c_mix c_case]; [exact Hw| |split; [exact Ix|reflexivity]|destruct om; exact Hom]. intros part g f. split.
          * intros H. remember (AClass (stored_word (l_class x)) (m_tfoffs (l_class x)) None om) as c eqn:Ecl.
            destruct H as [Hn|ft e g f Hf1|ft mx mask alt e g f Hf1]; subst c; cbn [c_flex c_mix c_word c_case] in *; try discriminate. apply changing_never, Ix.
          * intros H. destruct H as [Hn|s g f Hi|mx mask alt s g f Hi]; try congruence. apply (form_fixed (AClass (stored_word (l_class x)) (m_tfoffs (l_class x)) None om)). reflexivity.
    Qed.
  End Final.
End Holds.
