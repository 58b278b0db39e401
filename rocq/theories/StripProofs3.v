(** * StripProofs3: the headword is a form of its lexeme.  PROOFS. *)
From Verif Require Import Base Serial SerialProofs WordTree TreeSpec Stems StemSpec GramMap RusRuntime LevelSpec LevelProofs RusSpec RusProofs Compile CompileSpec CompileProofs CompileProofs2
  Resolve ResolveSpec ResolveProofs ResolveProofs2 StripSpec StripProofs StripProofs2.
Local Open Scope N_scope.
Notation length := List.length.

Lemma linked_trans tables a b c : linked tables a b -> linked tables b c -> linked tables a c.
Proof. induction 1 as [|a items it b T Hin Hn H IH]; intros Hc; [exact Hc|]. eapply linked_next; eauto. Qed.

Lemma mod128 g : g mod 128 = N.land g 127.
Proof. change 127 with (N.ones 7). rewrite N.land_ones. reflexivity. Qed.
Lemma lor_inf a b : a mod 128 = 1 -> b mod 128 <= 1 -> N.lor a b mod 128 = 1.
Proof.
  rewrite !mod128, N.land_lor_distr_l. intros -> H. assert (K : N.land b 127 = 0 \/ N.land b 127 = 1) by lia. destruct K as [-> | ->]; reflexivity.
Qed.

Section Endings.
  Variables (tables : bytes) (top : N) (verb : bool) (nf : N).
  Hypothesis tidy : tidy_links tables top.
  Hypothesis refl : verb = true -> forall o items it, linked tables top o -> table_at tables o items -> In it items -> reflexive_element it = true ->
    N.testbit (fi_flags it) 7 = false /\ fi_info it mod 128 <= 1.

  (** what may stand in the list of table [off] *)
  Definition fine (off : N) (d : described) : Prop :=
    let '(s, g, f) := d in ending tables off s g f /\ (if verb then g mod 128 <= 1 else g = nf).
  Lemma endings_fine : forall off l, normal_endings tables verb nf off l -> linked tables top off -> Forall (fine off) l.
  Proof using tidy refl.
    fix IH 3. intros off l H Hl. destruct H as [off items ls T HF]. apply Forall_app. split.
    - assert (G : forall its, incl its items -> forall lss, Forall2 (normal_of tables verb nf) its lss -> Forall (fine off) (concat lss)).
      { clear HF ls. intros its Hi lss HF. induction HF as [|it l its lss H1 HF IHF]; [constructor|]. assert (Hin : In it items) by (apply Hi; left; reflexivity).
        cbn [concat]. apply Forall_app. split; [|apply IHF; intros y Hy; apply Hi; right; exact Hy]. destruct H1 as [it Hno|it Hs Hb|it l Hs Hb H1].
        - constructor.
        - constructor; [|constructor]. cbn [fine describe]. split; [eapply ending_here; eassumption|]. unfold normal_element in Hs. clear IH. destruct verb; [lia|exact Hs].
        - destruct (tidy _ _ Hl T) as [_ Hit]. destruct (Hit it Hin) as [_ Hn]. specialize (Hn Hb).
          assert (Hl' : linked tables top (fi_next it)) by (eapply linked_trans; [exact Hl|]; eapply linked_next; [exact T|exact Hin|exact Hn|apply linked_self]).
          pose proof (IH _ _ H1 Hl') as K. apply Forall_forall. intros d Hd. apply in_map_iff in Hd as (d0 & <- & Hd0). rewrite Forall_forall in K. specialize (K d0 Hd0). destruct d0 as [[s g] f]. cbn [fine after] in *. destruct K as [K1 K2].
          split; [eapply ending_further; eassumption|]. unfold normal_element in Hs. clear IH. destruct verb.
          + rewrite (lor_inf _ _ Hs K2). lia.
          + rewrite Hs, K2. apply N.lor_diag. }
      apply (G items); [intros y Hy; exact Hy|exact HF].
    - clear IH. destruct verb eqn:Ev; [|constructor]. apply Forall_forall. intros d Hd. apply in_map_iff in Hd as (it & <- & Hit). apply filter_In in Hit as [Hin Hr]. destruct (refl eq_refl off items it Hl T Hin Hr) as [K1 K2].
      cbn [fine describe]. split; [eapply ending_here; eassumption|rewrite Ev; exact K2].
  Qed.
  (** of verbs: in the table itself only infinitives *)
  Lemma endings_infinitive off l : verb = true -> normal_endings tables verb nf off l -> linked tables top off ->
    (forall items it, table_at tables off items -> In it items -> reflexive_element it = true -> fi_info it mod 128 = 1) ->
    forall s g f, In (s, g, f) l -> g mod 128 = 1.
  Proof using tidy refl.
    intros Ev H Hl Htop s g f Hin. pose proof Ev as Ev'. destruct H as [off items ls T HF]. apply in_app_or in Hin as [Hin|Hin].
    - assert (G : forall its, incl its items -> forall lss, Forall2 (normal_of tables verb nf) its lss -> In (s, g, f) (concat lss) -> g mod 128 = 1).
      { clear HF ls Hin. intros its Hi lss HF. induction HF as [|it l its lss H1 HF IHF]; [intros []|]. cbn [concat]. intros Hc. apply in_app_or in Hc as [Hc|Hc]; [|apply IHF; [intros y Hy; apply Hi; right; exact Hy|exact Hc]].
        assert (Hin : In it items) by (apply Hi; left; reflexivity). destruct H1 as [it Hno|it Hs Hb|it l Hs Hb H1].
        - destruct Hc.
        - destruct Hc as [[= <- <- <-]|[]]. unfold normal_element in Hs. rewrite Ev in Hs. exact Hs.
        - destruct (tidy _ _ Hl T) as [_ Hit]. destruct (Hit it Hin) as [_ Hn]. specialize (Hn Hb).
          assert (Hl' : linked tables top (fi_next it)) by (eapply linked_trans; [exact Hl|]; eapply linked_next; [exact T|exact Hin|exact Hn|apply linked_self]).
          pose proof (endings_fine _ _ H1 Hl') as K. rewrite Forall_forall in K. apply in_map_iff in Hc as ([[s0 g0] f0] & E & Hd0). specialize (K _ Hd0). cbn [fine after] in *. injection E as <- <- <-. destruct K as [_ K2].
          unfold normal_element in Hs. rewrite Ev in *. apply lor_inf; [exact Hs|exact K2]. }
      apply (G items (fun y Hy => Hy) ls HF Hin).
    - rewrite Ev in Hin. apply in_map_iff in Hin as (it & E & Hit). apply filter_In in Hit as [Hin Hr]. unfold describe in E. injection E as <- <- <-. apply (Htop items it T Hin Hr).
  Qed.
End Endings.

Lemma infinitive_level wd g f : is_verb wd = true -> g mod 128 = 1 -> alternation_level wd g f = 1.
Proof.
  intros Hv Hg. unfold alternation_level, is_verb in *. apply andb_true_iff in Hv as [V1 V2]. apply N.leb_le in V1, V2.
  assert (K : wd mod 64 = 1 \/ wd mod 64 = 2 \/ wd mod 64 = 3 \/ wd mod 64 = 4 \/ wd mod 64 = 5 \/ wd mod 64 = 6) by lia.
  assert (G8 : g mod 8 = 1) by (rewrite <- (N.mod_mod g 8) by discriminate; replace (g mod 8) with ((g mod 128) mod 8); [rewrite Hg; reflexivity|]; change 128 with (8 * 16); rewrite N.mod_mul_r, N.mul_comm, N.mod_add, !N.mod_mod by discriminate; reflexivity).
  assert (Ed : g = 1 + 128 * (g / 128)) by (rewrite (N.div_mod g 128) at 1 by discriminate; rewrite Hg; lia).
  assert (P0 : person_of g = 0).
  { unfold person_of. rewrite Ed. replace (1 + 128 * (g / 128)) with (1 + (16 * (g / 128)) * 8) by lia. rewrite N.div_add by discriminate. change (1 / 8) with 0. rewrite N.add_0_l. replace (16 * (g / 128)) with ((4 * (g / 128)) * 4) by lia. apply N.mod_mul. discriminate. }
  assert (L : forall k, verb_level k g = 1).
  { intros k. unfold verb_level, tense_of. rewrite G8, P0. cbn [N.eqb andb orb]. destruct k as [|[p|p|]]; try reflexivity. destruct p; reflexivity. }
  repeat destruct K as [K|K]; rewrite K; cbn [noun_type]; change (_ <=? _) with true; apply L.
Qed.

Lemma mix_bits wd k : N.lor wd (N.shiftl k 11) mod 64 = wd mod 64 /\ N.testbit (N.lor wd (N.shiftl k 11)) 6 = N.testbit wd 6.
Proof.
  split.
  - change 64 with (2 ^ 6). rewrite <- !N.land_ones, N.land_lor_distr_l. replace (N.land (N.shiftl k 11) (N.ones 6)) with 0; [apply N.lor_0_r|]. symmetry. apply N.bits_inj. intros i. rewrite N.land_spec, N.bits_0.
    destruct (N.ltb_spec i 11); [rewrite N.shiftl_spec_low by assumption; reflexivity|]. rewrite N.ones_spec_high by lia. apply andb_false_r.
  - rewrite N.lor_spec, N.shiftl_spec_low by reflexivity. apply orb_false_r.
Qed.
Lemma verb_mod wd wd' : wd mod 64 = wd' mod 64 -> is_verb wd = is_verb wd'.
Proof. unfold is_verb. intros ->. reflexivity. Qed.

Theorem headword_form depth ftable mtable alts base post rems wd off cases mixkind id l x :
  resolve depth ftable mtable alts (base ++ post) post rems wd off cases None false mixkind id = Ok (Some x) -> off <> 0 -> wd mod 64 <> 51 ->
  searchable ftable mtable alts wd off base rems -> normal_of_word ftable wd off base l ->
  (if is_verb wd then reflexive_last ftable off else m_mtoffs (l_class x) <> 0 -> N.testbit wd 6 = false /\ mixkind = 0) ->
  exists part g f, form_of ftable mtable x (base ++ post) part g f.
Proof.
  intros E Hoff H51 Hse Hnorm Hcond. pose proof (resolve_found _ _ _ _ _ _ _ _ _ _ _ _ _ _ _ _ E Hoff Hse Hnorm) as (stem & mt & Hu & Ha & Hc & Hpost & _). destruct Hse as [Hpl Htidy Hwhole Halts Hzero].
  inversion Hu as [n Hn|stem' d _ Ht| |]; subst; try discriminate. destruct Ht as (before & behind & El & Ebase & _). destruct d as [[s g] f]. cbn [fst] in Ebase.
  assert (Hin : In (s, g, f) l) by (rewrite El; apply in_or_app; right; left; reflexivity).
  assert (Hrf : is_verb wd = true -> forall o items it, linked ftable off o -> table_at ftable o items -> In it items -> reflexive_element it = true -> N.testbit (fi_flags it) 7 = false /\ fi_info it mod 128 <= 1).
  { intros Ev. rewrite Ev in Hcond. intros o items it K1 K2 K3 K4. destruct (Hcond o items it K1 K2 K3 K4) as (Q1 & Q2 & _). auto. }
  set (nf := if is_verb wd then 0x8001 else normal_gramm wd base) in *.
  pose proof (endings_fine ftable off (is_verb wd) nf Htidy Hrf off l Hnorm (linked_self ftable off)) as Hf. rewrite Forall_forall in Hf. specialize (Hf _ Hin). cbn [fine] in Hf. destruct Hf as [He Hg].
  assert (Hinf : is_verb wd = true -> g mod 128 = 1).
  { intros Ev. apply (endings_infinitive ftable off (is_verb wd) nf Htidy Hrf off l Ev Hnorm (linked_self _ _)) with (s := s) (f := f); [|exact Hin].
    rewrite Ev in Hcond. intros items it T Hit Hr. apply (Hcond off items it (linked_self _ _) T Hit Hr). reflexivity. }
  set (wd' := if mt =? 0 then wd else N.lor wd (N.shiftl mixkind 11)) in *.
  assert (Hwd : wd' mod 64 = wd mod 64 /\ N.testbit wd' 6 = N.testbit wd 6) by (unfold wd'; destruct (mt =? 0); [auto|apply mix_bits]). destruct Hwd as [Hwd6 Hwdb].
  assert (Hi : inflected (Morphclass wd' off mt) = true).
  { unfold inflected. cbn [m_tfoffs m_wdinfo]. rewrite Hwd6. destruct (N.eqb_spec off 0); [contradiction|]. destruct (N.eqb_spec (wd mod 64) 51); [contradiction|reflexivity]. }
  assert (Hnum : number_agrees (Morphclass wd' off mt) g).
  { intros H6. cbn [m_wdinfo] in H6. rewrite Hwdb in H6. destruct (is_verb wd) eqn:Ev; [rewrite (Hpl eq_refl) in H6; discriminate|]. rewrite Hg. unfold nf.
    pose proof (normal_plural wd base H6) as K. rewrite (normal_form_eq wd base) in K by (intros; congruence). rewrite Ev in K. exact K. }
  assert (Hlevel : mt <> 0 -> alternation_level wd' g f = 1).
  { intros Hm. destruct (is_verb wd) eqn:Ev.
    - apply infinitive_level; [rewrite (verb_mod _ _ Hwd6); exact Ev|]. apply Hinf; reflexivity.
    - rewrite Hc in Hcond. cbn [m_mtoffs] in Hcond. destruct (Hcond Hm) as [H6 ->]. unfold wd'. destruct (N.eqb_spec mt 0); [contradiction|]. rewrite N.lor_0_r.
      assert (Hnv : ~ (1 <= N.land wd 63 <= 6)).
      { intros [A B]. unfold is_verb in Ev. rewrite mod64 in Ev. apply andb_false_iff in Ev as [Ev|Ev]; apply N.leb_gt in Ev; lia. }
      pose proof (normal_level wd base f Hnv H6) as K. rewrite (normal_form_eq wd base) in K by (intros; congruence). rewrite Ev in K. cbn [fst] in K. rewrite Hg. exact K. }
  unfold form_of. rewrite Hc. inversion Ha as [Hno Es Em|bf oc bh alt left Eal Hbf Halt Es Ell Eoc]; subst.
  - exists s, g, f. split; [|rewrite <- app_assoc; reflexivity]. apply changing_ending; [exact Hi|reflexivity|exact He|exact Hnum].
  - destruct oc as [o cond]. cbn [fst] in *. destruct (Halts o cond) as [Ho _]; [apply in_or_app; right; left; reflexivity|].
    destruct Halt as ((b1 & mask & b2 & Hm & Hbit & _) & _). exists (alt ++ s), g, f. split; [|rewrite <- !app_assoc; reflexivity].
    eapply changing_mixed; [exact Hi|exact Ho|exact Hm|apply in_or_app; right; left; reflexivity| |exact He|exact Hnum]. cbn [m_wdinfo]. rewrite (Hlevel Ho). exact Hbit.
Qed.
