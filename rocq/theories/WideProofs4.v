(** * WideProofs4: the wide instances, continued.  PROOFS. *)
From Verif Require Import Base Serial WordTree TreeSpec FlatScan Stems StemSpec CharTables CapScheme CapSpec GramMap RusRuntime RusSpec RusProofs3 PropRusLemmas
  RusBuild RusBuildSpec RusBuildProofs RusBuildProofs2 RusReadings RusReadingsProofs RusLemmaSpec RusLemmaProofs5 PropBuildLemmas PropLemmasLemmas EngRuntime EngSpec EngProofs2 EngFormsSpec EngLemmaSpec
  PropEngLemmas PropEngLemmas2 CompileProofs5 CxxProofs2 CxxProofs3 Wild WildSpec WildProofs4 EngWild EngWildSpec EngWildProofs2 Codepage WideApi WideSpec WideProofs WideProofs2 WideProofs3.
Local Open Scope N_scope.

Lemma narrowed_ne W w : w <> [] -> narrowed W w <> [].
Proof. destruct w; [contradiction|discriminate]. Qed.

Lemma wc_efind_found W A L : wide_ok W -> eholds A L -> ebuildable L -> forall w dwsets, let t := narrowed W w in
  w <> [] -> (length w < 48)%nat -> (length (parts eng_casing t) <= 8)%nat ->
  exists hs, efound L (bit 1 dwsets) t hs /\
    forall p cch mem idform junk szword szform, given w (Some p) cch -> convertible W w cch -> mem <> [] -> length szform = 98%nat ->
      delivered_wide W mem (flat_map (ereading_forms idform) hs) (Forall (fun r => small (ereading_forms idform r)) hs)
        (wc_efind_forms W A junk szword szform (Some mem) (Some p) cch idform dwsets).
Proof.
  intros HW HL HB w dwsets t Hne Hl Hp. subst t. pose proof (narrowed_ne W w Hne) as Hne'.
  destruct (efind_found A L HL HB (narrowed W w) dwsets) as (hs & Hf & H); try assumption;
    [apply (narrowed_bytes W HW)|rewrite narrowed_length; exact Hl|].
  exists hs. split; [exact Hf|]. intros p cch mem idform junk szword szform Hg Hc Hm Hz. unfold wc_efind_forms.
  destruct (wide_find_run W (fun out psz cch f sets => efind_forms A junk out psz cch f sets) szword szform mem p cch idform dwsets w Hg Hne Hm) as [K _].
  destruct (K Hc) as (psz & n & Hn & ->). destruct (le_dec (length mem) 1) as [H1|H1].
  - apply wide_one; [exact H1|]. destruct (ecanonic_facts (narrowed W w)) as (v & Ev & _); try assumption;
      [apply (narrowed_bytes W HW)|rewrite narrowed_length; exact Hl|].
    unfold efind_forms. rewrite (eto_canonic_given _ _ _ Hn Hne'). rewrite Ev. reflexivity.
  - apply (wide_forms_delivered W HW); [exact Hz|lia| |apply H; [exact Hn|]; apply room_more; [lia|exact Hz]].
    apply Forall_forall. intros f Hin. apply in_flat_map in Hin as (r & Hr & Hin). destruct (efound_reading L _ _ _ r Hf Hr) as (Hrec & st & Ec).
    unfold ereading_forms in Hin. pose proof (erequested_no_nul A L HL HB (er_key r) (er_entry r) st (er_class r) idform Hrec Ec) as Hq.
    rewrite Forall_forall in Hq. apply Hq. exact Hin.
Qed.

(** ** Lemmatize *)
Lemma wc_lemmatize_answer W A L : wide_ok W -> holds A L -> buildable L -> forall w dwsets, let t := narrowed W w in
  w <> [] -> (length w < 48)%nat -> (length (parts rus_casing t) <= 8)%nat ->
  exists hs, found L (bit 1 dwsets) t hs /\
    forall p cch output plemma pgrams junk lmbuff szlemm szword, given w (Some p) cch -> length lmbuff = 32%nat -> length szlemm = 240%nat ->
      wide_safe dwsets (lexemes_of output hs) output plemma pgrams ->
      wide_answer W dwsets hs output plemma pgrams (wc_lemmatize W A junk lmbuff szlemm szword p cch output plemma pgrams dwsets).
Proof.
  intros HW HL HB w dwsets t Hne Hl Hp. subst t. pose proof (narrowed_ne W w Hne) as Hne'.
  destruct (lemmatize_answer A L HL HB (narrowed W w) dwsets) as (hs & Hf & _ & H); try assumption;
    [apply (narrowed_bytes W HW)|rewrite narrowed_length; exact Hl|].
  exists hs. split; [exact Hf|]. intros p cch output plemma pgrams junk lmbuff szlemm szword Hg H32 H240 Hsafe.
  assert (Hw : (length w + wslack W <= 240)%nat) by (pose proof (wd_slack W HW); lia).
  set (lem := fun psz cch l f g sets => lemmatize A junk psz cch l f g sets).
  destruct (wide_lemmatize_run W HW lem lmbuff szlemm szword p cch w output plemma pgrams dwsets H32 H240 Hg Hw) as (after & Hrun).
  assert (Hgn : given (narrowed W w) (Some (narrowed W w ++ after)) (N.of_nat (length w)))
    by (rewrite <- (narrowed_length W w); apply given_counted_narrow; rewrite narrowed_length; lia).
  set (n1 := option_map (fun m : list lemm => firstn (Nat.min (length m) 32) lmbuff) output) in *.
  set (n2 := option_map (fun m : list N => firstn (Nat.min (length m) 240) szlemm) plemma) in *.
  assert (Eg : lexemes_of n1 hs = lexemes_of output hs) by apply lexemes_map.
  specialize (H (Some (narrowed W w ++ after)) (N.of_nat (length w)) n1 n2 pgrams junk Hgn).
  rewrite Eg in H. specialize (H (safe_wide lmbuff szlemm output plemma pgrams H32 H240 dwsets _ Hsafe)).
  unfold answer in H. rewrite Eg in H. cbv zeta in H. destruct H as (ls & z & p1 & p2 & p3 & Hlen & Hlem & Er & S1 & S2 & S3 & Hok & Hno).
  specialize (Hrun z p1 p2 p3 Er). unfold wide_answer. cbv zeta. exists ls.
  pose proof (all_fit_wide lmbuff szlemm output plemma pgrams H32 H240 dwsets (lexemes_of output hs) ls) as Hfit. fold n1 n2 in Hfit.
  destruct (wide_answered W lmbuff szlemm output plemma pgrams H32 H240 (lemm_cell (lexemes_of output hs) ls plemma pgrams) (concat (flat_map stored (lexemes_of output hs)))
    (lexemes_of output hs) ls (wc_lemmatize W A junk lmbuff szlemm szword p cch output plemma pgrams dwsets) z p1 p2 p3
    (wide_all_fit dwsets (lexemes_of output hs) ls output plemma pgrams)) as (z' & o' & l' & g' & Q); try assumption.
  - apply wide_all_fit_dec.
  - intros Hk. apply Hfit in Hk. destruct (Hok Hk) as [Ez (D1 & D2 & D3)]. split; [exact Ez|]. split; [|split; [exact D2|exact D3]].
    intros mem Hm. destruct (D1 mem Hm) as (mem' & E1 & E2 & E3). exists mem'. split; [exact E1|]. split; [|exact E3]. intros i g Hi.
    rewrite (E2 i g Hi). f_equal. unfold n2. destruct plemma; reflexivity.
  - intros Hk. apply Hno. rewrite Hfit. exact Hk.
  - intros (Q1 & Q2 & _). split; [exact Q1|]. intros m Hm. destruct (Q2 m Hm) as [_ Q3]. split; [|destruct Q3 as [->|Q3]; [apply Nat.le_0_l|lia]].
    assert (Hpl : n2 <> None) by (unfold n2; rewrite Hm; discriminate). specialize (Hlem Hpl). apply Forall_forall. intros l Hin.
    apply In_nth_error in Hin as (i & Hi). assert (exists g, nth_error (lexemes_of output hs) i = Some g) as (g & Hgi).
    { destruct (nth_error (lexemes_of output hs) i) eqn:E; [eauto|]. apply nth_error_None in E. assert (Hlt : (i < length ls)%nat) by (apply nth_error_Some; intros K; unfold bytes in *; congruence). lia. }
    assert (Hl1 : lemma_of dwsets (lx_first g) l).
    { clear - Hlem Hi Hgi. revert i Hi Hgi. induction Hlem as [|g0 l0 gs ls H _ IH]; intros [|i] Hi Hgi; try discriminate; [injection Hi as <-; injection Hgi as <-; exact H|eapply IH; eassumption]. }
    eapply lemma_no_nul; [exact HL|exact HB|exact Hf| |exact Hl1]. apply nth_error_In in Hgi. unfold lexemes_of in Hgi.
    destruct output; [apply grouped_in, Hgi|]. apply in_map_iff in Hgi as (r & <- & Hr). exact Hr.
  - exists z', o', l', g'. split; [exact Hlen|]. split; [intros Hpl; apply Hlem; unfold n2; destruct plemma; [discriminate|contradiction]|]. exact Q.
Qed.

Lemma wc_elemmatize_answer W A L : wide_ok W -> eholds A L -> ebuildable L -> forall w dwsets, let t := narrowed W w in
  w <> [] -> (length w < 48)%nat -> (length (parts eng_casing t) <= 8)%nat ->
  exists hs, efound L (bit 1 dwsets) t hs /\
    forall p cch output plemma pgrams junk lmbuff szlemm szword, given w (Some p) cch -> length lmbuff = 32%nat -> length szlemm = 240%nat ->
      ewide_safe (elexemes_of output hs) output plemma pgrams ->
      ewide_answer W hs output plemma pgrams (wc_elemmatize W A junk lmbuff szlemm szword p cch output plemma pgrams dwsets).
Proof.
  intros HW HL HB w dwsets t Hne Hl Hp. subst t. pose proof (narrowed_ne W w Hne) as Hne'.
  destruct (elemmatize_answer A L HL HB (narrowed W w) dwsets) as (hs & Hf & _ & H); try assumption;
    [apply (narrowed_bytes W HW)|rewrite narrowed_length; exact Hl|].
  exists hs. split; [exact Hf|]. intros p cch output plemma pgrams junk lmbuff szlemm szword Hg H32 H240 Hsafe.
  assert (Hw : (length w + wslack W <= 240)%nat) by (pose proof (wd_slack W HW); lia).
  set (lem := fun psz cch l f g sets => elemmatize A junk psz cch l f g sets).
  destruct (wide_lemmatize_run W HW lem lmbuff szlemm szword p cch w output plemma pgrams dwsets H32 H240 Hg Hw) as (after & Hrun).
  assert (Hgn : given (narrowed W w) (Some (narrowed W w ++ after)) (N.of_nat (length w)))
    by (rewrite <- (narrowed_length W w); apply given_counted_narrow; rewrite narrowed_length; lia).
  set (n1 := option_map (fun m : list lemm => firstn (Nat.min (length m) 32) lmbuff) output) in *.
  set (n2 := option_map (fun m : list N => firstn (Nat.min (length m) 240) szlemm) plemma) in *.
  assert (Eg : elexemes_of n1 hs = elexemes_of output hs) by apply elexemes_map.
  specialize (H (Some (narrowed W w ++ after)) (N.of_nat (length w)) n1 n2 pgrams junk Hgn).
  rewrite Eg in H. specialize (H (esafe_wide lmbuff szlemm output plemma pgrams H32 H240 _ Hsafe)).
  unfold eanswer in H. rewrite Eg in H. cbv zeta in H. destruct H as (ls & z & p1 & p2 & p3 & Hlen & Hlem & Er & S1 & S2 & S3 & Hok & Hno).
  specialize (Hrun z p1 p2 p3 Er). unfold ewide_answer. cbv zeta. exists ls.
  pose proof (eall_fit_wide lmbuff szlemm output plemma pgrams H32 H240 (elexemes_of output hs) ls) as Hfit. fold n1 n2 in Hfit.
  destruct (wide_answered W lmbuff szlemm output plemma pgrams H32 H240 (elemm_cell (elexemes_of output hs) ls plemma pgrams) (concat (flat_map estored (elexemes_of output hs)))
    (elexemes_of output hs) ls (wc_elemmatize W A junk lmbuff szlemm szword p cch output plemma pgrams dwsets) z p1 p2 p3
    (ewide_all_fit (elexemes_of output hs) ls output plemma pgrams)) as (z' & o' & l' & g' & Q); try assumption.
  - apply ewide_all_fit_dec.
  - intros Hk. apply Hfit in Hk. destruct (Hok Hk) as [Ez (D1 & D2 & D3)]. split; [exact Ez|]. split; [|split; [exact D2|exact D3]].
    intros mem Hm. destruct (D1 mem Hm) as (mem' & E1 & E2 & E3). exists mem'. split; [exact E1|]. split; [|exact E3]. intros i g Hi.
    rewrite (E2 i g Hi). f_equal. unfold n2. destruct plemma; reflexivity.
  - intros Hk. apply Hno. rewrite Hfit. exact Hk.
  - intros (Q1 & Q2 & _). split; [exact Q1|]. intros m Hm. destruct (Q2 m Hm) as [_ Q3]. split; [|destruct Q3 as [->|Q3]; [apply Nat.le_0_l|lia]].
    assert (Hpl : n2 <> None) by (unfold n2; rewrite Hm; discriminate). specialize (Hlem Hpl). apply Forall_forall. intros l Hin.
    apply In_nth_error in Hin as (i & Hi). assert (exists g, nth_error (elexemes_of output hs) i = Some g) as (g & Hgi).
    { destruct (nth_error (elexemes_of output hs) i) eqn:E; [eauto|]. apply nth_error_None in E. assert (Hlt : (i < length ls)%nat) by (apply nth_error_Some; intros K; unfold bytes in *; congruence). lia. }
    assert (Hl1 : elemma_of (ex_first g) l).
    { clear - Hlem Hi Hgi. revert i Hi Hgi. induction Hlem as [|g0 l0 gs ls H _ IH]; intros [|i] Hi Hgi; try discriminate; [injection Hi as <-; injection Hgi as <-; exact H|eapply IH; eassumption]. }
    eapply elemma_no_nul; [exact HL|exact HB|exact Hf| |exact Hl1]. apply nth_error_In in Hgi. unfold elexemes_of in Hgi.
    destruct output; [apply egrouped_in, Hgi|]. apply in_map_iff in Hgi as (r & <- & Hr). exact Hr.
  - exists z', o', l', g'. split; [exact Hlen|]. split; [intros Hpl; apply Hlem; unfold n2; destruct plemma; [discriminate|contradiction]|]. exact Q.
Qed.
