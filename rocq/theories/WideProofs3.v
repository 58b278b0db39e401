(** * WideProofs3: the wide instances.  PROOFS. *)
From Verif Require Import Base Serial WordTree TreeSpec FlatScan Stems StemSpec CharTables CapScheme CapSpec GramMap RusRuntime RusSpec RusProofs3 PropRusLemmas
  RusBuild RusBuildSpec RusBuildProofs RusBuildProofs2 RusReadings RusReadingsProofs RusLemmaSpec PropBuildLemmas PropLemmasLemmas EngRuntime EngSpec EngProofs2 EngFormsSpec EngLemmaSpec
  PropEngLemmas PropEngLemmas2 CxxProofs2 CxxProofs3 Wild WildSpec WildProofs4 EngWild EngWildSpec EngWildProofs2 Codepage WideApi WideSpec WideProofs WideProofs2.
Local Open Scope N_scope.

Lemma narrowed_length W w : length (narrowed W w) = length w.
Proof. apply map_length. Qed.
Lemma narrowed_nil W w : narrowed W w <> [] -> w <> [].
Proof. intros H ->. apply H. reflexivity. Qed.

(** ** CheckWord *)
Section Check.
  Variables (W : wide).
  Hypothesis HW : wide_ok W.

  Lemma wide_check_generic (check : option bytes -> N -> N -> res Z) szword p cch dwsets w :
    given w (Some p) cch ->
    ((length w + wslack W <= 48)%nat -> exists psz n, given (narrowed W w) psz n /\ wide_check_word W check szword p cch dwsets = check psz n dwsets) /\
    ((48 < length w + wslack W)%nat -> wide_check_word W check szword p cch dwsets = Ok (-4)%Z).
  Proof.
    intros Hg. split; intros Hl.
    - destruct (to_narrow_short W szword 48 p cch w Hg Hl) as (after & E). unfold wide_check_word. rewrite E. cbn [bind].
      eexists _, _. split; [|reflexivity]. rewrite <- (narrowed_length W w). apply given_counted_narrow. rewrite narrowed_length. lia.
    - unfold wide_check_word. rewrite (to_narrow_long W szword 48 p cch w Hg Hl). reflexivity.
  Qed.

  Lemma wc_check_same A junk szword p cch dwsets w psz' cch' : given w (Some p) cch -> given (narrowed W w) psz' cch' ->
    (length (parts rus_casing (narrowed W w)) <= 16)%nat ->
    wc_check_word W A junk szword p cch dwsets = check_word A junk psz' cch' dwsets.
  Proof.
    intros Hg Hg' Hp. destruct (wide_check_generic (fun psz n sets => check_word A junk psz n sets) szword p cch dwsets w Hg) as [K1 K2].
    unfold wc_check_word. destruct (le_dec (length w + wslack W) 48) as [Hl|Hl].
    - destruct (K1 Hl) as (psz & n & Hn & ->). destruct (list_eq_dec N.eq_dec (narrowed W w) []) as [E|E].
      + rewrite E in *. rewrite !check_word_empty by (right; assumption). reflexivity.
      + unfold check_word, prologue. rewrite (to_canonic_given _ _ _ Hn E), (to_canonic_given _ _ _ Hg' E). reflexivity.
    - rewrite (K2 ltac:(lia)). symmetry. apply (check_word_long A (narrowed W w)); try assumption. rewrite narrowed_length. pose proof (wd_slack W HW). lia.
  Qed.
  Lemma wc_echeck_same A junk szword p cch dwsets w psz' cch' : given w (Some p) cch -> given (narrowed W w) psz' cch' ->
    (length (parts eng_casing (narrowed W w)) <= 16)%nat ->
    wc_echeck_word W A junk szword p cch dwsets = echeck_word A junk psz' cch' dwsets.
  Proof.
    intros Hg Hg' Hp. destruct (wide_check_generic (fun psz n sets => echeck_word A junk psz n sets) szword p cch dwsets w Hg) as [K1 K2].
    unfold wc_echeck_word. destruct (le_dec (length w + wslack W) 48) as [Hl|Hl].
    - destruct (K1 Hl) as (psz & n & Hn & ->). destruct (list_eq_dec N.eq_dec (narrowed W w) []) as [E|E].
      + rewrite E in *. rewrite !echeck_word_empty by (right; assumption). reflexivity.
      + unfold echeck_word, eprologue. rewrite (eto_canonic_given _ _ _ Hn E), (eto_canonic_given _ _ _ Hg' E). reflexivity.
    - rewrite (K2 ltac:(lia)). symmetry. apply (echeck_word_long A (narrowed W w)); try assumption. rewrite narrowed_length. pose proof (wd_slack W HW). lia.
  Qed.
End Check.

Lemma wc_check_exact W A L w p cch dwsets junk szword : wide_ok W ->
  holds A L -> bounds_ok L -> given w (Some p) cch -> let t := narrowed W w in w <> [] -> (length w < 48)%nat -> (length (parts rus_casing t) <= 8)%nat ->
  (forall key e part g f, word_of L (bit 1 dwsets) t key e part g f -> reachable e part) ->
  wc_check_word W A junk szword p cch dwsets = Ok 1%Z /\ (exists key e part g f, word_of L (bit 1 dwsets) t key e part g f) \/
  wc_check_word W A junk szword p cch dwsets = Ok 0%Z /\ ~ (exists key e part g f, word_of L (bit 1 dwsets) t key e part g f).
Proof.
  intros HW HL Hb Hg t Hne Hl Hp Hr. subst t.
  assert (Hg' : given (narrowed W w) (Some (narrowed W w ++ [])) (N.of_nat (length (narrowed W w)))) by (apply given_counted_narrow; rewrite narrowed_length; lia).
  rewrite (wc_check_same W HW A junk szword p cch dwsets w _ _ Hg Hg') by lia.
  eapply check_exact; try eassumption; [apply (narrowed_bytes W HW)|destruct w; [contradiction|discriminate]|rewrite narrowed_length; exact Hl].
Qed.
Lemma wc_echeck_exact W A L w p cch dwsets junk szword : wide_ok W ->
  eholds A L -> ebounds_ok L -> given w (Some p) cch -> let t := narrowed W w in w <> [] -> (length w < 48)%nat -> (length (parts eng_casing t) <= 8)%nat ->
  (forall key e part id, eword_of L (bit 1 dwsets) t key e part id -> reachable e part) ->
  wc_echeck_word W A junk szword p cch dwsets = Ok 1%Z /\ (exists key e part id, eword_of L (bit 1 dwsets) t key e part id) \/
  wc_echeck_word W A junk szword p cch dwsets = Ok 0%Z /\ ~ (exists key e part id, eword_of L (bit 1 dwsets) t key e part id).
Proof.
  intros HW HL Hb Hg t Hne Hl Hp Hr. subst t.
  assert (Hg' : given (narrowed W w) (Some (narrowed W w ++ [])) (N.of_nat (length (narrowed W w)))) by (apply given_counted_narrow; rewrite narrowed_length; lia).
  rewrite (wc_echeck_same W HW A junk szword p cch dwsets w _ _ Hg Hg') by lia.
  eapply echeck_exact; try eassumption; [apply (narrowed_bytes W HW)|destruct w; [contradiction|discriminate]|rewrite narrowed_length; exact Hl].
Qed.

(** ** BuildForm *)
Lemma room_one (mem : list N) (szform : bytes) : (length mem <= 1)%nat -> firstn (Nat.min (length mem) 98 - 1) szform = [].
Proof. intros H. replace (Nat.min (length mem) 98 - 1)%nat with 0%nat by lia. reflexivity. Qed.
Lemma room_more (mem : list N) (szform : bytes) : (2 <= length mem)%nat -> length szform = 98%nat -> firstn (Nat.min (length mem) 98 - 1) szform <> [].
Proof. intros H Hz E. apply (f_equal (@length N)) in E. rewrite firstn_length in E. cbn [length] in E. lia. Qed.

Lemma wide_one W build szform mem (fs : list bytes) limits : (length mem <= 1)%nat -> build (Some []) = Ok ((-5)%Z, Some []) ->
  delivered_wide W mem fs limits (wide_forms W build szform mem).
Proof.
  intros Hm Hb. split; [|split; intros; lia]. intros _. apply (wide_forms_refused W build szform mem (-5)%Z ltac:(lia)).
  rewrite (room_one mem szform Hm). exists (Some []). exact Hb.
Qed.

Lemma wc_build_some W A L : wide_ok W -> holds A L -> buildable L -> indexed A L -> forall junk szform mem id idform,
  length szform = 98%nat -> id < 2 ^ 32 -> (length (lexkeylen id ++ junk) = 16)%nat ->
  (exists key e, has_record (words L) key e /\ nlexid e = id) ->
  exists key e st c, has_record (words L) key e /\ nlexid e = id /\ class_of L (oclass e) = Some (st, c) /\
    let fs := requested c key (stpost e) idform in delivered_wide W mem fs (small fs) (wc_build_form W A junk szform (Some mem) id idform).
Proof.
  intros HW HL HB HI junk szform mem id idform Hz Hid Hj Hex.
  destruct (le_dec (length mem) 1) as [Hm|Hm].
  - destruct (build_some A L HL HB HI junk [0] id idform ltac:(discriminate) Hid Hj Hex) as (key & e & st & c & Hr & He & Ec & _).
    exists key, e, st, c. repeat match goal with |- _ /\ _ => split end; try assumption. cbv zeta. unfold wc_build_form, wide_build_form.
    destruct mem as [|x mem]; [split; [reflexivity|split; intros H; cbn [length] in H; lia]|]. apply wide_one; [exact Hm|reflexivity].
  - assert (Hm2 : (2 <= length mem)%nat) by lia.
    destruct (build_some A L HL HB HI junk _ id idform (room_more mem szform Hm2 Hz) Hid Hj Hex) as (key & e & st & c & Hr & He & Ec & Hd).
    exists key, e, st, c. repeat match goal with |- _ /\ _ => split end; try assumption. cbv zeta in *. unfold wc_build_form, wide_build_form.
    destruct mem as [|x mem]; [cbn [length] in Hm2; lia|].
    apply (wide_forms_delivered W HW); try assumption. unfold requested. destruct (takes_id c idform); [|constructor]. eapply forms_no_nul; eassumption.
Qed.

Lemma wc_build_unknown W A L : holds A L -> buildable L -> indexed A L -> forall junk szform mem id idform,
  length szform = 98%nat -> (2 <= length mem)%nat -> id < 2 ^ 32 -> (length (lexkeylen id ++ junk) = 16)%nat ->
  (forall key e, has_record (words L) key e -> nlexid e <> id) -> wc_build_form W A junk szform (Some mem) id idform = Ok (0%Z, Some mem).
Proof.
  intros HL HB HI junk szform mem id idform Hz Hm Hid Hj Hn. unfold wc_build_form, wide_build_form. destruct mem as [|x mem]; [cbn [length] in Hm; lia|].
  apply wide_forms_refused; [lia|]. eexists. apply (build_unknown A L HL HB HI); try assumption. apply room_more; assumption.
Qed.

Lemma wc_ebuild_some W A L : wide_ok W -> eholds A L -> ebuildable L -> eindexed A L -> forall junk szform mem id idform,
  length szform = 98%nat -> id < 2 ^ 32 -> (length (lexkeylen id ++ junk) = 16)%nat ->
  (exists key e, has_record (ewords L) key e /\ nlexid e = id) ->
  exists key e st c, has_record (ewords L) key e /\ nlexid e = id /\ eclass_of L (oclass e) = Some (st, c) /\
    let fs := erequested c key (stpost e) idform in delivered_wide W mem fs (small fs) (wc_ebuild_form W A junk szform (Some mem) id idform).
Proof.
  intros HW HL HB HI junk szform mem id idform Hz Hid Hj Hex.
  destruct (le_dec (length mem) 1) as [Hm|Hm].
  - destruct (ebuild_some A L HL HB HI junk [0] id idform ltac:(discriminate) Hid Hj Hex) as (key & e & st & c & Hr & He & Ec & _).
    exists key, e, st, c. repeat match goal with |- _ /\ _ => split end; try assumption. cbv zeta. unfold wc_ebuild_form, wide_build_form.
    destruct mem as [|x mem]; [split; [reflexivity|split; intros H; cbn [length] in H; lia]|]. apply wide_one; [exact Hm|reflexivity].
  - assert (Hm2 : (2 <= length mem)%nat) by lia.
    destruct (ebuild_some A L HL HB HI junk _ id idform (room_more mem szform Hm2 Hz) Hid Hj Hex) as (key & e & st & c & Hr & He & Ec & Hd).
    exists key, e, st, c. repeat match goal with |- _ /\ _ => split end; try assumption. cbv zeta in *. unfold wc_ebuild_form, wide_build_form.
    destruct mem as [|x mem]; [cbn [length] in Hm2; lia|].
    apply (wide_forms_delivered W HW); try assumption. eapply erequested_no_nul; eassumption.
Qed.

Lemma wc_ebuild_unknown W A L : eholds A L -> ebuildable L -> eindexed A L -> forall junk szform mem id idform,
  length szform = 98%nat -> (2 <= length mem)%nat -> id < 2 ^ 32 -> (length (lexkeylen id ++ junk) = 16)%nat ->
  (forall key e, has_record (ewords L) key e -> nlexid e <> id) -> wc_ebuild_form W A junk szform (Some mem) id idform = Ok (0%Z, Some mem).
Proof.
  intros HL HB HI junk szform mem id idform Hz Hm Hid Hj Hn. unfold wc_ebuild_form, wide_build_form. destruct mem as [|x mem]; [cbn [length] in Hm; lia|].
  apply wide_forms_refused; [lia|]. eexists. apply (ebuild_unknown A L HL HB HI); try assumption. apply room_more; assumption.
Qed.

(** ** FindForms *)
Lemma wide_find_run W find szword szform mem p cch idform dwsets w : given w (Some p) cch -> w <> [] -> mem <> [] ->
  (convertible W w cch -> exists psz n, given (narrowed W w) psz n /\
     wide_find_forms W find szword szform (Some mem) (Some p) cch idform dwsets = wide_forms W (fun out => find out psz n idform dwsets) szform mem) /\
  (~ convertible W w cch -> wide_find_forms W find szword szform (Some mem) (Some p) cch idform dwsets = Ok ((-4)%Z, Some mem)).
Proof.
  intros Hg Hw Hm.
  assert (H0 : cch <> 0) by (inversion Hg; subst; [destruct w; [contradiction|cbn [length]; lia]|lia]).
  unfold wide_find_forms. destruct mem as [|x mem]; [contradiction|]. destruct (N.eqb_spec cch 0); [contradiction|]. split; intros Hc.
  - unfold convertible in Hc. destruct (to_narrow_short W szword _ p cch w Hg Hc) as (after & E). rewrite E. cbn [bind].
    eexists _, _. split; [|reflexivity]. rewrite <- (narrowed_length W w). apply given_counted_narrow. rewrite narrowed_length. lia.
  - rewrite (to_narrow_long W szword _ p cch w Hg) by (unfold convertible in Hc; lia). reflexivity.
Qed.

Lemma wc_find_found W A L : wide_ok W -> holds A L -> buildable L -> forall w dwsets, let t := narrowed W w in
  w <> [] -> (length w < 48)%nat -> (length (parts rus_casing t) <= 8)%nat ->
  exists hs, found L (bit 1 dwsets) t hs /\
    forall p cch mem idform junk szword szform, given w (Some p) cch -> convertible W w cch -> mem <> [] -> length szform = 98%nat ->
      delivered_wide W mem (flat_map (reading_forms idform) hs) (Forall (fun r => small (reading_forms idform r)) hs)
        (wc_find_forms W A junk szword szform (Some mem) (Some p) cch idform dwsets).
Proof.
  intros HW HL HB w dwsets t Hne Hl Hp. subst t.
  destruct (find_found A L HL HB (narrowed W w) dwsets) as (hs & Hf & H); try assumption;
    [apply (narrowed_bytes W HW)|destruct w; [contradiction|discriminate]|rewrite narrowed_length; exact Hl|].
  exists hs. split; [exact Hf|]. intros p cch mem idform junk szword szform Hg Hc Hm Hz. unfold wc_find_forms.
  destruct (wide_find_run W (fun out psz cch f sets => find_forms A junk out psz cch f sets) szword szform mem p cch idform dwsets w Hg Hne Hm) as [K _].
  destruct (K Hc) as (psz & n & Hn & ->). destruct (le_dec (length mem) 1) as [H1|H1].
  - apply wide_one; [exact H1|]. destruct (canonic_facts (narrowed W w)) as (v & Ev & _); try assumption;
      [apply (narrowed_bytes W HW)|destruct w; [contradiction|discriminate]|rewrite narrowed_length; exact Hl|].
    unfold find_forms. rewrite (to_canonic_given _ _ _ Hn) by (destruct w; [contradiction|discriminate]). rewrite Ev. reflexivity.
  - apply (wide_forms_delivered W HW); [exact Hz|lia|eapply reading_forms_no_nul; eassumption|]. apply H; [exact Hn|]. apply room_more; [lia|exact Hz].
Qed.
