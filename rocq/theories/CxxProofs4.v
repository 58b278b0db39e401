(** * CxxProofs4: the vectors of lexemes, English; the guesser. *)
From Coq Require Import Permutation.
From Verif Require Import Base Serial WordTree TreeSpec FlatScan Stems StemSpec CharTables CapScheme CapSpec CapProofs GramMap RusRuntime LevelSpec RusSpec RusProofs
  RusProofs2 RusProofs3 PropRusLemmas RusBuild RusBuildSpec RusBuildProofs RusBuildProofs2 RusBuildProofs3 RusReadings RusReadingsProofs RusLemmaSpec RusLemmaProofs
  PropBuildLemmas RusLemmaProofs5 PropLemmasLemmas EngRuntime EngSpec EngFormsSpec EngBuildProofs EngProofs2 EngProofs2 EngProofs2 EngProofs2 EngProofs2 EngProofs2 EngProofs2 EngReadingsProofs EngLemmaSpec EngLemmaProofs PropEngLemmas PropEngLemmas2
  Fuzzy FuzzySpec FuzzyProofs2 FuzzyProofs3 FuzzyProofs4 FuzzyProofs3 FuzzyProofs4 FuzzyProofs3 FuzzyProofs4 FuzzyProofs3 FuzzyProofs4 FuzzyProofs3 FuzzyProofs4 FuzzyProofs3 FuzzyProofs4 FuzzyProofs3 FuzzyProofs4 FuzzyProofs5 FuzzyProofs6 PropFuzzyLemmas PropFuzzyLemmas PropFuzzyLemmas PropFuzzyLemmas PropFuzzyLemmas PropFuzzyLemmas PropFuzzyLemmas CxxApi CxxSpec CxxProofs CxxProofs2 CxxProofs3.
Local Open Scope N_scope.

Theorem cxx_elemmatize_answer A L : eholds A L -> ebuildable L -> forall w dwsets,
  is_bytes w -> w <> [] -> (length w < 48)%nat -> (length (eparts w) <= 8)%nat ->
  exists hs, efound L (bit 1 dwsets) w hs /\
    (Forall (fun g => er_dict_forms (ex_first g) <> []) (egrouped hs) -> (forall g, nth_error (egrouped hs) 31 = Some g -> ex_more g = []) ->
     forall psz cch junk grow lxbuff stbuff grbuff, given w psz cch -> length lxbuff = 32%nat -> length stbuff = 256%nat -> length grbuff = 64%nat ->
     exists ls, Forall2 (fun g l => elemma_of (ex_first g) l) (egrouped hs) ls /\
       reported (map ereport (combine (egrouped hs) ls)) (elexemes_fit (egrouped hs) ls)
         (cxx_elemmatize A junk grow lxbuff stbuff grbuff psz cch dwsets)).
Proof.
  intros HL HB w dwsets Hb Hw Hlen Hp. destruct (elemmatize_answer A L HL HB w dwsets Hb Hw Hlen Hp) as (hs & Hf & _ & H). exists hs. split; [exact Hf|].
  intros Hne H31 psz cch junk grow lxbuff stbuff grbuff Hg L1 L2 L3.
  assert (Hsafe : esafe_call (elexemes_of (Some lxbuff) hs) (Some lxbuff) (Some stbuff) (Some grbuff)).
  { split; [intros _; exact Hne|]. intros mem g [= <-] _ _. rewrite L1. apply H31. }
  destruct (H psz cch (Some lxbuff) (Some stbuff) (Some grbuff) junk Hg Hsafe) as (ls & z & p1 & p2 & p3 & Hl & Hls & Hr & S1 & S2 & S3 & Hyes & Hno).
  cbn [elexemes_of] in *. set (gs := egrouped hs) in *. exists ls. split; [apply Hls; discriminate|].
  assert (Hfit : eall_fit gs ls (Some lxbuff) (Some stbuff) (Some grbuff) <-> elexemes_fit gs ls).
  { unfold eall_fit, elexemes_fit. split.
    - intros (F1 & F2 & F3). specialize (F1 _ eq_refl). specialize (F2 _ eq_refl). specialize (F3 grbuff ltac:(discriminate) eq_refl). rewrite L1 in F1. rewrite L2 in F2. rewrite L3 in F3. tauto.
    - intros (F1 & F2 & F3 & F4). split; [intros m [= <-]; rewrite L1; exact F1|]. split; [intros m [= <-]; rewrite L2; tauto|]. intros m _ [= <-]. rewrite L3. exact F4. }
  rewrite Hfit in Hyes, Hno.
  assert (Ecxx : cxx_elemmatize A junk grow lxbuff stbuff grbuff psz cch dwsets =
    match p1, p2, p3 with Some lx, Some st, Some gr => lexemes_from grow z (map lemm_info lx) st gr | _, _, _ => Ub end)
    by (clear - Hr; unfold cxx_elemmatize, bytes in *; rewrite Hr; reflexivity).
  rewrite Ecxx. clear Ecxx Hr. split.
  - intros Hroom. destruct (Hyes Hroom) as (-> & D1 & D2 & D3). destruct (D1 lxbuff eq_refl) as (lx & -> & Hcell & _). rewrite (D2 stbuff eq_refl), (D3 grbuff eq_refl).
    set (ts := map eitem_of (combine gs ls)).
    assert (E1 : map t_lemma ts = ls) by (unfold ts; rewrite map_map; cbn [eitem_of t_lemma]; rewrite (map_combine_r (fun l => l)) by lia; apply map_id).
    assert (E2 : map t_block ts = map (fun g => concat (estored g)) gs) by (unfold ts; rewrite map_map; transitivity (map (fun p => concat (estored (fst p))) (combine gs ls)); [reflexivity|apply (map_combine_l (fun g => concat (estored g))); lia]).
    assert (E3 : length gs = length ts) by (unfold ts; rewrite map_length, combine_length; lia).
    destruct (items_ok grow lx ts stbuff (skipn (length (concat (flat_map estored gs))) grbuff)) as (xs & X1 & X2 & X3).
    + intros i t Ht. unfold ts in Ht. rewrite nth_error_map in Ht. destruct (nth_error (combine gs ls) i) as [[g l]|] eqn:E; [|discriminate]. injection Ht as <-.
      rewrite (Hcell i g (combine_nth_l _ _ _ _ _ E)). unfold elemm_cell, t_cell, eitem_of. cbn [t_id t_lemma t_grams t_more fst snd]. rewrite E1, E2.
      rewrite concat_flat, firstn_map. reflexivity.
    + unfold ts. rewrite Forall_map. cbn [eitem_of t_lemma]. pose proof (Forall2_combine _ _ _ (Hls ltac:(discriminate))) as Hc. rewrite Forall_forall in *.
      intros [g l] Hin. cbn [fst snd]. eapply (elemma_no_nul A L _ w hs (ex_first g) l HL HB Hf); [|apply (Hc _ Hin)].
      apply egrouped_in. eapply in_combine_l, Hin.
    + rewrite E1, E2 in X1. rewrite <- concat_flat in X1. rewrite E3. rewrite X1. exists xs. split; [reflexivity|]. split; [|exact X3].
      rewrite X2. unfold ts. rewrite map_map. reflexivity.
  - intros Hroom. specialize (Hno Hroom). destruct p1 as [p1|], p2 as [p2|], p3 as [p3|]; try discriminate. apply thrown_room. exact Hno.
Qed.

(** ** The guesser *)
Lemma perm_forall2 {X Y} (R : X -> Y -> Prop) : forall l l', Permutation l l' -> forall rows, Forall2 R l rows ->
  exists rows', Permutation rows rows' /\ Forall2 R l' rows'.
Proof.
  induction 1 as [|x l l' H IH|x y l|l l' l'' H1 IH1 H2 IH2]; intros rows Hr.
  - inversion Hr; subst. exists []. split; constructor.
  - inversion Hr as [|? b ? rows0 Hb Hr0]; subst. destruct (IH rows0 Hr0) as (rows' & P1 & P2). exists (b :: rows'). split; [constructor; exact P1|constructor; assumption].
  - inversion Hr as [|? b ? rows0 Hb Hr0]; subst. inversion Hr0 as [|? b' ? rows1 Hb' Hr1]; subst. exists (b' :: b :: rows1). split; [constructor|]. repeat (constructor; try assumption).
  - destruct (IH1 rows Hr) as (r1 & P1 & Q1). destruct (IH2 r1 Q1) as (r2 & P2 & Q2). exists r2. split; [eapply Permutation_trans; eassumption|exact Q2].
Qed.

Section Guesses.
  Variables (cls : N -> class_src) (rank : N -> N -> N -> N -> bool -> Z) (low : bytes).

  Definition good_stem (st : bytes) (gr : list gram) (s : stem_info) (row : N * N * Z * bytes * list gram) : Prop :=
    (exists x, lexeme_from st gr (stem_of_info s) = Ok x /\ seen (lexeme_moved x) = row /\ self_contained (lexeme_moved x)) /\
    snd (fst (fst row)) = sweight s.

  Lemma stems_good st gr : forall rs pre post gpre gpost, Forall (fun r => ~ In 0 (normal_of cls low r)) rs ->
    st = pre ++ joined (map (normal_of cls low) rs) ++ post -> gr = gpre ++ flat_map (descriptions cls) rs ++ gpost ->
    Forall2 (good_stem st gr) (stems_of cls rank low true true (length pre) (length gpre) rs) (map (guess_row cls rank low) rs).
  Proof.
    induction rs as [|r rs IH]; intros pre post gpre gpost Hz Hst Hgr; cbn [stems_of map]; constructor.
    - split; [|reflexivity]. cbn [map joined flat_map] in Hst, Hgr. fold (joined (map (normal_of cls low) rs)) in Hst. inversion Hz as [|? ? Hz1 Hz2]; subst.
      eapply lexeme_from_eq with (pre := pre) (l := normal_of cls low r) (post := joined (map (normal_of cls low) rs) ++ post) (gpre := gpre) (gs := descriptions cls r)
        (gpost := flat_map (descriptions cls) rs ++ gpost).
      + reflexivity.
      + rewrite <- !app_assoc. reflexivity.
      + exact Hz1.
      + reflexivity.
      + unfold descriptions. rewrite map_length. reflexivity.
      + rewrite <- !app_assoc. reflexivity.
    - inversion Hz as [|? ? Hz1 Hz2]; subst.
      replace (length pre + length (normal_of cls low r) + 1)%nat with (length (pre ++ normal_of cls low r ++ [0])) by (rewrite !app_length; cbn [length]; lia).
      replace (length gpre + length r)%nat with (length (gpre ++ descriptions cls r)) by (rewrite app_length; unfold descriptions; rewrite map_length; reflexivity).
      apply (IH _ post _ gpost); [exact Hz2| |]; cbn [map joined flat_map]; rewrite <- !app_assoc; reflexivity.
  Qed.

  Lemma falling_rows st gr : forall l rows, falling l -> Forall2 (good_stem st gr) l rows -> by_falling_weight rows.
  Proof.
    induction l as [|s l IH]; intros rows Hf H; inversion H as [|? row ? rows0 [_ Hw] Hr]; subst; [exact I|]. destruct Hf as [Hf1 Hf2]. split; [|apply IH; assumption].
    clear - Hf1 Hr Hw. induction Hr as [|s' row' l rows0 [_ Hw'] Hr IH]; [constructor|]. inversion Hf1; subst. constructor; [lia|apply IH; assumption].
  Qed.
End Guesses.

Lemma good_infos st gr l rows : Forall2 (good_stem st gr) l rows ->
  Forall2 (fun i row => exists x, lexeme_from st gr i = Ok x /\ seen (lexeme_moved x) = row /\ self_contained (lexeme_moved x)) (map stem_of_info l) rows.
Proof. induction 1 as [|s row l rows [H _] _ IH]; constructor; assumption. Qed.

Lemma normal_no_nul F t cls w l r : guesser F t cls -> proper w -> (forall x, In x l -> In x (guesses (contents t) (map (locase rus_casing) w))) -> In r (runs l) ->
  ~ In 0 (normal_of cls (map (locase rus_casing) w) r).
Proof.
  intros HG (Hb & _ & _ & _ & H0) Hl Hr. assert (Hne : r <> []) by (pose proof (runs_nonempty l) as H; rewrite Forall_forall in H; exact (H r Hr)).
  destruct r as [|g r0] eqn:Er; [congruence|]. rewrite <- Er in *. destruct (runs_members l r g Hr ltac:(rewrite Er; left; reflexivity)) as (Hin & Ec & _).
  apply Hl in Hin. pose proof (guess_fine F t cls _ g HG Hin) as Hok. unfold normal_of. apply respell_no_nul; [exact rus_upper|]. intros H. apply in_app_iff in H as [H|H].
  - apply (nonul_low w Hb H0). rewrite <- (firstn_skipn (stem_len r) (map (locase rus_casing) w)). apply in_app_iff. left. exact H.
  - rewrite Ec in H. destruct (go_class _ _ _ _ Hok) as (Hc & _). pose proof (co_flex _ Hc) as Hx. rewrite Forall_forall in Hx.
    destruct (c_inflex (cls (r_class (snd g)))) as [|f fs]; [destruct H|]. apply (Hx f (or_introl eq_refl)). exact H.
Qed.

Theorem cxx_fuzzy_lemmatize_answer rank sort junk F t cls below lojunk grow astems aforms agrams w psz cch dwsets l :
  guesser F t cls -> (forall x, Permutation x (sort x) /\ falling (sort x)) ->
  proper w -> given w psz cch -> readable below t (rev (map (locase rus_casing) w)) -> (forall n, stopped (junk n)) ->
  acceptable_guesses cls (bit 1 dwsets) w (guesses (contents t) (map (locase rus_casing) w)) l ->
  length astems = 32%nat -> length aforms = 512%nat -> length agrams = 80%nat ->
  let low := map (locase rus_casing) w in
  let r := cxx_fuzzy_lemmatize rank sort junk F below lojunk grow astems aforms agrams psz cch dwsets in
  (guesses_fit cls low (runs l) -> exists xs, r = Ok (Returned xs) /\ Permutation (map (guess_row cls rank low) (runs l)) (map seen xs) /\
     by_falling_weight (map seen xs) /\ Forall self_contained xs) /\
  (~ guesses_fit cls low (runs l) -> exists e, r = Ok (Thrown e)).
Proof.
  intros HG Hsort Hw Hg Hread Hj Hacc L1 L2 L3. cbv zeta.
  destruct (fuzzy_lemmatize_exact rank sort junk F t cls below lojunk w psz cch (Some astems) (Some aforms) (Some agrams) dwsets l HG (fun x => proj1 (Hsort x)) Hw Hg Hread (fun _ => Hj) Hacc) as [Hyes Hno].
  cbv zeta in Hyes, Hno. set (low := map (locase rus_casing) w) in *. set (rs := runs l) in *.
  assert (Hfit : (room_for cls low (Some aforms) (Some agrams) rs /\ (length rs <= length astems)%nat) <-> guesses_fit cls low rs).
  { unfold room_for, guesses_fit. rewrite L1, L2, L3. split; [tauto|]. intros (F1 & F2 & F3 & F4). split; [|exact F1]. split; [lia|]. split; [split; assumption|exact F4]. }
  assert (Hl : forall x, In x l -> In x (guesses (contents t) low)).
  { destruct Hacc as (ok & _ & ->). intros x Hx. apply filter_In in Hx. apply Hx. }
  split.
  - intros Hroom. specialize (Hyes (proj2 Hfit Hroom)). unfold answer in Hyes. cbn [option_map is_some] in Hyes.
    set (stems := stems_of cls rank low true true 0 0 rs) in *. unfold put_front in Hyes.
    assert (Ecxx : cxx_fuzzy_lemmatize rank sort junk F below lojunk grow astems aforms agrams psz cch dwsets =
      lexemes_from grow (Z.of_nat (length rs)) (map stem_of_info (sort stems ++ skipn (length (sort stems)) astems)) (filled (map (normal_of cls low) rs) aforms)
        (flat_map (descriptions cls) rs ++ skipn (length (flat_map (descriptions cls) rs)) agrams))
      by (clear - Hyes; unfold cxx_fuzzy_lemmatize, bytes in *; rewrite Hyes; reflexivity).
    rewrite Ecxx. clear Ecxx Hyes.
    set (st := filled _ _). set (gr := flat_map _ _ ++ _).
    assert (Hgood : Forall2 (good_stem st gr) stems (map (guess_row cls rank low) rs)).
    { apply (stems_good cls rank low st gr rs [] (after (map (normal_of cls low) rs) aforms) [] (skipn (length (flat_map (descriptions cls) rs)) agrams)); [|reflexivity|reflexivity].
      apply Forall_forall. intros r Hr. eapply normal_no_nul; eassumption. }
    destruct (Hsort stems) as [Hp Hf]. destruct (perm_forall2 _ _ _ Hp _ Hgood) as (rows & P1 & P2).
    rewrite map_app.
    assert (El : length rs = length rows) by (rewrite <- (Permutation_length P1), map_length; reflexivity). rewrite El.
    destruct (lexemes_from_eq grow (map stem_of_info (sort stems)) st gr rows (good_infos _ _ _ _ P2) (map stem_of_info (skipn (length (sort stems)) astems))) as (xs & X1 & X2 & X3).
    exists xs. split; [exact X1|]. rewrite X2. split; [exact P1|]. split; [|exact X3]. eapply falling_rows; eassumption.
  - intros Hroom. destruct Hno as (z & forms & grams & Hr & Hz & S1 & S2); [intros H; apply Hroom, Hfit, H|].
    destruct forms as [fm|]; [|discriminate]. destruct grams as [gm|]; [|discriminate]. exists (thrown_for z).
    unfold cxx_fuzzy_lemmatize, bytes in *. rewrite Hr. cbn [bind]. unfold lexemes_from. destruct (Z.leb_spec 0 z); [lia|reflexivity].
Qed.

(** ... and back: the lexemes returned rebuild the word *)
Lemma respelled_prefix cs : casing_ok cs -> forall w pat b k, Forall (good_char cs) (firstn k w) ->
  map (locase cs) (firstn k (respell_by cs pat b w)) = firstn k w /\ is_bytes (firstn k (respell_by cs pat b w)).
Proof.
  intros Hok. induction w as [|c w IH]; intros pat b [|k] H; try (split; [reflexivity|constructor]). cbn [firstn] in H. inversion H as [|? ? Hc Hw]; subst. cbn [respell_by].
  assert (Hc' : c < 256 /\ locase cs c = c /\ upcase cs c < 256 /\ ((ctype cs c =? 2) = false -> locase cs (upcase cs c) = c)).
  { destruct Hc as [(H1 & H2 & H3 & _)|(H1 & H2 & H3)].
    - repeat match goal with |- _ /\ _ => split end; try assumption; [apply (ok_range _ Hok c H1)|intros _; apply (ok_up _ Hok); assumption].
    - repeat match goal with |- _ /\ _ => split end; try assumption; [apply (ok_delim _ Hok c); assumption|apply (ok_range _ Hok c H1)|]. unfold is_delim in H2. rewrite H2. discriminate. }
  destruct Hc' as (C1 & C2 & C3 & C4). destruct (ctype cs c =? 2) eqn:E; cbn [firstn map].
  - destruct (IH (tl pat) true k Hw) as [I1 I2]. split; [rewrite I1, C2; reflexivity|constructor; assumption].
  - destruct (IH pat false k Hw) as [I1 I2]. destruct (hd 0 pat) as [|[| |]]; try destruct b; (split; [rewrite I1, ?C2, ?(C4 eq_refl); reflexivity|constructor; assumption]).
Qed.

Lemma acceptable_exists cls ig w l : proper w -> exists l', acceptable_guesses cls ig w l l'.
Proof.
  intros (Hb & Hne & Hlen & Hp & _). destruct (fuzzy_canonic_facts w Hb Hne Hlen Hp) as (v & _ & _ & _ & _ & Hs & _).
  exists (filter (fun g => ig || IsGoodSheme (N.land v 0xffff) (required_case (c_partsp (cls (r_class (snd g)))))) l).
  eexists. split; [|reflexivity]. intros g _. cbv beta. rewrite orb_true_iff, Hs. reflexivity.
Qed.
Lemma guesses_fit_dec cls low rs : guesses_fit cls low rs \/ ~ guesses_fit cls low rs.
Proof.
  unfold guesses_fit, fit.
  destruct (le_dec (length rs) 32); [|right; tauto].
  destruct (Forall_dec (fun r => (length (normal_of cls low r) <= 63)%nat) (fun r => le_dec _ _) rs); [|right; tauto].
  destruct (le_dec (length (flat_map (descriptions cls) rs)) 80); [|right; tauto].
  destruct (list_eq_dec (list_eq_dec N.eq_dec) (map (normal_of cls low) rs) []); [left; tauto|].
  destruct (le_dec (total (map (normal_of cls low) rs) + 1) 512); [left; tauto|right].
  tauto.
Qed.
Lemma runs_classes l : forall r g, In r (runs l) -> In g r -> class_no r = r_class (snd g).
Proof. intros r g H1 H2. apply (runs_members l r g H1 H2). Qed.
Lemma numbered_flex msort cs i c : nth_error cs (N.to_nat i) = Some c -> numbered msort cs i = sorted_class msort c.
Proof. intros E. unfold numbered. rewrite (nth_error_nth _ _ _ E). reflexivity. Qed.

Theorem cxx_guess_back rank sort msort junk F t cs below lojunk grow astems aforms agrams w psz cch dwsets xs x g lojunk' junk' buffer :
  (forall l, Permutation l (msort l)) -> compiled msort cs t F -> Forall source_ok cs -> N.of_nat (length cs) < 2 ^ 32 -> Forall (fun c => by_form (c_inflex c)) cs ->
  (forall l, Permutation l (sort l) /\ falling (sort l)) ->
  proper w -> (length w <= 49)%nat -> Forall (good_char rus_casing) (map (locase rus_casing) w) -> given w psz cch ->
  readable below t (rev (map (locase rus_casing) w)) -> (forall n, stopped (junk n)) ->
  length astems = 32%nat -> length aforms = 512%nat -> length agrams = 80%nat -> length buffer = 256%nat -> stopped junk' ->
  cxx_fuzzy_lemmatize rank sort junk F below lojunk grow astems aforms agrams psz cch dwsets = Ok (Returned xs) -> In x xs -> In g (x_grams x) ->
  exists fs, all_or_none 256 fs True (cxx_fuzzy_build_of F lojunk' junk' buffer x (gidForm g)) /\
    In (respell rus_casing (required_case (gwdInfo g)) (map (locase rus_casing) w)) fs.
Proof.
  intros Hms HC Hcs Hn Hby Hsort Hw Hlen Hgood Hg Hread Hj L1 L2 L3 L4 Hj' Hr Hx Hgr.
  pose proof (compiled_guesser msort Hms cs t F HC Hcs Hn) as HG. set (cls := numbered msort cs) in *. set (low := map (locase rus_casing) w) in *.
  destruct (acceptable_exists cls (bit 1 dwsets) w (guesses (contents t) low) Hw) as (l & Hacc).
  destruct (cxx_fuzzy_lemmatize_answer rank sort junk F t cls below lojunk grow astems aforms agrams w psz cch dwsets l HG Hsort Hw Hg Hread Hj Hacc L1 L2 L3) as [Hyes Hno].
  cbv zeta in Hyes, Hno. fold low in Hyes, Hno. rewrite Hr in Hyes, Hno.
  assert (Hl : forall y, In y l -> In y (guesses (contents t) low)).
  { destruct Hacc as (ok & _ & ->). intros y Hy. apply filter_In in Hy. apply Hy. }
  destruct (guesses_fit_dec cls low (runs l)) as [Hfit|Hfit]; [|destruct (Hno Hfit) as (e & He); discriminate].
  destruct (Hyes Hfit) as (xs' & [= <-] & Hp & _ & Hself).
  assert (Hrow : In (seen x) (map (guess_row cls rank low) (runs l))) by (eapply Permutation_in; [apply Permutation_sym, Hp|apply in_map, Hx]).
  apply in_map_iff in Hrow as (r & Er & Hrr). rewrite Forall_forall in Hself. destruct (Hself x Hx) as (S1 & _).
  unfold seen, guess_row in Er. injection Er as E1 E2 E3. unfold cxx_fuzzy_build_of. rewrite <- E1, S1, <- E2.
  rewrite <- E3 in Hgr. unfold descriptions in Hgr. apply in_map_iff in Hgr as (q & Eq & Hq). subst g. cbn [gidForm gwdInfo].
  set (w' := firstn (stem_len r) (normal_of cls low r)).
  destruct (runs_members l r q Hrr Hq) as (Hin & Ec & Es). apply Hl in Hin. pose proof (guess_fine F t cls low q HG Hin) as Hok.
  pose proof (go_stem _ _ _ _ Hok) as Hst. pose proof Hw as (Wb & Wne & Wlen & Wp & W0).
  assert (Hlow : length low = length w) by (unfold low; apply map_length).
  assert (Hk : (stem_len r <= length low)%nat) by (rewrite Es; exact Hst).
  pose (whole := firstn (stem_len r) low ++ snd (hd (0, []) (c_inflex (cls (class_no r))))).
  assert (Ek : firstn (stem_len r) whole = firstn (stem_len r) low).
  { unfold whole. rewrite firstn_app, firstn_length, Nat.min_l by exact Hk. rewrite Nat.sub_diag, firstn_O, app_nil_r, firstn_firstn, Nat.min_id. reflexivity. }
  assert (Hpre : map (locase rus_casing) w' = firstn (stem_len r) low /\ is_bytes w').
  { unfold w', normal_of, respell. fold whole.
    destruct (respelled_prefix rus_casing rus_ok whole (pattern (length (parts rus_casing whole)) (required_case (c_partsp (cls (class_no r))))) true (stem_len r)) as [P1 P2].
    - rewrite Ek. rewrite <- (firstn_skipn (stem_len r) low) in Hgood. apply Forall_app in Hgood. apply Hgood.
    - rewrite Ek in P1. split; assumption. }
  destruct Hpre as [P1 P2].
  assert (Hlw : length w' = stem_len r) by (rewrite <- (map_length (locase rus_casing)), P1, firstn_length; lia).
  assert (Hpw : proper (firstn (stem_len r) w)) by (apply proper_prefix; [exact Hw|]; rewrite Es; lia).
  assert (Elow : map (locase rus_casing) (firstn (stem_len r) w) = firstn (stem_len r) low) by (unfold low; symmetry; apply firstn_map).
  assert (Hpw' : proper w').
  { split; [exact P2|]. split; [intros E; rewrite E in Hlw; cbn [length] in Hlw; lia|]. split; [lia|]. split.
    - rewrite <- (lower_parts w' P2), P1, <- Elow. rewrite (lower_parts _ (proj1 Hpw)). apply Hpw.
    - intros H0. apply (normal_no_nul F t cls w l r HG Hw Hl Hrr). fold low. rewrite <- (firstn_skipn (stem_len r) (normal_of cls low r)). apply in_app_iff. left. exact H0. }
  assert (Hgiv : given w' (Some (normal_of cls low r ++ [0])) (N.of_nat (stem_len r))).
  { replace (normal_of cls low r ++ [0]) with (w' ++ (skipn (stem_len r) (normal_of cls low r) ++ [0])) by (unfold w'; rewrite app_assoc, firstn_skipn; reflexivity).
    rewrite <- Hlw. constructor. assert (N.of_nat 256 < 2 ^ 64 - 1) by (vm_compute; reflexivity). lia. }
  destruct q as [n [i p id]]. cbn [fst snd r_class r_form] in *. subst i. pose proof Hin as Hin'.
  apply (compiled_guesses msort cs t F low n (class_no r) p id HC Hcs) in Hin. destruct Hin as (m & f & He & Hpm & Hf).
  pose proof He as (c & E5 & E6 & E7 & E8 & E9). rewrite Forall_forall in Hcs. pose proof (Hcs c (nth_error_In _ _ E5)) as Hc.
  pose proof (find_source msort cs _ c E5) as Ef. rewrite Nnat.N2Nat.id in Ef. fold cls in Ef.
  rewrite Forall_forall in Hby. pose proof (Hby c (nth_error_In _ _ E5)) as Hb.
  exists (variants (cls (class_no r)) (firstn (stem_len r) low) id). split.
  - rewrite <- P1. apply cxx_fuzzy_build; try assumption.
    + exact (go_class _ _ _ _ Hok).
    + rewrite Ef. exact Hb.
    + rewrite Ef. intros f' Hf' _. cbn [sorted_class c_inflex] in Hf'. pose proof (so_flex _ Hc) as Hx'. rewrite Forall_forall in Hx'. destruct (Hx' f' Hf') as (_ & Hx2 & _).
      rewrite Hlw. unfold bytes in *. lia.
  - unfold variants. rewrite Ef. cbn [sorted_class c_partsp c_inflex]. apply in_map_iff. exists f. split; [|apply filter_In; split; [exact E7|apply N.eqb_eq; exact Hf]].
    f_equal. rewrite Es. apply (ends_like_word cs low n (class_no r) m f He).
    pose proof (accepted_suffix c (so_accepted _ Hc)) as Hs. rewrite Forall_forall in Hs. exact (Hs m E6).
Qed.
