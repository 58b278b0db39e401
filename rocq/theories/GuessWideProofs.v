(** * GuessWideProofs: the wide-character guessers.  PROOFS ONLY. *)
From Coq Require Import Permutation.
From Verif Require Import Base Serial SerialProofs TreeSpec FlatScanProofs CharTables CapScheme CapSpec CapProofs CapProofs2 CapProofs3 GramMap RusRuntime
  LevelSpec LevelProofs RusSpec RusProofs RusProofs2 RusProofs3 RusBuild RusBuildSpec RusBuildProofs RusBuildProofs2 RusBuildProofs3 Codepage CodepageSpec CodepageProofs
  WideApi WideSpec WideProofs CxxProofs2
  Fuzzy FuzzySpec FuzzyProofs FuzzyProofs2 FuzzyProofs3 FuzzyProofs4 FuzzyProofs5 FuzzyProofs6 PropFuzzyLemmas Guess GuessSpec GuessProofs GuessProofs2 GuessProofs3 PropGuessLemmas
  GuessWide GuessWideSpec.
Local Open Scope N_scope.

Lemma map_encode_plain fs : map (encode plain) fs = fs.
Proof. induction fs as [|f fs IH]; [reflexivity|]. cbn [map]. rewrite encode_plain, IH. reflexivity. Qed.
Lemma fit_in_plain n fs : fit_in plain n fs <-> fit n fs.
Proof. unfold fit_in, fit. rewrite map_encode_plain. reflexivity. Qed.
Lemma filled_in_plain fs mem : filled_in plain fs mem = joined fs ++ after_in plain fs mem.
Proof. unfold filled_in. rewrite map_encode_plain. reflexivity. Qed.

Section Wide.
  Variable W : wide.
  Hypothesis HW : wide_ok W.
  Variable T : tongue.
  Variable F : fuzzy.

  Lemma nonul_cased psp s : ~ In 0 s -> ~ In 0 (cased T psp s).
  Proof using. clear. intros H. destruct T; cbn [cased]; [apply respell_no_nul; [exact rus_upper|exact H]|exact H]. Qed.

  Lemma to_narrow_given arr p cch w : given w (Some p) cch -> short_stem W w cch -> ~ In 0 (narrowed W w) ->
    exists stem n, to_narrow W arr 64 p cch = Ok (Some (stem, n)) /\ given (narrowed W w) (Some stem) cch.
  Proof using.
    clear. intros Hg [Hl Ht] H0.
    assert (Hw : (if cch =? 2 ^ 64 - 1 then cstr p else if N.of_nat (length p) <? cch then Ub else Ok (firstn (N.to_nat cch) p)) = Ok w).
    { inversion Hg as [w' aft Hlt E1 E2 E3|w' aft H1 E1 E2 E3]; subst.
      - destruct (N.eqb_spec (N.of_nat (length w)) (2 ^ 64 - 1)); [lia|].
        destruct (N.ltb_spec (N.of_nat (length (w ++ aft))) (N.of_nat (length w))) as [H|_]; [rewrite app_length in H; lia|].
        rewrite Nnat.Nat2N.id, firstn_app, firstn_all, Nat.sub_diag, firstn_O, app_nil_r. reflexivity.
      - rewrite N.eqb_refl. apply cstr_app, H1. }
    unfold to_narrow. rewrite Hw. cbn [bind]. unfold convert. rewrite map_length. destruct (Nat.ltb_spec 64 (length w + wslack W)); [lia|].
    do 2 eexists. split; [reflexivity|]. unfold overwrite. fold (narrowed W w). inversion Hg as [w' aft Hlt E1 E2 E3|w' aft H1 E1 E2 E3]; subst.
    - assert (El : length (narrowed W w) = length w) by apply map_length. rewrite <- El at 1 3. destruct (Nat.ltb (length (narrowed W w)) 64).
      + rewrite <- app_assoc. constructor. rewrite El. exact Hlt.
      + rewrite <- El. constructor. rewrite El. exact Hlt.
    - specialize (Ht eq_refl). destruct (Nat.ltb_spec (length w) 64); [|lia]. rewrite <- app_assoc. cbn [app]. constructor. exact H0.
  Qed.

  Theorem wg_build_exact lojunk junk slemma szform mem w p cch i c id : has_class F i c -> by_form (c_inflex c) ->
    proper_in T Win1251 (narrowed W w) -> given w (Some p) cch -> short_stem W w cch -> workable T junk -> length szform = 96%nat ->
    (forall f, In f (c_inflex c) -> fst f = id -> (length w + length (snd f) <= longest T)%nat) ->
    guess_delivered W mem (variants_in T c (low_in T (narrowed W w)) id) (wg_build_form W T F lojunk junk slemma szform (Some mem) (Some p) cch i id).
  Proof using HW.
    intros Hc Hby Hw Hg Hs Hj Hz Hlen. pose proof Hw as (Hb & Hne & _ & _ & _ & H0).
    destruct (to_narrow_given slemma p cch w Hg Hs H0) as (stem & n & E & Hgn).
    unfold wg_build_form. rewrite E. cbn [bind]. clear E.
    assert (Hlw : length (narrowed W w) = length w) by apply map_length.
    set (room := Nat.min (length mem) 95). set (fs := variants_in T c (low_in T (narrowed W w)) id).
    assert (Hfs : Forall (fun f => ~ In 0 f) fs).
    { unfold fs, variants_in. rewrite Forall_map. apply Forall_forall. intros f Hf. apply filter_In in Hf as [Hf _]. apply nonul_cased. intros Hin.
      apply in_app_iff in Hin as [Hin|Hin]; [exact (gnonul T (narrowed W w) Hb H0 Hin)|]. destruct Hc as [Hok _]. pose proof (co_flex _ Hok) as Hx. rewrite Forall_forall in Hx.
      destruct (Hx f Hf) as (_ & _ & Hx0). contradiction. }
    assert (Hr : length (firstn room szform) = room) by (rewrite firstn_length; unfold room; lia).
    split; [|split].
    - intros ->. cbn [room length Nat.min firstn]. cbn [length] in room. unfold gbuild_form.
      rewrite (gcanonic_given T Win1251 (narrowed W w) (Some stem) cch Hgn Hne Hne) by apply Hw.
      destruct (gcanonic_facts T Win1251 _ Hw) as (v & Ev & _). change (text_of Win1251 (narrowed W w)) with (narrowed W w). rewrite Ev. cbn [bind]. reflexivity.
    - intros Hm Hfit.
      assert (D : delivered_in (coding Win1251) (firstn room szform) fs True (gbuild_form T Win1251 F lojunk junk (Some (firstn room szform)) (Some stem) cch i id)).
      { apply (gbuild_exact T Win1251 F lojunk junk (firstn room szform) (narrowed W w) (Some stem) cch i c id); try assumption; [apply plain_ok| |].
        - intros Hx. apply (f_equal (@length N)) in Hx. rewrite Hr in Hx. unfold room in Hx. destruct mem; [congruence|cbn [length Nat.min] in Hx; lia].
        - intros f H1 H2. change (text_of Win1251 (narrowed W w)) with (narrowed W w). rewrite Hlw. apply Hlen; assumption. }
      destruct D as [D _]. cbn [coding] in D. rewrite Hr, fit_in_plain in D.
      assert (Hf2 : fit room fs) by (destruct Hfit as [H|H]; [left; exact H|right; exact H]). rewrite D by (split; [exact I|exact Hf2]). cbn [bind].
      destruct fs as [|f fs'] eqn:Efs; [reflexivity|]. rewrite <- Efs in *. destruct (Z.leb_spec (Z.of_nat (length fs)) 0) as [H|_]; [rewrite Efs in H; cbn [length] in H; lia|].
      rewrite Nat2Z.id, filled_in_plain, <- app_assoc.
      assert (Ht : (total fs <= length mem)%nat) by (destruct Hfit as [H|H]; [rewrite Efs in H; discriminate|lia]).
      pose proof (widen_eq W HW fs [] mem (after_in plain fs (firstn room szform) ++ skipn room szform) Hfs Ht) as Hwd. cbn [app] in Hwd. change (@length N []) with 0%nat in Hwd.
      unfold bytes in *. rewrite Hwd. reflexivity.
    - intros Hm Hfit.
      assert (D : delivered_in (coding Win1251) (firstn room szform) fs True (gbuild_form T Win1251 F lojunk junk (Some (firstn room szform)) (Some stem) cch i id)).
      { apply (gbuild_exact T Win1251 F lojunk junk (firstn room szform) (narrowed W w) (Some stem) cch i c id); try assumption; [apply plain_ok| |].
        - intros Hx. apply (f_equal (@length N)) in Hx. rewrite Hr in Hx. unfold room in Hx. destruct mem; [congruence|cbn [length Nat.min] in Hx; lia].
        - intros f H1 H2. change (text_of Win1251 (narrowed W w)) with (narrowed W w). rewrite Hlw. apply Hlen; assumption. }
      destruct D as [_ D]. cbn [coding] in D. rewrite Hr, fit_in_plain in D.
      destruct D as (m' & _ & ->); [intros [_ [H|H]]; apply Hfit; [left; exact H|right; exact H]|]. reflexivity.
  Qed.

  (** ** Samples *)
  Lemma fitting_plain l : forall n, fitting_in plain n l = fitting n l.
  Proof using.
    clear. induction l as [|s l IH]; intros n; [reflexivity|]. cbn [fitting_in fitting]. rewrite encode_plain. cbn [plain slack].
    replace (Nat.leb (length s + 1) n) with (Nat.ltb (length s) n) by (unfold Nat.ltb; f_equal; lia). destruct (Nat.ltb (length s) n); [|reflexivity]. rewrite IH. reflexivity.
  Qed.
  Lemma fitting_total l : forall n, (total (fitting n l) <= n)%nat.
  Proof using.
    clear. induction l as [|s l IH]; intros n; cbn [fitting]; [cbn; lia|]. destruct (Nat.ltb_spec (length s) n); [|cbn; lia].
    cbn [total fold_right]. fold (total (fitting (n - length s - 1) l)). specialize (IH (n - length s - 1)%nat). lia.
  Qed.
  Lemma fitting_in_list l s : forall n, In s (fitting n l) -> In s l.
  Proof using.
    clear. induction l as [|x l IH]; intros n H; cbn [fitting] in H; [exact H|]. destruct (Nat.ltb (length x) n); [|destruct H]. destruct H as [H|H]; [left; exact H|right; eapply IH; exact H].
  Qed.

  Lemma widen_models_eq : forall fs done mem rest, Forall (fun f => ~ In 0 f) fs -> (total fs <= length mem)%nat ->
    widen_models W (length fs) (done ++ mem) (length done) (joined fs ++ rest) = Ok (true, done ++ widened W (joined fs) ++ skipn (total fs) mem).
  Proof using HW.
    induction fs as [|f fs IH]; intros done mem rest Hn Hl; [reflexivity|]. inversion Hn as [|? ? Hf Hfs]; subst.
    cbn [length widen_models]. rewrite app_length. destruct (Nat.ltb_spec (length done + length mem) (length done)); [lia|].
    change (joined (f :: fs)) with ((f ++ [0]) ++ joined fs). change (total (f :: fs)) with (length f + 1 + total fs)%nat in *.
    rewrite <- !app_assoc. change ([0] ++ joined fs ++ rest) with (0 :: joined fs ++ rest). rewrite cstr_app by exact Hf. cbn [bind].
    unfold convert. rewrite map_length. replace (length done + length mem - length done)%nat with (length mem) by lia.
    pose proof (wd_slack W HW) as Hs. destruct (Nat.ltb_spec (length mem) (length f + wslack W)); [lia|].
    destruct (Nat.ltb_spec (length f) (length mem)); [|lia].
    rewrite mem_writes_eq by (rewrite app_length, map_length; cbn [length]; lia). cbn [bind].
    rewrite app_length, map_length. cbn [length].
    replace (skipn (length f + 1) (f ++ 0 :: joined fs ++ rest)) with (joined fs ++ rest).
    2: { rewrite skipn_app, skipn_all2 by lia. replace (length f + 1 - length f)%nat with 1%nat by lia. reflexivity. }
    replace (length done + (length f + 1))%nat with (length (done ++ map (to_wide W) f ++ [0])) by (rewrite !app_length, map_length; cbn [length]; lia).
    replace (done ++ (map (to_wide W) f ++ [0]) ++ skipn (length f + 1) mem) with ((done ++ map (to_wide W) f ++ [0]) ++ skipn (length f + 1) mem)
      by (rewrite <- !app_assoc; reflexivity).
    rewrite IH; [|exact Hfs|rewrite skipn_length; lia]. unfold widened. rewrite !map_app. cbn [map app]. rewrite (wd_nul W HW). f_equal. rewrite <- !app_assoc.
    cbn [app]. rewrite skipn_skipn'. do 6 f_equal. lia.
  Qed.

  Theorem wg_models_exact buffer i c mem : has_class F i c -> mem <> [] -> length buffer = 1024%nat -> Forall (fun m => ~ In 0 (m_sample m)) (c_models c) ->
    let fs := wide_samples (N.of_nat (length mem)) c in
    wg_models W F buffer (Some mem) (N.of_nat (length mem)) i =
      Ok (match c_models c, fs with _ :: _, [] => (-1)%Z | _, _ => Z.of_nat (length fs) end, Some (widened W (joined fs) ++ skipn (total fs) mem)).
  Proof using HW.
    intros Hc Hm Hb Hn. cbv zeta. unfold wide_samples, wg_models. set (room := N.to_nat (N.min 1024 (N.of_nat (length mem)))).
    assert (Hr0 : (0 < room /\ room <= length mem /\ room <= 1024)%nat) by (unfold room; destruct mem; [congruence|cbn [length]; lia]).
    assert (Hr : length (firstn room buffer) = room) by (rewrite firstn_length; lia).
    rewrite (gmodels_exact Win1251 F i c (firstn room buffer)); [|apply plain_ok|cbn; lia|exact Hc|intros Hx; apply (f_equal (@length N)) in Hx; rewrite Hr in Hx; cbn [length] in Hx; lia].
    cbn [coding bind]. rewrite Hr, fitting_plain, map_encode_plain. set (fs := fitting room (map m_sample (c_models c))).
    assert (Hfs : Forall (fun f => ~ In 0 f) fs).
    { apply Forall_forall. intros f Hf. apply fitting_in_list in Hf. apply in_map_iff in Hf. destruct Hf as (m & <- & Hm'). rewrite Forall_forall in Hn. exact (Hn m Hm'). }
    assert (Ht : (total fs <= length mem)%nat) by (pose proof (fitting_total (map m_sample (c_models c)) room); fold fs in H; lia).
    assert (Hc0 : fs = [] \/ fs <> []) by (destruct fs; [left; reflexivity|right; discriminate]). destruct Hc0 as [Efs|Efs].
    - rewrite Efs. destruct (c_models c) as [|m ms]; cbn [map]; destruct mem; reflexivity.
    - assert (Ez : forall X (q : list X), match q with [] => Z.of_nat (length fs) | _ :: _ => match fs with [] => (-1)%Z | _ :: _ => Z.of_nat (length fs) end end = Z.of_nat (length fs))
        by (intros X q; destruct q, fs; congruence).
      rewrite !Ez. clear Ez.
      destruct (Z.leb_spec (Z.of_nat (length fs)) 0) as [H|_]; [destruct fs; [congruence|cbn [length] in H; lia]|]. rewrite Nat2Z.id, <- app_assoc.
      pose proof (widen_models_eq fs [] mem (skipn (total fs) (firstn room buffer) ++ skipn room buffer) Hfs Ht) as Hwd. cbn [app] in Hwd. change (@length N []) with 0%nat in Hwd.
      unfold bytes in *. rewrite Hwd. reflexivity.
  Qed.

  (** ** Lemmatising *)
  Theorem wg_lemmatize_exact rank sort junk t cls below lojunk stbuff szlemm szword w p cch output plemma pgrams dwsets l :
    guesser_in T F t cls -> (forall x, Permutation x (sort x)) ->
    let u := narrowed W w in
    proper_in T Win1251 u -> given w (Some p) cch -> (length w + wslack W <= 240)%nat -> readable below t (rev (low_in T u)) ->
    (plemma <> None -> forall n, workable T (junk n)) -> length stbuff = 32%nat -> length szlemm = 240%nat ->
    acceptable_in T cls (bit 1 dwsets) u (guesses (contents t) (low_in T u)) l ->
    let rs := runs l in
    let r := wg_lemmatize W T F rank sort junk below lojunk stbuff szlemm szword p cch output plemma pgrams dwsets in
    let enough := wide_room T cls (low_in T u) output plemma pgrams rs in
    (enough -> r = Ok (Z.of_nat (length rs), option_map (put_front (sort (stems_in T Win1251 cls rank (low_in T u) (is_some plemma) (is_some pgrams) 0 0 rs))) output,
        option_map (fun m => widened W (joined (map (normal_in T cls (low_in T u)) rs)) ++ skipn (total (map (normal_in T cls (low_in T u)) rs)) m) plemma,
        option_map (put_front (flat_map (descriptions cls) rs)) pgrams)) /\
    (~ enough -> exists z grams, r = Ok (z, output, plemma, grams) /\ (z < 0)%Z /\ option_map (@length gram) grams = option_map (@length gram) pgrams).
  Proof using HW.
    intros HG Hsort u Hw Hg Hl Hread Hjunk Hst Hz Hacc. cbv zeta. pose proof Hw as (Hb & Hne & _ & _ & _ & H0).
    destruct (to_narrow_short W szword 240 p cch w Hg Hl) as (after & E). fold u in E. unfold wg_lemmatize. rewrite E. cbn [bind]. clear E.
    assert (Hlw : length u = length w) by apply map_length.
    assert (Hgn : given u (Some (u ++ after)) (N.of_nat (length w))) by (rewrite <- Hlw; constructor; lia).
    set (n1 := option_map (fun m : list stem_info => firstn (Nat.min (length m) 32) stbuff) output).
    set (n2 := option_map (fun m : list N => firstn (Nat.min (length m) 240) szlemm) plemma).
    assert (Hj2 : n2 <> None -> forall n, workable T (junk n)) by (intros H; apply Hjunk; unfold n2 in H; destruct plemma; [discriminate|cbn in H; congruence]).
    destruct (glemmatize_exact T Win1251 plain_ok rank sort junk F t cls below lojunk u (Some (u ++ after)) (N.of_nat (length w)) n1 n2 pgrams dwsets l HG Hsort Hw Hne Hgn Hread Hj2 Hacc) as [G1 G2].
    change (text_of Win1251 u) with u in *. set (rs := runs l) in *. set (low := low_in T u) in *.
    assert (Hiff : (room_in T Win1251 cls low n2 pgrams rs /\ match n1 with None => True | Some m => (length rs <= length m)%nat end) <-> wide_room T cls low output plemma pgrams rs).
    { unfold room_in, wide_room, n1, n2. cbn [coding]. destruct output as [mo|]; destruct plemma as [mp|]; cbn [option_map]; rewrite ?firstn_length, ?fit_in_plain, ?Hst, ?Hz;
        repeat match goal with |- context [Nat.min (Nat.min ?a ?b) ?b] => replace (Nat.min (Nat.min a b) b) with (Nat.min a b) by lia end; tauto. }
    assert (Es : is_some n2 = is_some plemma) by (unfold n2; destruct plemma; reflexivity).
    assert (Hfine : Forall (guess_inn T F cls low) (guesses (contents t) low)) by (apply Forall_forall; intros g Hg'; eapply guess_fine_in; eassumption).
    split.
    - intros He. pose proof (G1 (proj2 Hiff He)) as Hr1. unfold bytes in Hr1. unfold bytes. rewrite Hr1. clear Hr1. unfold answer_of. cbn [bind]. unfold bytes in Es |- *. rewrite Es. cbn [coding].
      set (stems := stems_in T Win1251 cls rank low (is_some plemma) (is_some pgrams) 0 0 rs).
      assert (Hsl : length (sort stems) = length rs) by (rewrite <- (Permutation_length (Hsort _)); apply stems_in_length).
      set (ls := map (normal_in T cls low) rs).
      assert (Hls : Forall (fun f => ~ In 0 f) ls).
      { unfold ls. rewrite Forall_map. apply Forall_forall. intros r Hr. unfold normal_in. apply nonul_cased. intros Hin. apply in_app_iff in Hin as [Hin|Hin].
        - apply (gnonul T u Hb H0). fold low. rewrite <- (firstn_skipn (stem_len r) low). apply in_or_app. left. exact Hin.
        - pose proof (runs_nonempty l) as Hn. rewrite Forall_forall in Hn. specialize (Hn r Hr). destruct r as [|g r]; [congruence|].
          destruct (runs_members l (g :: r) g Hr (or_introl eq_refl)) as (Hgl & Ec & _). destruct Hacc as (ok & _ & El). rewrite El in Hgl. apply filter_In in Hgl.
          rewrite Forall_forall in Hfine. pose proof (Hfine g (proj1 Hgl)) as Hgi. rewrite Ec in Hin. pose proof (gn_class _ _ _ _ _ Hgi) as [Hok _]. pose proof (co_flex _ Hok) as Hfl.
          destruct (c_inflex (cls (r_class (snd g)))) as [|f fl]; [destruct Hin|]. destruct (Forall_inv Hfl) as (_ & _ & Hf0). exact (Hf0 Hin). }
      clearbody rs. assert (Hc0 : rs = [] \/ rs <> []) by (destruct rs; [left; reflexivity|right; discriminate]). destruct Hc0 as [Ers|Ers].
      { unfold ls, stems in *. clear ls stems. subst rs. cbn [length]. change (Z.of_nat 0 <=? 0)%Z with true. cbv iota. cbn [length] in Hsl.
        destruct (sort _) as [|x xs]; [|discriminate]. destruct output, plemma, pgrams; reflexivity. }
      destruct (Z.leb_spec (Z.of_nat (length rs)) 0) as [H|_]; [destruct rs; [congruence|cbn [length] in H; lia]|]. rewrite Nat2Z.id.
      destruct He as (_ & He1 & He2 & _).
      assert (E1 : (match output, option_map (put_front (sort stems)) n1 with
                    | Some m, Some cells => if Nat.ltb (length m) (length rs) || Nat.ltb (length cells) (length rs) then Ub else Ok (Some (firstn (length rs) cells ++ skipn (length rs) m))
                    | Some _, None => Ub | None, _ => Ok None end) = Ok (option_map (put_front (sort stems)) output)).
      { unfold n1. destruct output as [m|]; [|reflexivity]. cbn [option_map]. unfold put_front. rewrite app_length, skipn_length, firstn_length, Hsl.
        destruct (Nat.ltb_spec (length m) (length rs)); [lia|]. match goal with |- context [Nat.ltb ?a (length rs)] => destruct (Nat.ltb_spec a (length rs)); [lia|] end.
        cbn [orb]. do 2 f_equal. rewrite <- Hsl at 1. rewrite firstn_app, firstn_all, Nat.sub_diag, firstn_O, app_nil_r. reflexivity. }
      rewrite E1. cbn [bind]. clear E1. unfold n2. destruct plemma as [m|]; [|reflexivity]. cbn [option_map]. rewrite filled_in_plain, <- app_assoc.
      assert (Ht : (total ls <= length m)%nat) by (assert (Hq : fit (Nat.min (length m) 240) ls) by (exact (proj2 He2)); destruct Hq as [H|H]; [rewrite H; cbn; lia|lia]).
      pose proof (widen_eq W HW ls [] m (after_in plain ls (firstn (Nat.min (length m) 240) szlemm) ++ skipn (Nat.min (length m) 240) szlemm) Hls Ht) as Hwd.
      cbn [app] in Hwd. change (@length N []) with 0%nat in Hwd. unfold ls at 1 in Hwd. rewrite map_length in Hwd.
      match goal with |- context [widen_strings W ?n ?mm ?k ?src] => replace (widen_strings W n mm k src) with (Ok (widened W (joined ls) ++ skipn (total ls) m)) by (symmetry; exact Hwd) end. reflexivity.
    - intros He. destruct G2 as (z & forms & grams & Hr2 & Hz' & _ & Hgr); [intros H; apply He, Hiff, H|]. unfold bytes in Hr2. unfold bytes. rewrite Hr2. clear Hr2. cbn [bind]. destruct (Z.leb_spec z 0); [|lia].
      exists z, grams. split; [reflexivity|]. split; [exact Hz'|exact Hgr].
  Qed.
End Wide.

(** ** The word back *)
Lemma in_variants sort T cs u l r g t F : (forall x, Permutation x (sort x)) -> compiled sort cs t F -> Forall (source_in T) cs ->
  (forall x, In x l -> In x (guesses (contents t) (low_in T u))) -> In r (runs l) -> In g r ->
  exists c, nth_error cs (N.to_nat (class_no r)) = Some c /\ numbered sort cs (class_no r) = sorted_class sort c /\ has_class F (class_no r) (sorted_class sort c) /\ (2 <= stem_len r <= length u)%nat /\
    In (cased T (c_partsp c) (low_in T u)) (variants_in T (sorted_class sort c) (low_in T (firstn (stem_len r) u)) (r_form (snd g))).
Proof.
  intros Hsort HC Hcs Hl Hr Hg. destruct (runs_members l r g Hr Hg) as (Hin & Ec & Es). apply Hl in Hin.
  destruct g as [n [i p id]]. cbn [fst snd r_class r_form] in *. subst i.
  apply (compiled_guesses_in sort T cs t F (low_in T u) n (class_no r) p id HC Hcs) in Hin. destruct Hin as (m & f & He & Hp & Hf).
  pose proof He as (c & E1 & E2 & E3 & E4 & E5). rewrite Forall_forall in Hcs. pose proof (Hcs c (nth_error_In _ _ E1)) as Hc.
  pose proof (compiled_class_in sort Hsort T cs t F _ c HC E1 Hc) as Hcl. rewrite Nnat.N2Nat.id in Hcl.
  pose proof (find_source sort cs _ c E1) as Ef. rewrite Nnat.N2Nat.id in Ef.
  pose proof (accepted_suffix c (si_accepted _ _ Hc)) as Hs. rewrite Forall_forall in Hs.
  exists c. split; [exact E1|]. split; [exact Ef|]. split; [exact Hcl|]. split.
  - pose proof (f_equal (@length N) E5) as El. rewrite skipn_length, app_length, (Hs m E2) in El. rewrite low_length in El, E4. unfold bytes in *. lia.
  - unfold variants_in. cbn [sorted_class c_partsp c_inflex]. apply in_map_iff. exists f. split; [|apply filter_In; split; [exact E3|apply N.eqb_eq; exact Hf]].
    f_equal. rewrite low_in_prefix, Es. apply (ends_like_word cs (low_in T u) n (class_no r) m f He). apply Hs; exact E2.
Qed.

Theorem wg_back W sort T cs t F w l r g mem lojunk junk slemma szform p cch : wide_ok W -> (forall x, Permutation x (sort x)) ->
  compiled sort cs t F -> Forall (source_in T) cs -> N.of_nat (length cs) < 2 ^ 32 -> Forall (fun c => by_form (c_inflex c)) cs ->
  proper_in T Win1251 (narrowed W w) -> (length w <= 49)%nat ->
  (forall x, In x l -> In x (guesses (contents t) (low_in T (narrowed W w)))) -> In r (runs l) -> In g r ->
  given (firstn (stem_len r) w) (Some p) cch -> workable T junk -> length szform = 96%nat ->
  exists fs, guess_delivered W mem fs (wg_build_form W T F lojunk junk slemma szform (Some mem) (Some p) cch (class_no r) (r_form (snd g))) /\
    In (cased T (c_partsp (numbered sort cs (class_no r))) (low_in T (narrowed W w))) fs.
Proof.
  intros HW Hsort HC Hcs Hn Hby Hw Hlen Hl Hr Hg Hgiv Hj Hz.
  destruct (in_variants sort T cs (narrowed W w) l r g t F Hsort HC Hcs Hl Hr Hg) as (c & E1 & E2 & Hcl & Hsl & Hin).
  assert (Efn : narrowed W (firstn (stem_len r) w) = firstn (stem_len r) (narrowed W w)) by (unfold narrowed; symmetry; apply firstn_map).
  assert (Hl2 : (length (firstn (stem_len r) w) <= 49)%nat) by (rewrite firstn_length; lia).
  exists (variants_in T (sorted_class sort c) (low_in T (firstn (stem_len r) (narrowed W w))) (r_form (snd g))). split.
  - rewrite <- Efn. rewrite Forall_forall in Hby, Hcs. apply wg_build_exact; try assumption.
    + cbn [sorted_class c_inflex]. apply Hby. exact (nth_error_In _ _ E1).
    + rewrite Efn. apply gproper_prefix; [exact Hw|lia].
    + pose proof (wd_slack W HW). split; lia.
    + intros f' Hf' _. cbn [sorted_class c_inflex] in Hf'. pose proof (si_flex _ _ (Hcs c (nth_error_In _ _ E1))) as Hx. rewrite Forall_forall in Hx. destruct (Hx f' Hf') as (_ & Hx2 & _).
      unfold longest. destruct T; unfold bytes in *; lia.
  - rewrite E2. exact Hin.
Qed.
