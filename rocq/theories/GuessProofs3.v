(** * GuessProofs3: the guesser of every language and code page, from end to end.  PROOFS ONLY. *)
From Coq Require Import Permutation.
From Verif Require Import Base Serial SerialProofs TreeSpec FlatScanProofs CharTables CapScheme CapSpec CapProofs CapProofs2 CapProofs3 GramMap RusRuntime
  LevelSpec LevelProofs RusSpec RusProofs RusProofs2 RusProofs3 RusBuild RusBuildSpec RusBuildProofs RusBuildProofs2 RusBuildProofs3 Codepage CodepageSpec CodepageProofs
  Fuzzy FuzzySpec FuzzyProofs FuzzyProofs2 FuzzyProofs3 FuzzyProofs4 FuzzyProofs5 FuzzyProofs6 PropFuzzyLemmas Guess GuessSpec GuessProofs GuessProofs2.
Local Open Scope N_scope.

Section Whole.
  Variable T : tongue.
  Variable P : page.
  Hypothesis HP : page_ok P.
  Variable rank : N -> N -> N -> N -> bool -> Z.
  Variable sort : list stem_info -> list stem_info.
  Variable junk : nat -> bytes.

  Definition answer_of (plemma : option (list stem_info)) (pforms : option bytes) (pgrams : option (list gram)) cls low rs :=
    Ok (Z.of_nat (length rs),
        option_map (put_front (sort (stems_in T P cls rank low (is_some pforms) (is_some pgrams) 0 0 rs))) plemma,
        option_map (filled_in (coding P) (map (normal_in T cls low) rs)) pforms,
        option_map (put_front (flat_map (descriptions cls) rs)) pgrams).

  Lemma stems_in_length cls low a b rs : forall i j, length (stems_in T P cls rank low a b i j rs) = length rs.
  Proof. clear HP. induction rs as [|r rs IH]; intros i j; [reflexivity|]. cbn [stems_in length]. rewrite IH. reflexivity. Qed.

  Theorem glemmatize_exact F t cls below lojunk w psz cch plemma pforms pgrams dwsets l : guesser_in T F t cls ->
    (forall x, Permutation x (sort x)) ->
    let u := text_of P w in
    proper_in T P u -> w <> [] -> given w psz cch -> readable below t (rev (low_in T u)) -> (pforms <> None -> forall n, workable T (junk n)) ->
    acceptable_in T cls (bit 1 dwsets) u (guesses (contents t) (low_in T u)) l ->
    let rs := runs l in
    let r := glemmatize T P rank sort junk F below lojunk psz cch plemma pforms pgrams dwsets in
    let enough := room_in T P cls (low_in T u) pforms pgrams rs /\ match plemma with None => True | Some m => (length rs <= length m)%nat end in
    (enough -> r = answer_of plemma pforms pgrams cls (low_in T u) rs) /\
    (~ enough -> exists z forms grams, r = Ok (z, plemma, forms, grams) /\ (z < 0)%Z /\
       option_map (@length N) forms = option_map (@length N) pforms /\ option_map (@length gram) grams = option_map (@length gram) pgrams).
  Proof.
    intros HG Hsort u Hw Hw0 Hgiven Hread Hjunk Hacc. cbv zeta. pose proof Hw as (Hb & Hne & Hlen & Hsl & Hparts & H0).
    unfold glemmatize. rewrite (gcanonic_given T P w psz cch Hgiven Hw0 Hne Hsl). fold u.
    destruct (gcanonic_facts T P u Hw) as (v & -> & Hv & Hv0 & Hv1 & Hgood & Hff & Heng). cbn [bind]. clearbody u.
    destruct (N.eqb_spec v (2 ^ 32 - 1)); [contradiction|]. destruct (N.eqb_spec v 0); [contradiction|].
    destruct Hacc as (ok & Hok & El). set (low := low_in T u) in *.
    assert (Hloww : length low = length u) by apply low_length.
    destruct ((N.land v 0xff =? 0xff) && negb (bit 1 dwsets)) eqn:Eff.
    - apply andb_true_iff in Eff. destruct Eff as [Eff Hig]. apply N.eqb_eq in Eff. apply negb_true_iff in Hig.
      assert (l = []).
      { subst l. destruct (filter ok (guesses (contents t) low)) as [|g l0] eqn:E; [reflexivity|]. exfalso.
        assert (Hin : In g (filter ok (guesses (contents t) low))) by (rewrite E; left; reflexivity). apply filter_In in Hin. destruct Hin as [Hin Hg].
        apply Hok in Hg; [|exact Hin]. destruct Hg as [Hg|Hg]; [congruence|]. exact (Hff Eff _ Hg). }
      subst l. rewrite H. cbn [runs map flat_map length].
      pose proof (groom_nil T P rank cls low dwsets pforms pgrams) as Hr. cbn [runs] in Hr.
      split.
      + intros _. unfold answer_of. cbn [stems_in map flat_map length]. rewrite (Permutation_nil (Hsort [])).
        destruct plemma, pforms, pgrams; reflexivity.
      + intros H'. exfalso. apply H'. split; [exact Hr|]. destruct plemma; [lia|exact I].
    - assert (Hloc : overwrite (low ++ [0]) lojunk = low ++ ([0] ++ skipn (length (low ++ [0])) lojunk)) by (unfold overwrite; rewrite <- app_assoc; reflexivity).
      rewrite Hloc. set (tail := [0] ++ _). clearbody tail. rewrite Hv. rewrite app_length, Hloww.
      destruct (N.ltb_spec (N.of_nat (length u + length tail)) (N.of_nat (length u))); [lia|]. rewrite Nnat.Nat2N.id.
      replace (firstn (length u) (low ++ tail)) with low
        by (rewrite <- Hloww; rewrite firstn_app, firstn_all, Nat.sub_diag, firstn_O, app_nil_r; reflexivity).
      destruct (gi_bytes _ _ _ _ HG) as [rest ->].
      rewrite <- Hloww.
      rewrite scan_guesses; [|apply HG|apply HG|apply HG|exact Hread].
      set (sch := N.land v 0xffff) in *.
      assert (Ef : l = filter (welcome T cls sch dwsets) (guesses (contents t) low)).
      { rewrite El. apply filter_ext_in. intros g Hg. specialize (Hok g Hg). unfold welcome. destruct (tg_caps T) eqn:Et.
        - specialize (Hgood eq_refl). destruct (ok g) eqn:E.
          + symmetry. apply orb_true_iff. destruct (proj1 Hok eq_refl) as [H1|H1]; [left; exact H1|right; apply Hgood; exact H1].
          + symmetry. apply orb_false_iff. destruct (bit 1 dwsets); [discriminate (proj2 Hok (or_introl eq_refl))|]. split; [reflexivity|].
            destruct (IsGoodSheme sch _) eqn:E2; [|reflexivity]. apply Hgood in E2. discriminate (proj2 Hok (or_intror E2)).
        - apply Hok. apply andb_false_iff in Eff. destruct Eff as [Eff|Eff]; [right; apply (Heng eq_refl); apply N.eqb_neq; exact Eff|left; destruct (bit 1 dwsets); [reflexivity|discriminate]]. }
      assert (Hfine : Forall (guess_inn T F cls low) (guesses (contents t) low)) by (apply Forall_forall; intros g Hg; eapply guess_fine_in; eassumption).
      destruct (gcollected T P HP rank junk F cls low tail sch dwsets pforms pgrams (fun H => conj (Hjunk H) (gnonul T u Hb H0)) (guesses (contents t) low)) as [C1 C2].
      { apply Forall_forall. intros g Hg. rewrite Forall_forall in Hfine. apply (gn_class _ _ _ _ _ (Hfine g Hg)). }
      { apply Forall_forall. intros g Hg. apply filter_In in Hg. rewrite Forall_forall in Hfine. apply (Hfine g (proj1 Hg)). }
      rewrite <- Ef in C1, C2.
      destruct (groom_dec T P rank cls low sch pforms pgrams (runs l)) as [Hroom|Hno].
      + destruct (C1 Hroom) as (s' & -> & Hinv). cbn [bind]. change (negb (0 =? 0)%Z) with false. cbv iota.
        assert (Hl2 : length (f_stems (close_last s')) = length (runs l)) by (rewrite <- (gi_len _ _ _ _ _ _ _ _ _ Hinv); apply closed_length).
        rewrite Hl2.
        assert (Ecor : corrected P (low ++ tail) (close_last s') = Ok (stems_in T P cls rank low (is_some pforms) (is_some pgrams) 0 0 (runs l))).
        { unfold corrected. rewrite close_forms, (gi_forms _ _ _ _ _ _ _ _ _ Hinv). pose proof (gi_stems _ _ _ _ _ _ _ _ _ Hinv) as Hst. unfold closed in Hst. rewrite Hst.
          clear - Hfine Ef HP. destruct P as [|E0|E0]; [rewrite (raw_eq T Win1251 rank cls low pforms pgrams I); reflexivity|rewrite (raw_eq T (Other E0) rank cls low pforms pgrams I); reflexivity|].
          destruct pforms as [m|] eqn:Epf; cbn [option_map].
          - rewrite (in_bytes_eq T (Utf8 E0) rank (fun _ => []) cls low tail (Some m) pgrams E0 (runs l)); [reflexivity|reflexivity| |discriminate|reflexivity].
            apply Forall_forall. intros r Hr. pose proof (runs_nonempty l) as Hn. rewrite Forall_forall in Hn. specialize (Hn r Hr). destruct r as [|g r]; [congruence|].
            destruct (runs_members l (g :: r) g Hr (or_introl eq_refl)) as (Hin & _ & ->). rewrite Ef in Hin. apply filter_In in Hin. rewrite Forall_forall in Hfine.
            apply (gn_stem _ _ _ _ _ (Hfine g (proj1 Hin))).
          - rewrite (raw_eq T (Utf8 E0) rank cls low None pgrams eq_refl). reflexivity. }
        rewrite (gi_forms _ _ _ _ _ _ _ _ _ Hinv), (gi_grams _ _ _ _ _ _ _ _ _ Hinv).
        assert (Efo : option_map cmem (option_map (fun m => Coder (filled_in (coding P) (map (normal_in T cls low) (runs l)) m) (total (map (encode (coding P)) (map (normal_in T cls low) (runs l))))) pforms)
                      = option_map (filled_in (coding P) (map (normal_in T cls low) (runs l))) pforms) by (destruct pforms; reflexivity).
        assert (Egr : option_map fst (option_map (fun m => (put_front (flat_map (descriptions cls) (runs l)) m, length (flat_map (descriptions cls) (runs l)))) pgrams)
                      = option_map (put_front (flat_map (descriptions cls) (runs l))) pgrams) by (destruct pgrams; reflexivity).
        rewrite Efo, Egr. destruct plemma as [m|].
        * destruct (Nat.ltb_spec (length m) (length (runs l))) as [Hm|Hm].
          -- split; [intros [_ H1]; lia|]. intros _. do 3 eexists. split; [reflexivity|]. split; [lia|].
             destruct Hroom as (_ & R2 & R3). split.
             ++ destruct pforms; [|reflexivity]. cbn [option_map]. rewrite filled_in_length by apply R2. reflexivity.
             ++ destruct pgrams; [|reflexivity]. cbn [option_map]. rewrite put_front_length by exact R3. reflexivity.
          -- rewrite Ecor. cbn [bind].
             assert (Hslen : length (sort (stems_in T P cls rank low (is_some pforms) (is_some pgrams) 0 0 (runs l))) = length (runs l)).
             { rewrite <- (Permutation_length (Hsort _)). apply stems_in_length. }
             rewrite (mem_writes_eq _ [] m) by lia. cbn [bind app]. split; [intros _; reflexivity|]. intros H1. exfalso. apply H1. split; [exact Hroom|exact Hm].
        * split; [intros _; reflexivity|]. intros H1. exfalso. apply H1. split; [exact Hroom|exact I].
      + destruct (C2 Hno) as (s' & z & -> & Hz & Hs1 & Hs2). cbn [bind]. destruct (Z.eqb_spec z 0); [lia|]. cbn [negb]. split; [intros [H1 _]; contradiction|].
        intros _. do 3 eexists. split; [reflexivity|]. split; [exact Hz|]. split.
        * rewrite <- Hs1. destruct (f_forms s'); reflexivity.
        * rewrite <- Hs2. destruct (f_grams s'); reflexivity.
  Qed.
End Whole.

(** ** From the sources *)
Section Sorted.
  Variable sort : list model_src -> list model_src.
  Hypothesis Hsort : forall l, Permutation l (sort l).

  Lemma ranges_short T : known_parts T <= 47.
  Proof. clear. destruct T; vm_compute; discriminate. Qed.
  Lemma source_class_in T c : source_in T c -> class_ok (sorted_class sort c).
  Proof.
    intros H. constructor; cbn [sorted_class c_partsp c_inflex c_models].
    - pose proof (si_flex _ _ H) as Hf. pose proof (accepted_inflex c (si_accepted _ _ H)) as Hn. destruct (c_inflex c) as [|f l]; [congruence|].
      destruct (Forall_inv Hf) as (_ & _ & _ & Hk & _). pose proof (ranges_short T). lia.
    - apply H.
    - eapply Forall_impl; [|apply (si_flex _ _ H)]. intros f (H1 & H2 & H3 & _). repeat split; [exact H1|lia|exact H3].
    - rewrite <- (Permutation_length (Hsort (c_models c))). apply H.
    - eapply perm_forall; [apply Hsort|]. pose proof (si_models _ _ H) as H1. pose proof (accepted_suffix c (si_accepted _ _ H)) as H2.
      rewrite Forall_forall in *. intros m Hm. split; [apply H2; exact Hm|apply H1; exact Hm].
  Qed.

  Lemma source_bytes_in T c : source_in T c -> guess_class_ser sort c = class_bytes (sorted_class sort c).
  Proof.
    intros H. pose proof (source_class_in T c H) as Hc. unfold guess_class_ser, class_bytes. cbn [sorted_class c_partsp c_inflex c_models c_accent] in *.
    rewrite N.mod_small by (pose proof (co_partsp _ Hc) as Hp; cbn in Hp; lia). cbn [app]. do 2 f_equal. f_equal. f_equal.
    - apply flat_map_ext_in. intros f Hf. pose proof (co_flex _ Hc) as Hx. cbn [sorted_class c_inflex] in Hx. rewrite Forall_forall in Hx. destruct (Hx f Hf) as (H1 & H2 & H3).
      unfold guess_flex_ser. rewrite !N.mod_small by assumption. rewrite Nnat.Nat2N.id, firstn_all. reflexivity.
    - f_equal; [rewrite <- (Permutation_length (Hsort (c_models c))); reflexivity|]. apply flat_map_ext_in. intros m Hm.
      pose proof (co_models _ Hc) as Hx. cbn [sorted_class c_models] in Hx. rewrite Forall_forall in Hx. destruct (Hx m Hm) as (H1 & _).
      unfold guess_model_ser. rewrite firstn_all2 by lia. reflexivity.
  Qed.

  Lemma compiled_class_in T cs t F k c : compiled sort cs t F -> nth_error cs k = Some c -> source_in T c ->
    has_class F (N.of_nat k) (sorted_class sort c).
  Proof.
    intros HC Hk Hc. split; [eapply source_class_in; exact Hc|].
    assert (Hb : nth_error (map (guess_class_ser sort) cs) k = Some (class_bytes (sorted_class sort c))).
    { rewrite <- (source_bytes_in T) by exact Hc. apply map_nth_error. exact Hk. }
    destruct (offsets_nth _ k 0 _ Hb) as [O1 O2].
    exists (concat (firstn k (map (guess_class_ser sort) cs))), (concat (skipn (S k) (map (guess_class_ser sort) cs))).
    rewrite (cm_offsets _ _ _ _ HC), (cm_tables _ _ _ _ HC), Nnat.Nat2N.id. split; [exact O1|exact O2].
  Qed.

  Theorem compiled_guesser_in T cs t F : compiled sort cs t F -> Forall (source_in T) cs -> N.of_nat (length cs) < 2 ^ 32 -> guesser_in T F t (numbered sort cs).
  Proof.
    intros HC Hcs Hcount. rewrite Forall_forall in Hcs.
    assert (Hval : forall kv r, In kv (contents t) -> In r (snd kv) -> exists k c f md, nth_error cs k = Some c /\ source_in T c /\ In f (c_inflex c) /\ In md (c_models c) /\
      r = ClassRef (N.of_nat k) (m_weight md) (fst f)).
    { intros kv r H1 H2. destruct (compiled_value sort cs t F kv r HC H1 H2) as (k & c & f & md & E1 & E2 & E3 & E4 & ->). exists k, c, f, md.
      pose proof (Hcs c (nth_error_In _ _ E1)) as Hc. split; [exact E1|]. split; [exact Hc|]. split; [exact E2|]. split; [exact E3|]. f_equal. apply N.mod_small. pose proof (si_flex _ _ Hc) as Hf. rewrite Forall_forall in Hf.
      apply (Hf f E2). }
    constructor.
    - exists []. rewrite app_nil_r. apply (cm_dict _ _ _ _ HC).
    - apply (cm_sized _ _ _ _ HC).
    - apply (cm_ordered _ _ _ _ HC).
    - unfold refs_ok. apply Forall_forall. intros kv Hkv. apply Forall_forall. intros r Hr. destruct (Hval kv r Hkv Hr) as (k & c & f & md & E1 & Hc & E2 & E3 & ->).
      pose proof (si_models _ _ Hc) as Hm. rewrite Forall_forall in Hm. pose proof (si_flex _ _ Hc) as Hf. rewrite Forall_forall in Hf. unfold ref_ok. cbn [r_class r_power r_form].
      assert (k < length cs)%nat by (apply nth_error_Some; congruence). repeat split; [lia|apply (Hm md E3)|apply (Hf f E2)].
    - apply Forall_forall. intros kv Hkv. apply (index_len sort Hsort cs) with (i := 0) (m := []).
      + apply Forall_forall. intros c Hc. split; [apply accepted_suffix, (si_accepted _ _ (Hcs c Hc))|]. eapply Forall_impl; [|apply (si_flex _ _ (Hcs c Hc))].
        intros f (_ & H & _). exact H.
      + constructor.
      + intros x [].
      + apply in_map. eapply Permutation_in; [apply (cm_index _ _ _ _ HC)|exact Hkv].
    - intros kv r Hkv Hr. destruct (Hval kv r Hkv Hr) as (k & c & f & md & E1 & Hc & E2 & E3 & ->). cbn [r_class r_form]. rewrite (find_source sort cs k c E1). split; [|split].
      + eapply compiled_class_in; eassumption.
      + cbn [sorted_class c_inflex]. apply accepted_inflex, (si_accepted _ _ Hc).
      + cbn [sorted_class c_partsp]. pose proof (si_flex _ _ Hc) as Hf. rewrite Forall_forall in Hf. apply (Hf f E2).
  Qed.

  Theorem compiled_guesses_in T cs t F w n i p id : compiled sort cs t F -> Forall (source_in T) cs ->
    In (n, ClassRef i p id) (guesses (contents t) w) <-> exists m f, ends_like cs w n i m f /\ m_weight m = p /\ fst f = id.
  Proof.
    intros HC Hcs. rewrite (guesses_of_source cs (contents t) w n); [|intros key; apply (compiled_stored sort cs t F key HC)|].
    2:{ eapply Forall_impl; [|exact Hcs]. intros c Hc. apply accepted_suffix, (si_accepted _ _ Hc). }
    rewrite Forall_forall in Hcs.
    assert (Hsm : forall k c f, nth_error cs k = Some c -> In f (c_inflex c) -> fst f mod 256 = fst f).
    { intros k c f H1 H2. apply N.mod_small. pose proof (si_flex _ _ (Hcs c (nth_error_In _ _ H1))) as Hf. rewrite Forall_forall in Hf. apply (Hf f H2). }
    split.
    - intros (k & c & f & md & H1 & H2 & H3 & H4 & H5 & E). injection E as -> -> ->. exists md, f. split; [|split; [reflexivity|symmetry; eapply Hsm; eassumption]].
      exists c. rewrite Nnat.Nat2N.id. repeat split; assumption.
    - intros (md & f & (c & H1 & H2 & H3 & H4 & H5) & <- & <-). exists (N.to_nat i), c, f, md. repeat split; try assumption. rewrite Nnat.N2Nat.id.
      rewrite (Hsm _ _ _ H1 H3). reflexivity.
  Qed.

  (** *** The word back *)
  Lemma gproper_prefix T P k u : proper_in T P u -> (0 < k)%nat -> proper_in T P (firstn k u).
  Proof.
    clear Hsort. intros (H1 & H2 & H3 & H4 & H5 & H6) Hk.
    assert (Hp : forall cs0 w k, (length (parts cs0 (firstn k w)) <= length (parts cs0 w))%nat).
    { clear. intros cs0. induction w as [|c w IH]; intros [|k]; cbn [firstn parts]; try lia.
      - cbn [length]. destruct (ctype cs0 c =? 2); [cbn; lia|]. destruct (parts cs0 w); cbn; lia.
      - specialize (IH k). destruct (ctype cs0 c =? 2); [cbn [length]; lia|].
        destruct (parts cs0 (firstn k w)) as [|a x], (parts cs0 w) as [|b y] eqn:E; cbn [length] in *; try lia. }
    assert (Hle : (length (firstn k u) <= length u)%nat) by (rewrite firstn_length; lia). unfold bytes in *.
    split; [|split; [|split; [|split; [|split]]]].
    - unfold is_bytes in *. rewrite <- (firstn_skipn k u) in H1. apply Forall_app in H1. apply H1.
    - destruct u as [|c u]; [congruence|]. destruct k; [lia|]. discriminate.
    - lia.
    - lia.
    - eapply Nat.le_trans; [apply Hp|exact H5].
    - intros Hin. apply H6. rewrite <- (firstn_skipn k u). apply in_or_app. left. exact Hin.
  Qed.
End Sorted.
