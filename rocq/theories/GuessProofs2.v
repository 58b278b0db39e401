(** * GuessProofs2: lemmatising an unknown word in every language and code page.  PROOFS ONLY. *)
From Coq Require Import Permutation.
From Verif Require Import Base Serial SerialProofs TreeSpec FlatScanProofs CharTables CapScheme CapSpec CapProofs CapProofs2 CapProofs3 GramMap RusRuntime
  LevelSpec LevelProofs RusSpec RusProofs RusProofs2 RusProofs3 RusBuild RusBuildSpec RusBuildProofs RusBuildProofs2 RusBuildProofs3 Codepage CodepageSpec CodepageProofs
  Fuzzy FuzzySpec FuzzyProofs FuzzyProofs2 FuzzyProofs3 FuzzyProofs4 FuzzyProofs5 Guess GuessSpec GuessProofs.
Local Open Scope N_scope.

Record guess_inn (T : tongue) (F : fuzzy) (cls : N -> class_src) (w : bytes) (g : nat * class_ref) : Prop := {
  gn_class : has_class F (r_class (snd g)) (cls (r_class (snd g)));
  gn_inflex : c_inflex (cls (r_class (snd g))) <> [];
  gn_stem : (fst g + 2 <= length w)%nat;
  gn_ending : (length w <= fst g + 16)%nat;
  gn_partsp : c_partsp (cls (r_class (snd g))) < N.of_nat (length (tg_ranges T));
  gn_form : nth (N.to_nat (c_partsp (cls (r_class (snd g))))) (tg_ranges T) 0 = 0 \/
            r_form (snd g) < nth (N.to_nat (c_partsp (cls (r_class (snd g))))) (tg_ranges T) 0;
}.

Section Lemm.
  Variable T : tongue.
  Variable P : page.
  Hypothesis HP : page_ok P.
  Variable rank : N -> N -> N -> N -> bool -> Z.
  Variable junk : nat -> bytes.
  Variable F : fuzzy.
  Variable cls : N -> class_src.
  Variables (w tail : bytes) (scheme dwsets : N).
  Variables (pforms : option bytes) (pgrams : option (list gram)).

  Notation E := (coding P).
  Notation e := (encode (coding P)).
  Notation normal := (normal_in T cls w).
  Notation descs := (descriptions cls).

  (** the stems before the lengths are corrected *)
  Fixpoint raw_stems (fpos gpos : nat) (rs : list (list (nat * class_ref))) : list stem_info :=
    match rs with
    | [] => []
    | r :: rs' =>
        StemInfo (if is_some pforms then Some fpos else None) (N.of_nat (stem_len r)) (class_no r) (if is_some pgrams then gpos else 0%nat)
                 (if is_some pgrams then length r else 0%nat) (weight_of cls rank w r)
        :: raw_stems (fpos + length (e (normal r)) + 1) (gpos + length r) rs'
    end.
  Notation stems := raw_stems.

  Lemma gstems_app a : forall b fpos gpos, stems fpos gpos (a ++ b) = stems fpos gpos a ++ stems (fpos + total (map e (map normal a))) (gpos + length (flat_map descs a)) b.
  Proof. clear HP.
    induction a as [|r a IH]; intros b fpos gpos; cbn [app raw_stems map total fold_right flat_map length].
    - rewrite !Nat.add_0_r. reflexivity.
    - fold (total (map e (map normal a))). rewrite IH. cbn [app]. do 2 f_equal. rewrite app_length. unfold descriptions at 2. rewrite map_length. f_equal; lia.
  Qed.

  Record ginv (rs : list (list (nat * class_ref))) (s : fstate) : Prop := {
    gi_stems : closed s = stems 0%nat 0%nat rs;
    gi_len : length (f_stems s) = length rs;
    gi_last : match rev rs with
             | [] => f_stems s = []
             | r :: _ => exists x b, rev (f_stems s) = x :: b /\ snclass x = class_no r /\ sccstem x = N.of_nat (stem_len r)
             end;
    gi_forms : f_forms s = option_map (fun m => Coder (filled_in E (map normal rs) m) (total (map e (map normal rs)))) pforms;
    gi_grams : f_grams s = option_map (fun m => (put_front (flat_map descs rs) m, length (flat_map descs rs))) pgrams;
  }.

  Notation same_size := (same_size pforms pgrams).
  Notation room := (room_in T P cls w pforms pgrams).

  Lemma ginv_size rs s : room rs -> ginv rs s -> same_size s.
  Proof. clear HP.
    intros (_ & Hf & Hg) H. unfold FuzzyProofs3.same_size. rewrite (gi_forms _ _ H), (gi_grams _ _ H). split.
    - destruct pforms; [|reflexivity]. cbn [option_map cmem]. rewrite filled_in_length by apply Hf. reflexivity.
    - destruct pgrams; [|reflexivity]. cbn [option_map fst]. rewrite put_front_length by exact Hg. reflexivity.
  Qed.

  Lemma gngrams_inv rs s : ginv rs s -> ngrams_now s = if is_some pgrams then length (flat_map descs rs) else 0%nat.
  Proof. clear HP. intros H. unfold ngrams_now. rewrite (gi_grams _ _ H). destruct pgrams; reflexivity. Qed.

  Lemma groom_less rs rs' g : Forall (fun r => r <> []) rs -> rs' = addg rs g -> room rs' -> room rs.
  Proof. clear HP.
    intros Hne -> (H1 & H2 & H3). destruct (addg_cases rs g Hne) as [(rs1 & r & -> & Hk & Eg)|(Eg & _)]; rewrite Eg in *.
    - assert (Hr : r <> []) by (rewrite Forall_app in Hne; destruct Hne as [_ Hne]; inversion Hne; assumption).
      assert (En : normal (r ++ [g]) = normal r) by (destruct r; [congruence|reflexivity]).
      rewrite map_app, flat_map_app in *. cbn [map flat_map] in *. rewrite En in H2. split; [rewrite app_length in *; exact H1|]. split.
      + destruct pforms; [|exact I]. destruct H2 as [H2 H4]. split; [|rewrite map_app; exact H4]. rewrite Forall_app in *. destruct H2 as [H2 H5]. split; [exact H2|].
        inversion H5; subst. constructor; [rewrite <- En; assumption|constructor].
      + destruct pgrams; [|exact I].
        assert (E1 : length (descs (r ++ [g])) = S (length (descs r))) by (unfold descriptions; rewrite !map_length, app_length; cbn [length]; lia).
        rewrite !flat_map_app, !app_length in *. cbn [flat_map] in *. rewrite !app_nil_r in *. lia.
    - rewrite map_app, flat_map_app in *. cbn [map flat_map] in *. split; [rewrite app_length in H1; cbn [length] in H1; lia|]. split.
      + destruct pforms as [m|]; [|exact I]. destruct H2 as [H2 H4]. split; [rewrite Forall_app in H2; apply H2|].
        apply fit_in_prefix in H4. exact H4.
      + destruct pgrams; [|exact I]. rewrite app_length in H3. lia.
  Qed.

  Definition gstem_at (fpos gpos : nat) (r : list (nat * class_ref)) : stem_info :=
    StemInfo (if is_some pforms then Some fpos else None) (N.of_nat (stem_len r)) (class_no r) (if is_some pgrams then gpos else 0%nat)
             (if is_some pgrams then length r else 0%nat) (weight_of cls rank w r).
  Lemma gstems_snoc rs r : stems 0 0 (rs ++ [r]) = stems 0 0 rs ++ [gstem_at (total (map e (map normal rs))) (length (flat_map descs rs)) r].
  Proof. clear HP. rewrite gstems_app. reflexivity. Qed.

  Definition gstep_stem (more : bytes) (s : fstate) (g : nat * class_ref) : res (fstate * Z) :=
    let c := cls (r_class (snd g)) in
    if Nat.eqb (length (f_stems s)) 64 then Ok (s, (-1)%Z)
    else
      let n := length (f_stems s) in
      let s := close_last s in
      let s := FState (f_stems s ++ [StemInfo (option_map cpos (f_forms s)) (N.of_nat (fst g) + 2) (r_class (snd g)) (ngrams_now s) 0 (weight_of cls rank w [g])])
                      (f_forms s) (f_grams s) in
      match f_forms s with
      | None => Ok (s, 0%Z)
      | Some co =>
          if Nat.ltb (length (w ++ tail)) (N.to_nat (N.of_nat (fst g)) + 2) then Ub
          else
            let! (nerror, co) := gnormal T P (junk n) (firstn (N.to_nat (N.of_nat (fst g)) + 2) (w ++ tail)) (flexes (c_inflex c) ++ more) (c_partsp c) co in
            Ok (FState (f_stems s) (Some co) (f_grams s), nerror)
      end.

  Lemma gnormal_eq szform stem f l more partSp co : workable T szform -> ~ In 0 stem -> flexes_ok (f :: l) -> partSp < 64 ->
    gnormal T P szform stem (flexes (f :: l) ++ more) partSp co =
    if Nat.leb 64 (length (cased T partSp (stem ++ snd f))) then Ok ((-4)%Z, co)
    else let! (co, ok) := page_put P co (cased T partSp (stem ++ snd f)) in Ok (if ok then 0%Z else (-1)%Z, co).
  Proof. clear HP.
    intros Hj Hs Hok Hp. pose proof (Forall_inv Hok) as (H1 & H2 & H3). unfold gnormal.
    cbn [flexes flat_map app]. rewrite <- app_assoc. cbn [rd bind app]. rewrite cased_length, app_length. rewrite Nnat.Nat2N.id. fold (flexes l). unfold bytes in *.
    destruct (Nat.leb_spec 64 (length stem + length (snd f))); [reflexivity|].
    destruct (gform_eq T szform stem (snd f) (flexes l ++ more) partSp Hj ltac:(destruct T; cbn [longest]; lia) Hs H3 Hp) as (sz & -> & _ & Ef).
    cbn [bind]. rewrite Ef. reflexivity.
  Qed.

  Definition welcome (g : nat * class_ref) : bool :=
    if tg_caps T then bit 1 dwsets || IsGoodSheme scheme (required_case (c_partsp (cls (r_class (snd g))))) else true.

  Lemma gstep_eq g s : guess_inn T F cls w g -> welcome g = true ->
    exists more,
    glemma T P rank junk F (w ++ tail) (N.of_nat (length w)) scheme dwsets s (N.of_nat (fst g)) (r_class (snd g)) (r_power (snd g)) (r_form (snd g)) =
    let! (s, nerror) := (if negb (match rev (f_stems s) with
                         | [] => true
                         | last :: _ => negb (snclass last =? r_class (snd g)) || negb (sccstem last =? N.of_nat (fst g) + 2)
                         end) then Ok (s, 0%Z) else gstep_stem more s g) in
    if negb (Z.eqb nerror 0) then Ok (s, nerror) else step_grams s (Gram (c_partsp (cls (r_class (snd g)))) (r_form (snd g)) 0 0).
  Proof. clear HP.
    intros Hg Hcap. destruct (get_class F _ _ (gn_class _ _ _ _ _ Hg)) as [rest Ec].
    exists (class_models (cls (r_class (snd g))) ++ rest). unfold glemma. rewrite Ec. clear Ec. cbn [bind app rd].
    pose proof (gn_class _ _ _ _ _ Hg) as [Hok _]. rewrite <- ?app_assoc.
    rewrite getserial_putserial by apply (co_nflex _ Hok). cbn [bind].
    replace (if tg_caps T then if bit 1 dwsets then Ok false else let! m := psp_min_cap (c_partsp (cls (r_class (snd g)))) in Ok (negb (IsGoodSheme scheme m)) else Ok false) with (Ok false).
    2:{ unfold welcome in Hcap. destruct (tg_caps T); [|reflexivity]. apply orb_true_iff in Hcap. rewrite psp_min_cap_eq by apply (co_partsp _ Hok). cbn [bind].
        destruct Hcap as [->| ->]; [reflexivity|]. destruct (bit 1 dwsets); reflexivity. }
    cbn [bind]. pose proof (gn_stem _ _ _ _ _ Hg). pose proof (gn_ending _ _ _ _ _ Hg). unfold inflex_prob_len.
    destruct (N.leb_spec (N.of_nat (length w)) (N.of_nat (fst g))); [lia|].
    destruct (N.leb_spec 16 (N.of_nat (length w) - N.of_nat (fst g) - 1)); [lia|]. cbn [orb].
    pose proof (gn_partsp _ _ _ _ _ Hg) as Hp.
    destruct (nth_error (tg_ranges T) (N.to_nat (c_partsp (cls (r_class (snd g)))))) as [mx|] eqn:Emx.
    2:{ apply nth_error_None in Emx. lia. }
    apply nth_error_nth with (d := 0) in Emx. pose proof (gn_form _ _ _ _ _ Hg) as Hf. rewrite Emx in Hf.
    replace (negb (mx =? 0) && (mx <=? r_form (snd g))) with false.
    2:{ symmetry. apply andb_false_iff. destruct Hf as [->|Hf]; [left; reflexivity|right; apply N.leb_gt; exact Hf]. }
    replace (rank (N.of_nat (length w) - N.of_nat (fst g) - 1) (r_power (snd g)) (c_partsp (cls (r_class (snd g)))) (r_form (snd g))
        (N.testbit (if c_accent (cls (r_class (snd g))) then 1 else 0) 0)) with (weight_of cls rank w [g]).
    2:{ unfold weight_of, class_no, head_of. cbn [hd]. f_equal; [lia|]. destruct (c_accent _); reflexivity. }
    cbv zeta.
    destruct (rev (f_stems s)); [reflexivity|]. reflexivity.
  Qed.

  Notation gr_of g := (Gram (c_partsp (cls (r_class (snd g)))) (r_form (snd g)) 0 0).
  Notation one_more := (one_more pgrams).

  Lemma gstep_same rs' r g s : r <> [] -> same_key (head_of r) g = true -> room (rs' ++ [r]) -> ginv (rs' ++ [r]) s ->
    guess_inn T F cls w g -> welcome g = true ->
    let f := glemma T P rank junk F (w ++ tail) (N.of_nat (length w)) scheme dwsets s (N.of_nat (fst g)) (r_class (snd g)) (r_power (snd g)) (r_form (snd g)) in
    (room (rs' ++ [r ++ [g]]) -> exists s', f = Ok (s', 0%Z) /\ ginv (rs' ++ [r ++ [g]]) s') /\
    (~ room (rs' ++ [r ++ [g]]) -> exists s' z, f = Ok (s', z) /\ (z < 0)%Z /\ same_size s').
  Proof. clear HP.
    intros Hr Hk Hroom Hinv Hg Hcap f. destruct (gstep_eq g s Hg Hcap) as [more Es0]. subst f. rewrite Es0. clear Es0.
    pose proof (gi_last _ _ Hinv) as Hl. rewrite rev_unit in Hl. destruct Hl as (x & b & Ex & Ec & Es). rewrite Ex.
    pose proof Hk as Hk'. unfold same_key in Hk'. apply andb_true_iff in Hk'. destruct Hk' as [Hk1 Hk2]. apply Nat.eqb_eq in Hk1. apply N.eqb_eq in Hk2.
    assert (E1 : snclass x =? r_class (snd g) = true) by (apply N.eqb_eq; rewrite Ec; unfold class_no; exact Hk2).
    assert (E2 : sccstem x =? N.of_nat (fst g) + 2 = true) by (apply N.eqb_eq; rewrite Es; unfold stem_len; rewrite Hk1; lia).
    rewrite E1, E2. cbn [negb orb bind]. change (0 =? 0)%Z with true. cbn [negb].
    pose proof Hroom as (R1 & R2 & R3).
    destruct (step_grams_eq rank cls dwsets pgrams s (gr_of g) (flat_map descs (rs' ++ [r])) R3 (gi_grams _ _ Hinv)) as [G1 G2].
    assert (En : normal (r ++ [g]) = normal r) by (destruct r; [congruence|reflexivity]).
    assert (Hh : head_of (r ++ [g]) = head_of r) by (destruct r; [congruence|reflexivity]).
    pose proof (descs_add cls rs' r g Hr Hk) as Ed.
    assert (Hiff : room (rs' ++ [r ++ [g]]) <-> one_more (flat_map descs (rs' ++ [r]))).
    { unfold room_in, FuzzyProofs3.one_more. rewrite Ed. split.
      - intros (_ & _ & H3). destruct pgrams; [|exact I]. rewrite app_length in H3. cbn [length] in H3. lia.
      - intros H. split; [rewrite app_length in *; exact R1|]. split.
        + destruct pforms; [|exact I]. destruct R2 as [R2 R4]. split.
          * rewrite Forall_app in *. destruct R2 as [R2 R5]. split; [exact R2|]. constructor; [rewrite En; exact (Forall_inv R5)|constructor].
          * rewrite map_app in *. cbn [map] in *. rewrite En. exact R4.
        + destruct pgrams; [|exact I]. rewrite app_length. cbn [length]. lia. }
    split; intros H.
    - rewrite (G1 (proj1 Hiff H)). eexists. split; [reflexivity|].
      assert (Ef : f_stems s = rev b ++ [x]) by (rewrite <- (rev_involutive (f_stems s)), Ex; reflexivity).
      pose proof (gi_stems _ _ Hinv) as Hst. unfold closed in Hst. destruct s as [st fo gra]. cbn [f_stems f_forms f_grams] in *. subst st.
      rewrite close_snoc in Hst. cbn [f_stems] in Hst. rewrite gstems_snoc in Hst. apply app_inj_tail in Hst. destruct Hst as [Hb Hx].
      constructor; cbn [f_stems f_forms f_grams].
      + unfold closed. rewrite close_snoc. cbn [f_stems]. rewrite gstems_snoc, Hb. f_equal. f_equal.
        unfold counted, gstem_at in *. injection Hx as X1 X2 X3 X4 X5 X6. unfold stem_len, class_no, weight_of in *. unfold class_no in *. rewrite Hh. rewrite X1, X2, X3, X6. f_equal.
        * rewrite X4. reflexivity.
        * rewrite X4. unfold ngrams_now. cbn [f_grams]. rewrite !app_length. destruct pgrams as [m|]; cbn [option_map is_some length]; [|reflexivity].
          rewrite flat_map_app. cbn [flat_map]. rewrite app_nil_r. rewrite !app_length, descs_length. lia.
      + pose proof (gi_len _ _ Hinv) as Hlen. cbn [f_stems] in Hlen. rewrite !app_length in *. exact Hlen.
      + rewrite rev_unit. exists x, b. rewrite rev_unit, rev_involutive. repeat split; [unfold class_no; rewrite Hh; exact Ec|unfold stem_len; rewrite Hh; exact Es].
      + rewrite !map_app. cbn [map]. rewrite En. pose proof (gi_forms _ _ Hinv) as Hf. cbn [f_forms] in Hf. rewrite !map_app in Hf. exact Hf.
      + rewrite Ed. reflexivity.
    - rewrite (G2 (fun q => H (proj2 Hiff q))). do 2 eexists. split; [reflexivity|]. split; [lia|]. exact (ginv_size _ _ Hroom Hinv).
  Qed.

  Lemma gstep_new rs g s : (match rev rs with [] => True | r :: _ => same_key (head_of r) g = false end) -> room rs -> ginv rs s ->
    (pforms <> None -> (forall n, workable T (junk n)) /\ ~ In 0 w) ->
    guess_inn T F cls w g -> welcome g = true ->
    let f := glemma T P rank junk F (w ++ tail) (N.of_nat (length w)) scheme dwsets s (N.of_nat (fst g)) (r_class (snd g)) (r_power (snd g)) (r_form (snd g)) in
    (room (rs ++ [[g]]) -> exists s', f = Ok (s', 0%Z) /\ ginv (rs ++ [[g]]) s') /\
    (~ room (rs ++ [[g]]) -> exists s' z, f = Ok (s', z) /\ (z < 0)%Z /\ same_size s').
  Proof.
    intros Hk Hroom Hinv Hjunk Hg Hcap f. destruct (gstep_eq g s Hg Hcap) as [more Es0]. subst f. rewrite Es0. clear Es0.
    assert (Ea : match rev (f_stems s) with [] => true | last :: _ => negb (snclass last =? r_class (snd g)) || negb (sccstem last =? N.of_nat (fst g) + 2) end = true).
    { pose proof (gi_last _ _ Hinv) as Hl. destruct (rev rs) as [|r ?]; [rewrite Hl; reflexivity|]. destruct Hl as (x & b & -> & Ec & Es).
      rewrite Ec, Es. unfold same_key in Hk. apply andb_false_iff in Hk. unfold class_no, stem_len. apply orb_true_iff. rewrite !negb_true_iff.
      destruct Hk as [Hk|Hk]; [right; apply N.eqb_neq; apply Nat.eqb_neq in Hk; lia|left; exact Hk]. }
    rewrite Ea. clear Ea. cbn [negb]. unfold gstep_stem. rewrite (gi_len _ _ Hinv). pose proof Hroom as (R1 & R2 & R3).
    destruct (Nat.eqb_spec (length rs) 64) as [E64|N64].
    { cbn [bind]. change (negb (-1 =? 0)%Z) with true. split.
      - intros (H & _). rewrite app_length in H. cbn [length] in H. lia.
      - intros _. do 2 eexists. split; [reflexivity|]. split; [lia|]. exact (ginv_size _ _ Hroom Hinv). }
    cbv zeta. rewrite close_forms, close_grams, close_ngrams. cbn [f_stems f_forms f_grams].
    change (f_stems (close_last s)) with (closed s). rewrite (gi_stems _ _ Hinv), (gi_forms _ _ Hinv), (gi_grams _ _ Hinv), (gngrams_inv _ _ Hinv).
    set (x := StemInfo _ _ _ _ _ _).
    assert (Ex : forall n, counted x n = StemInfo (if is_some pforms then Some (total (map e (map normal rs))) else None) (N.of_nat (stem_len [g])) (class_no [g])
         (if is_some pgrams then length (flat_map descs rs) else 0%nat) (n - (if is_some pgrams then length (flat_map descs rs) else 0%nat)) (weight_of cls rank w [g])).
    { intros n. unfold counted, x. cbn [splemma sccstem snclass spgrams sweight]. f_equal.
      - destruct pforms; reflexivity.
      - unfold stem_len, head_of. cbn [hd]. lia. }
    clearbody x.
    assert (Hgram : forall fo,
      (one_more (flat_map descs rs) -> fo = option_map (fun m => Coder (filled_in E (map normal (rs ++ [[g]])) m) (total (map e (map normal (rs ++ [[g]]))))) pforms ->
        exists s', step_grams (FState (stems 0 0 rs ++ [x]) fo (option_map (fun m => (put_front (flat_map descs rs) m, length (flat_map descs rs))) pgrams)) (gr_of g) = Ok (s', 0%Z) /\
          ginv (rs ++ [[g]]) s') /\
      (~ one_more (flat_map descs rs) -> option_map (fun c => length (cmem c)) fo = option_map (@length N) pforms ->
        exists s' z, step_grams (FState (stems 0 0 rs ++ [x]) fo (option_map (fun m => (put_front (flat_map descs rs) m, length (flat_map descs rs))) pgrams)) (gr_of g) = Ok (s', z) /\
          (z < 0)%Z /\ same_size s')).
    { intros fo. destruct (step_grams_eq rank cls dwsets pgrams (FState (stems 0 0 rs ++ [x]) fo (option_map (fun m => (put_front (flat_map descs rs) m, length (flat_map descs rs))) pgrams))
        (gr_of g) (flat_map descs rs) R3 eq_refl) as [G1 G2]. cbn [f_stems f_forms f_grams] in *. split.
      - intros H Hfo. rewrite (G1 H). eexists. split; [reflexivity|]. constructor; cbn [f_stems f_forms f_grams].
        + unfold closed. rewrite close_snoc. cbn [f_stems]. rewrite gstems_snoc. f_equal. f_equal. rewrite Ex. unfold gstem_at. f_equal.
          unfold ngrams_now. cbn [f_grams]. destruct pgrams; cbn [option_map is_some length]; [|reflexivity]. rewrite app_length. cbn [length]. lia.
        + rewrite !app_length. f_equal. rewrite <- (gi_stems _ _ Hinv), closed_length. exact (gi_len _ _ Hinv).
        + rewrite rev_unit. exists x, (rev (stems 0 0 rs)). rewrite rev_unit. split; [reflexivity|].
          pose proof (f_equal snclass (Ex 0%nat)) as X3. pose proof (f_equal sccstem (Ex 0%nat)) as X2. split; [exact X3|exact X2].
        + exact Hfo.
        + rewrite descs_new. reflexivity.
      - intros H Hfo. rewrite (G2 H). do 2 eexists. split; [reflexivity|]. split; [lia|]. split; [exact Hfo|]. cbn [f_grams].
        destruct pgrams; [|reflexivity]. cbn [option_map fst]. rewrite put_front_length by exact R3. reflexivity. }
    assert (Hiff : room (rs ++ [[g]]) <-> one_more (flat_map descs rs) /\
      match pforms with None => True | Some m => (length (normal [g]) <= 63)%nat /\ fit_in E (length m) (map normal rs ++ [normal [g]]) end).
    { unfold room_in, FuzzyProofs3.one_more. rewrite descs_new, !app_length. cbn [length]. split.
      - intros (_ & H2 & H3). split; [destruct pgrams; [rewrite ?app_length in H3; cbn [length] in H3; lia|exact I]|]. destruct pforms as [m|]; [|exact I].
        destruct H2 as [H2 H4]. split; [rewrite Forall_app in H2; exact (Forall_inv (proj2 H2))|]. rewrite map_app in H4. exact H4.
      - intros [H1 H2]. split; [lia|]. split; [|destruct pgrams; [rewrite ?app_length; cbn [length]; lia|exact I]]. destruct pforms as [m|]; [|exact I].
        destruct R2 as [R2 R4]. destruct H2 as [H2 H4]. split; [rewrite Forall_app; split; [exact R2|constructor; [exact H2|constructor]]|]. rewrite map_app. exact H4. }
    destruct pforms as [m|] eqn:Epf; cbn [option_map].
    - destruct (Hjunk ltac:(discriminate)) as [Hj Hn]. destruct R2 as [R2 R4].
      pose proof (gn_stem _ _ _ _ _ Hg) as Hst. rewrite app_length. destruct (Nat.ltb_spec (length w + length tail) (N.to_nat (N.of_nat (fst g)) + 2)); [lia|].
      rewrite Nnat.Nat2N.id. rewrite firstn_app. replace (fst g + 2 - length w)%nat with 0%nat by lia. rewrite firstn_O, app_nil_r.
      pose proof (gn_class _ _ _ _ _ Hg) as [Hok _]. pose proof (co_flex _ Hok) as Hfl. pose proof (gn_inflex _ _ _ _ _ Hg) as Hfn.
      destruct (c_inflex (cls (r_class (snd g)))) as [|f l] eqn:Ei; [congruence|].
      rewrite gnormal_eq; [|apply Hj|intros Hin; apply Hn; rewrite <- (firstn_skipn (fst g + 2) w); apply in_or_app; left; exact Hin|exact Hfl|apply (co_partsp _ Hok)].
      assert (En : cased T (c_partsp (cls (r_class (snd g)))) (firstn (fst g + 2) w ++ snd f) = normal [g]).
      { unfold normal_in, class_no, stem_len, head_of. cbn [hd]. rewrite Ei. reflexivity. }
      rewrite En. destruct (Nat.leb_spec 64 (length (normal [g]))) as [H64|H64].
      { cbn [bind]. change (negb (-4 =? 0)%Z) with true. split; [intros H1; apply Hiff in H1; lia|]. intros _. do 2 eexists. split; [reflexivity|]. split; [lia|].
        split; cbn [f_forms f_grams option_map cmem]; [rewrite filled_in_length by exact R4; reflexivity|].
        destruct pgrams; [|reflexivity]. cbn [option_map fst]. rewrite put_front_length by exact R3. reflexivity. }
      destruct (page_put_step P HP (map normal rs) (normal [g]) m R4) as [P1 P2].
      destruct (fit_in_dec E (length m) (map normal rs ++ [normal [g]])) as [Hl|Hl].
      + rewrite (P1 Hl). cbn [bind]. change (negb (0 =? 0)%Z) with false. cbn [f_stems f_grams].
        assert (Em : map normal rs ++ [normal [g]] = map normal (rs ++ [[g]])) by (rewrite map_app; reflexivity). rewrite Em in *.
        destruct (Hgram (Some (Coder (filled_in E (map normal (rs ++ [[g]])) m) (total (map e (map normal (rs ++ [[g]]))))))) as [G1 G2].
        split; intros H1.
        * destruct (proj1 Hiff H1) as [H2 _]. exact (G1 H2 eq_refl).
        * assert (Hno : ~ one_more (flat_map descs rs)) by (intros q; apply H1, Hiff; split; [exact q|split; [lia|exact Hl]]).
          apply (G2 Hno). cbn [option_map cmem]. rewrite filled_in_length; [reflexivity|]. exact Hl.
      + destruct (P2 Hl) as (co & Hp & Hlen). rewrite Hp. cbn [bind]. change (negb (-1 =? 0)%Z) with true. split; [intros H1; apply Hiff in H1; tauto|].
        intros _. do 2 eexists. split; [reflexivity|]. split; [lia|]. split; cbn [f_forms f_grams option_map].
        * rewrite Hlen. reflexivity.
        * destruct pgrams; [|reflexivity]. cbn [option_map fst]. rewrite put_front_length by exact R3. reflexivity.
    - cbn [bind]. change (negb (0 =? 0)%Z) with false. destruct (Hgram None) as [G1 G2]. split; intros H1.
      + apply G1; [apply Hiff; exact H1|reflexivity].
      + apply G2; [|reflexivity]. intros q. apply H1, Hiff. split; [exact q|exact I].
  Qed.

  Lemma groom_dec rs : {room rs} + {~ room rs}.
  Proof. clear HP.
    unfold room_in. destruct (le_dec (length rs) 64); [|right; tauto].
    assert ({match pforms with None => True | Some m => Forall (fun r => (length (normal r) <= 63)%nat) rs /\ fit_in E (length m) (map normal rs) end} +
            {~ match pforms with None => True | Some m => Forall (fun r => (length (normal r) <= 63)%nat) rs /\ fit_in E (length m) (map normal rs) end}) as [H|H].
    { destruct pforms as [m|]; [|left; exact I]. destruct (Forall_dec _ (fun r => le_dec (length (normal r)) 63) rs); [|right; tauto].
      destruct (fit_in_dec E (length m) (map normal rs)); [left|right]; tauto. }
    2: right; tauto.
    assert ({match pgrams with None => True | Some m => (length (flat_map descs rs) <= length m)%nat end} +
            {~ match pgrams with None => True | Some m => (length (flat_map descs rs) <= length m)%nat end}) as [H'|H'].
    { destruct pgrams as [m|]; [|left; exact I]. apply le_dec. }
    - left. tauto.
    - right. tauto.
  Qed.

  Hypothesis Hjunk : pforms <> None -> (forall n, workable T (junk n)) /\ ~ In 0 w.

  Lemma gstep g l s : room (runs l) -> ginv (runs l) s -> guess_inn T F cls w g -> welcome g = true ->
    let f := call (glemma T P rank junk F (w ++ tail) (N.of_nat (length w)) scheme dwsets) s g in
    (room (runs (l ++ [g])) -> exists s', f = Ok (s', 0%Z) /\ ginv (runs (l ++ [g])) s') /\
    (~ room (runs (l ++ [g])) -> exists s' z, f = Ok (s', z) /\ (z < 0)%Z /\ same_size s').
  Proof.
    intros Hr Hi Hg Ha. unfold call. rewrite runs_snoc.
    destruct (addg_cases (runs l) g (runs_nonempty l)) as [(rs' & r & Eg & Hk & E2)|(E2 & Hk)]; rewrite E2.
    - rewrite Eg in *. apply gstep_same; try assumption. pose proof (runs_nonempty l) as Hne. rewrite Eg in Hne. rewrite Forall_app in Hne.
      exact (Forall_inv (proj2 Hne)).
    - apply gstep_new; assumption.
  Qed.

  Lemma groom_prefix l : forall l', room (runs (l' ++ l)) -> room (runs l').
  Proof. clear Hjunk HP.
    induction l as [|g l IH]; intros l' H; [rewrite app_nil_r in H; exact H|].
    change (g :: l) with ([g] ++ l) in H. rewrite app_assoc in H. apply IH in H. apply (groom_less (runs l') (runs (l' ++ [g])) g); [apply runs_nonempty|apply runs_snoc|exact H].
  Qed.

  Lemma gsteps l : forall l' s, room (runs l') -> ginv (runs l') s -> Forall (guess_inn T F cls w) l -> forallb welcome l = true ->
    let f := until_nonzero (call (glemma T P rank junk F (w ++ tail) (N.of_nat (length w)) scheme dwsets)) l s in
    (room (runs (l' ++ l)) -> exists s', f = Ok (s', 0%Z) /\ ginv (runs (l' ++ l)) s') /\
    (~ room (runs (l' ++ l)) -> exists s' z, f = Ok (s', z) /\ (z < 0)%Z /\ same_size s').
  Proof.
    induction l as [|g l IH]; intros l' s Hr Hi Hg Ha; cbn [until_nonzero].
    - rewrite app_nil_r. split; [intros _; exists s; split; [reflexivity|exact Hi]|tauto].
    - cbn [forallb] in Ha. apply andb_true_iff in Ha. destruct Ha as [Ha1 Ha]. inversion Hg as [|? ? Hg1 Hg2]; subst.
      change (g :: l) with ([g] ++ l). rewrite app_assoc. destruct (gstep g l' s Hr Hi Hg1 Ha1) as [S1 S2].
      destruct (groom_dec (runs (l' ++ [g]))) as [Hy|Hn].
      + destruct (S1 Hy) as (s' & -> & Hi'). cbn [bind]. change (0 =? 0)%Z with true. cbv iota. apply IH; assumption.
      + destruct (S2 Hn) as (s' & z & -> & Hz & Hs). cbn [bind]. destruct (Z.eqb_spec z 0); [lia|]. split.
        * intros H. apply groom_prefix in H. contradiction.
        * intros _. exists s', z. repeat split; try assumption; apply Hs.
  Qed.

  Lemma grefused g s : has_class F (r_class (snd g)) (cls (r_class (snd g))) -> welcome g = false ->
    call (glemma T P rank junk F (w ++ tail) (N.of_nat (length w)) scheme dwsets) s g = Ok (s, 0%Z).
  Proof. clear Hjunk HP.
    intros Hc Ha. unfold welcome in Ha. destruct (tg_caps T) eqn:Et; [|discriminate]. apply orb_false_iff in Ha. destruct Ha as [A1 A2].
    destruct (get_class F _ _ Hc) as [rest Ec]. unfold call, glemma. rewrite Ec. cbn [bind app rd]. destruct Hc as [Hok _]. rewrite <- ?app_assoc.
    rewrite getserial_putserial by apply (co_nflex _ Hok). cbn [bind]. rewrite Et, A1. rewrite psp_min_cap_eq by apply (co_partsp _ Hok). cbn [bind]. rewrite A2. reflexivity.
  Qed.

  Lemma guntil l : forall s, Forall (fun g => has_class F (r_class (snd g)) (cls (r_class (snd g)))) l ->
    until_nonzero (call (glemma T P rank junk F (w ++ tail) (N.of_nat (length w)) scheme dwsets)) l s =
    until_nonzero (call (glemma T P rank junk F (w ++ tail) (N.of_nat (length w)) scheme dwsets)) (filter welcome l) s.
  Proof. clear Hjunk HP.
    induction l as [|g l IH]; intros s H; [reflexivity|]. inversion H as [|? ? H1 H2]; subst. cbn [filter]. destruct (welcome g) eqn:Eg.
    - cbn [until_nonzero]. destruct (call _ s g) as [[s' z]|]; [|reflexivity]. cbn [bind]. destruct (Z.eqb z 0); [apply IH; exact H2|reflexivity].
    - cbn [until_nonzero]. rewrite grefused by assumption. cbn [bind]. change (0 =? 0)%Z with true. cbv iota. apply IH. exact H2.
  Qed.

  Lemma ginv_nil : ginv (runs []) (FState [] (option_map (fun m => Coder m 0) pforms) (option_map (fun m => (m, 0%nat)) pgrams)).
  Proof. clear Hjunk HP. constructor; reflexivity. Qed.
  Lemma groom_nil : room (runs []).
  Proof. clear Hjunk HP. split; [cbn; lia|]. split; [destruct pforms; [split; [constructor|left; reflexivity]|exact I]|destruct pgrams; [cbn; lia|exact I]]. Qed.

  Theorem gcollected l : Forall (fun g => has_class F (r_class (snd g)) (cls (r_class (snd g)))) l -> Forall (guess_inn T F cls w) (filter welcome l) ->
    let f := until_nonzero (call (glemma T P rank junk F (w ++ tail) (N.of_nat (length w)) scheme dwsets)) l
               (FState [] (option_map (fun m => Coder m 0) pforms) (option_map (fun m => (m, 0%nat)) pgrams)) in
    let rs := runs (filter welcome l) in
    (room rs -> exists s', f = Ok (s', 0%Z) /\ ginv rs s') /\
    (~ room rs -> exists s' z, f = Ok (s', z) /\ (z < 0)%Z /\ same_size s').
  Proof.
    intros H1 H2. rewrite guntil by exact H1.
    refine (gsteps (filter welcome l) [] _ groom_nil ginv_nil H2 _). apply forallb_forall. intros g Hg. apply filter_In in Hg. apply Hg.
  Qed.

  (** *** The lengths of the stems *)
  Lemma in_bytes_eq E0 rs : coding P = E0 -> Forall (fun r => (stem_len r <= length w)%nat) rs -> forall fpos gpos, pforms <> None ->
    P = Utf8 E0 -> in_bytes E0 (w ++ tail) (stems fpos gpos rs) = Ok (stems_in T P cls rank w (is_some pforms) (is_some pgrams) fpos gpos rs).
  Proof. clear Hjunk HP.
    intros HE Hrs fpos gpos Hpf HPu. revert fpos gpos. induction Hrs as [|r rs Hr Hrs IH]; intros fpos gpos; [reflexivity|].
    cbn [raw_stems in_bytes sccstem]. rewrite app_length. destruct (N.ltb_spec (N.of_nat (length w + length tail)) (N.of_nat (stem_len r))); [lia|].
    rewrite IH. cbn [bind stems_in splemma snclass spgrams sngrams sweight]. do 2 f_equal. f_equal.
    unfold stem_size. rewrite HPu. destruct pforms; [|congruence]. cbn [is_some]. rewrite Nnat.Nat2N.id, firstn_app.
    replace (stem_len r - length w)%nat with 0%nat by lia. rewrite firstn_O, app_nil_r. reflexivity.
  Qed.
  Lemma raw_eq : (match P with Utf8 _ => pforms = None | _ => True end) -> forall rs fpos gpos, stems fpos gpos rs = stems_in T P cls rank w (is_some pforms) (is_some pgrams) fpos gpos rs.
  Proof. clear Hjunk HP.
    intros H. induction rs as [|r rs IH]; intros fpos gpos; [reflexivity|]. cbn [raw_stems stems_in]. rewrite IH. do 2 f_equal. unfold stem_size.
    destruct P; [reflexivity|reflexivity|]. rewrite H. reflexivity.
  Qed.
End Lemm.

Lemma ranges_known_in T p : p < known_parts T -> p < N.of_nat (length (tg_ranges T)) /\ nth (N.to_nat p) (tg_ranges T) 0 = known_count T p.
Proof.
  destruct T; cbn [known_parts]; intros H.
  - split; [exact H|]. exact (ranges_known p H).
  - split; [exact H|]. assert (A : forallb (fun k => nth k (tg_ranges English) 0 =? known_count English (N.of_nat k)) (seq 0 5) = true) by (vm_compute; reflexivity).
    rewrite forallb_forall in A. specialize (A (N.to_nat p)). rewrite Nnat.N2Nat.id in A. apply N.eqb_eq. apply A. apply in_seq. lia.
Qed.
Lemma guess_fine_in T F t cls w g : guesser_in T F t cls -> In g (guesses (contents t) w) -> guess_inn T F cls w g.
Proof.
  intros HG H. apply guess_in in H. destruct H as (kv & n & H1 & H2 & H3 & H4 & H5).
  destruct (gi_classes _ _ _ _ HG kv (snd g) H1 H2) as (C1 & C2 & C3 & C4). destruct (ranges_known_in T _ C3) as [C3' Ek]. rewrite <- Ek in C4.
  pose proof (gi_keys _ _ _ _ HG) as Hk. rewrite Forall_forall in Hk. specialize (Hk kv H1). cbv beta in Hk. pose proof (f_equal (@length N) H5) as H6. rewrite rev_length, skipn_length in H6. unfold bytes in *.
  constructor; try assumption; lia.
Qed.
