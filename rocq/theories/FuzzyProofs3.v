(** * FuzzyProofs3: lemmatising an unknown word.  PROOFS ONLY. *)
From Verif Require Import Base Serial SerialProofs TreeSpec FlatScanProofs CharTables CapScheme CapSpec CapProofs CapProofs2 CapProofs3 GramMap RusRuntime
  LevelSpec LevelProofs RusSpec RusProofs RusProofs2 RusProofs3 RusBuild RusBuildSpec RusBuildProofs RusBuildProofs2 RusBuildProofs3 Fuzzy FuzzySpec FuzzyProofs FuzzyProofs2.
Local Open Scope N_scope.

(** ** Runs, from the left *)
Definition same_key (g h : nat * class_ref) : bool := Nat.eqb (fst g) (fst h) && (r_class (snd g) =? r_class (snd h)).
Fixpoint addg (rs : list (list (nat * class_ref))) (g : nat * class_ref) : list (list (nat * class_ref)) :=
  match rs with
  | [] => [[g]]
  | [r] => if same_key (head_of r) g then [r ++ [g]] else [r; [g]]
  | r :: rs' => r :: addg rs' g
  end.

Lemma runs_cons g l : runs (g :: l) =
  match runs l with
  | (h :: r) :: rs => if same_key g h then (g :: h :: r) :: rs else [g] :: (h :: r) :: rs
  | rs => [g] :: rs
  end.
Proof. reflexivity. Qed.

Lemma runs_nonempty l : Forall (fun r => r <> []) (runs l).
Proof.
  induction l as [|g l IH]; [constructor|]. rewrite runs_cons. destruct (runs l) as [|[|h r] rs].
  - constructor; [discriminate|constructor].
  - constructor; [discriminate|assumption].
  - inversion IH; subst. destruct (same_key g h); constructor; try discriminate; try assumption.
Qed.
Lemma runs_nil l : runs l = [] -> l = [].
Proof.
  destruct l as [|g l]; [reflexivity|]. rewrite runs_cons. destruct (runs l) as [|[|h r] rs]; try discriminate. destruct (same_key g h); discriminate.
Qed.
Lemma same_key_sym g h : same_key g h = same_key h g.
Proof. unfold same_key. rewrite Nat.eqb_sym, N.eqb_sym. reflexivity. Qed.
Lemma same_key_trans g h k : same_key g h = true -> same_key g k = same_key h k.
Proof. unfold same_key. intros H. apply andb_true_iff in H. destruct H as [H1 H2]. apply Nat.eqb_eq in H1. apply N.eqb_eq in H2. rewrite H1, H2. reflexivity. Qed.

Lemma addg_cons r rs g : rs <> [] -> addg (r :: rs) g = r :: addg rs g.
Proof. destruct rs; [congruence|reflexivity]. Qed.
Lemma addg_nonempty rs g : addg rs g <> [].
Proof. destruct rs as [|r [|r' rs]]; cbn [addg]; try discriminate. destruct (same_key (head_of r) g); discriminate. Qed.
Lemma addg_head r rs g : exists r' rs', addg (r :: rs) g = r' :: rs' /\ (r <> [] -> head_of r' = head_of r /\ r' <> []) /\
  (r = r' \/ (rs = [] /\ rs' = [] /\ r' = r ++ [g])).
Proof.
  destruct rs as [|r1 rs]; cbn [addg].
  - destruct (same_key (head_of r) g); do 2 eexists; (split; [reflexivity|]).
    + split; [|right; repeat split]. intros H. destruct r; [congruence|]. split; [reflexivity|discriminate].
    + split; [intros H; split; [reflexivity|exact H]|left; reflexivity].
  - do 2 eexists. split; [reflexivity|]. split; [intros H; split; [reflexivity|exact H]|left; reflexivity].
Qed.

Lemma runs_snoc l g : runs (l ++ [g]) = addg (runs l) g.
Proof.
  induction l as [|a l IH]; [reflexivity|]. cbn [app]. rewrite !runs_cons, IH. destruct (runs l) as [|r rs] eqn:E.
  - cbn [addg]. apply runs_nil in E. subst l. cbn [head_of hd]. destruct (same_key a g); reflexivity.
  - pose proof (runs_nonempty l) as Hne. rewrite E in Hne. inversion Hne as [|? ? Hr Hrs]; subst. destruct r as [|h r]; [congruence|].
    destruct rs as [|r1 rs].
    + unfold head_of. cbn [addg hd]. destruct (same_key h g) eqn:Ehg; destruct (same_key a h) eqn:Eah; cbn [app addg head_of hd]; unfold head_of; cbn [hd];
        rewrite ?(same_key_trans _ _ _ Eah), ?Ehg, ?Eah; cbn [app addg head_of hd]; unfold head_of; cbn [hd]; rewrite ?(same_key_trans _ _ _ Eah), ?Ehg, ?Eah; try reflexivity.
    + rewrite addg_cons by discriminate. destruct (same_key a h).
      * rewrite (addg_cons (a :: h :: r) (r1 :: rs)) by discriminate. reflexivity.
      * rewrite (addg_cons [a] ((h :: r) :: r1 :: rs)) by discriminate. rewrite (addg_cons (h :: r) (r1 :: rs)) by discriminate. reflexivity.
Qed.

(** the shape of [addg] *)
Lemma addg_cases rs g : Forall (fun r => r <> []) rs ->
  (exists rs' r, rs = rs' ++ [r] /\ same_key (head_of r) g = true /\ addg rs g = rs' ++ [r ++ [g]]) \/
  (addg rs g = rs ++ [[g]] /\ match rev rs with [] => True | r :: _ => same_key (head_of r) g = false end).
Proof.
  induction rs as [|r rs IH]; intros Hne; [right; split; [reflexivity|exact I]|]. inversion Hne as [|? ? Hr Hrs]; subst.
  destruct rs as [|r1 rs].
  - cbn [addg]. destruct (same_key (head_of r) g) eqn:E; [left; exists [], r; repeat split; assumption|right; split; [reflexivity|exact E]].
  - rewrite addg_cons by discriminate. destruct (IH Hrs) as [(rs' & r' & E & Hk & ->)|(-> & H)].
    + left. exists (r :: rs'), r'. rewrite E. repeat split. exact Hk.
    + right. split; [reflexivity|]. cbn [rev] in *. destruct (rev rs ++ [r1]) as [|x y] eqn:Ex; [destruct (rev rs); discriminate|]. exact H.
Qed.

Record guess_ok (F : fuzzy) (cls : N -> class_src) (w : bytes) (g : nat * class_ref) : Prop := {
  go_class : has_class F (r_class (snd g)) (cls (r_class (snd g)));
  go_inflex : c_inflex (cls (r_class (snd g))) <> [];
  go_stem : (fst g + 2 <= length w)%nat;
  go_ending : (length w <= fst g + 16)%nat;
  go_partsp : c_partsp (cls (r_class (snd g))) < 47;
  go_form : nth (N.to_nat (c_partsp (cls (r_class (snd g))))) psp_ranges 0 = 0 \/
            r_form (snd g) < nth (N.to_nat (c_partsp (cls (r_class (snd g))))) psp_ranges 0;
}.

Lemma filled_length fs m : fit (length m) fs -> length (filled fs m) = length m.
Proof. intros H. unfold filled. rewrite app_length. apply after_length. exact H. Qed.
Lemma put_front_length {X} (l m : list X) : (length l <= length m)%nat -> length (put_front l m) = length m.
Proof. intros H. unfold put_front. rewrite app_length, skipn_length. lia. Qed.

Section Lemm.
  Variable rank : N -> N -> N -> N -> bool -> Z.
  Variable junk : nat -> bytes.
  Variable F : fuzzy.
  Variable cls : N -> class_src.
  Variables (w tail : bytes) (scheme dwsets : N).
  Variables (pforms : option bytes) (pgrams : option (list gram)).

  Notation normal := (normal_of cls w).
  Notation descs := (descriptions cls).
  Notation stems := (stems_of cls rank w (is_some pforms) (is_some pgrams)).

  Lemma stems_app a : forall b fpos gpos, stems fpos gpos (a ++ b) = stems fpos gpos a ++ stems (fpos + total (map normal a)) (gpos + length (flat_map descs a)) b.
  Proof.
    induction a as [|r a IH]; intros b fpos gpos; cbn [app stems_of map total fold_right flat_map length].
    - rewrite !Nat.add_0_r. reflexivity.
    - fold (total (map normal a)). rewrite IH. cbn [app]. do 2 f_equal. rewrite app_length. unfold descriptions at 2. rewrite map_length. f_equal; lia.
  Qed.

  Definition closed (s : fstate) : list stem_info := f_stems (close_last s).
  Record inv (rs : list (list (nat * class_ref))) (s : fstate) : Prop := {
    i_stems : closed s = stems 0%nat 0%nat rs;
    i_len : length (f_stems s) = length rs;
    i_last : match rev rs with
             | [] => f_stems s = []
             | r :: _ => exists x b, rev (f_stems s) = x :: b /\ snclass x = class_no r /\ sccstem x = N.of_nat (stem_len r)
             end;
    i_forms : f_forms s = option_map (fun m => Coder (filled (map normal rs) m) (length (joined (map normal rs)))) pforms;
    i_grams : f_grams s = option_map (fun m => (put_front (flat_map descs rs) m, length (flat_map descs rs))) pgrams;
  }.

  Definition same_size (s : fstate) : Prop :=
    option_map (fun c => length (cmem c)) (f_forms s) = option_map (@length N) pforms /\
    option_map (fun m => length (fst m)) (f_grams s) = option_map (@length gram) pgrams.

  Lemma inv_size rs s : room_for cls w pforms pgrams rs -> inv rs s -> same_size s.
  Proof.
    intros (_ & Hf & Hg) H. unfold same_size. rewrite (i_forms _ _ H), (i_grams _ _ H). split.
    - destruct pforms; [|reflexivity]. cbn [option_map cmem]. rewrite filled_length by apply Hf. reflexivity.
    - destruct pgrams; [|reflexivity]. cbn [option_map fst]. rewrite put_front_length by exact Hg. reflexivity.
  Qed.

  Lemma joined_total fs : length (joined fs) = total fs.
  Proof. apply joined_length. Qed.

  Lemma put_gram_eq (gs : list gram) m x : (length gs < length m)%nat ->
    mem_write (put_front gs m) (length gs) x = Ok (put_front (gs ++ [x]) m).
  Proof.
    intros H. unfold mem_write. rewrite put_front_length by lia. destruct (Nat.ltb_spec (length gs) (length m)); [|lia].
    unfold put_front. rewrite firstn_app, firstn_all, Nat.sub_diag, firstn_O, app_nil_r. f_equal. rewrite <- app_assoc. cbn [app]. do 2 f_equal.
    rewrite app_length. cbn [length]. rewrite skipn_app. rewrite skipn_all2 by lia. replace (S (length gs) - length gs)%nat with 1%nat by lia. cbn [app].
    rewrite skipn_skipn'. f_equal. lia.
  Qed.

  Lemma ngrams_inv rs s : inv rs s -> ngrams_now s = if is_some pgrams then length (flat_map descs rs) else 0%nat.
  Proof. intros H. unfold ngrams_now. rewrite (i_grams _ _ H). destruct pgrams; reflexivity. Qed.

  Lemma room_less rs rs' g : Forall (fun r => r <> []) rs -> rs' = addg rs g -> room_for cls w pforms pgrams rs' -> room_for cls w pforms pgrams rs.
  Proof.
    intros Hne -> (H1 & H2 & H3). destruct (addg_cases rs g Hne) as [(rs1 & r & -> & Hk & E)|(E & _)]; rewrite E in *.
    - assert (Hr : r <> []) by (rewrite Forall_app in Hne; destruct Hne as [_ Hne]; inversion Hne; assumption).
      assert (En : normal (r ++ [g]) = normal r) by (destruct r; [congruence|reflexivity]).
      rewrite map_app, flat_map_app in *. cbn [map flat_map] in *. rewrite En in H2. split; [rewrite app_length in *; exact H1|]. split.
      + destruct pforms; [|exact I]. destruct H2 as [H2 H4]. split; [|rewrite map_app; exact H4]. rewrite Forall_app in *. destruct H2 as [H2 H5]. split; [exact H2|].
        inversion H5; subst. constructor; [rewrite <- En; assumption|constructor].
      + destruct pgrams; [|exact I].
        assert (E1 : length (descs (r ++ [g])) = S (length (descs r))) by (unfold descriptions; rewrite !map_length, app_length; cbn [length]; lia).
        rewrite !flat_map_app, !app_length in *. cbn [flat_map] in *. rewrite !app_nil_r in *. lia.
    - rewrite map_app, flat_map_app in *. cbn [map flat_map] in *. split; [rewrite app_length in H1; cbn [length] in H1; lia|]. split.
      + destruct pforms as [m|]; [|exact I]. destruct H2 as [H2 H4]. split; [rewrite Forall_app in H2; apply H2|].
        rewrite (fit_app _ _ _ m eq_refl) in H4. apply H4.
      + destruct pgrams; [|exact I]. rewrite app_length in H3. lia.
  Qed.

  Definition counted (x : stem_info) (n : nat) : stem_info := StemInfo (splemma x) (sccstem x) (snclass x) (spgrams x) (n - spgrams x) (sweight x).
  Lemma close_snoc b x f g : close_last (FState (b ++ [x]) f g) = FState (b ++ [counted x (ngrams_now (FState (b ++ [x]) f g))]) f g.
  Proof. unfold close_last. cbn [f_stems f_forms f_grams]. rewrite rev_unit, rev_involutive. reflexivity. Qed.
  Lemma close_forms s : f_forms (close_last s) = f_forms s.
  Proof. unfold close_last. destruct (rev (f_stems s)); reflexivity. Qed.
  Lemma close_grams s : f_grams (close_last s) = f_grams s.
  Proof. unfold close_last. destruct (rev (f_stems s)); reflexivity. Qed.
  Lemma close_ngrams s : ngrams_now (close_last s) = ngrams_now s.
  Proof. unfold ngrams_now. rewrite close_grams. reflexivity. Qed.
  Lemma closed_length s : length (closed s) = length (f_stems s).
  Proof.
    unfold closed, close_last. destruct (rev (f_stems s)) as [|x b] eqn:E; [reflexivity|]. cbn [f_stems].
    replace (f_stems s) with (rev b ++ [x]) by (rewrite <- (rev_involutive (f_stems s)), E; reflexivity). rewrite !app_length. reflexivity.
  Qed.

  Definition stem_at (fpos gpos : nat) (r : list (nat * class_ref)) : stem_info :=
    StemInfo (if is_some pforms then Some fpos else None) (N.of_nat (stem_len r)) (class_no r) (if is_some pgrams then gpos else 0%nat)
             (if is_some pgrams then length r else 0%nat) (weight_of cls rank w r).
  Lemma stems_one fpos gpos r : stems fpos gpos [r] = [stem_at fpos gpos r].
  Proof. reflexivity. Qed.
  Lemma stems_snoc rs r : stems 0 0 (rs ++ [r]) = stems 0 0 rs ++ [stem_at (total (map normal rs)) (length (flat_map descs rs)) r].
  Proof. rewrite stems_app, stems_one. reflexivity. Qed.
  Lemma descs_length r : length (descs r) = length r.
  Proof. unfold descriptions. apply map_length. Qed.

  (** *** The steps of the collector *)
  Definition step_grams (s : fstate) (x : gram) : res (fstate * Z) :=
    match f_grams s with
    | None => Ok (s, 0%Z)
    | Some (mem, cur) =>
        if Nat.eqb cur (length mem) then Ok (s, (-3)%Z)
        else let! mem := mem_write mem cur x in Ok (FState (f_stems s) (f_forms s) (Some (mem, S cur)), 0%Z)
    end.

  Lemma step_grams_eq s x (gs : list gram) : (match pgrams with None => True | Some m => (length gs <= length m)%nat end) ->
    f_grams s = option_map (fun m => (put_front gs m, length gs)) pgrams ->
    ((match pgrams with None => True | Some m => (length gs < length m)%nat end) ->
       step_grams s x = Ok (FState (f_stems s) (f_forms s) (option_map (fun m => (put_front (gs ++ [x]) m, length (gs ++ [x]))) pgrams), 0%Z)) /\
    (~ (match pgrams with None => True | Some m => (length gs < length m)%nat end) -> step_grams s x = Ok (s, (-3)%Z)).
  Proof.
    intros Hle E. unfold step_grams. rewrite E. destruct pgrams as [m|]; cbn [option_map].
    - rewrite put_front_length by exact Hle. split; intros H.
      + destruct (Nat.eqb_spec (length gs) (length m)); [lia|]. rewrite put_gram_eq by exact H. cbn [bind]. rewrite app_length. cbn [length].
        rewrite Nat.add_1_r. reflexivity.
      + destruct (Nat.eqb_spec (length gs) (length m)); [reflexivity|lia].
    - split; intros H; [destruct s; cbn in *; subst; reflexivity|exfalso; exact (H I)].
  Qed.

  Definition step_stem (more : bytes) (s : fstate) (g : nat * class_ref) : res (fstate * Z) :=
    let c := cls (r_class (snd g)) in
    if Nat.eqb (length (f_stems s)) 64 then Ok (s, (-1)%Z)
    else
      let n := length (f_stems s) in
      let s := close_last s in
      let s := FState (f_stems s ++ [StemInfo (option_map cpos (f_forms s)) (N.of_nat (fst g) + 2) (r_class (snd g)) (ngrams_now s) 0 (weight_of cls rank w [g])])
                      (f_forms s) (f_grams s) in
      match f_forms s with
      | None => Ok (s, 0%Z)
      | Some co =>
          if Nat.ltb (length (w ++ tail)) (N.to_nat (N.of_nat (fst g)) + 2) then Ub
          else
            let! (nerror, co) := build_normal (junk n) (firstn (N.to_nat (N.of_nat (fst g)) + 2) (w ++ tail)) (flexes (c_inflex c) ++ more) (c_partsp c) co in
            Ok (FState (f_stems s) (Some co) (f_grams s), nerror)
      end.

  Lemma build_normal_eq szform stem f l more partSp co : stopped szform -> ~ In 0 stem -> flexes_ok (f :: l) -> partSp < 64 ->
    build_normal szform stem (flexes (f :: l) ++ more) partSp co =
    if Nat.leb 64 (length (respell rus_casing (required_case partSp) (stem ++ snd f))) then Ok ((-4)%Z, co)
    else let! (co, ok) := coder_put co (respell rus_casing (required_case partSp) (stem ++ snd f)) in Ok (if ok then 0%Z else (-1)%Z, co).
  Proof.
    intros Hj Hs Hok Hp. pose proof (Forall_inv Hok) as (H1 & H2 & H3). unfold build_normal.
    cbn [flexes flat_map app]. rewrite <- app_assoc. cbn [rd bind app]. rewrite respell_length, app_length. rewrite Nnat.Nat2N.id. fold (flexes l). unfold bytes in *.
    destruct (Nat.leb_spec 64 (length stem + length (snd f))); [reflexivity|].
    rewrite psp_min_cap_eq by exact Hp. cbn [bind].
    destruct (make_form_eq szform stem (snd f) (flexes l ++ more) (required_case partSp) Hj ltac:(lia) Hs H3 (required_le2 _)) as (sz & -> & _ & E).
    cbn [bind]. rewrite E. reflexivity.
  Qed.

  Lemma step_eq g s : guess_ok F cls w g -> (bit 1 dwsets = true \/ IsGoodSheme scheme (required_case (c_partsp (cls (r_class (snd g))))) = true) ->
    exists more,
    fuzzy_lemma rank junk F (w ++ tail) (N.of_nat (length w)) scheme dwsets s (N.of_nat (fst g)) (r_class (snd g)) (r_power (snd g)) (r_form (snd g)) =
    let! (s, nerror) := (if negb (match rev (f_stems s) with
                         | [] => true
                         | last :: _ => negb (snclass last =? r_class (snd g)) || negb (sccstem last =? N.of_nat (fst g) + 2)
                         end) then Ok (s, 0%Z) else step_stem more s g) in
    if negb (Z.eqb nerror 0) then Ok (s, nerror) else step_grams s (Gram (c_partsp (cls (r_class (snd g)))) (r_form (snd g)) 0 0).
  Proof.
    intros Hg Hcap. destruct (get_class F _ _ (go_class _ _ _ _ Hg)) as [rest E].
    exists (class_models (cls (r_class (snd g))) ++ rest). unfold fuzzy_lemma. rewrite E. clear E. cbn [bind app rd].
    pose proof (go_class _ _ _ _ Hg) as [Hok _]. rewrite <- ?app_assoc.
    rewrite getserial_putserial by apply (co_nflex _ Hok). cbn [bind].
    replace (if bit 1 dwsets then Ok false else let! m := psp_min_cap (c_partsp (cls (r_class (snd g)))) in Ok (negb (IsGoodSheme scheme m))) with (Ok false).
    2:{ rewrite psp_min_cap_eq by apply (co_partsp _ Hok). cbn [bind]. destruct Hcap as [->| ->]; [reflexivity|]. destruct (bit 1 dwsets); reflexivity. }
    cbn [bind]. pose proof (go_stem _ _ _ _ Hg). pose proof (go_ending _ _ _ _ Hg). unfold inflex_prob_len.
    destruct (N.leb_spec (N.of_nat (length w)) (N.of_nat (fst g))); [lia|].
    destruct (N.leb_spec 16 (N.of_nat (length w) - N.of_nat (fst g) - 1)); [lia|]. cbn [orb].
    pose proof (go_partsp _ _ _ _ Hg) as Hp.
    destruct (nth_error psp_ranges (N.to_nat (c_partsp (cls (r_class (snd g)))))) as [mx|] eqn:Emx.
    2:{ apply nth_error_None in Emx. change (length psp_ranges) with 47%nat in Emx. lia. }
    apply nth_error_nth with (d := 0) in Emx. pose proof (go_form _ _ _ _ Hg) as Hf. rewrite Emx in Hf.
    replace (negb (mx =? 0) && (mx <=? r_form (snd g))) with false.
    2:{ symmetry. apply andb_false_iff. destruct Hf as [->|Hf]; [left; reflexivity|right; apply N.leb_gt; exact Hf]. }
    replace (rank (N.of_nat (length w) - N.of_nat (fst g) - 1) (r_power (snd g)) (c_partsp (cls (r_class (snd g)))) (r_form (snd g))
        (N.testbit (if c_accent (cls (r_class (snd g))) then 1 else 0) 0)) with (weight_of cls rank w [g]).
    2:{ unfold weight_of, class_no, head_of. cbn [hd]. f_equal; [lia|]. destruct (c_accent _); reflexivity. }
    cbv zeta.
    destruct (rev (f_stems s)); [reflexivity|]. reflexivity.
  Qed.

  Notation room := (room_for cls w pforms pgrams).
  Notation gr_of g := (Gram (c_partsp (cls (r_class (snd g)))) (r_form (snd g)) 0 0).
  Definition gram_room (gs : list gram) : Prop := match pgrams with None => True | Some m => (length gs <= length m)%nat end.
  Definition one_more (gs : list gram) : Prop := match pgrams with None => True | Some m => (length gs < length m)%nat end.

  Lemma descs_add rs' r g : r <> [] -> same_key (head_of r) g = true ->
    flat_map descs (rs' ++ [r ++ [g]]) = flat_map descs (rs' ++ [r]) ++ [gr_of g].
  Proof.
    intros Hr Hk. rewrite !flat_map_app. cbn [flat_map]. rewrite !app_nil_r, <- app_assoc. f_equal. unfold descriptions.
    assert (Ec : class_no (r ++ [g]) = class_no r) by (destruct r; [congruence|reflexivity]). rewrite Ec, map_app. cbn [map].
    unfold same_key in Hk. apply andb_true_iff in Hk. destruct Hk as [_ Hk]. apply N.eqb_eq in Hk. unfold class_no. rewrite Hk. reflexivity.
  Qed.
  Lemma descs_new rs g : flat_map descs (rs ++ [[g]]) = flat_map descs rs ++ [gr_of g].
  Proof. rewrite flat_map_app. cbn [flat_map]. rewrite app_nil_r. reflexivity. Qed.

  Lemma step_same rs' r g s : r <> [] -> same_key (head_of r) g = true -> room (rs' ++ [r]) -> inv (rs' ++ [r]) s ->
    guess_ok F cls w g -> (bit 1 dwsets = true \/ IsGoodSheme scheme (required_case (c_partsp (cls (r_class (snd g))))) = true) ->
    let f := fuzzy_lemma rank junk F (w ++ tail) (N.of_nat (length w)) scheme dwsets s (N.of_nat (fst g)) (r_class (snd g)) (r_power (snd g)) (r_form (snd g)) in
    (room (rs' ++ [r ++ [g]]) -> exists s', f = Ok (s', 0%Z) /\ inv (rs' ++ [r ++ [g]]) s') /\
    (~ room (rs' ++ [r ++ [g]]) -> exists s' z, f = Ok (s', z) /\ (z < 0)%Z /\ same_size s').
  Proof.
    intros Hr Hk Hroom Hinv Hg Hcap f. destruct (step_eq g s Hg Hcap) as [more E]. subst f. rewrite E. clear E.
    pose proof (i_last _ _ Hinv) as Hl. rewrite rev_unit in Hl. destruct Hl as (x & b & Ex & Ec & Es). rewrite Ex.
    pose proof Hk as Hk'. unfold same_key in Hk'. apply andb_true_iff in Hk'. destruct Hk' as [Hk1 Hk2]. apply Nat.eqb_eq in Hk1. apply N.eqb_eq in Hk2.
    assert (E1 : snclass x =? r_class (snd g) = true) by (apply N.eqb_eq; rewrite Ec; unfold class_no; exact Hk2).
    assert (E2 : sccstem x =? N.of_nat (fst g) + 2 = true) by (apply N.eqb_eq; rewrite Es; unfold stem_len; rewrite Hk1; lia).
    rewrite E1, E2. cbn [negb orb bind]. change (0 =? 0)%Z with true. cbn [negb].
    pose proof Hroom as (R1 & R2 & R3).
    destruct (step_grams_eq s (gr_of g) (flat_map descs (rs' ++ [r])) R3 (i_grams _ _ Hinv)) as [G1 G2].
    assert (En : normal (r ++ [g]) = normal r) by (destruct r; [congruence|reflexivity]).
    assert (Hh : head_of (r ++ [g]) = head_of r) by (destruct r; [congruence|reflexivity]).
    pose proof (descs_add rs' r g Hr Hk) as Ed.
    assert (Hiff : room (rs' ++ [r ++ [g]]) <-> one_more (flat_map descs (rs' ++ [r]))).
    { unfold room_for, one_more. rewrite Ed. split.
      - intros (_ & _ & H3). destruct pgrams; [|exact I]. rewrite app_length in H3. cbn [length] in H3. lia.
      - intros H. split; [rewrite app_length in *; exact R1|]. split.
        + destruct pforms; [|exact I]. destruct R2 as [R2 R4]. split.
          * rewrite Forall_app in *. destruct R2 as [R2 R5]. split; [exact R2|]. constructor; [rewrite En; exact (Forall_inv R5)|constructor].
          * rewrite map_app in *. cbn [map] in *. rewrite En. exact R4.
        + destruct pgrams; [|exact I]. rewrite app_length. cbn [length]. lia. }
    split; intros H.
    - rewrite (G1 (proj1 Hiff H)). eexists. split; [reflexivity|].
      assert (Ef : f_stems s = rev b ++ [x]) by (rewrite <- (rev_involutive (f_stems s)), Ex; reflexivity).
      pose proof (i_stems _ _ Hinv) as Hst. unfold closed in Hst. destruct s as [st fo gra]. cbn [f_stems f_forms f_grams] in *. subst st.
      rewrite close_snoc in Hst. cbn [f_stems] in Hst. rewrite stems_snoc in Hst. apply app_inj_tail in Hst. destruct Hst as [Hb Hx].
      constructor; cbn [f_stems f_forms f_grams].
      + unfold closed. rewrite close_snoc. cbn [f_stems]. rewrite stems_snoc, Hb. f_equal. f_equal.
        unfold counted, stem_at in *. injection Hx as X1 X2 X3 X4 X5 X6. unfold stem_len, class_no, weight_of in *. unfold class_no in *. rewrite Hh. rewrite X1, X2, X3, X6. f_equal.
        * rewrite X4. reflexivity.
        * rewrite X4. unfold ngrams_now. cbn [f_grams]. rewrite !app_length. destruct pgrams as [m|]; cbn [option_map is_some length]; [|reflexivity].
          rewrite flat_map_app. cbn [flat_map]. rewrite app_nil_r. rewrite !app_length, descs_length. lia.
      + pose proof (i_len _ _ Hinv) as Hlen. cbn [f_stems] in Hlen. rewrite !app_length in *. exact Hlen.
      + rewrite rev_unit. exists x, b. rewrite rev_unit, rev_involutive. repeat split; [unfold class_no; rewrite Hh; exact Ec|unfold stem_len; rewrite Hh; exact Es].
      + rewrite map_app. cbn [map]. rewrite En. pose proof (i_forms _ _ Hinv) as Hf. cbn [f_forms] in Hf. rewrite map_app in Hf. exact Hf.
      + rewrite Ed. reflexivity.
    - rewrite (G2 (fun q => H (proj2 Hiff q))). do 2 eexists. split; [reflexivity|]. split; [lia|]. exact (inv_size _ _ Hroom Hinv).
  Qed.

  Lemma step_new rs g s : (match rev rs with [] => True | r :: _ => same_key (head_of r) g = false end) -> room rs -> inv rs s ->
    (pforms <> None -> (forall n, stopped (junk n)) /\ ~ In 0 w) ->
    guess_ok F cls w g -> (bit 1 dwsets = true \/ IsGoodSheme scheme (required_case (c_partsp (cls (r_class (snd g))))) = true) ->
    let f := fuzzy_lemma rank junk F (w ++ tail) (N.of_nat (length w)) scheme dwsets s (N.of_nat (fst g)) (r_class (snd g)) (r_power (snd g)) (r_form (snd g)) in
    (room (rs ++ [[g]]) -> exists s', f = Ok (s', 0%Z) /\ inv (rs ++ [[g]]) s') /\
    (~ room (rs ++ [[g]]) -> exists s' z, f = Ok (s', z) /\ (z < 0)%Z /\ same_size s').
  Proof.
    intros Hk Hroom Hinv Hjunk Hg Hcap f. destruct (step_eq g s Hg Hcap) as [more E]. subst f. rewrite E. clear E.
    assert (Ea : match rev (f_stems s) with [] => true | last :: _ => negb (snclass last =? r_class (snd g)) || negb (sccstem last =? N.of_nat (fst g) + 2) end = true).
    { pose proof (i_last _ _ Hinv) as Hl. destruct (rev rs) as [|r ?]; [rewrite Hl; reflexivity|]. destruct Hl as (x & b & -> & Ec & Es).
      rewrite Ec, Es. unfold same_key in Hk. apply andb_false_iff in Hk. unfold class_no, stem_len. apply orb_true_iff. rewrite !negb_true_iff.
      destruct Hk as [Hk|Hk]; [right; apply N.eqb_neq; apply Nat.eqb_neq in Hk; lia|left; exact Hk]. }
    rewrite Ea. clear Ea. cbn [negb]. unfold step_stem. rewrite (i_len _ _ Hinv). pose proof Hroom as (R1 & R2 & R3).
    destruct (Nat.eqb_spec (length rs) 64) as [E64|N64].
    { cbn [bind]. change (negb (-1 =? 0)%Z) with true. split.
      - intros (H & _). rewrite app_length in H. cbn [length] in H. lia.
      - intros _. do 2 eexists. split; [reflexivity|]. split; [lia|]. exact (inv_size _ _ Hroom Hinv). }
    cbv zeta. rewrite close_forms, close_grams, close_ngrams. cbn [f_stems f_forms f_grams].
    change (f_stems (close_last s)) with (closed s). rewrite (i_stems _ _ Hinv), (i_forms _ _ Hinv), (i_grams _ _ Hinv), (ngrams_inv _ _ Hinv).
    set (x := StemInfo _ _ _ _ _ _).
    assert (Ex : forall n, counted x n = StemInfo (if is_some pforms then Some (total (map normal rs)) else None) (N.of_nat (stem_len [g])) (class_no [g])
         (if is_some pgrams then length (flat_map descs rs) else 0%nat) (n - (if is_some pgrams then length (flat_map descs rs) else 0%nat)) (weight_of cls rank w [g])).
    { intros n. unfold counted, x. cbn [splemma sccstem snclass spgrams sweight]. f_equal.
      - destruct pforms; [|reflexivity]. cbn [option_map cpos is_some]. rewrite joined_total. reflexivity.
      - unfold stem_len, head_of. cbn [hd]. lia. }
    clearbody x.
    assert (Hgram : forall fo,
      (one_more (flat_map descs rs) -> fo = option_map (fun m => Coder (filled (map normal (rs ++ [[g]])) m) (length (joined (map normal (rs ++ [[g]]))))) pforms ->
        exists s', step_grams (FState (stems 0 0 rs ++ [x]) fo (option_map (fun m => (put_front (flat_map descs rs) m, length (flat_map descs rs))) pgrams)) (gr_of g) = Ok (s', 0%Z) /\
          inv (rs ++ [[g]]) s') /\
      (~ one_more (flat_map descs rs) -> option_map (fun c => length (cmem c)) fo = option_map (@length N) pforms ->
        exists s' z, step_grams (FState (stems 0 0 rs ++ [x]) fo (option_map (fun m => (put_front (flat_map descs rs) m, length (flat_map descs rs))) pgrams)) (gr_of g) = Ok (s', z) /\
          (z < 0)%Z /\ same_size s')).
    { intros fo. destruct (step_grams_eq (FState (stems 0 0 rs ++ [x]) fo (option_map (fun m => (put_front (flat_map descs rs) m, length (flat_map descs rs))) pgrams))
        (gr_of g) (flat_map descs rs) R3 eq_refl) as [G1 G2]. cbn [f_stems f_forms f_grams] in *. split.
      - intros H Hfo. rewrite (G1 H). eexists. split; [reflexivity|]. constructor; cbn [f_stems f_forms f_grams].
        + unfold closed. rewrite close_snoc. cbn [f_stems]. rewrite stems_snoc. f_equal. f_equal. rewrite Ex. unfold stem_at. f_equal.
          unfold ngrams_now. cbn [f_grams]. destruct pgrams; cbn [option_map is_some length]; [|reflexivity]. rewrite app_length. cbn [length]. lia.
        + rewrite !app_length. f_equal. rewrite <- (i_stems _ _ Hinv), closed_length. exact (i_len _ _ Hinv).
        + rewrite rev_unit. exists x, (rev (stems 0 0 rs)). rewrite rev_unit. split; [reflexivity|].
          pose proof (f_equal snclass (Ex 0%nat)) as X3. pose proof (f_equal sccstem (Ex 0%nat)) as X2. split; [exact X3|exact X2].
        + exact Hfo.
        + rewrite descs_new. reflexivity.
      - intros H Hfo. rewrite (G2 H). do 2 eexists. split; [reflexivity|]. split; [lia|]. split; [exact Hfo|]. cbn [f_grams].
        destruct pgrams; [|reflexivity]. cbn [option_map fst]. rewrite put_front_length by exact R3. reflexivity. }
    assert (Hiff : room (rs ++ [[g]]) <-> one_more (flat_map descs rs) /\
      match pforms with None => True | Some m => (length (normal [g]) <= 63)%nat /\ (length (normal [g]) + 2 <= length (after (map normal rs) m))%nat end).
    { unfold room_for, one_more. rewrite descs_new, !app_length. cbn [length]. split.
      - intros (_ & H2 & H3). split; [destruct pgrams; [rewrite ?app_length in H3; cbn [length] in H3; lia|exact I]|]. destruct pforms as [m|]; [|exact I].
        destruct H2 as [H2 H4]. split; [rewrite Forall_app in H2; exact (Forall_inv (proj2 H2))|]. rewrite map_app in H4.
        apply (fit_app _ _ _ m eq_refl) in H4. destruct H4 as [_ H4]. cbn [map] in H4. destruct H4 as [?|H4]; [discriminate|]. cbn [total fold_right] in H4. lia.
      - intros [H1 H2]. split; [lia|]. split; [|destruct pgrams; [rewrite ?app_length; cbn [length]; lia|exact I]]. destruct pforms as [m|]; [|exact I].
        destruct R2 as [R2 R4]. destruct H2 as [H2 H4]. split; [rewrite Forall_app; split; [exact R2|constructor; [exact H2|constructor]]|]. rewrite map_app.
        apply (fit_app _ _ _ m eq_refl). split; [exact R4|]. right. cbn [map total fold_right]. lia. }
    destruct pforms as [m|] eqn:Epf; cbn [option_map].
    - destruct (Hjunk ltac:(discriminate)) as [Hj Hn]. destruct R2 as [R2 R4].
      pose proof (go_stem _ _ _ _ Hg) as Hst. rewrite app_length. destruct (Nat.ltb_spec (length w + length tail) (N.to_nat (N.of_nat (fst g)) + 2)); [lia|].
      rewrite Nnat.Nat2N.id. rewrite firstn_app. replace (fst g + 2 - length w)%nat with 0%nat by lia. rewrite firstn_O, app_nil_r.
      pose proof (go_class _ _ _ _ Hg) as [Hok _]. pose proof (co_flex _ Hok) as Hfl. pose proof (go_inflex _ _ _ _ Hg) as Hfn.
      destruct (c_inflex (cls (r_class (snd g)))) as [|f l] eqn:Ei; [congruence|].
      rewrite build_normal_eq; [|apply Hj|intros Hin; apply Hn; rewrite <- (firstn_skipn (fst g + 2) w); apply in_or_app; left; exact Hin|exact Hfl|apply (co_partsp _ Hok)].
      assert (En : respell rus_casing (required_case (c_partsp (cls (r_class (snd g))))) (firstn (fst g + 2) w ++ snd f) = normal [g]).
      { unfold normal_of, class_no, stem_len, head_of. cbn [hd]. rewrite Ei. reflexivity. }
      rewrite En. destruct (Nat.leb_spec 64 (length (normal [g]))) as [H64|H64].
      { cbn [bind]. change (negb (-4 =? 0)%Z) with true. split; [intros H1; apply Hiff in H1; lia|]. intros _. do 2 eexists. split; [reflexivity|]. split; [lia|].
        split; cbn [f_forms f_grams option_map cmem]; [rewrite filled_length by exact R4; rewrite Epf; reflexivity|].
        destruct pgrams; [|reflexivity]. cbn [option_map fst]. rewrite put_front_length by exact R3. reflexivity. }
      unfold filled at 1 2. pose proof (put_eq (joined (map normal rs)) (after (map normal rs) m) (normal [g])) as Hp.
      change (fold_right _ _ _) with (joined (map normal rs)) in Hp || idtac.
      destruct (Nat.leb_spec (length (normal [g]) + 2) (length (after (map normal rs) m))) as [Hl|Hl].
      + unfold bytes in *. rewrite Hp. cbn [bind]. change (negb (0 =? 0)%Z) with false. cbn [f_stems f_grams]. 
        assert (Efo : Some (Coder ((joined (map normal rs) ++ normal [g] ++ [0]) ++ 0 :: skipn (length (normal [g]) + 2) (after (map normal rs) m))
                      (length (joined (map normal rs) ++ normal [g] ++ [0]))) =
                  Some (Coder (filled (map normal (rs ++ [[g]])) m) (length (joined (map normal (rs ++ [[g]])))))).
        { unfold filled. rewrite map_app, joined_app, after_app. cbn [map joined flat_map]. rewrite app_nil_r. do 2 f_equal. f_equal. unfold after at 2. cbn [total fold_right].
          f_equal. f_equal. lia. }
        match goal with |- context [Some (Coder ?a ?b)] => replace (Some (Coder a b)) with (Some (Coder (filled (map normal (rs ++ [[g]])) m) (length (joined (map normal (rs ++ [[g]])))))) end.
        destruct (Hgram (Some (Coder (filled (map normal (rs ++ [[g]])) m) (length (joined (map normal (rs ++ [[g]]))))))) as [G1 G2].
        split; intros H1.
        * destruct (proj1 Hiff H1) as [H2 _]. rewrite <- Epf in *. exact (G1 H2 ltac:(rewrite Epf; reflexivity)).
        * assert (Hno : ~ one_more (flat_map descs rs)) by (intros q; apply H1, Hiff; split; [exact q|split; lia]).
          rewrite <- Epf in *. apply (G2 Hno). cbn [option_map cmem]. rewrite Epf. cbn [option_map]. rewrite filled_length; [reflexivity|].
          rewrite map_app. apply (fit_app _ _ _ m eq_refl). split; [exact R4|]. right. unfold bytes in *. cbn [map total fold_right]. rewrite Nat.add_0_r. eapply Nat.le_trans; [|exact Hl]. rewrite <- Nat.add_assoc. apply le_n.
      + destruct Hp as (co & Hp & Hlen). unfold bytes in *. rewrite Hp. cbn [bind]. change (negb (-1 =? 0)%Z) with true. split; [intros H1; apply Hiff in H1; lia|].
        intros _. do 2 eexists. split; [reflexivity|]. split; [lia|]. split; cbn [f_forms f_grams option_map].
        * rewrite Epf. cbn [option_map]. rewrite Hlen. change (joined (map normal rs) ++ after (map normal rs) m) with (filled (map normal rs) m).
          rewrite filled_length by exact R4. reflexivity.
        * destruct pgrams; [|reflexivity]. cbn [option_map fst]. rewrite put_front_length by exact R3. reflexivity.
    - cbn [bind]. change (negb (0 =? 0)%Z) with false. destruct (Hgram None) as [G1 G2]. split; intros H1.
      + apply G1; [apply Hiff; exact H1|reflexivity].
      + apply G2; [|reflexivity]. intros q. apply H1, Hiff. split; [exact q|exact I].
  Qed.

  Lemma room_dec rs : {room rs} + {~ room rs}.
  Proof.
    unfold room_for. destruct (le_dec (length rs) 64); [|right; tauto].
    assert ({match pforms with None => True | Some m => Forall (fun r => (length (normal r) <= 63)%nat) rs /\ fit (length m) (map normal rs) end} +
            {~ match pforms with None => True | Some m => Forall (fun r => (length (normal r) <= 63)%nat) rs /\ fit (length m) (map normal rs) end}) as [H|H].
    { destruct pforms as [m|]; [|left; exact I]. destruct (Forall_dec _ (fun r => le_dec (length (normal r)) 63) rs); [|right; tauto].
      destruct (fit_dec (length m) (map normal rs)); [left|right]; tauto. }
    2: right; tauto.
    assert ({match pgrams with None => True | Some m => (length (flat_map descs rs) <= length m)%nat end} +
            {~ match pgrams with None => True | Some m => (length (flat_map descs rs) <= length m)%nat end}) as [H'|H'].
    { destruct pgrams as [m|]; [|left; exact I]. apply le_dec. }
    - left. tauto.
    - right. tauto.
  Qed.

  Definition accepted (g : nat * class_ref) : bool :=
    bit 1 dwsets || IsGoodSheme scheme (required_case (c_partsp (cls (r_class (snd g))))).

  Hypothesis Hjunk : pforms <> None -> (forall n, stopped (junk n)) /\ ~ In 0 w.

  Lemma step g l s : room (runs l) -> inv (runs l) s -> guess_ok F cls w g -> accepted g = true ->
    let f := call (fuzzy_lemma rank junk F (w ++ tail) (N.of_nat (length w)) scheme dwsets) s g in
    (room (runs (l ++ [g])) -> exists s', f = Ok (s', 0%Z) /\ inv (runs (l ++ [g])) s') /\
    (~ room (runs (l ++ [g])) -> exists s' z, f = Ok (s', z) /\ (z < 0)%Z /\ same_size s').
  Proof.
    intros Hr Hi Hg Ha. unfold accepted in Ha. apply orb_true_iff in Ha. unfold call. rewrite runs_snoc.
    destruct (addg_cases (runs l) g (runs_nonempty l)) as [(rs' & r & E & Hk & E2)|(E2 & Hk)]; rewrite E2.
    - rewrite E in *. apply step_same; try assumption. pose proof (runs_nonempty l) as Hne. rewrite E in Hne. rewrite Forall_app in Hne.
      exact (Forall_inv (proj2 Hne)).
    - apply step_new; assumption.
  Qed.

  Lemma room_prefix l : forall l', room (runs (l' ++ l)) -> room (runs l').
  Proof.
    induction l as [|g l IH]; intros l' H; [rewrite app_nil_r in H; exact H|].
    change (g :: l) with ([g] ++ l) in H. rewrite app_assoc in H. apply IH in H. apply (room_less (runs l') (runs (l' ++ [g])) g); [apply runs_nonempty|apply runs_snoc|exact H].
  Qed.

  Lemma steps l : forall l' s, room (runs l') -> inv (runs l') s -> Forall (guess_ok F cls w) l -> forallb accepted l = true ->
    let f := until_nonzero (call (fuzzy_lemma rank junk F (w ++ tail) (N.of_nat (length w)) scheme dwsets)) l s in
    (room (runs (l' ++ l)) -> exists s', f = Ok (s', 0%Z) /\ inv (runs (l' ++ l)) s') /\
    (~ room (runs (l' ++ l)) -> exists s' z, f = Ok (s', z) /\ (z < 0)%Z /\ same_size s').
  Proof.
    induction l as [|g l IH]; intros l' s Hr Hi Hg Ha; cbn [until_nonzero].
    - rewrite app_nil_r. split; [intros _; exists s; split; [reflexivity|exact Hi]|tauto].
    - cbn [forallb] in Ha. apply andb_true_iff in Ha. destruct Ha as [Ha1 Ha]. inversion Hg as [|? ? Hg1 Hg2]; subst.
      change (g :: l) with ([g] ++ l). rewrite app_assoc. destruct (step g l' s Hr Hi Hg1 Ha1) as [S1 S2].
      destruct (room_dec (runs (l' ++ [g]))) as [Hy|Hn].
      + destruct (S1 Hy) as (s' & -> & Hi'). cbn [bind]. change (0 =? 0)%Z with true. cbv iota. apply IH; assumption.
      + destruct (S2 Hn) as (s' & z & -> & Hz & Hs). cbn [bind]. destruct (Z.eqb_spec z 0); [lia|]. split.
        * intros H. apply room_prefix in H. contradiction.
        * intros _. exists s', z. repeat split; try assumption; apply Hs.
  Qed.

  Lemma refused g s : has_class F (r_class (snd g)) (cls (r_class (snd g))) -> accepted g = false ->
    call (fuzzy_lemma rank junk F (w ++ tail) (N.of_nat (length w)) scheme dwsets) s g = Ok (s, 0%Z).
  Proof.
    intros Hc Ha. unfold accepted in Ha. apply orb_false_iff in Ha. destruct Ha as [A1 A2].
    destruct (get_class F _ _ Hc) as [rest E]. unfold call, fuzzy_lemma. rewrite E. cbn [bind app rd]. destruct Hc as [Hok _]. rewrite <- ?app_assoc.
    rewrite getserial_putserial by apply (co_nflex _ Hok). cbn [bind]. rewrite A1. rewrite psp_min_cap_eq by apply (co_partsp _ Hok). cbn [bind]. rewrite A2. reflexivity.
  Qed.

  Lemma until_accepted l : forall s, Forall (fun g => has_class F (r_class (snd g)) (cls (r_class (snd g)))) l ->
    until_nonzero (call (fuzzy_lemma rank junk F (w ++ tail) (N.of_nat (length w)) scheme dwsets)) l s =
    until_nonzero (call (fuzzy_lemma rank junk F (w ++ tail) (N.of_nat (length w)) scheme dwsets)) (filter accepted l) s.
  Proof.
    induction l as [|g l IH]; intros s H; [reflexivity|]. inversion H as [|? ? H1 H2]; subst. cbn [filter]. destruct (accepted g) eqn:E.
    - cbn [until_nonzero]. destruct (call _ s g) as [[s' z]|]; [|reflexivity]. cbn [bind]. destruct (Z.eqb z 0); [apply IH; exact H2|reflexivity].
    - cbn [until_nonzero]. rewrite refused by assumption. cbn [bind]. change (0 =? 0)%Z with true. cbv iota. apply IH. exact H2.
  Qed.

  Lemma inv_nil : inv (runs []) (FState [] (option_map (fun m => Coder m 0) pforms) (option_map (fun m => (m, 0%nat)) pgrams)).
  Proof. constructor; reflexivity. Qed.
  Lemma room_nil : room (runs []).
  Proof. split; [cbn; lia|]. split; [destruct pforms; [split; [constructor|left; reflexivity]|exact I]|destruct pgrams; [cbn; lia|exact I]]. Qed.

  Theorem collected l : Forall (fun g => has_class F (r_class (snd g)) (cls (r_class (snd g)))) l -> Forall (guess_ok F cls w) (filter accepted l) ->
    let f := until_nonzero (call (fuzzy_lemma rank junk F (w ++ tail) (N.of_nat (length w)) scheme dwsets)) l
               (FState [] (option_map (fun m => Coder m 0) pforms) (option_map (fun m => (m, 0%nat)) pgrams)) in
    let rs := runs (filter accepted l) in
    (room rs -> exists s', f = Ok (s', 0%Z) /\ inv rs s') /\
    (~ room rs -> exists s' z, f = Ok (s', z) /\ (z < 0)%Z /\ same_size s').
  Proof.
    intros H1 H2. rewrite until_accepted by exact H1.
    refine (steps (filter accepted l) [] _ room_nil inv_nil H2 _). apply forallb_forall. intros g Hg. apply filter_In in Hg. apply Hg.
  Qed.
End Lemm.
