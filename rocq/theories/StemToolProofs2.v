(** * StemToolProofs2: stematize from end to end. *)
From Coq Require Import String Permutation.
From Verif Require Import Base Serial TreeSpec CharTables GramMap CapScheme CapSpec RusRuntime RusSpec RusProofs RusBuild RusBuildSpec CodepageSpec Codepage Fuzzy FuzzySpec FuzzyProofs3 PropFuzzyLemmas
  Guess GuessSpec GuessProofs2 GuessProofs3 Api Dump DumpSpec CxxProofs4 LemmTool LemmToolSpec LemmToolProofs LemmToolProofs2 StemTool StemToolSpec StemToolProofs.
Local Open Scope N_scope.
Local Open Scope list_scope.
Notation length := List.length.

Section Rows.
  Variable T : tongue.
  Variable P : page.
  Variable cls : N -> class_src.
  Variable rank : N -> N -> N -> N -> bool -> Z.
  Variable low : bytes.
  Variable score : Z -> bytes.
  Variable shows : Z -> N * bytes.
  Notation e := (encode (coding P)).
  Notation normal := (normal_in T cls low).
  Notation weight := (weight_of cls rank low).

  Definition row_of (r : list (nat * class_ref)) : srow :=
    SRow (e (normal r)) (score (weight r)) (fst (shows (weight r))) (snd (shows (weight r))) (class_no r)
      (hd (Gram 0 0 0 0) (descriptions cls r)) (tl (descriptions cls r)).

  Lemma row_descs r : r <> [] -> s_first (row_of r) :: s_more (row_of r) = descriptions cls r.
  Proof. destruct r as [|g r]; [congruence|reflexivity]. Qed.
  Lemma row_json r : r <> [] -> c_partsp (cls (class_no r)) < 64 -> srow_json (row_of r) = told_guess T P cls low (shows (weight r)) r.
  Proof.
    intros Hr Hp. unfold srow_json, told_guess. rewrite row_descs by exact Hr. unfold row_of. cbn [s_lemma s_whole s_frac s_class s_first].
    assert (E : N.land (gwdInfo (hd (Gram 0 0 0 0) (descriptions cls r))) 0x3f = c_partsp (cls (class_no r))).
    { destruct r as [|g r]; [congruence|]. unfold descriptions. cbn [map hd gwdInfo]. change 0x3f with (N.ones 6). rewrite N.land_ones. apply N.mod_small. exact Hp. }
    rewrite E. unfold descriptions. rewrite map_map. reflexivity.
  Qed.

  Lemma rows_placed st gr : forall rs pre post gpre gpost, Forall (fun r => r <> []) rs -> Forall (fun r => ~ In 0 (e (normal r))) rs ->
    st = pre ++ joined (map e (map normal rs)) ++ post -> gr = gpre ++ flat_map (descriptions cls) rs ++ gpost ->
    Forall2 (fun s r => (forall prefix, stem_row score prefix st gr s = Ok (srow_text prefix (row_of r))) /\ sweight s = weight r)
      (stems_in T P cls rank low true true (length pre) (length gpre) rs) rs.
  Proof.
    induction rs as [|r rs IH]; intros pre post gpre gpost Hne Hz Est Egr; cbn [stems_in]; [constructor|].
    inversion Hne as [|? ? Hr Hrs]; subst. inversion Hz as [|? ? Hr0 Hrs0]; subst. constructor.
    - split; [|reflexivity]. intros prefix. unfold stem_row. cbn [splemma spgrams sngrams sweight snclass].
      cbn [map joined flat_map]. rewrite <- !app_assoc. cbn [app]. rewrite tool_string_at by exact Hr0. cbn [bind].
      pose proof (row_descs r Hr) as Ed.
      assert (El : length r = length (descriptions cls r)) by (unfold descriptions; rewrite map_length; reflexivity).
      assert (G1 : tool_gram (gpre ++ descriptions cls r ++ flat_map (descriptions cls) rs ++ gpost) (length gpre) = Ok (s_first (row_of r))).
      { unfold tool_gram. rewrite nth_error_app2, Nat.sub_diag by lia. rewrite <- Ed. reflexivity. }
      rewrite G1. cbn [bind]. rewrite El, tool_forms_ok. cbn [bind]. rewrite <- Ed. reflexivity.
    - assert (L1 : (length pre + length (e (normal r)) + 1)%nat = length (pre ++ e (normal r) ++ [0])) by (rewrite !app_length; cbn [length]; lia).
      assert (L2 : (length gpre + length r)%nat = length (gpre ++ descriptions cls r)) by (rewrite app_length; unfold descriptions; rewrite map_length; reflexivity).
      rewrite L1, L2. apply (IH _ post _ gpost Hrs Hrs0); cbn [map joined flat_map]; rewrite <- !app_assoc; reflexivity.
  Qed.

  Lemma falling_best : forall stems order, Forall2 (fun s r => (forall prefix, stem_row score prefix [] [] s = stem_row score prefix [] [] s) /\ sweight s = weight r) stems order -> falling stems -> best_first weight order.
  Proof.
    intros stems order H. induction H as [|s r stems order [_ Hs] Hl IH]; intros Hf; [exact I|]. cbn [falling best_first] in *. destruct Hf as [H1 H2]. split; [|exact (IH H2)].
    clear - H1 Hl Hs. induction Hl as [|s' r' stems order [_ Hs'] _ IH]; constructor; inversion H1; subst; [rewrite <- Hs, <- Hs'; assumption|apply IH; assumption].
  Qed.
End Rows.

Lemma same_lengths {X Y} (R : X -> Y -> Prop) l l' : Forall2 R l l' -> length l = length l'.
Proof. induction 1; cbn [length]; congruence. Qed.

Theorem stem_answer T P score shows rank sort junk F t cls below lojunk w stmset stbuff grbuff :
  page_ok P -> guesser_in T F t cls -> (forall x, Permutation x (sort x) /\ falling (sort x)) ->
  let low := low_in T (text_of P w) in
  proper_in T P (text_of P w) -> w <> [] -> ~ In 0 w -> readable below t (rev low) -> (forall n, workable T (junk n)) ->
  length stmset = 64%nat -> length stbuff = 256%nat -> length grbuff = 64%nat ->
  let rs := FuzzySpec.runs (guesses (contents t) low) in
  (forall r, In r rs -> let x := weight_of cls rank low r in decimal (score x) (fst (shows x)) (snd (shows x))) ->
  (forall r, In r rs -> quotable (encode (coding P) (normal_in T cls low r))) ->
  let out := stem_tool T P score rank sort junk F below lojunk stmset stbuff grbuff w in
  (stem_room T P cls low rs -> exists order text, Permutation rs order /\ best_first (weight_of cls rank low) order /\ out = Ok text /\
     read_json text = Some (JArr (map (fun r => told_guess T P cls low (shows (weight_of cls rank low r)) r) order))) /\
  (~ stem_room T P cls low rs -> exists text, out = Ok text /\ read_json text = Some (JArr [])).
Proof.
  intros HP HG Hsort low Hw Hw0 Hnz Hread Hj L1 L2 L3 rs Hsc Hq. cbv zeta.
  assert (Hacc : acceptable_in T cls (bit 1 2) (text_of P w) (guesses (contents t) low) (guesses (contents t) low)).
  { exists (fun _ => true). split; [intros g _; split; [intros _; left; reflexivity|reflexivity]|]. symmetry. clear. induction (guesses (contents t) low) as [|g l IH]; [reflexivity|]. cbn [filter]. rewrite IH. reflexivity. }
  destruct (glemmatize_exact T P HP rank sort junk F t cls below lojunk w (Some (w ++ [0])) (2 ^ 64 - 1) (Some stmset) (Some stbuff) (Some grbuff) 2 _ HG (fun x => proj1 (Hsort x)) Hw Hw0
    (given_terminated w [] Hnz) Hread (fun _ => Hj) Hacc) as [Hyes Hno]. cbv zeta in Hyes, Hno. fold low in Hyes, Hno. fold rs in Hyes, Hno.
  assert (Hd : length (flat_map (descriptions cls) rs) = length (concat rs)).
  { clear. induction rs as [|r l IH]; [reflexivity|]. cbn [flat_map concat]. rewrite !app_length, IH. unfold descriptions. rewrite map_length. reflexivity. }
  assert (Hfit : (room_in T P cls low (Some stbuff) (Some grbuff) rs /\ (length rs <= length stmset)%nat) <-> stem_room T P cls low rs).
  { unfold room_in, stem_room. rewrite L1, L2, L3, Hd. tauto. }
  assert (Hne : Forall (fun r => r <> []) rs) by apply FuzzyProofs3.runs_nonempty.
  assert (Hfacts : forall r g, In r rs -> In g r -> ref_ok (snd g) /\ c_partsp (cls (class_no r)) < 64 /\ class_no r < 2 ^ 32).
  { intros r g Hr Hg. destruct (runs_members _ r g Hr Hg) as (Hgl & Ec & _). pose proof (guess_fine_in T F t cls low g HG Hgl) as Hgi.
    destruct (gn_class _ _ _ _ _ Hgi) as [Hok _]. rewrite Ec.
    assert (Hrf : ref_ok (snd g)).
    { unfold guesses in Hgl. apply in_flat_map in Hgl as (n & _ & Hgl). apply in_map_iff in Hgl as (x & Ex & Hx). subst g. cbn [snd]. unfold stored_under in Hx.
      match type of Hx with context [find ?f ?m] => destruct (find f m) as [kv|] eqn:Ef end; [|destruct Hx]. apply find_some in Ef as [Hkv _].
      pose proof (gi_refs _ _ _ _ HG) as Hrefs. unfold refs_ok in Hrefs. rewrite Forall_forall in Hrefs. specialize (Hrefs kv Hkv). rewrite Forall_forall in Hrefs. exact (Hrefs x Hx). }
    split; [exact Hrf|]. split; [exact (co_partsp _ Hok)|exact (proj1 Hrf)]. }
  assert (Hok : forall r, In r rs -> srow_ok (row_of T P cls rank low score shows r) /\ srow_json (row_of T P cls rank low score shows r) = told_guess T P cls low (shows (weight_of cls rank low r)) r).
  { intros r Hr. rewrite Forall_forall in Hne. specialize (Hne r Hr). assert (Hg : exists g, In g r) by (destruct r as [|g r]; [congruence|exists g; left; reflexivity]). destruct Hg as (g & Hg).
    destruct (Hfacts r g Hr Hg) as (_ & Hp & Hc). split; [|apply row_json; assumption]. unfold srow_ok. rewrite row_descs by exact Hne.
    split; [exact (Hq r Hr)|]. split; [exact (Hsc r Hr)|]. split; [exact Hc|]. apply Forall_forall. intros x Hx. unfold descriptions in Hx. apply in_map_iff in Hx as (y & Ey & Hy). subst x. cbn [gidForm].
    destruct (Hfacts r y Hr Hy) as ((_ & _ & Hf) & _). eapply N.lt_trans; [exact Hf|reflexivity]. }
  unfold stem_tool. unfold bytes in *. split.
  - intros Hroom. rewrite (Hyes (proj2 Hfit Hroom)). unfold answer_of. cbn [bind option_map is_some].
    set (stems := stems_in T P cls rank low true true 0 0 rs). set (st := filled_in (coding P) (map (normal_in T cls low) rs) stbuff). set (gr := put_front (flat_map (descriptions cls) rs) grbuff).
    assert (Hp : Forall2 (fun s r => (forall prefix, stem_row score prefix st gr s = Ok (srow_text prefix (row_of T P cls rank low score shows r))) /\ sweight s = weight_of cls rank low r) stems rs).
    { apply (rows_placed T P cls rank low score shows st gr rs [] (after_in (coding P) (map (normal_in T cls low) rs) stbuff) [] (skipn (length (flat_map (descriptions cls) rs)) grbuff) Hne).
      - apply Forall_forall. intros r Hr Hz. specialize (Hq r Hr). unfold quotable in Hq. rewrite Forall_forall in Hq. specialize (Hq 0 Hz). discriminate.
      - reflexivity.
      - reflexivity. }
    destruct (Hsort stems) as [Hperm Hfall]. destruct (perm_forall2 _ _ _ Hperm _ Hp) as (order & P1 & P2).
    assert (Hlen : length (sort stems) = length rs) by (rewrite <- (Permutation_length Hperm); apply (same_lengths _ _ _ Hp)).
    assert (Hrows : stem_rows score [] st gr (put_front (sort stems) stmset) (length rs) = Ok (show_srows [] (map (row_of T P cls rank low score shows) order))).
    { unfold put_front. rewrite <- Hlen. apply stem_rows_ok. clear - P2. induction P2 as [|s r l order [H _] _ IH]; [constructor|]. cbn [map]. constructor; assumption. }
    assert (Hokr : Forall srow_ok (map (row_of T P cls rank low score shows) order)).
    { apply Forall_forall. intros x Hx. apply in_map_iff in Hx as (r & <- & Hr). apply Hok. apply (Permutation_in _ (Permutation_sym P1) Hr). }
    pose proof (read_srows _ Hokr) as Hread'. rewrite map_map in Hread'.
    assert (Ej : map (fun r => srow_json (row_of T P cls rank low score shows r)) order = map (fun r => told_guess T P cls low (shows (weight_of cls rank low r)) r) order).
    { apply map_ext_in. intros r Hr. apply Hok. apply (Permutation_in _ (Permutation_sym P1) Hr). }
    rewrite Ej in Hread'. exists order.
    assert (Hbest : best_first (weight_of cls rank low) order).
    { apply (falling_best cls rank low score (sort stems) order); [|exact Hfall]. clear - P2. induction P2 as [|s r l order [_ H] _ IH]; constructor; [split; [reflexivity|exact H]|exact IH]. }
    rewrite Nat2Z.id. destruct (Z.eqb_spec (Z.of_nat (length rs)) 0) as [E0|E0].
    + assert (E : rs = []) by (destruct rs; [reflexivity|cbn [length] in E0; lia]). rewrite E in P1. apply Permutation_nil in P1. rewrite P1 in *. rewrite E.
      exists (text "[]"). split; [constructor|]. split; [exact I|]. split; reflexivity.
    + rewrite Hrows. cbn [bind]. eexists. split; [exact P1|]. split; [exact Hbest|]. split; [reflexivity|]. exact Hread'.
  - intros Hroom. destruct (Hno (fun K => Hroom (proj1 Hfit K))) as (z & forms & grams & E & Hz & S1 & S2). rewrite E. cbn [bind].
    destruct (Z.eqb_spec z 0) as [E0|E0]; [lia|]. destruct forms as [forms|]; [|discriminate]. destruct grams as [grams|]; [|discriminate].
    replace (Z.to_nat z) with 0%nat by lia. exists (text "[" ++ [10] ++ text "]"). split; [destruct stmset; reflexivity|reflexivity].
Qed.
