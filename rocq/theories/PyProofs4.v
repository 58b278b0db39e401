(** * PyProofs4: the guessers of the Python modules. *)
From Coq Require Import Permutation.
From Verif Require Import Base Serial WordTree TreeSpec FlatScan Stems StemSpec CharTables CapScheme CapSpec CapProofs GramMap RusRuntime LevelSpec RusSpec RusProofs
  RusBuild RusBuildSpec Fuzzy FuzzySpec FuzzyProofs2 FuzzyProofs3 FuzzyProofs4 FuzzyProofs5 FuzzyProofs6 PropFuzzyLemmas Codepage CodepageSpec WideApi WideSpec WideProofs
  Guess GuessRus GuessSpec GuessProofs GuessProofs2 GuessProofs3 PropGuessLemmas GuessWide GuessWideSpec GuessWideProofs CxxApi CxxProofs CxxProofs3 CxxProofs4 PyApi PySpec PyProofs PyProofs2.
Local Open Scope N_scope.

Lemma py_rows_of {X Y} (f : X -> res Y) (l : list X) rows rest : Forall2 (fun x y => f x = Ok y) l rows -> py_list f (Z.of_nat (length rows)) (l ++ rest) = Ok rows.
Proof.
  intros H. apply py_list_ok. intros i y Hy. assert (K : exists x, nth_error l i = Some x /\ f x = Ok y).
  { revert i y Hy. induction H as [|x0 y0 l rows H0 _ IH]; intros [|i] y Hy; try discriminate; cbn in *; [injection Hy as <-; exists x0; auto|]. apply IH, Hy. }
  destruct K as (x & E & Hx). exists x. split; [|exact Hx]. rewrite nth_error_app1; [exact E|]. apply nth_error_Some. congruence.
Qed.

Section Stems.
  Variables (T : tongue) (P : page) (code : bytes -> list N) (cls : N -> class_src) (rank : N -> N -> N -> N -> bool -> Z) (low : bytes) (dwsets : N).
  Hypothesis Hcode : forall s, length (code s) = length (encode (coding P) s).
  Definition good_py (st : option (list N)) (gr : option (list gram)) (s : stem_info) (row : py_stem) : Prop := py_stem_from st gr s = Ok row /\ ps_weight row = sweight s.

  Lemma py_stems st gr : forall rs pre post gpre gpost, (wants_lemma dwsets = true -> Forall (fun r => ~ In 0 (code (normal_in T cls low r))) rs) ->
    (wants_lemma dwsets = true -> st = Some (pre ++ joined (map (fun r => code (normal_in T cls low r)) rs) ++ post)) ->
    (wants_grammar dwsets = true -> gr = Some (gpre ++ flat_map (descriptions cls) rs ++ gpost)) ->
    Forall2 (good_py st gr) (stems_in T P cls rank low (wants_lemma dwsets) (wants_grammar dwsets) (length pre) (length gpre) rs)
      (map (py_guess_row T P code cls rank low dwsets) rs).
  Proof using Hcode.
    induction rs as [|r rs IH]; intros pre post gpre gpost Hz Hst Hgr; cbn [stems_in map]; constructor.
    - split; [|reflexivity]. unfold py_stem_from. cbn [splemma spgrams sngrams sccstem snclass sweight].
      assert (S1 : py_string st (if wants_lemma dwsets then Some (length pre) else None) = Ok (told_lemma (wants_lemma dwsets) (code (normal_in T cls low r)))).
      { destruct (wants_lemma dwsets); [|reflexivity]. rewrite (Hst eq_refl). cbn [map joined flat_map]. rewrite <- !app_assoc. cbn [app]. apply py_string_ok. exact (Forall_inv (Hz eq_refl)). }
      rewrite S1. cbn [bind].
      assert (S2 : py_descs gr (if wants_grammar dwsets then length gpre else 0%nat) (if wants_grammar dwsets then length r else 0%nat) = Ok (told_grams (wants_grammar dwsets) (descriptions cls r))).
      { destruct (wants_grammar dwsets); [|reflexivity]. rewrite (Hgr eq_refl). cbn [flat_map]. rewrite <- !app_assoc.
        replace (length r) with (length (descriptions cls r)) by (unfold descriptions; apply map_length). apply py_descs_ok. }
      rewrite S2. reflexivity.
    - replace (length pre + length (encode (coding P) (normal_in T cls low r)) + 1)%nat with (length (pre ++ code (normal_in T cls low r) ++ [0])) by (rewrite !app_length, Hcode; cbn [length]; lia).
      replace (length gpre + length r)%nat with (length (gpre ++ descriptions cls r)) by (rewrite app_length; unfold descriptions; rewrite map_length; reflexivity).
      apply (IH _ post _ gpost).
      + intros E. exact (Forall_inv_tail (Hz E)).
      + intros E. rewrite (Hst E). cbn [map joined flat_map]. rewrite <- !app_assoc. reflexivity.
      + intros E. rewrite (Hgr E). cbn [flat_map]. rewrite <- !app_assoc. reflexivity.
  Qed.

  Lemma falling_py st gr : forall l rows, falling l -> Forall2 (good_py st gr) l rows -> weights_fall rows.
  Proof.
    induction l as [|s l IH]; intros rows Hf H; inversion H as [|? row ? rows0 [_ Hw] Hr]; subst; [exact I|]. destruct Hf as [Hf1 Hf2]. split; [|apply IH; assumption].
    clear - Hf1 Hr Hw. induction Hr as [|s' row' l rows0 [_ Hw'] Hr IH]; [constructor|]. inversion Hf1; subst. constructor; [lia|apply IH; assumption].
  Qed.

  (** the list, from what the search has stored *)
  Lemma py_guessed sort st gr rs rest (Hsort : forall x, Permutation x (sort x) /\ falling (sort x)) :
    (wants_lemma dwsets = true -> Forall (fun r => ~ In 0 (code (normal_in T cls low r))) rs) ->
    (wants_lemma dwsets = true -> exists post, st = Some (joined (map (fun r => code (normal_in T cls low r)) rs) ++ post)) ->
    (wants_grammar dwsets = true -> exists gpost, gr = Some (flat_map (descriptions cls) rs ++ gpost)) ->
    exists rows', py_list (py_stem_from st gr) (Z.of_nat (length rs)) (sort (stems_in T P cls rank low (wants_lemma dwsets) (wants_grammar dwsets) 0 0 rs) ++ rest) = Ok rows' /\
      Permutation (map (py_guess_row T P code cls rank low dwsets) rs) rows' /\ weights_fall rows'.
  Proof using Hcode.
    intros Hz Hst Hgr. set (stems := stems_in _ _ _ _ _ _ _ _ _ _).
    assert (Hgood : Forall2 (good_py st gr) stems (map (py_guess_row T P code cls rank low dwsets) rs)).
    { assert (K1 : exists post, wants_lemma dwsets = true -> st = Some (joined (map (fun r => code (normal_in T cls low r)) rs) ++ post)).
      { destruct (wants_lemma dwsets); [destruct (Hst eq_refl) as (post & E); exists post; intros _; exact E|exists []; discriminate]. }
      assert (K2 : exists gpost, wants_grammar dwsets = true -> gr = Some (flat_map (descriptions cls) rs ++ gpost)).
      { destruct (wants_grammar dwsets); [destruct (Hgr eq_refl) as (post & E); exists post; intros _; exact E|exists []; discriminate]. }
      destruct K1 as (post & K1). destruct K2 as (gpost & K2). apply (py_stems st gr rs [] post [] gpost Hz K1 K2). }
    destruct (Hsort stems) as [Hp Hf]. destruct (perm_forall2 _ _ _ Hp _ Hgood) as (rows & P1 & P2). exists rows.
    split; [|split; [exact P1|eapply falling_py; eassumption]].
    assert (El : length rs = length rows) by (rewrite <- (Permutation_length P1), map_length; reflexivity). rewrite El. apply py_rows_of.
    clear - P2. induction P2 as [|s row l rows [H _] _ IH]; constructor; assumption.
  Qed.
End Stems.

Lemma normal_in_no_nul T P F t cls u ig l r : guesser_in T F t cls -> proper_in T P u -> acceptable_in T cls ig u (guesses (contents t) (low_in T u)) l -> In r (runs l) ->
  ~ In 0 (normal_in T cls (low_in T u) r).
Proof.
  intros HG Hw Hacc Hr. pose proof Hw as (Hb & Hne & _ & _ & _ & H0). set (low := low_in T u) in *.
  assert (Hfine : Forall (guess_inn T F cls low) (guesses (contents t) low)) by (apply Forall_forall; intros g Hg'; eapply guess_fine_in; eassumption).
  unfold normal_in. apply nonul_cased. intros Hin. apply in_app_iff in Hin as [Hin|Hin].
  - apply (gnonul T u Hb H0). fold low. rewrite <- (firstn_skipn (stem_len r) low). apply in_or_app. left. exact Hin.
  - pose proof (runs_nonempty l) as Hn. rewrite Forall_forall in Hn. specialize (Hn r Hr). destruct r as [|g r]; [congruence|].
    destruct (runs_members l (g :: r) g Hr (or_introl eq_refl)) as (Hgl & Ec & _). destruct Hacc as (ok & _ & El). rewrite El in Hgl. apply filter_In in Hgl.
    rewrite Forall_forall in Hfine. pose proof (Hfine g (proj1 Hgl)) as Hgi. rewrite Ec in Hin. pose proof (gn_class _ _ _ _ _ Hgi) as [Hok _]. pose proof (co_flex _ Hok) as Hfl.
    destruct (c_inflex (cls (r_class (snd g)))) as [|f fl]; [destruct Hin|]. destruct (Forall_inv Hfl) as (_ & _ & Hf0). exact (Hf0 Hin).
Qed.

Theorem py_guess_answer T P rank sort junk F t cls below lojunk lxbuff stbuff grbuff w dwsets l : page_ok P ->
  guesser_in T F t cls -> (forall x, Permutation x (sort x) /\ falling (sort x)) ->
  let u := text_of P w in
  proper_in T P u -> w <> [] -> N.of_nat (length w) < 2 ^ 64 - 1 -> readable below t (rev (low_in T u)) -> (forall n, workable T (junk n)) ->
  acceptable_in T cls (ignores_capitals dwsets) u (guesses (contents t) (low_in T u)) l ->
  length lxbuff = 32%nat -> length stbuff = 2048%nat -> length grbuff = 512%nat ->
  guessed (map (py_guess_row T P (encode (coding P)) cls rank (low_in T u) dwsets) (runs l))
    (py_guess_room T cls (low_in T u) dwsets (runs l) (fit_in (coding P) 2048 (map (normal_in T cls (low_in T u)) (runs l))))
    (py_guess_mb T P rank sort junk F below lojunk lxbuff stbuff grbuff w dwsets).
Proof.
  intros HP HG Hsort u Hw Hw0 Hc Hread Hj Hacc L1 L2 L3. unfold py_guess_mb, py_guess. rewrite py_strings_eq, py_grammar_eq.
  set (st := if wants_lemma dwsets then Some stbuff else None). set (gr := if wants_grammar dwsets then Some grbuff else None).
  assert (Hacc' : acceptable_in T cls (bit 1 (py_sets dwsets)) u (guesses (contents t) (low_in T u)) l) by (rewrite py_sets_ignore; exact Hacc).
  destruct (glemmatize_exact T P HP rank sort junk F t cls below lojunk w (py_text w) (py_count w) (Some lxbuff) st gr (py_sets dwsets) l HG (fun x => proj1 (Hsort x)) Hw Hw0 (py_given w Hc) Hread
    (fun _ => Hj) Hacc') as [Hyes Hno]. cbv zeta in Hyes, Hno. fold u in Hyes, Hno. set (low := low_in T u) in *. set (rs := runs l) in *.
  assert (Hfit : (room_in T P cls low st gr rs /\ (length rs <= length lxbuff)%nat) <-> py_guess_room T cls low dwsets rs (fit_in (coding P) 2048 (map (normal_in T cls low) rs))).
  { unfold room_in, py_guess_room, st, gr. rewrite L1. split.
    - intros ((F1 & F2 & F3) & F4). split; [exact F4|]. split; intros E; rewrite E in *; [rewrite L2 in F2; exact F2|rewrite L3 in F3; exact F3].
    - intros (F1 & F2 & F3). split; [|exact F1]. split; [lia|]. destruct (wants_lemma dwsets), (wants_grammar dwsets); rewrite ?L2, ?L3; auto. }
  unfold bytes in *. split.
  - intros Hroom. rewrite (Hyes (proj2 Hfit Hroom)). unfold answer_of. cbn [bind option_map]. unfold put_front.
    assert (Ea : is_some st = wants_lemma dwsets) by (unfold st; destruct (wants_lemma dwsets); reflexivity).
    assert (Eb : is_some gr = wants_grammar dwsets) by (unfold gr; destruct (wants_grammar dwsets); reflexivity).
    unfold bytes in *. rewrite Ea, Eb. apply py_guessed.
    + intros s. reflexivity.
    + exact Hsort.
    + intros _. apply Forall_forall. intros r Hr. apply encode_no_nul; [exact HP|]. eapply normal_in_no_nul; eassumption.
    + intros E. unfold st. rewrite E. cbn [option_map]. exists (after_in (coding P) (map (normal_in T cls low) rs) stbuff). unfold filled_in. rewrite map_map. reflexivity.
    + intros E. unfold gr. rewrite E. cbn [option_map]. eexists. reflexivity.
  - intros Hroom. destruct Hno as (z & forms & grams & -> & Hz & _); [intros H; apply Hroom, Hfit, H|]. cbn [bind]. apply py_list_negative, Hz.
Qed.

Theorem py_guess_wide W T rank sort junk F t cls below lojunk lmbuff szlemm szword lxbuff stbuff grbuff w dwsets l : wide_ok W ->
  guesser_in T F t cls -> (forall x, Permutation x (sort x) /\ falling (sort x)) ->
  let u := narrowed W w in
  proper_in T Win1251 u -> (length w + wslack W <= 240)%nat -> readable below t (rev (low_in T u)) -> (forall n, workable T (junk n)) ->
  acceptable_in T cls (ignores_capitals dwsets) u (guesses (contents t) (low_in T u)) l ->
  length lmbuff = 32%nat -> length szlemm = 240%nat -> length lxbuff = 32%nat -> length stbuff = 2048%nat -> length grbuff = 512%nat ->
  guessed (map (py_guess_row T Win1251 (widened W) cls rank (low_in T u) dwsets) (runs l))
    (py_guess_room T cls (low_in T u) dwsets (runs l) (fit 240 (map (normal_in T cls (low_in T u)) (runs l))))
    (py_guess_wc W T rank sort junk F below lojunk lmbuff szlemm szword lxbuff stbuff grbuff w dwsets).
Proof.
  intros HW HG Hsort u Hw Hc Hread Hj Hacc L4 L5 L1 L2 L3. unfold py_guess_wc, py_guess. rewrite py_strings_eq, py_grammar_eq.
  set (st := if wants_lemma dwsets then Some stbuff else None). set (gr := if wants_grammar dwsets then Some grbuff else None).
  assert (Hacc' : acceptable_in T cls (bit 1 (py_sets dwsets)) u (guesses (contents t) (low_in T u)) l) by (rewrite py_sets_ignore; exact Hacc).
  assert (Hcount : N.of_nat (length w) < 2 ^ 64 - 1) by (assert (N.of_nat 241 < 2 ^ 64 - 1) by (vm_compute; reflexivity); lia).
  destruct (wg_lemmatize_exact W HW T F rank sort junk t cls below lojunk lmbuff szlemm szword w (w ++ [0]) (py_count w) (Some lxbuff) st gr (py_sets dwsets) l HG (fun x => proj1 (Hsort x)) Hw (py_given w Hcount) Hc Hread
    (fun _ => Hj) L4 L5 Hacc') as [Hyes Hno]. cbv zeta in Hyes, Hno. fold u in Hyes, Hno. set (low := low_in T u) in *. set (rs := runs l) in *.
  assert (Hfit : wide_room T cls low (Some lxbuff) st gr rs <-> py_guess_room T cls low dwsets rs (fit 240 (map (normal_in T cls low) rs))).
  { unfold wide_room, py_guess_room, st, gr. rewrite L1. split.
    - intros (F1 & F4 & F2 & F3). split; [exact F4|]. split; intros E; rewrite E in *; [rewrite L2 in F2; exact F2|rewrite L3 in F3; exact F3].
    - intros (F1 & F2 & F3). split; [lia|]. split; [exact F1|]. destruct (wants_lemma dwsets), (wants_grammar dwsets); rewrite ?L2, ?L3; auto. }
  unfold bytes in *. split.
  - intros Hroom. rewrite (Hyes (proj2 Hfit Hroom)). cbn [bind option_map]. unfold put_front.
    assert (Ea : is_some st = wants_lemma dwsets) by (unfold st; destruct (wants_lemma dwsets); reflexivity).
    assert (Eb : is_some gr = wants_grammar dwsets) by (unfold gr; destruct (wants_grammar dwsets); reflexivity).
    unfold bytes in *. rewrite Ea, Eb. apply py_guessed.
    + intros s. cbn [coding]. rewrite encode_plain. apply map_length.
    + exact Hsort.
    + intros _. apply Forall_forall. intros r Hr. apply widen_no_nul; [exact HW|]. eapply normal_in_no_nul; eassumption.
    + intros E. unfold st. rewrite E. cbn [option_map]. eexists. rewrite (widen_joined W _ HW), map_map. reflexivity.
    + intros E. unfold gr. rewrite E. cbn [option_map]. eexists. reflexivity.
  - intros Hroom. destruct Hno as (z & grams & -> & Hz & _); [intros H; apply Hroom, Hfit, H|]. cbn [bind]. apply py_list_negative, Hz.
Qed.
