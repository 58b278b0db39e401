(** * Properties C74-C76: the wide-character interface of the guessers of both languages.  STATEMENTS ONLY.
    The vocabulary is in GuessSpec.v, WideSpec.v and GuessWideSpec.v: [narrowed W w] is the text the caller's wide characters [w] mean.
    [slemma], [szform], [stbuff], [szlemm], [szword], [buffer] are previous contents of local arrays. *)
From Coq Require Import Permutation.
From Verif Require Import Base Serial TreeSpec CharTables CapScheme CapSpec GramMap RusRuntime LevelSpec RusSpec RusBuild RusBuildSpec Codepage CodepageSpec
  WideApi WideSpec WideProofs PropWideLemmas
  CapProofs Fuzzy FuzzySpec FuzzyProofs FuzzyProofs2 FuzzyProofs4 FuzzyProofs5 FuzzyProofs6 PropFuzzyLemmas Guess GuessSpec GuessProofs GuessProofs2 GuessProofs3 PropGuessLemmas
  GuessWide GuessWideSpec GuessWideProofs.
Local Open Scope N_scope.

(** ** C74.  BuildForm: the forms of C69 as wide strings, each terminated, and nothing behind them; if they do not fit (one character more
    than needed is asked for, and never more than 95 are delivered), -1 and the array as it was. *)
Theorem C74_build_form_partial : forall W T F lojunk junk slemma szform mem w p cch i c id, wide_ok W ->
  has_class F i c -> by_form (c_inflex c) -> proper_in T Win1251 (narrowed W w) -> given w (Some p) cch -> short_stem W w cch ->
  workable T junk -> length szform = 96%nat ->
  (forall f, In f (c_inflex c) -> fst f = id -> (length w + length (snd f) <= longest T)%nat) ->
  guess_delivered W mem (variants_in T c (map (locase (tg_casing T)) (narrowed W w)) id)
    (wg_build_form W T F lojunk junk slemma szform (Some mem) (Some p) cch i id).
Proof. intros W T F lojunk junk slemma szform mem w p cch i c id HW. exact (wg_build_exact W HW T F lojunk junk slemma szform mem w p cch i c id). Qed.
Print Assumptions C74_build_form_partial.

(** what Lemmatize reported gives the word back *)
Theorem C74_word_back : forall W sort T cs t F w l r g mem lojunk junk slemma szform p cch, wide_ok W -> (forall x, Permutation x (sort x)) ->
  compiled sort cs t F -> Forall (source_in T) cs -> N.of_nat (length cs) < 2 ^ 32 -> Forall (fun c => by_form (c_inflex c)) cs ->
  proper_in T Win1251 (narrowed W w) -> (length w <= 49)%nat ->
  let low := map (locase (tg_casing T)) (narrowed W w) in
  (forall x, In x l -> In x (guesses (contents t) low)) -> In r (runs l) -> In g r ->
  given (firstn (stem_len r) w) (Some p) cch -> workable T junk -> length szform = 96%nat ->
  exists fs, guess_delivered W mem fs (wg_build_form W T F lojunk junk slemma szform (Some mem) (Some p) cch (class_no r) (r_form (snd g))) /\
    In (cased T (c_partsp (numbered sort cs (class_no r))) low) fs.
Proof. exact wg_back. Qed.
Print Assumptions C74_word_back.

(** no array, no stem, a stem too long for the local array *)
Theorem C74_degenerate : forall W T F lojunk junk slemma szform mem i id,
  (forall plemma cch, wg_build_form W T F lojunk junk slemma szform None plemma cch i id = Ok ((-4)%Z, None)) /\
  (forall cch, wg_build_form W T F lojunk junk slemma szform (Some mem) None cch i id = Ok ((-1)%Z, Some mem)) /\
  (forall p cch w, given w (Some p) cch -> (64 < length w + wslack W)%nat ->
     wg_build_form W T F lojunk junk slemma szform (Some mem) (Some p) cch i id = Ok ((-4)%Z, Some mem)).
Proof.
  intros W T F lojunk junk slemma szform mem i id. split; [intros; reflexivity|]. split; [intros; reflexivity|].
  intros p cch w Hg Hl. unfold wg_build_form. rewrite (to_narrow_long W slemma 64 p cch w Hg Hl). reflexivity.
Qed.
Print Assumptions C74_degenerate.

(** a terminated stem that fills the local array is not terminated there, and the narrow call reads beyond it *)
Theorem C74_full_stem_refuted : exists W T F c p, wide_ok W /\ has_class F 0 c /\ proper_in T Win1251 (narrowed W p) /\ length p = 64%nat /\
  forall szform, length szform = 96%nat ->
  wg_build_form W T F (repeat 0 256) (repeat 0 64) (repeat 0 64) szform (Some (repeat 7 200)) (Some (p ++ [0])) (2 ^ 64 - 1) 0 0 = Ub.
Proof.
  exists (utf16 0), English, eng_arrays, runner, (repeat 97 64). split; [apply utf16_ok; lia|]. split; [apply eng_runner|].
  split; [apply proper_inb; vm_compute; reflexivity|]. split; [reflexivity|]. intros szform H.
  do 96 (destruct szform as [|? szform]; [discriminate|]). destruct szform; [|discriminate]. vm_compute. reflexivity.
Qed.
Print Assumptions C74_full_stem_refuted.

(** "Дон" and "Beer" in UTF-16 *)
Example C74_case : wide_ok (utf16 1) /\ has_class guess_arrays 0 masc /\ by_form (c_inflex masc) /\
  narrowed (utf16 1) [1044; 1086; 1085] = [196; 238; 237] /\ proper_in Russian Win1251 [196; 238; 237] /\ short_stem (utf16 1) [1044; 1086; 1085] 3 /\
  wg_build_form (utf16 1) Russian guess_arrays (repeat 0 256) (repeat 0 64) (repeat 7 64) (repeat 7 96) (Some (repeat 7 14)) (Some [1044; 1086; 1085]) 3 0 12 =
    Ok (2%Z, Some [1076; 1086; 1085; 1072; 1084; 0; 1076; 1086; 1085; 1103; 1084; 0; 7; 7]) /\
  wg_build_form (utf16 1) Russian guess_arrays (repeat 0 256) (repeat 0 64) (repeat 7 64) (repeat 7 96) (Some (repeat 7 12)) (Some [1044; 1086; 1085]) 3 0 12 =
    Ok ((-1)%Z, Some (repeat 7 12)) /\
  wg_build_form (utf16 0) English eng_arrays (repeat 0 256) (repeat 7 64) (repeat 7 64) (repeat 7 96) (Some (repeat 7 8)) (Some [66; 101; 101; 114; 0]) (2 ^ 64 - 1) 0 2 =
    Ok (1%Z, Some [98; 101; 101; 114; 115; 0; 7; 7]).
Proof.
  split; [apply utf16_ok; lia|]. split; [apply guess_masc|]. split; [apply masc_sorted|]. split; [vm_compute; reflexivity|]. split; [apply proper_inb; vm_compute; reflexivity|].
  split; [split; [cbn; lia|discriminate]|]. repeat split; vm_compute; reflexivity.
Qed.

(** ** C75.  Lemmatize: as C70, the normal forms as wide strings at the positions the stems point to; if there is too little room (32
    stems and 240 characters of normal forms at most), a negative number, and neither stems nor normal forms are touched. *)
Theorem C75_lemmatize : forall W T F rank sort junk t cls below lojunk stbuff szlemm szword w p cch output plemma pgrams dwsets l, wide_ok W ->
  guesser_in T F t cls -> (forall x, Permutation x (sort x) /\ falling (sort x)) ->
  let u := narrowed W w in
  let low := map (locase (tg_casing T)) u in
  proper_in T Win1251 u -> given w (Some p) cch -> (length w + wslack W <= 240)%nat -> readable below t (rev low) ->
  (plemma <> None -> forall n, workable T (junk n)) -> length stbuff = 32%nat -> length szlemm = 240%nat ->
  acceptable_in T cls (N.testbit dwsets 1) u (guesses (contents t) low) l ->
  let rs := runs l in
  let ls := map (normal_in T cls low) rs in
  let stems := stems_in T Win1251 cls rank low (is_some plemma) (is_some pgrams) 0 0 rs in
  let r := wg_lemmatize W T F rank sort junk below lojunk stbuff szlemm szword p cch output plemma pgrams dwsets in
  (wide_room T cls low output plemma pgrams rs -> exists sorted, Permutation stems sorted /\ falling sorted /\
     r = Ok (Z.of_nat (length rs), option_map (put_front sorted) output, option_map (fun m => widened W (joined ls) ++ skipn (total ls) m) plemma,
             option_map (put_front (flat_map (descriptions cls) rs)) pgrams)) /\
  (~ wide_room T cls low output plemma pgrams rs -> exists z grams, r = Ok (z, output, plemma, grams) /\ (z < 0)%Z /\
     option_map (@length gram) grams = option_map (@length gram) pgrams).
Proof.
  intros W T F rank sort junk t cls below lojunk stbuff szlemm szword w p cch output plemma pgrams dwsets l HW HG Hsort u low Hw Hg Hl Hr Hj H1 H2 Ha. cbv zeta.
  destruct (wg_lemmatize_exact W HW T F rank sort junk t cls below lojunk stbuff szlemm szword w p cch output plemma pgrams dwsets l HG (fun x => proj1 (Hsort x)) Hw Hg Hl Hr Hj H1 H2 Ha) as [G1 G2].
  split; [|exact G2]. intros He. eexists. split; [apply (Hsort _)|]. split; [apply (Hsort _)|]. exact (G1 He).
Qed.
Print Assumptions C75_lemmatize.

(** no word, and words the local array has no room for *)
Theorem C75_degenerate : forall W T F rank sort junk below lojunk stbuff szlemm szword p cch output plemma pgrams dwsets, wide_ok W ->
  (given [] (Some p) cch -> wg_lemmatize W T F rank sort junk below lojunk stbuff szlemm szword p cch output plemma pgrams dwsets = Ok (0%Z, output, plemma, pgrams)) /\
  (forall w, given w (Some p) cch -> (240 < length w + wslack W)%nat ->
   wg_lemmatize W T F rank sort junk below lojunk stbuff szlemm szword p cch output plemma pgrams dwsets = Ok ((-4)%Z, output, plemma, pgrams)).
Proof.
  intros W T F rank sort junk below lojunk stbuff szlemm szword p cch output plemma pgrams dwsets HW. split.
  - intros H. unfold wg_lemmatize. destruct (to_narrow_short W szword 240 p cch [] H) as (after & E); [pose proof (wd_slack W HW); cbn; lia|]. rewrite E. cbn [bind length narrowed map app].
    unfold glemmatize. assert (Ec : gcanonic T Win1251 (Some after) (N.of_nat 0) = Ok (0, [])) by (apply gcanonic_empty; right; exact (given_counted [] after ltac:(cbn; lia))). unfold bytes in *. rewrite Ec. reflexivity.
  - intros w Hg Hl. unfold wg_lemmatize. rewrite (to_narrow_long W szword 240 p cch w Hg Hl). reflexivity.
Qed.
Print Assumptions C75_degenerate.

(** "Трона": the common noun and the name of a town *)
Example C75_case : wide_ok (utf16 1) /\ guesser_in Russian guess_arrays guess_tree (numbered (fun l => l) guess_src) /\
  narrowed (utf16 1) [1058; 1088; 1086; 1085; 1072] = [210; 240; 238; 237; 224] /\ proper_in Russian Win1251 [210; 240; 238; 237; 224] /\
  wg_lemmatize (utf16 1) Russian guess_arrays some_rank by_weight (fun _ => repeat 0 64) [0] (repeat 0 256) (repeat nostem 32) (repeat 9 240) (repeat 9 240)
    [1058; 1088; 1086; 1085; 1072] 5 (Some [nostem; nostem; nostem]) (Some (repeat 7 12)) (Some [Gram 9 9 9 9; Gram 9 9 9 9; Gram 9 9 9 9]) 0 =
  Ok (2%Z, Some [StemInfo (Some 0%nat) 4 0 0 1 42; StemInfo (Some 5%nat) 4 2 1 1 7; nostem],
      Some [1090; 1088; 1086; 1085; 0; 1058; 1088; 1086; 1085; 0; 7; 7], Some [Gram 7 1 0 0; Gram 39 1 0 0; Gram 9 9 9 9]) /\
  (exists g, wg_lemmatize (utf16 1) Russian guess_arrays some_rank by_weight (fun _ => repeat 0 64) [0] (repeat 0 256) (repeat nostem 32) (repeat 9 240) (repeat 9 240)
    [1058; 1088; 1086; 1085; 1072] 5 (Some [nostem; nostem; nostem]) (Some (repeat 7 10)) (Some [Gram 9 9 9 9; Gram 9 9 9 9; Gram 9 9 9 9]) 0 =
    Ok ((-1)%Z, Some [nostem; nostem; nostem], Some (repeat 7 10), Some g)).
Proof.
  split; [apply utf16_ok; lia|]. split; [apply rus_guesser|]. split; [vm_compute; reflexivity|]. split; [apply proper_inb; vm_compute; reflexivity|].
  split; [vm_compute; reflexivity|]. eexists. vm_compute. reflexivity.
Qed.

(** ** C76.  GetModels and GetWdInfo: as many samples as fit (1024 characters at most), as wide strings; the part of speech. *)
Theorem C76_models : forall W F buffer i c mem, wide_ok W -> has_class F i c -> mem <> [] -> length buffer = 1024%nat ->
  Forall (fun m => ~ In 0 (m_sample m)) (c_models c) ->
  let fs := wide_samples (N.of_nat (length mem)) c in
  wg_models W F buffer (Some mem) (N.of_nat (length mem)) i =
    Ok (match c_models c, fs with _ :: _, [] => (-1)%Z | _, _ => Z.of_nat (length fs) end, Some (widened W (joined fs) ++ skipn (total fs) mem)) /\
  wg_wd_info F true i = Ok (1%Z, Some (c_partsp c)).
Proof. intros W F buffer i c mem HW Hc Hm Hb Hn. split; [exact (wg_models_exact W HW F buffer i c mem Hc Hm Hb Hn)|exact (fuzzy_wd_info_exact F i c Hc)]. Qed.
Print Assumptions C76_models.

Theorem C76_unknown : forall W F buffer i models modlen given, N.of_nat (length (class_offset F)) <= i ->
  wg_models W F buffer models modlen i = Ok ((-5)%Z, models) /\ wg_wd_info F given i = Ok ((-5)%Z, None).
Proof.
  intros W F buffer i models modlen gv H. unfold wg_models, gmodels, wg_wd_info, fuzzy_wd_info. rewrite (no_class F i H).
  split; [destruct (firstn _ buffer); reflexivity|destruct gv; reflexivity].
Qed.
Print Assumptions C76_unknown.

Example C76_case : wide_ok (utf16 1) /\ has_class guess_arrays 0 masc /\
  wg_models (utf16 1) guess_arrays (repeat 3 1024) (Some (repeat 7 8)) 8 0 = Ok (1%Z, Some [1084; 1086; 1089; 1090; 0; 7; 7; 7]) /\
  wg_models (utf16 1) guess_arrays (repeat 3 1024) (Some (repeat 7 9)) 9 0 = Ok (2%Z, Some [1084; 1086; 1089; 1090; 0; 1090; 1086; 1085; 0]) /\
  wg_models (utf16 1) guess_arrays (repeat 3 1024) (Some (repeat 7 4)) 4 0 = Ok ((-1)%Z, Some (repeat 7 4)).
Proof. split; [apply utf16_ok; lia|]. split; [apply guess_masc|]. repeat split; vm_compute; reflexivity. Qed.
