(** * Properties C69-C73: the guesser of unknown words in both languages and every code page.  STATEMENTS ONLY.
    The vocabulary is in FuzzySpec.v and GuessSpec.v: [text_of P w] is the text the caller's bytes [w] stand for, [coding P] how
    texts are written in the code page.  [below], [lojunk], [junk] and [rank] are as in Prop_Fuzzy.v. *)
From Coq Require Import Permutation.
From Verif Require Import Base Serial TreeSpec CharTables CapScheme CapSpec GramMap RusRuntime LevelSpec RusSpec RusBuild RusBuildSpec Codepage CodepageSpec Utf8
  CapProofs Fuzzy FuzzySpec FuzzyProofs FuzzyProofs2 FuzzyProofs4 FuzzyProofs5 FuzzyProofs6 PropFuzzyLemmas Guess GuessSpec GuessProofs GuessProofs2 GuessProofs3 PropGuessLemmas GuessRus.
Local Open Scope N_scope.

(** ** C69.  Building a form of a guessed class, in any code page: the stem with every inflexion listed for the form, in order and in
    the code page, or -1 without leaving the array.  Missing to the full property: what C33 is missing for Russian; for English no
    terminator and 64 characters instead of 63, but the inflexions must be listed by form there too. *)
Theorem C69_build_form_partial : forall T P F lojunk junk mem w psz cch i c id,
  page_ok P -> has_class F i c -> by_form (c_inflex c) -> proper_in T P (text_of P w) -> w <> [] ->
  given w psz cch -> mem <> [] -> workable T junk ->
  (forall f, In f (c_inflex c) -> fst f = id -> (length (text_of P w) + length (snd f) <= longest T)%nat) ->
  delivered_in (coding P) mem (variants_in T c (map (locase (tg_casing T)) (text_of P w)) id) True (gbuild_form T P F lojunk junk (Some mem) psz cch i id).
Proof. exact gbuild_exact. Qed.
Print Assumptions C69_build_form_partial.

(** the instance of Prop_Fuzzy.v is one of them *)
Theorem C69_same_program : forall F lojunk junk output psz cch i id,
  gbuild_form Russian Win1251 F lojunk junk output psz cch i id = fuzzy_build_form F lojunk junk output psz cch i id.
Proof. exact build_russian. Qed.
Print Assumptions C69_same_program.

(** no output array; an unknown class leaves the array as it was *)
Theorem C69_degenerate : forall T P F lojunk junk psz cch i id w, psz = None \/ (proper_in T P (text_of P w) /\ w <> [] /\ given w psz cch) ->
  gbuild_form T P F lojunk junk None psz cch i id = Ok ((-5)%Z, None) /\
  gbuild_form T P F lojunk junk (Some []) psz cch i id = Ok ((-5)%Z, Some []) /\
  (forall mem, mem <> [] -> N.of_nat (length (class_offset F)) <= i -> gbuild_form T P F lojunk junk (Some mem) psz cch i id = Ok ((-5)%Z, Some mem)).
Proof.
  intros T P F lojunk junk psz cch i id w H.
  assert (Hc : exists s st, gcanonic T P psz cch = Ok (s, st)).
  { destruct H as [->|(Hw & Hw0 & Hg)]; [do 2 eexists; reflexivity|]. pose proof Hw as (H1 & H2 & H3 & H4 & H5 & H6). rewrite (gcanonic_given T P w psz cch Hg Hw0 H2 H4).
    destruct (gcanonic_facts T P _ Hw) as (v & E & _). do 2 eexists. exact E. }
  destruct Hc as (s & st & Hc). unfold gbuild_form. rewrite Hc. cbn [bind]. split; [reflexivity|]. split; [reflexivity|].
  intros mem Hm Hi. destruct mem; [congruence|]. destruct (N.leb_spec (N.of_nat (length (class_offset F))) i); [reflexivity|lia].
Qed.
Print Assumptions C69_degenerate.

(** no stem: nothing is built; a stem too long for the local array is refused; both leave the array as it was *)
Theorem C69_no_stem : forall T P F lojunk junk mem cch i id, mem <> [] -> i < N.of_nat (length (class_offset F)) ->
  (forall psz, given [] psz cch -> gbuild_form T P F lojunk junk (Some mem) psz cch i id = Ok (0%Z, Some mem)) /\
  (cch <> 0 -> gbuild_form T P F lojunk junk (Some mem) None cch i id = Ok ((-5)%Z, Some mem)) /\
  (forall psz w E, P = Other E \/ P = Utf8 E -> w <> [] -> given w psz cch -> (256 < length (dec E w) + slack E)%nat ->
   gbuild_form T P F lojunk junk (Some mem) psz cch i id = Ok ((-4)%Z, Some mem)).
Proof.
  intros T P F lojunk junk mem cch i id Hm Hi. destruct mem as [|m0 mem]; [congruence|]. clear Hm.
  assert (Ei : (N.of_nat (length (class_offset F)) <=? i) = false) by (apply N.leb_gt; exact Hi). repeat match goal with |- _ /\ _ => split end.
  - intros psz Hg. unfold gbuild_form. rewrite (gcanonic_empty T P psz cch (or_intror Hg)). cbn [bind]. rewrite Ei.
    assert (Hp : exists p, psz = Some p) by (inversion Hg; subst; eauto). destruct Hp as [p ->]. rewrite andb_false_r. reflexivity.
  - intros Hc. unfold gbuild_form, gcanonic. cbn [bind]. rewrite Ei. destruct (N.eqb_spec cch 0); [congruence|]. reflexivity.
  - intros psz w E HPE Hw Hg Hl. unfold gbuild_form. rewrite (gcanonic_no_room T P E w psz cch HPE Hg Hw Hl). cbn [bind]. rewrite Ei.
    assert (Hp : exists p, psz = Some p) by (inversion Hg; subst; eauto). destruct Hp as [p ->]. rewrite andb_false_r. reflexivity.
Qed.
Print Assumptions C69_no_stem.

(** "Дон" in UTF-8, and "Beer" in English, whose capital is dropped *)
Example C69_case : page_ok (Utf8 (utf8 1)) /\ has_class guess_arrays 0 masc /\ by_form (c_inflex masc) /\
  (let don := encode (utf8 1) [196; 238; 237] in
   don = [208; 148; 208; 190; 208; 189] /\ text_of (Utf8 (utf8 1)) don = [196; 238; 237] /\ proper_in Russian (Utf8 (utf8 1)) [196; 238; 237] /\
   workable Russian (repeat 0 64) /\
   gbuild_form Russian (Utf8 (utf8 1)) guess_arrays (repeat 0 256) (repeat 0 64) (Some (repeat 7 24)) (Some don) 6 0 12 =
     Ok (2%Z, Some [208; 180; 208; 190; 208; 189; 208; 176; 208; 188; 0; 208; 180; 208; 190; 208; 189; 209; 143; 208; 188; 0; 0; 7]) /\
   (exists m, gbuild_form Russian (Utf8 (utf8 1)) guess_arrays (repeat 0 256) (repeat 0 64) (Some (repeat 7 22)) (Some don) 6 0 12 = Ok ((-1)%Z, Some m))) /\
  has_class eng_arrays 0 runner /\ by_form (c_inflex runner) /\ proper_in English Win1251 [66; 101; 101; 114] /\ workable English (repeat 7 64) /\
  gbuild_form English Win1251 eng_arrays (repeat 0 256) (repeat 7 64) (Some (repeat 7 8)) (Some [66; 101; 101; 114]) 4 0 2 =
    Ok (1%Z, Some [98; 101; 101; 114; 115; 0; 0; 7]).
Proof.
  split; [apply utf8_ok|]. split; [apply guess_masc|]. split; [apply masc_sorted|]. split.
  { cbv zeta. split; [vm_compute; reflexivity|]. split; [vm_compute; reflexivity|]. split; [apply proper_inb; vm_compute; reflexivity|].
    split; [exists (repeat 0 63), 0; repeat split; reflexivity|]. split; [vm_compute; reflexivity|eexists; vm_compute; reflexivity]. }
  split; [apply eng_runner|]. split; [apply runner_sorted|]. split; [apply proper_inb; vm_compute; reflexivity|]. split; [reflexivity|vm_compute; reflexivity].
Qed.

(** ** C70.  Lemmatising a word with the guesser, in either language and any code page.  As C42: the acceptable guesses are grouped by
    stem and class; if there is room, the answer is their number, the stems sorted by decreasing weight, the normal forms in the code
    page and the descriptions; otherwise a negative number, and the array of stems is not touched. *)
Theorem C70_lemmatize : forall T P rank sort junk F t cls below lojunk w psz cch plemma pforms pgrams dwsets l,
  page_ok P -> guesser_in T F t cls -> (forall x, Permutation x (sort x) /\ falling (sort x)) ->
  let u := text_of P w in
  let low := map (locase (tg_casing T)) u in
  proper_in T P u -> w <> [] -> given w psz cch -> readable below t (rev low) -> (pforms <> None -> forall n, workable T (junk n)) ->
  acceptable_in T cls (N.testbit dwsets 1) u (guesses (contents t) low) l ->
  let rs := runs l in
  let stems := stems_in T P cls rank low (is_some pforms) (is_some pgrams) 0 0 rs in
  let enough := room_in T P cls low pforms pgrams rs /\ match plemma with None => True | Some m => (length rs <= length m)%nat end in
  let r := glemmatize T P rank sort junk F below lojunk psz cch plemma pforms pgrams dwsets in
  (enough -> exists sorted, Permutation stems sorted /\ falling sorted /\
     r = Ok (Z.of_nat (length rs), option_map (put_front sorted) plemma, option_map (filled_in (coding P) (map (normal_in T cls low) rs)) pforms,
             option_map (put_front (flat_map (descriptions cls) rs)) pgrams)) /\
  (~ enough -> exists z forms grams, r = Ok (z, plemma, forms, grams) /\ (z < 0)%Z /\
     option_map (@length N) forms = option_map (@length N) pforms /\ option_map (@length gram) grams = option_map (@length gram) pgrams).
Proof.
  intros T P rank sort junk F t cls below lojunk w psz cch plemma pforms pgrams dwsets l HP HG Hsort u low Hw Hw0 Hg Hr Hj Ha. cbv zeta.
  destruct (glemmatize_exact T P HP rank sort junk F t cls below lojunk w psz cch plemma pforms pgrams dwsets l HG (fun x => proj1 (Hsort x)) Hw Hw0 Hg Hr Hj Ha) as [H1 H2].
  split; [|exact H2]. intros He. eexists. split; [apply (Hsort _)|]. split; [apply (Hsort _)|]. exact (H1 He).
Qed.
Print Assumptions C70_lemmatize.

Theorem C70_same_program : forall rank sort junk F below lojunk psz cch plemma pforms pgrams dwsets,
  glemmatize Russian Win1251 rank sort junk F below lojunk psz cch plemma pforms pgrams dwsets =
  fuzzy_lemmatize rank sort junk F below lojunk psz cch plemma pforms pgrams dwsets.
Proof. exact lemmatize_russian. Qed.
Print Assumptions C70_same_program.

(** no word, and words the converter has no room for, are answered without touching the arrays *)
Theorem C70_degenerate : forall T P rank sort junk F below lojunk psz cch plemma pforms pgrams dwsets,
  (psz = None \/ given [] psz cch ->
   glemmatize T P rank sort junk F below lojunk psz cch plemma pforms pgrams dwsets = Ok (0%Z, plemma, pforms, pgrams)) /\
  (forall w E, P = Other E \/ P = Utf8 E -> w <> [] -> given w psz cch -> (256 < length (dec E w) + slack E)%nat ->
   glemmatize T P rank sort junk F below lojunk psz cch plemma pforms pgrams dwsets = Ok ((-4)%Z, plemma, pforms, pgrams)).
Proof.
  intros T P rank sort junk F below lojunk psz cch plemma pforms pgrams dwsets. split.
  - intros H. unfold glemmatize. rewrite (gcanonic_empty T P psz cch H). reflexivity.
  - intros w E HPE Hw Hg Hl. unfold glemmatize. rewrite (gcanonic_no_room T P E w psz cch HPE Hg Hw Hl). reflexivity.
Qed.
Print Assumptions C70_degenerate.

(** the length of the stem in UTF-8 is counted in bytes if the normal forms are asked for, and in characters if they are not *)
Theorem C70_stem_length_refuted : exists F t cls w, guesser_in Russian F t cls /\ proper_in Russian (Utf8 (utf8 1)) (text_of (Utf8 (utf8 1)) w) /\
  forall rank below, below <> [] -> exists s s',
    glemmatize Russian (Utf8 (utf8 1)) rank (fun l => l) (fun _ => repeat 0 64) F below (repeat 0 256) (Some w) (N.of_nat (length w)) (Some [nostem]) None None 0
      = Ok (1%Z, Some [s], None, None) /\
    glemmatize Russian (Utf8 (utf8 1)) rank (fun l => l) (fun _ => repeat 0 64) F below (repeat 0 256) (Some w) (N.of_nat (length w)) (Some [nostem]) (Some (repeat 0 20)) None 0
      = Ok (1%Z, Some [s'], Some (encode (utf8 1) [242; 240; 238; 237] ++ repeat 0 12), None) /\
    sccstem s = 4 /\ sccstem s' = 8 /\ snclass s = snclass s'.
Proof.
  exists guess_arrays, guess_tree, (numbered (fun l => l) guess_src), (encode (utf8 1) [242; 240; 238; 237; 224]).
  split; [apply rus_guesser|]. split; [apply proper_inb; vm_compute; reflexivity|]. intros rank below Hb. destruct below as [|b below]; [congruence|].
  do 2 eexists. split; [vm_compute; reflexivity|]. split; [vm_compute; reflexivity|]. repeat split; reflexivity.
Qed.
Print Assumptions C70_stem_length_refuted.

(** "Трона" in UTF-8: the common noun and the name of a town; "Coaters" in English; "COATers" is not in any capitalisation English
    knows *)
Example C70_case : page_ok (Utf8 (utf8 1)) /\ guesser_in Russian guess_arrays guess_tree (numbered (fun l => l) guess_src) /\
  guesser_in English eng_arrays eng_tree (numbered (fun l => l) eng_src) /\ (forall x, Permutation x (by_weight x) /\ falling (by_weight x)) /\
  proper_in Russian (Utf8 (utf8 1)) (text_of (Utf8 (utf8 1)) throne) /\
  glemmatize Russian (Utf8 (utf8 1)) some_rank by_weight (fun _ => repeat 0 64) guess_arrays [0] (repeat 0 256) (Some throne) 10
    (Some [nostem; nostem; nostem]) (Some (repeat 7 20)) (Some [Gram 9 9 9 9; Gram 9 9 9 9; Gram 9 9 9 9]) 0 =
  Ok (2%Z, Some [StemInfo (Some 0%nat) 8 0 0 1 42; StemInfo (Some 9%nat) 8 2 1 1 7; nostem],
      Some (encode (utf8 1) [242; 240; 238; 237] ++ [0] ++ encode (utf8 1) [210; 240; 238; 237] ++ [0; 0; 7]),
      Some [Gram 7 1 0 0; Gram 39 1 0 0; Gram 9 9 9 9]) /\
  glemmatize English Win1251 some_rank by_weight (fun _ => repeat 7 64) eng_arrays [0] (repeat 0 256) (Some [67; 111; 97; 116; 101; 114; 115]) 7
    (Some [nostem]) (Some (repeat 7 8)) None 0 = Ok (1%Z, Some [StemInfo (Some 0%nat) 6 0 0 0 52], Some [99; 111; 97; 116; 101; 114; 0; 0], None) /\
  glemmatize English Win1251 some_rank by_weight (fun _ => repeat 7 64) eng_arrays [0] (repeat 0 256) (Some [67; 79; 65; 84; 101; 114; 115]) 7
    (Some [nostem]) (Some (repeat 7 8)) None 0 = Ok (0%Z, Some [nostem], Some (repeat 7 8), None).
Proof.
  split; [apply utf8_ok|]. split; [apply rus_guesser|]. split; [apply eng_guesser|]. split; [apply by_weight_sorts|].
  split; [apply proper_inb; vm_compute; reflexivity|]. repeat split; vm_compute; reflexivity.
Qed.

(** ** C71.  The samples of a class in the code page: as many as fit are written, each terminated, the rest of the array is not
    touched; if not even the first fits, -1 is returned.  Missing to the full property: a converter that asks for no more room than
    the characters need lets a sample fill the array, and the next one is written beyond it (refuted below). *)
Theorem C71_models_partial : forall P F i c mem, page_ok P -> (1 <= slack (coding P))%nat -> has_class F i c -> mem <> [] ->
  let samples := map m_sample (c_models c) in
  let fs := fitting_in (coding P) (length mem) samples in
  gmodels P F (Some mem) i =
    Ok (match samples, fs with _ :: _, [] => (-1)%Z | _, _ => Z.of_nat (length fs) end,
        Some (joined (map (encode (coding P)) fs) ++ skipn (total (map (encode (coding P)) fs)) mem)).
Proof. exact gmodels_exact. Qed.
Print Assumptions C71_models_partial.

Theorem C71_unknown : forall P F i mem, N.of_nat (length (class_offset F)) <= i -> gmodels P F mem i = Ok ((-5)%Z, mem).
Proof. intros P F i mem H. unfold gmodels. rewrite (no_class F i H). destruct mem as [[|? ?]|]; reflexivity. Qed.
Print Assumptions C71_unknown.

Theorem C71_full_refuted : exists F i c, page_ok (Utf8 (utf8 0)) /\ has_class F i c /\ gmodels (Utf8 (utf8 0)) F (Some (repeat 7 8)) i = Ub.
Proof. exists guess_arrays, 0, masc. split; [apply utf8_ok|]. split; [apply guess_masc|]. vm_compute. reflexivity. Qed.
Print Assumptions C71_full_refuted.

Example C71_case : page_ok (Utf8 (utf8 1)) /\ has_class guess_arrays 0 masc /\
  gmodels (Utf8 (utf8 1)) guess_arrays (Some (repeat 7 15)) 0 = Ok (1%Z, Some (encode (utf8 1) [236; 238; 241; 242] ++ [0; 7; 7; 7; 7; 7; 7])) /\
  gmodels (Utf8 (utf8 1)) guess_arrays (Some (repeat 7 16)) 0 =
    Ok (2%Z, Some (encode (utf8 1) [236; 238; 241; 242] ++ [0] ++ encode (utf8 1) [242; 238; 237] ++ [0])) /\
  gmodels (Utf8 (utf8 1)) guess_arrays (Some (repeat 7 8)) 0 = Ok ((-1)%Z, Some (repeat 7 8)).
Proof. split; [apply utf8_ok|]. split; [apply guess_masc|]. repeat split; vm_compute; reflexivity. Qed.

(** ** C72.  What is guessed gives the word back, in either language and any code page: the caller cuts its word off at the length of
    the stem reported (with the normal forms asked for), and building the form reported, of the class reported, from that yields a
    list with the word itself (in the capitalisation of the class). *)
Theorem C72_word_back : forall sort T P cs t F u l r g mem lojunk junk psz cch,
  (forall x, Permutation x (sort x)) -> page_ok P -> aligned T P ->
  compiled sort cs t F -> Forall (source_in T) cs -> N.of_nat (length cs) < 2 ^ 32 ->
  Forall (fun c => by_form (c_inflex c)) cs -> proper_in T P u -> (length u <= 49)%nat ->
  let low := map (locase (tg_casing T)) u in
  (forall x, In x l -> In x (guesses (contents t) low)) -> In r (runs l) -> In g r ->
  given (firstn (N.to_nat (stem_size P low true r)) (encode (coding P) u)) psz cch -> mem <> [] -> workable T junk ->
  exists fs, delivered_in (coding P) mem fs True (gbuild_form T P F lojunk junk (Some mem) psz cch (class_no r) (r_form (snd g))) /\
    In (cased T (c_partsp (numbered sort cs (class_no r))) low) fs.
Proof. exact gback. Qed.
Print Assumptions C72_word_back.

(** UTF-8 is counted as the program counts it *)
Theorem C72_utf8 : forall T k, page_ok (Utf8 (utf8 k)) /\ aligned T (Utf8 (utf8 k)).
Proof. intros T k. split; [apply utf8_ok|apply utf8_widths]. Qed.
Print Assumptions C72_utf8.

Example C72_case : compiled (fun l => l) guess_src guess_tree guess_arrays /\ Forall (source_in Russian) guess_src /\ Forall (fun c => by_form (c_inflex c)) guess_src /\
  runs (guesses (contents guess_tree) [242; 240; 238; 237; 224]) = [[(2%nat, ClassRef 0 40 1)]; [(2%nat, ClassRef 2 5 1)]] /\
  firstn 8 throne = encode (utf8 1) [210; 240; 238; 237] /\
  gbuild_form Russian (Utf8 (utf8 1)) guess_arrays (repeat 0 256) (repeat 0 64) (Some (repeat 7 13)) (Some (firstn 8 throne)) 8 2 1 = Ok (1%Z, Some (throne ++ [0; 0; 7])).
Proof.
  split; [apply guess_compiled|]. split; [apply rus_sources|]. split; [repeat constructor; cbn; lia|]. repeat split; vm_compute; reflexivity.
Qed.

(** ** C73.  The arrays compiled from class descriptions of either language guess exactly the classes the word looks like. *)
Theorem C73_compiled : forall sort T cs t F, (forall l, Permutation l (sort l)) -> compiled sort cs t F -> Forall (source_in T) cs -> N.of_nat (length cs) < 2 ^ 32 ->
  guesser_in T F t (numbered sort cs) /\
  forall w n i p id, In (n, ClassRef i p id) (guesses (contents t) w) <-> exists m f, ends_like cs w n i m f /\ m_weight m = p /\ fst f = id.
Proof.
  intros sort T cs t F Hs HC Hcs Hn. split; [apply compiled_guesser_in; assumption|]. intros w n i p id. exact (compiled_guesses_in sort T cs t F w n i p id HC Hcs).
Qed.
Print Assumptions C73_compiled.

Example C73_case : compiled (fun l => l) eng_src eng_tree eng_arrays /\ Forall (source_in English) eng_src /\ N.of_nat (length eng_src) < 2 ^ 32 /\
  (* "bloating" *) (exists m f, ends_like eng_src [98; 108; 111; 97; 116; 105; 110; 103] 3 1 m f /\ m_weight m = 20 /\ fst f = 4).
Proof.
  split; [apply eng_compiled|]. split; [apply eng_sources|]. split; [vm_compute; reflexivity|].
  exists (ModelSrc [97; 116] [102; 108; 111; 97; 116] 20), (4, [105; 110; 103]). split; [|split; reflexivity]. exists float_. split; [reflexivity|].
  split; [left; reflexivity|]. split; [right; right; right; left; reflexivity|]. split; [cbn; lia|reflexivity].
Qed.
