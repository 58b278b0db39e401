(** * Property C116: the program utils/stematize.  STATEMENTS ONLY.
    The vocabulary is in StemToolSpec.v: [told_guess] is what is told of a guess, [best_first] the order, [stem_room] the room there is; [read_json] of
    LemmToolSpec.v reads JSON.  The guesses of a word are those of C70: [runs (guesses (contents t) low)], all of them, for capitals are ignored.
    [score] is what "%.4f" prints for a weight and [shows] the number that is; [rank] computes the weights. *)
From Coq Require Import String Permutation.
From Verif Require Import Base Serial TreeSpec CharTables CapScheme CapSpec GramMap RusRuntime LevelSpec RusSpec RusBuild RusBuildSpec Codepage CodepageSpec Utf8
  CapProofs Api Dump DumpSpec LemmTool LemmToolSpec Fuzzy FuzzySpec FuzzyProofs FuzzyProofs2 FuzzyProofs4 FuzzyProofs5 FuzzyProofs6 PropFuzzyLemmas
  Guess GuessSpec GuessProofs GuessProofs2 GuessProofs3 PropGuessLemmas GuessRus StemTool StemToolSpec StemToolProofs2.
Local Open Scope N_scope.
Local Open Scope list_scope.
Notation length := List.length.

(** ** C116.  What is printed is JSON and tells the guesses of the word, the heaviest first: normal form, weight, class, part of speech, forms.  If there is
    no room for them, an empty list.  Missing to the full property: weights that print as no number ([inf], [nan]) and normal forms with quotes. *)
Theorem C116_stematize_partial : forall T P score shows rank sort junk F t cls below lojunk w stmset stbuff grbuff,
  page_ok P -> guesser_in T F t cls -> (forall x, Permutation x (sort x) /\ falling (sort x)) ->
  let low := low_in T (text_of P w) in
  proper_in T P (text_of P w) -> w <> [] -> ~ In 0 w -> readable below t (rev low) -> (forall n, workable T (junk n)) ->
  length stmset = 64%nat -> length stbuff = 256%nat -> length grbuff = 64%nat ->
  let rs := runs (guesses (contents t) low) in
  (forall r, In r rs -> let x := weight_of cls rank low r in decimal (score x) (fst (shows x)) (snd (shows x))) ->
  (forall r, In r rs -> quotable (encode (coding P) (normal_in T cls low r))) ->
  let out := stem_tool T P score rank sort junk F below lojunk stmset stbuff grbuff w in
  (stem_room T P cls low rs -> exists order text, Permutation rs order /\ best_first (weight_of cls rank low) order /\ out = Ok text /\
     read_json text = Some (JArr (map (fun r => told_guess T P cls low (shows (weight_of cls rank low r)) r) order))) /\
  (~ stem_room T P cls low rs -> exists text, out = Ok text /\ read_json text = Some (JArr [])).
Proof. exact stem_answer. Qed.
Print Assumptions C116_stematize_partial.

(** "Трона" in UTF-8 and "Coaters" in English; weights are told in hundredths *)
Definition score2 (z : Z) : bytes := let n := Z.to_N z in [48; 46; 48 + n / 10 mod 10; 48 + n mod 10].
Definition shows2 (z : Z) : N * bytes := let n := Z.to_N z in (0, [48 + n / 10 mod 10; 48 + n mod 10]).
Lemma shows2_ok z : decimal (score2 z) (fst (shows2 z)) (snd (shows2 z)).
Proof.
  exists [48]. unfold score2, shows2. cbn [fst snd app forallb]. split; [reflexivity|]. split; [reflexivity|]. split; [reflexivity|]. split; [discriminate|].
  pose proof (N.mod_lt (Z.to_N z) 10 ltac:(discriminate)). pose proof (N.mod_lt (Z.to_N z / 10) 10 ltac:(discriminate)). unfold is_digit. lia.
Qed.
Definition stmset0 : list stem_info := repeat nostem 64.
Definition stchar0 : bytes := repeat 9 256.
Definition stgram0 : list gram := repeat (Gram 1 2 3 4) 64.
Example C116_case : page_ok (Utf8 (utf8 1)) /\ guesser_in Russian guess_arrays guess_tree (numbered (fun l => l) guess_src) /\
  guesser_in English eng_arrays eng_tree (numbered (fun l => l) eng_src) /\ (forall x, Permutation x (by_weight x) /\ falling (by_weight x)) /\
  proper_in Russian (Utf8 (utf8 1)) (text_of (Utf8 (utf8 1)) throne) /\ length stmset0 = 64%nat /\ length stchar0 = 256%nat /\ length stgram0 = 64%nat /\
  (let out := stem_tool Russian (Utf8 (utf8 1)) score2 some_rank by_weight (fun _ => repeat 0 64) guess_arrays [0] (repeat 0 256) stmset0 stchar0 stgram0 throne in
   out = Ok (text "[" ++ [10] ++ text "  { ""lemma"": """ ++ encode (utf8 1) [242; 240; 238; 237] ++ text """," ++ [9] ++ text """score"":   0.42, ""class"":   0, ""psp"":  7, ""forms"": [1] }," ++ [10] ++
             text "  { ""lemma"": """ ++ encode (utf8 1) [210; 240; 238; 237] ++ text """," ++ [9] ++ text """score"":   0.07, ""class"":   2, ""psp"": 39, ""forms"": [1] }" ++ [10] ++ text "]") /\
   (let! o := out in Ok (read_json o)) = Ok (Some (JArr
     [JObj [(text "lemma", JStr (encode (utf8 1) [242; 240; 238; 237])); (text "score", JDec 0 (text "42")); (text "class", JNum 0); (text "psp", JNum 7); (text "forms", JArr [JNum 1])];
      JObj [(text "lemma", JStr (encode (utf8 1) [210; 240; 238; 237])); (text "score", JDec 0 (text "07")); (text "class", JNum 2); (text "psp", JNum 39); (text "forms", JArr [JNum 1])]]))) /\
  (let! o := stem_tool English Win1251 score2 some_rank by_weight (fun _ => repeat 7 64) eng_arrays [0] (repeat 0 256) stmset0 stchar0 stgram0 (text "COATers") in Ok (read_json o)) =
    Ok (Some (JArr [JObj [(text "lemma", JStr (text "coater")); (text "score", JDec 0 (text "52")); (text "class", JNum 0); (text "psp", JNum 1); (text "forms", JArr [JNum 2])]])).
Proof.
  split; [apply utf8_ok|]. split; [apply rus_guesser|]. split; [apply eng_guesser|]. split; [apply by_weight_sorts|].
  split; [apply proper_inb; vm_compute; reflexivity|]. split; [reflexivity|]. split; [reflexivity|]. split; [reflexivity|]. split; [split; vm_compute; reflexivity|vm_compute; reflexivity].
Qed.

(** "an empty list means no guess": of a word of 65 letters the guess is found, but its normal form is too long *)
Definition longword : bytes := repeat 224 60 ++ [242; 240; 238; 237; 224].
Theorem C116_empty_means_no_guess_refuted : exists F t cls, guesser_in Russian F t cls /\ proper_in Russian Win1251 longword /\
  (forall score rank, stem_tool Russian Win1251 score rank by_weight (fun _ => repeat 0 64) F [0] (repeat 0 256) stmset0 stchar0 stgram0 longword = Ok (text "[" ++ [10] ++ text "]")) /\
  exists rank stems, glemmatize Russian Win1251 rank by_weight (fun _ => repeat 0 64) F [0] (repeat 0 256) (Some (longword ++ [0])) (2 ^ 64 - 1) (Some stmset0) None None 2 = Ok (2%Z, Some stems, None, None).
Proof.
  exists guess_arrays, guess_tree, (numbered (fun l => l) guess_src). split; [apply rus_guesser|]. split; [apply proper_inb; vm_compute; reflexivity|].
  split; [intros score rank; vm_compute; reflexivity|]. exists some_rank. eexists. vm_compute. reflexivity.
Qed.
Print Assumptions C116_empty_means_no_guess_refuted.
