(** * C117, C118: the games of five letters over the wide interface of the Russian analyser. *)
From Verif Require Import Base Serial WordTree TreeSpec WordTreeProofs Stems StemSpec CharTables CapScheme CapSpec RusRuntime RusSpec RusProofs RusDemo RusDemo2 Wild WildSpec PropWildLemmas
  WideApi WideSpec PropWideLemmas Letters LettersSpec LettersProofs Tasks TasksSpec TasksProofs FivesSpec FivesProofs.
Local Open Scope N_scope.

(** The search the games rest on: for a pattern of five letters and question marks for which it is defined, FindMatch of the wide interface over a Russian
    dictionary (the conditions of C26 and C65) hands over exactly the forms that fit, with their lexemes and numbers. *)
Theorem C118_search_exact : forall W, wide_ok W -> knows_letters W -> forall A L rest junk buf szword, holds A L -> fixed_plain L -> strings_within 47 L ->
  stemtree A = stemtree_bytes (words L) ++ rest -> rest <> [] \/ lookup [] (words L) <> None ->
  (forall key e, has_record (words L) key e -> nlexid e <> 0) -> bounds_ok L -> forms_plain L ->
  length junk = 48%nat -> length buf = 48%nat ->
  forall p, pattern_ok p -> wc_find_match W note A junk buf szword (Some p) (N.of_nat (length p)) [] <> Ub ->
  forall lex w id, (exists ms, In (lex, ms) (wide_find W A junk buf szword p) /\ In (w, id) ms) <-> forms_of W L lex w id /\ fits p w.
Proof. exact wide_find_pattern. Qed.

(** So the game of C117 may be played over such a dictionary, if the search is defined for all such patterns: the nouns are its five-letter forms
    number 0 or 255 of lexemes of the classes 7 to 23. *)
Theorem C117_over_wide_search : forall W, wide_ok W -> knows_letters W -> forall A L rest junk buf szword, holds A L -> fixed_plain L -> strings_within 47 L ->
  stemtree A = stemtree_bytes (words L) ++ rest -> rest <> [] \/ lookup [] (words L) <> None ->
  (forall key e, has_record (words L) key e -> nlexid e <> 0) -> bounds_ok L -> forms_plain L ->
  length junk = 48%nat -> length buf = 48%nat ->
  (forall p, pattern_ok p -> wc_find_match W note A junk buf szword (Some p) (N.of_nat (length p)) [] <> Ub) ->
  forall wd nouns sample search unused fuel,
  (forall w, In w nouns <-> five w /\ exists lex id, forms_of W L lex w id /\ 7 <= wd lex <= 23 /\ (id = 0 \/ id = 255)) -> Forall (Forall is_letter) nouns ->
  five sample -> pattern_ok search -> Forall is_letter unused -> (length nouns < fuel)%nat ->
  exists lines v, letters_game (wide_find W A junk buf szword) wd fuel sample search unused = Ok (lines, v) /\ fair_game nouns sample lines v /\
    greedy_game nouns sample search unused lines v /\
    (In sample nouns -> fits search sample -> (forall c, In c sample -> ~ In c unused) -> v = Guessed).
Proof.
  intros W Hw Hk A L rest junk buf szword H1 H2 H3 H4 H5 H6 H7 H8 H9 H10 H11 wd nouns sample search unused fuel Hn Hl H12 H13 H14 H15.
  apply game_ok; try assumption.
  - apply (nouns_dictionary _ _ (forms_of W L)); [|exact Hn]. intros p Hp. apply (wide_find_pattern W Hw Hk A L rest junk buf szword); try assumption. apply H11. exact Hp.
  - apply Forall_forall. intros w Hi. rewrite Forall_forall in Hl. split; [apply Hn; exact Hi|exact (Hl w Hi)].
Qed.

(** The conditions are met: the dictionary of C26, UTF-16. *)
Lemma utf16_letters : knows_letters (utf16 1).
Proof.
  split; [reflexivity|]. intros c Hc. assert (Hi : In c (map (fun i => 1072 + N.of_nat i) (seq 0 32))).
  { unfold is_letter in Hc. apply in_map_iff. exists (N.to_nat (c - 1072)). split; [lia|]. apply in_seq. lia. }
  cbn in Hi. repeat (destruct Hi as [<-|Hi]; [split; [reflexivity|split; [reflexivity|split; discriminate]]|]). destruct Hi.
Qed.
Ltac ord := first [apply ordered_wempty | apply insert_ordered; [repeat constructor|ord]].
Lemma endings1_listed x g f : listed endings1 x g f -> In x [[]; [224]; [251]].
Proof.
  intros (l & Hx & _). unfold endings1 in Hx. cbn [In].
  destruct (list_eq_dec N.eq_dec x [224]) as [->|N1]; [right; left; reflexivity|]. destruct (list_eq_dec N.eq_dec x [251]) as [->|N2]; [right; right; left; reflexivity|].
  destruct (list_eq_dec N.eq_dec x []) as [->|N3]; [left; reflexivity|]. exfalso.
  rewrite lookup_insert_other in Hx by (assumption || ord).
  rewrite lookup_insert_other in Hx by (assumption || ord).
  rewrite lookup_insert_other in Hx by (assumption || ord).
  rewrite lookup_wempty in Hx. discriminate.
Qed.
Ltac plain_done := split; [repeat constructor|split; [cbn; intuition discriminate|first [right; exact I|left; discriminate]]].
Ltac plain_ends := match goal with H : listed _ ?x _ _ |- _ => apply endings1_listed in H; cbn [In] in H; repeat (destruct H as [<-|H]; [plain_done|]); destruct H end.
Lemma demo2_forms_plain : forms_plain demo2_lexicon.
Proof.
  intros key e part str id (Hr & st & c & g & f & Hc & Hp & -> & _). apply (record_item demo2_items key e demo2_items_ok) in Hr. cbn [demo2_items In] in Hr.
  repeat (destruct Hr as [E|Hr]; [injection E as <- <-; vm_compute in Hc; injection Hc as <- <-; inversion Hp as [Hn|ft e g' f' Hfl Hmx Hli|ft mx mask alt e g' f' Hfl Hmx Hma Hb Hli]; subst; try discriminate|]); try (destruct Hr; fail).
  all: try (injection Hfl as <-). all: try (injection Hmx as <-; cbn [In] in Hma; destruct Hma as [Ha|[Ha|[]]]; injection Ha as <- <-).
  all: first [plain_ends|plain_done].
Qed.

Example C118_search_case : wide_ok (utf16 1) /\ knows_letters (utf16 1) /\ holds wild_arrays demo2_lexicon /\ fixed_plain demo2_lexicon /\ strings_within 47 demo2_lexicon /\
  bounds_ok demo2_lexicon /\ forms_plain demo2_lexicon /\ pattern_ok [1080; 1074; 1072; 1085; 63] /\
  (* иван? *) wide_find (utf16 1) wild_arrays (repeat 7 48) (repeat 9 48) (repeat 5 48) [1080; 1074; 1072; 1085; 63] =
    [(65540, [([1080; 1074; 1072; 1085; 1099], 10); ([1080; 1074; 1072; 1085; 1072], 10); ([1080; 1074; 1072; 1085; 1072], 1)])] /\
  forms_of (utf16 1) demo2_lexicon 65540 [1080; 1074; 1072; 1085; 1072] 1.
Proof.
  split; [apply utf16_ok; lia|]. split; [apply utf16_letters|]. split; [apply wild_holds|]. split; [apply wild_plain|]. split; [apply wild_within|].
  split; [exact (small_bounds demo2_items demo2_items_ok)|]. split; [apply demo2_forms_plain|].
  split; [split; [reflexivity|repeat (constructor; [first [left; reflexivity|right; unfold is_letter; lia]|]); constructor]|].
  assert (Ef : wide_find (utf16 1) wild_arrays (repeat 7 48) (repeat 9 48) (repeat 5 48) [1080; 1074; 1072; 1085; 63] =
    [(65540, [([1080; 1074; 1072; 1085; 1099], 10); ([1080; 1074; 1072; 1085; 1072], 10); ([1080; 1074; 1072; 1085; 1072], 1)])]) by (vm_compute; reflexivity).
  split; [exact Ef|].
  refine (proj1 (proj1 (C118_search_exact (utf16 1) (utf16_ok 1 (le_n 1)) utf16_letters wild_arrays demo2_lexicon [0] (repeat 7 48) (repeat 9 48) (repeat 5 48) wild_holds wild_plain wild_within
    eq_refl (or_introl _) wild_ids (small_bounds demo2_items demo2_items_ok) demo2_forms_plain eq_refl eq_refl [1080; 1074; 1072; 1085; 63] _ _ 65540 [1080; 1074; 1072; 1085; 1072] 1) _)).
  - discriminate.
  - split; [reflexivity|repeat (constructor; [first [left; reflexivity|right; unfold is_letter; lia]|]); constructor].
  - vm_compute. discriminate.
  - rewrite Ef. eexists. split; [left; reflexivity|]. right. right. left. reflexivity.
Qed.

Print Assumptions C118_search_exact.
Print Assumptions C117_over_wide_search.
