(** * Properties C32, C33, C42-C45: the guesser of unknown words (lang-rus/libprob, windows-1251).  STATEMENTS ONLY.
    The vocabulary is in FuzzySpec.v.  [below] is the memory before the array that holds the word, [lojunk] and [junk] what the
    uninitialised arrays [locase] and [szform] held, [rank] the weight as a function of the numbers it is computed from. *)
From Coq Require Import Permutation.
From Verif Require Import Base Serial TreeSpec CharTables CapScheme CapSpec GramMap RusRuntime LevelSpec RusSpec RusBuild RusBuildSpec
  CapProofs Fuzzy FuzzySpec FuzzyProofs FuzzyProofs2 FuzzyProofs4 FuzzyProofs5 FuzzyProofs6 PropFuzzyLemmas.
Local Open Scope N_scope.

(** ** C32.  Scanning the index with a word calls the collector for exactly what is stored under its endings, the shortest first,
    until it returns something other than zero.  Missing to the full property: a word that is itself a known ending makes the scan
    read before the array (refuted below). *)
Theorem C32_scan_partial : forall St (output : St -> N -> N -> N -> N -> res (St * Z)) below t rest w s,
  sized t -> ordered_tree t -> refs_ok t -> readable below t (rev w) ->
  scan_tree output (pser t ++ rest) (rev w ++ below) (N.of_nat (length w)) s =
  until_nonzero (fun s g => output s (N.of_nat (fst g)) (r_class (snd g)) (r_power (snd g)) (r_form (snd g))) (guesses (contents t) w) s.
Proof. intros St output below t rest w s. exact (scan_guesses output below t rest w s). Qed.
Print Assumptions C32_scan_partial.

Theorem C32_guesses : forall m w n r,
  In (n, r) (guesses m w) <-> (n <= length w)%nat /\ In r (stored_under m (rev (skipn n w))).
Proof.
  intros m w n r. unfold guesses. rewrite in_flat_map. split.
  - intros (k & Hk & H). apply in_seq in Hk. apply in_map_iff in H. destruct H as (r' & [= <- ->] & H). split; [lia|exact H].
  - intros (Hn & H). exists (length w - n)%nat. split; [apply in_seq; lia|]. replace (length w - (length w - n))%nat with n by lia. apply in_map. exact H.
Qed.
Print Assumptions C32_guesses.

(** a word that is an ending with longer ones known reads before its array *)
Theorem C32_edge_refuted : exists cs t F w, compiled (fun l => l) cs t F /\ Forall source_ok cs /\ proper w /\
  forall rank sort junk plemma, fuzzy_lemmatize rank sort junk F [] (repeat 0 256) (Some w) (N.of_nat (length w)) plemma None None 0 = Ub.
Proof.
  exists edge_src, edge_tree, (arrays_for edge_src edge_tree), [241; 242]. split; [apply edge_compiled|]. split; [apply edge_sources|].
  split; [apply properb; vm_compute; reflexivity|]. intros. apply edge_reads_out.
Qed.
Print Assumptions C32_edge_refuted.

Example C32_case : sized guess_tree /\ ordered_tree guess_tree /\ refs_ok guess_tree /\
  (* "хвоста" *) guesses (contents guess_tree) [245; 226; 238; 241; 242; 224] = [(3%nat, ClassRef 0 120 1); (3%nat, ClassRef 1 30 0)] /\
  readable [] guess_tree (rev [245; 226; 238; 241; 242; 224]).
Proof.
  split; [apply guess_guesser|]. split; [apply guess_guesser|]. split; [apply guess_guesser|]. split; [vm_compute; reflexivity|]. right. split.
  - repeat (constructor; try (vm_compute; discriminate)).
  - intros x H. exfalso. cbn in H. repeat (destruct H as [H|H]; [discriminate|]). destruct H.
Qed.

(** ** C33.  Building a form of a guessed class writes the stem with every inflexion listed for the form, in order, or fails with -1
    without leaving the array.  Missing to the full property: the code relies on a terminator it does not write, on forms of at most
    63 characters and on inflexions listed by form (each refuted below). *)
Theorem C33_build_form_partial : forall F lojunk junk mem w psz cch i c id,
  has_class F i c -> by_form (c_inflex c) -> proper w -> given w psz cch -> mem <> [] -> stopped junk ->
  (forall f, In f (c_inflex c) -> fst f = id -> (length w + length (snd f) <= 63)%nat) ->
  delivered mem (variants c (map (locase rus_casing) w) id) True (fuzzy_build_form F lojunk junk (Some mem) psz cch i id).
Proof. exact fuzzy_build_exact. Qed.
Print Assumptions C33_build_form_partial.

(** no output array; an unknown class leaves the array as it was *)
Theorem C33_degenerate : forall F lojunk junk psz cch i id w, psz = None \/ (proper w /\ given w psz cch) ->
  fuzzy_build_form F lojunk junk None psz cch i id = Ok ((-5)%Z, None) /\
  fuzzy_build_form F lojunk junk (Some []) psz cch i id = Ok ((-5)%Z, Some []) /\
  (forall mem, mem <> [] -> N.of_nat (length (class_offset F)) <= i -> fuzzy_build_form F lojunk junk (Some mem) psz cch i id = Ok ((-5)%Z, Some mem)).
Proof.
  intros F lojunk junk psz cch i id w H.
  assert (Hc : exists s st, fuzzy_canonic psz cch = Ok (s, st)).
  { destruct H as [->|((H1 & H2 & H3 & H4 & H5) & Hg)]; [do 2 eexists; reflexivity|]. rewrite (fuzzy_canonic_given w psz cch Hg H2).
    destruct (fuzzy_canonic_facts w H1 H2 H3 H4) as (v & E & _). do 2 eexists. exact E. }
  destruct Hc as (s & st & Hc). unfold fuzzy_build_form. rewrite Hc. cbn [bind]. split; [reflexivity|]. split; [reflexivity|].
  intros mem Hm Hi. destruct mem; [congruence|]. destruct (N.leb_spec (N.of_nat (length (class_offset F))) i); [reflexivity|lia].
Qed.
Print Assumptions C33_degenerate.

(** the array of the form is not terminated: unless it held a terminator or a hyphen, the code reads beyond it *)
Theorem C33_unterminated_refuted : exists F c w, has_class F 0 c /\ by_form (c_inflex c) /\ proper w /\
  forall junk, length junk = 64%nat -> nodelim rus_casing junk ->
  fuzzy_build_form F (repeat 0 256) junk (Some (repeat 7 100)) (Some w) (N.of_nat (length w)) 0 1 = Ub.
Proof.
  exists guess_arrays, masc, [245; 226; 238; 241; 242]. split; [apply guess_masc|]. split; [apply masc_sorted|]. split; [apply properb; vm_compute; reflexivity|].
  intros junk H1 H2. exact (guess_unterminated junk H1 H2).
Qed.
Print Assumptions C33_unterminated_refuted.

(** a form of 64 characters passes the check and makes the code read beyond the array, even if it was cleared *)
Theorem C33_length_refuted : exists F c w, has_class F 0 c /\ by_form (c_inflex c) /\ proper w /\
  fuzzy_build_form F (repeat 0 256) (repeat 0 64) (Some (repeat 7 100)) (Some w) (N.of_nat (length w)) 0 1 = Ub.
Proof.
  exists guess_arrays, masc, (repeat 224 63). split; [apply guess_masc|]. split; [apply masc_sorted|]. split; [apply properb; vm_compute; reflexivity|].
  exact (proj1 guess_longest).
Qed.
Print Assumptions C33_length_refuted.

(** the compiler does not sort the inflexions, and those listed out of order are lost *)
Theorem C33_order_refuted : exists cs t F c w id, compiled (fun l => l) cs t F /\ Forall source_ok cs /\ cs = [c] /\ proper w /\
  length (variants c w id) = 2%nat /\
  fuzzy_build_form F (repeat 0 256) (repeat 0 64) (Some (repeat 7 100)) (Some w) (N.of_nat (length w)) 0 id = Ok (1%Z, Some (filled (firstn 1 (variants c w id)) (repeat 7 100))).
Proof.
  exists mixed_src, mixed_tree, (arrays_for mixed_src mixed_tree). eexists. exists [245; 226; 238; 241; 242], 2.
  split; [apply mixed_compiled|]. split; [apply mixed_compiled|]. split; [reflexivity|]. split; [apply properb; vm_compute; reflexivity|]. split; vm_compute; reflexivity.
Qed.
Print Assumptions C33_order_refuted.

(** "Дон": all the forms 12 of "дон", and an array too short for the second *)
Example C33_case : has_class guess_arrays 0 masc /\ by_form (c_inflex masc) /\ proper [196; 238; 237] /\ stopped (repeat 0 64) /\
  (forall f, In f (c_inflex masc) -> fst f = 12 -> (length [196; 238; 237] + length (snd f) <= 63)%nat) /\
  fuzzy_build_form guess_arrays (repeat 0 256) (repeat 0 64) (Some (repeat 7 14)) (Some [196; 238; 237]) 3 0 12 =
    Ok (2%Z, Some [228; 238; 237; 224; 236; 0; 228; 238; 237; 255; 236; 0; 0; 7]) /\
  (exists m, fuzzy_build_form guess_arrays (repeat 0 256) (repeat 0 64) (Some (repeat 7 12)) (Some [196; 238; 237]) 3 0 12 = Ok ((-1)%Z, Some m)).
Proof.
  split; [apply guess_masc|]. split; [apply masc_sorted|]. split; [apply properb; vm_compute; reflexivity|].
  split; [exists (repeat 0 63), 0; repeat split; reflexivity|]. split.
  - intros f Hf _. cbn in Hf. destruct Hf as [<-|[<-|[<-|[<-|[<-|[<-|[]]]]]]]; cbn; lia.
  - split; [vm_compute; reflexivity|]. eexists. vm_compute. reflexivity.
Qed.

(** ** C42.  Lemmatising a word with the guesser.  The acceptable guesses are grouped by stem and class, in the order of the endings; if
    there is room, the answer is their number, the stems sorted by decreasing weight, the normal forms one after another and the
    descriptions in order; otherwise a negative number is returned, the array of stems is not touched and the others keep their size. *)
Theorem C42_lemmatize : forall rank sort junk F t cls below lojunk w psz cch plemma pforms pgrams dwsets l,
  guesser F t cls -> (forall x, Permutation x (sort x) /\ falling (sort x)) ->
  proper w -> given w psz cch -> readable below t (rev (map (locase rus_casing) w)) -> (pforms <> None -> forall n, stopped (junk n)) ->
  acceptable_guesses cls (N.testbit dwsets 1) w (guesses (contents t) (map (locase rus_casing) w)) l ->
  let low := map (locase rus_casing) w in
  let rs := runs l in
  let stems := stems_of cls rank low (is_some pforms) (is_some pgrams) 0 0 rs in
  let enough := room_for cls low pforms pgrams rs /\ match plemma with None => True | Some m => (length rs <= length m)%nat end in
  let r := fuzzy_lemmatize rank sort junk F below lojunk psz cch plemma pforms pgrams dwsets in
  (enough -> exists sorted, Permutation stems sorted /\ falling sorted /\
     r = Ok (Z.of_nat (length rs), option_map (put_front sorted) plemma, option_map (filled (map (normal_of cls low) rs)) pforms,
             option_map (put_front (flat_map (descriptions cls) rs)) pgrams)) /\
  (~ enough -> exists z forms grams, r = Ok (z, plemma, forms, grams) /\ (z < 0)%Z /\
     option_map (@length N) forms = option_map (@length N) pforms /\ option_map (@length gram) grams = option_map (@length gram) pgrams).
Proof.
  intros rank sort junk F t cls below lojunk w psz cch plemma pforms pgrams dwsets l HG Hsort Hw Hg Hr Hj Ha. cbv zeta.
  destruct (fuzzy_lemmatize_exact rank sort junk F t cls below lojunk w psz cch plemma pforms pgrams dwsets l HG (fun x => proj1 (Hsort x)) Hw Hg Hr Hj Ha) as [H1 H2].
  split; [|exact H2]. intros He. eexists. split; [apply (Hsort _)|]. split; [apply (Hsort _)|]. exact (H1 He).
Qed.
Print Assumptions C42_lemmatize.

(** no word and words of 256 characters and more are answered without touching the arrays *)
Theorem C42_degenerate : forall rank sort junk F below lojunk psz cch plemma pforms pgrams dwsets,
  (psz = None \/ given [] psz cch ->
   fuzzy_lemmatize rank sort junk F below lojunk psz cch plemma pforms pgrams dwsets = Ok (0%Z, plemma, pforms, pgrams)) /\
  (forall w, given w psz cch -> (256 <= length w)%nat -> (length (parts rus_casing w) <= 16)%nat ->
   fuzzy_lemmatize rank sort junk F below lojunk psz cch plemma pforms pgrams dwsets = Ok ((-4)%Z, plemma, pforms, pgrams)).
Proof.
  intros rank sort junk F below lojunk psz cch plemma pforms pgrams dwsets. split.
  - intros H. unfold fuzzy_lemmatize. rewrite (fuzzy_canonic_empty psz cch H). reflexivity.
  - intros w. apply lemmatize_long.
Qed.
Print Assumptions C42_degenerate.

(** the compiler accepts inflexions of 15 to 30 characters, for which the table of the weights is too short *)
Theorem C42_long_refuted : exists cs t F w, compiled (fun l => l) cs t F /\ forallb class_accepted cs = true /\ proper w /\
  forall rank sort junk below plemma, fuzzy_lemmatize rank sort junk F below (repeat 0 256) (Some w) (N.of_nat (length w)) plemma None None 0 = Ub.
Proof.
  exists long_src, long_tree, (arrays_for long_src long_tree), ([245; 241; 242] ++ repeat 224 15). split; [apply long_compiled|]. split; [apply long_compiled|].
  split; [apply properb; vm_compute; reflexivity|]. intros. apply long_reads_out.
Qed.
Print Assumptions C42_long_refuted.

(** ... and forms the table of the weights does not know *)
Theorem C42_form_refuted : exists cs t F w, compiled (fun l => l) cs t F /\ forallb class_accepted cs = true /\ proper w /\
  forall rank sort junk below plemma, fuzzy_lemmatize rank sort junk F below (repeat 0 256) (Some w) (N.of_nat (length w)) plemma None None 0 = Ub.
Proof.
  exists wide_src, wide_tree, (arrays_for wide_src wide_tree), [245; 241; 242; 224]. split; [apply wide_compiled|]. split; [apply wide_compiled|].
  split; [apply properb; vm_compute; reflexivity|]. intros. apply wide_reads_out.
Qed.
Print Assumptions C42_form_refuted.

(** "Трона": the common noun and the name of a town, which needs the capital; without it the noun only *)
Example C42_case : guesser guess_arrays guess_tree (numbered (fun l => l) guess_src) /\ (forall x, Permutation x (by_weight x) /\ falling (by_weight x)) /\
  proper [210; 240; 238; 237; 224] /\
  (let none := StemInfo None 0 0 0 0 0 in
   fuzzy_lemmatize some_rank by_weight (fun _ => repeat 0 64) guess_arrays [0] (repeat 0 256) (Some [210; 240; 238; 237; 224]) 5
     (Some [none; none; none]) (Some (repeat 7 12)) (Some [Gram 9 9 9 9; Gram 9 9 9 9; Gram 9 9 9 9]) 0 =
   Ok (2%Z, Some [StemInfo (Some 0%nat) 4 0 0 1 42; StemInfo (Some 5%nat) 4 2 1 1 7; none],
       Some [242; 240; 238; 237; 0; 210; 240; 238; 237; 0; 0; 7], Some [Gram 7 1 0 0; Gram 39 1 0 0; Gram 9 9 9 9]) /\
   fuzzy_lemmatize some_rank by_weight (fun _ => repeat 0 64) guess_arrays [0] (repeat 0 256) (Some [242; 240; 238; 237; 224]) 5
     (Some [none]) None None 0 = Ok (1%Z, Some [StemInfo None 4 0 0 0 42], None, None) /\
   (exists f, fuzzy_lemmatize some_rank by_weight (fun _ => repeat 0 64) guess_arrays [0] (repeat 0 256) (Some [210; 240; 238; 237; 224]) 5
     (Some [none; none; none]) (Some (repeat 7 10)) None 0 = Ok ((-1)%Z, Some [none; none; none], Some f, None))).
Proof.
  split; [apply guess_guesser|]. split; [apply by_weight_sorts|]. split; [apply properb; vm_compute; reflexivity|]. cbv zeta.
  split; [vm_compute; reflexivity|]. split; [vm_compute; reflexivity|]. eexists. vm_compute. reflexivity.
Qed.

(** ** C43.  The arrays compiled from class descriptions guess exactly the classes the word looks like: those with a model and an
    inflexion whose suffix and string the word ends with. *)
Theorem C43_compiled : forall sort cs t F, (forall l, Permutation l (sort l)) -> compiled sort cs t F -> Forall source_ok cs -> N.of_nat (length cs) < 2 ^ 32 ->
  guesser F t (numbered sort cs) /\
  forall w n i p id, In (n, ClassRef i p id) (guesses (contents t) w) <-> exists m f, ends_like cs w n i m f /\ m_weight m = p /\ fst f = id.
Proof.
  intros sort cs t F Hs HC Hcs Hn. split; [apply compiled_guesser; assumption|]. intros w n i p id. exact (compiled_guesses sort cs t F w n i p id HC Hcs).
Qed.
Print Assumptions C43_compiled.

Example C43_case : compiled (fun l => l) guess_src guess_tree guess_arrays /\ Forall source_ok guess_src /\ N.of_nat (length guess_src) < 2 ^ 32 /\
  (exists m f, ends_like guess_src [245; 226; 238; 241; 242; 224] 3 1 m f /\ m_weight m = 30 /\ fst f = 0).
Proof.
  split; [apply guess_compiled|]. split; [apply guess_sources|]. split; [vm_compute; reflexivity|].
  exists (ModelSrc [241; 242] [236; 229; 241; 242; 224] 30), (0, [224]). split; [|split; reflexivity]. exists femn. split; [reflexivity|].
  split; [left; reflexivity|]. split; [left; reflexivity|]. split; [cbn; lia|reflexivity].
Qed.

(** ** C44.  What is guessed gives the word back: building the form reported, of the class reported, from the stem reported, yields a
    list with the word itself (in the capitalisation of the class). *)
Theorem C44_word_back : forall sort cs t F w l r g mem lojunk junk psz cch,
  (forall x, Permutation x (sort x)) -> compiled sort cs t F -> Forall source_ok cs -> N.of_nat (length cs) < 2 ^ 32 ->
  Forall (fun c => by_form (c_inflex c)) cs -> proper w -> (length w <= 49)%nat ->
  (forall x, In x l -> In x (guesses (contents t) (map (locase rus_casing) w))) -> In r (runs l) -> In g r ->
  given (firstn (stem_len r) w) psz cch -> mem <> [] -> stopped junk ->
  exists fs, delivered mem fs True (fuzzy_build_form F lojunk junk (Some mem) psz cch (class_no r) (r_form (snd g))) /\
    In (respell rus_casing (required_case (c_partsp (numbered sort cs (class_no r)))) (map (locase rus_casing) w)) fs.
Proof. exact guess_back. Qed.
Print Assumptions C44_word_back.

Example C44_case : Forall (fun c => by_form (c_inflex c)) guess_src /\
  runs (guesses (contents guess_tree) [242; 240; 238; 237; 224]) = [[(2%nat, ClassRef 0 40 1)]; [(2%nat, ClassRef 2 5 1)]] /\
  fuzzy_build_form guess_arrays (repeat 0 256) (repeat 0 64) (Some (repeat 7 8)) (Some [210; 240; 238; 237]) 4 2 1 = Ok (1%Z, Some [210; 240; 238; 237; 224; 0; 0; 7]).
Proof.
  split; [|split; vm_compute; reflexivity]. repeat constructor; cbn; lia.
Qed.

(** ** C45.  The samples and the part of speech of a class: as many samples as fit are written, each terminated, the rest of the array
    is not touched; if not even the first fits, -1 is returned. *)
Theorem C45_models : forall F i c mem, has_class F i c -> mem <> [] ->
  let samples := map m_sample (c_models c) in
  let fs := fitting (length mem) samples in
  fuzzy_models F (Some mem) i =
    Ok (match samples, fs with _ :: _, [] => (-1)%Z | _, _ => Z.of_nat (length fs) end, Some (joined fs ++ skipn (total fs) mem)) /\
  fuzzy_wd_info F true i = Ok (1%Z, Some (c_partsp c)).
Proof. intros F i c mem Hc Hm. split; [exact (fuzzy_models_exact F i c mem Hc Hm)|exact (fuzzy_wd_info_exact F i c Hc)]. Qed.
Print Assumptions C45_models.

Theorem C45_unknown : forall F i mem given, N.of_nat (length (class_offset F)) <= i ->
  fuzzy_models F mem i = Ok ((-5)%Z, mem) /\ fuzzy_wd_info F given i = Ok ((-5)%Z, None).
Proof.
  intros F i mem gv H. unfold fuzzy_models, fuzzy_wd_info. rewrite (no_class F i H). split; [destruct mem as [[|? ?]|]; reflexivity|destruct gv; reflexivity].
Qed.
Print Assumptions C45_unknown.

Example C45_case : has_class guess_arrays 0 masc /\
  fuzzy_models guess_arrays (Some (repeat 7 8)) 0 = Ok (1%Z, Some [236; 238; 241; 242; 0; 7; 7; 7]) /\
  fuzzy_models guess_arrays (Some (repeat 7 9)) 0 = Ok (2%Z, Some [236; 238; 241; 242; 0; 242; 238; 237; 0]) /\
  fuzzy_models guess_arrays (Some (repeat 7 4)) 0 = Ok ((-1)%Z, Some [7; 7; 7; 7]).
Proof. split; [apply guess_masc|]. repeat split; vm_compute; reflexivity. Qed.
