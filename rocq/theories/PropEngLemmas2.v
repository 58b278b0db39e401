(** * PropEngLemmas2: lemmas for C50.  PROOFS. *)
From Verif Require Import Base Serial SerialProofs WordTree TreeSpec WordTreeProofs FlatScan FlatScanProofs LidsProofs TrackProofs
  TreeWalk Stems StemSpec StemsProofs DictProofs CharTables CapScheme CapSpec CapProofs CapProofs2 CapProofs3 PropCaseLemmas PropTreesLemmas
  GramMap RusRuntime RusBuild RusSpec RusProofs RusProofs2 RusProofs3 RusBuildSpec RusBuildProofs RusBuildProofs2 RusBuildProofs3 RusReadings
  RusReadingsProofs RusLemmaSpec RusLemmaProofs RusLemmaProofs2 RusLemmaProofs3 RusLemmaProofs4 RusLemmaProofs5 RusLemmaProofs6
  EngRuntime EngSpec EngProofs EngProofs2 EngFormsSpec EngBuildProofs EngReadingsProofs EngLemmaSpec EngLemmaProofs EngLemmaProofs2 EngLemmaProofs3
  EngLemmaProofs4 EngLemmaProofs5 EngLemmaProofs6 RusDemo RusDemo2 EngDemo.
Local Open Scope N_scope.

(** ** The exact eanswer *)
Lemma elemmatize_answer A L : eholds A L -> ebuildable L -> forall w dwsets,
  is_bytes w -> w <> [] -> (length w < 48)%nat -> (length (eparts w) <= 8)%nat ->
  exists hs, efound L (bit 1 dwsets) w hs /\
    (forall psz cch junk, given w psz cch -> echeck_word A junk psz cch dwsets = Ok (match hs with [] => 0%Z | _ => 1%Z end)) /\
    forall psz cch plemma pforms pgrams junk, given w psz cch ->
      esafe_call (elexemes_of plemma hs) plemma pforms pgrams ->
      eanswer hs plemma pforms pgrams (elemmatize A junk psz cch plemma pforms pgrams dwsets).
Proof.
  intros HL HB w dwsets Hb Hw Hlen Hp. destruct (escheme_exists w Hb Hw Hlen Hp) as (scheme & Hs).
  exists (eng_hits L scheme dwsets (elow w)). split; [apply ehits_found with A; assumption|]. split.
  - intros psz cch junk Hg. destruct (echeck_word_eq A L HL w psz cch dwsets junk Hg Hb Hw Hlen Hp) as (scheme' & Hs' & ->).
    rewrite eanalyses_hits, (ehits_scheme L scheme' scheme) by (intros m; rewrite Hs, Hs'; reflexivity).
    destruct (eng_hits L scheme dwsets (elow w)); reflexivity.
  - intros psz cch plemma pforms pgrams junk Hg Hsafe.
    destruct (elemmatize_eq A L HL w psz cch plemma pforms pgrams dwsets junk Hg Hb Hw Hlen Hp) as (scheme' & tail & Hs' & ->).
    rewrite (ehits_scheme L scheme' scheme) by (intros m; rewrite Hs, Hs'; reflexivity).
    apply (erun_answer A L HL HB); [|exact Hsafe]. apply Forall_forall. intros r Hr. eapply ehits_ok; eassumption.
Qed.

(** ** C20 *)
Lemma elemmatize_counts A L : eholds A L -> ebuildable L -> forall w dwsets,
  is_bytes w -> w <> [] -> (length w < 48)%nat -> (length (eparts w) <= 8)%nat ->
  exists hs, efound L (bit 1 dwsets) w hs /\ forall psz cch junk, given w psz cch ->
    elemmatize A junk psz cch None None None dwsets = Ok (Z.of_nat (length hs), (None, None, None)) /\
    echeck_word A junk psz cch dwsets = Ok (match hs with [] => 0%Z | _ => 1%Z end).
Proof.
  intros HL HB w dwsets Hb Hw Hlen Hp. destruct (elemmatize_answer A L HL HB w dwsets Hb Hw Hlen Hp) as (hs & Hf & Hc & Ha).
  exists hs. split; [exact Hf|]. intros psz cch junk Hg. split; [|apply Hc, Hg].
  destruct (Ha psz cch None None None junk Hg) as (ls & z & a & b & c & Hl & _ & -> & S1 & S2 & S3 & Hok & _).
  - split; [intros H; contradiction|intros ? ? H; discriminate].
  - destruct a; [discriminate|]. destruct b; [discriminate|]. destruct c; [discriminate|].
    destruct Hok as [-> _].
    + split; [|split]; intros ? H; try discriminate; contradiction.
    + cbn [elexemes_of]. rewrite map_length. reflexivity.
Qed.

Lemma elemmatize_agree A L : eholds A L -> ebuildable L -> forall w psz cch dwsets junk junk',
  is_bytes w -> w <> [] -> (length w < 48)%nat -> (length (eparts w) <= 8)%nat -> given w psz cch ->
  exists n, elemmatize A junk psz cch None None None dwsets = Ok (n, (None, None, None)) /\
    ((0 < n)%Z <-> echeck_word A junk' psz cch dwsets = Ok 1%Z) /\ (n = 0%Z <-> echeck_word A junk' psz cch dwsets = Ok 0%Z).
Proof.
  intros HL HB w psz cch dwsets junk junk' Hb Hw Hlen Hp Hg. destruct (elemmatize_counts A L HL HB w dwsets Hb Hw Hlen Hp) as (hs & _ & H).
  exists (Z.of_nat (length hs)). destruct (H psz cch junk Hg) as [-> _], (H psz cch junk' Hg) as [_ ->]. split; [reflexivity|].
  destruct hs as [|h hs]; cbn [length]; split; split; intros; try lia; try discriminate; try reflexivity; exfalso; congruence.
Qed.

Lemma elemmatize_degenerate A psz cch plemma pforms pgrams dwsets junk :
  (psz = None \/ given [] psz cch -> elemmatize A junk psz cch plemma pforms pgrams dwsets = Ok (0%Z, (plemma, pforms, pgrams))) /\
  (forall w, given w psz cch -> (48 <= length w)%nat -> (length (eparts w) <= 16)%nat ->
     elemmatize A junk psz cch plemma pforms pgrams dwsets = Ok ((-4)%Z, (plemma, pforms, pgrams))).
Proof.
  split.
  - intros H. unfold elemmatize, eprologue. rewrite (eto_canonic_empty psz cch H). cbn [bind N.eqb Pos.eqb]. reflexivity.
  - intros w Hg Hl Hp. unfold elemmatize. rewrite (eprologue_long w psz cch) by assumption. reflexivity.
Qed.

(** ** C17 *)
Lemma elemmatize_case_blind A L w w' psz cch psz' cch' dwsets junk junk' plemma pforms pgrams :
  eholds A L -> given w psz cch -> given w' psz' cch' -> is_bytes w -> is_bytes w' ->
  map (locase eng_casing) w = map (locase eng_casing) w' -> bit 1 dwsets = true -> (length (eparts w) <= 8)%nat ->
  elemmatize A junk psz cch plemma pforms pgrams dwsets = elemmatize A junk' psz' cch' plemma pforms pgrams dwsets.
Proof.
  intros HL Hg Hg' Hb Hb' El Hbit Hp.
  assert (Hl : length w' = length w) by (rewrite <- (map_length (locase eng_casing) w), El, map_length; reflexivity).
  destruct w as [|c w].
  - destruct w'; [|discriminate]. rewrite (proj1 (elemmatize_degenerate A psz cch plemma pforms pgrams dwsets junk) (or_intror Hg)),
      (proj1 (elemmatize_degenerate A psz' cch' plemma pforms pgrams dwsets junk') (or_intror Hg')). reflexivity.
  - destruct (le_lt_dec 48 (length (c :: w))) as [H48|H48].
    + unfold elemmatize. rewrite (eprologue_long (c :: w) psz cch) by (try assumption; lia).
      rewrite (eprologue_long w' psz' cch'); [reflexivity|exact Hg'|lia|].
      rewrite <- elower_parts by assumption. rewrite <- El, elower_parts by assumption. lia.
    + eapply elemmatize_same; try eassumption; [discriminate|left; exact Hbit].
Qed.



(** ** Refutations: two records of one lexeme (cat, Cat), and a word with a distant form only *)
Definition etwo_items : list (bytes * entry) :=
  [ ([99; 97; 116], Entry 0 115 9 0 []); ([99; 97; 116], Entry 0 115 9 4 []); ([109; 117], Entry 115 115 5 16 []) ].
Definition etwo_words := words_of etwo_items.
Definition etwo_lexicon := elexicon_of etwo_words.
Definition etwo_arrays := earrays_of etwo_words.
Lemma etwo_ok : eitemsb etwo_items = true.
Proof. vm_compute. reflexivity. Qed.
Lemma etwo_holds : eholds etwo_arrays etwo_lexicon.
Proof. exact (esmall_holds etwo_items etwo_ok). Qed.
Lemma etwo_bounds : ebounds_ok etwo_lexicon.
Proof. exact (esmall_bounds etwo_items etwo_ok). Qed.
Lemma etwo_buildable : ebuildable etwo_lexicon.
Proof. apply (esmall_buildable etwo_items etwo_ok); [repeat constructor; cbn; lia|apply eplainb_ok; vm_compute; reflexivity]. Qed.

Lemma efull_array : exists A L w, eholds A L /\ ebuildable L /\ ebounds_ok L /\ is_bytes w /\ (length w < 48)%nat /\
  elemmatize A (repeat 7 48) (Some w) (N.of_nat (length w)) (Some [Lemm 0 None 0 0]) (Some (repeat 1 20)) (Some (repeat (Gram 0 0 0 0) 20)) 0 = Ub /\
  exists r, elemmatize A (repeat 7 48) (Some w) (N.of_nat (length w)) (Some [Lemm 0 None 0 0]) (Some (repeat 1 20)) None 0 = Ok (1%Z, r).
Proof.
  exists etwo_arrays, etwo_lexicon, [67; 97; 116; 115]. split; [apply etwo_holds|]. split; [apply etwo_buildable|]. split; [apply etwo_bounds|].
  split; [repeat constructor|]. split; [cbn; lia|]. split; [vm_compute; reflexivity|]. eexists. vm_compute. reflexivity.
Qed.

Lemma eno_normal_form : exists A L w, eholds A L /\ ebuildable L /\ ebounds_ok L /\ is_bytes w /\ (length w < 48)%nat /\
  echeck_word A (repeat 7 48) (Some w) (N.of_nat (length w)) 0 = Ok 1%Z /\
  elemmatize A (repeat 7 48) (Some w) (N.of_nat (length w)) None None None 0 = Ok (1%Z, (None, None, None)) /\
  elemmatize A (repeat 7 48) (Some w) (N.of_nat (length w)) None (Some (repeat 1 20)) None 0 = Ok (0%Z, (None, Some (repeat 1 20), None)).
Proof.
  exists etwo_arrays, etwo_lexicon, [109; 117; 115]. split; [apply etwo_holds|]. split; [apply etwo_buildable|]. split; [apply etwo_bounds|].
  split; [repeat constructor|]. split; [cbn; lia|]. repeat split; vm_compute; reflexivity.
Qed.
