(** * PropCxxLemmas: lemmas for Prop_Cxx. *)
From Coq Require Import Permutation.
From Verif Require Import Base Serial WordTree TreeSpec FlatScan Stems StemSpec CharTables CapScheme CapSpec GramMap RusRuntime LevelSpec RusSpec RusProofs3 PropRusLemmas
  RusBuild RusBuildSpec RusReadings RusLemmaSpec RusDemo RusDemo2 PropLemmasLemmas EngRuntime EngSpec EngProofs2 EngFormsSpec EngLemmaSpec EngDemo PropEngLemmas2 Fuzzy FuzzySpec FuzzyProofs2 FuzzyProofs5 PropFuzzyLemmas
  CxxApi CxxSpec CxxProofs CxxProofs2 CxxProofs3 CxxProofs4 CxxProofs5.
Local Open Scope N_scope.

(** seven nouns of the same forty letters *)
Definition elong_items : list (bytes * entry) := map (fun n => (repeat 97 40, Entry 0 115 n 0 [])) [1; 2; 3; 4; 5; 6; 7].
Definition elong_lexicon := elexicon_of (words_of elong_items).
Definition elong_arrays := earrays_of (words_of elong_items).
Lemma elong_ok : eitemsb elong_items = true.
Proof. vm_compute. reflexivity. Qed.
Lemma elong_holds : eholds elong_arrays elong_lexicon.
Proof. exact (esmall_holds elong_items elong_ok). Qed.
Lemma elong_buildable : ebuildable elong_lexicon.
Proof. apply (esmall_buildable elong_items elong_ok); [repeat constructor; cbn; lia|apply eplainb_ok; vm_compute; reflexivity]. Qed.

(** ** The part of speech *)
Lemma cxx_wd_info_found A L key e st c junk :
  holds A L -> indexed A L -> has_record (words L) key e -> class_of L (oclass e) = Some (st, c) ->
  (forall key' e' st' c', has_record (words L) key' e' -> nlexid e' = nlexid e -> class_of L (oclass e') = Some (st', c') ->
     N.land (c_word c') 63 = N.land (c_word c) 63) ->
  (length (lexkeylen (nlexid e) ++ junk) = 16)%nat -> cxx_wd_info A junk (nlexid e) = Ok (N.land (c_word c) 63).
Proof. intros H1 H2 H3 H4 H5 H6. unfold cxx_wd_info. rewrite (wd_info_found A L key e st c junk) by assumption. reflexivity. Qed.
Lemma cxx_wd_info_none A L id junk : holds A L -> indexed A L -> id < 2 ^ 32 -> (forall key e, has_record (words L) key e -> nlexid e <> id) ->
  (length (lexkeylen id ++ junk) = 16)%nat -> cxx_wd_info A junk id = Ok 0.
Proof. intros H1 H2 H3 H4 H5. unfold cxx_wd_info. rewrite (wd_info_none A L id junk) by assumption. reflexivity. Qed.
Lemma cxx_ewd_info_found A L key e st c junk :
  eholds A L -> eindexed A L -> has_record (ewords L) key e -> eclass_of L (oclass e) = Some (st, c) ->
  (forall key' e' st' c', has_record (ewords L) key' e' -> nlexid e' = nlexid e -> eclass_of L (oclass e') = Some (st', c') ->
     k_word c' mod 64 = k_word c mod 64) ->
  (length (lexkeylen (nlexid e) ++ junk) = 16)%nat -> cxx_ewd_info A junk (nlexid e) = Ok (k_word c mod 64).
Proof. intros H1 H2 H3 H4 H5 H6. unfold cxx_ewd_info. rewrite (ewd_info_found A L key e st c junk) by assumption. reflexivity. Qed.
Lemma cxx_ewd_info_none A L id junk : eholds A L -> eindexed A L -> id < 2 ^ 32 -> (forall key e, has_record (ewords L) key e -> nlexid e <> id) ->
  (length (lexkeylen id ++ junk) = 16)%nat -> cxx_ewd_info A junk id = Ok 0.
Proof. intros H1 H2 H3 H4 H5. unfold cxx_ewd_info. rewrite (ewd_info_none A L id junk) by assumption. reflexivity. Qed.
Lemma cxx_fuzzy_wd_info_eq F i : (forall c, has_class F i c -> cxx_fuzzy_wd_info F i = Ok (c_partsp c)) /\
  (N.of_nat (length (class_offset F)) <= i -> cxx_fuzzy_wd_info F i = Ok 0).
Proof.
  unfold cxx_fuzzy_wd_info. split.
  - intros c Hc. rewrite (fuzzy_wd_info_exact F i c Hc). reflexivity.
  - intros H. unfold fuzzy_wd_info. rewrite (no_class F i H). reflexivity.
Qed.

(** ** Degenerate words *)
Lemma cxx_lemmatize_degenerate A junk grow lxbuff stbuff grbuff psz cch dwsets :
  (psz = None \/ given [] psz cch -> cxx_lemmatize A junk grow lxbuff stbuff grbuff psz cch dwsets = Ok (Returned [])) /\
  (forall w, given w psz cch -> (48 <= length w)%nat -> (length (parts rus_casing w) <= 16)%nat ->
     cxx_lemmatize A junk grow lxbuff stbuff grbuff psz cch dwsets = Ok (Thrown InvalidString)).
Proof.
  destruct (lemmatize_degenerate A psz cch (Some lxbuff) (Some stbuff) (Some grbuff) dwsets junk) as [H1 H2]. unfold cxx_lemmatize, bytes in *. split.
  - intros H. rewrite (H1 H). reflexivity.
  - intros w Hg Hl Hp. rewrite (H2 w Hg Hl Hp). reflexivity.
Qed.
Lemma cxx_elemmatize_degenerate A junk grow lxbuff stbuff grbuff psz cch dwsets :
  (psz = None \/ given [] psz cch -> cxx_elemmatize A junk grow lxbuff stbuff grbuff psz cch dwsets = Ok (Returned [])) /\
  (forall w, given w psz cch -> (48 <= length w)%nat -> (length (parts eng_casing w) <= 16)%nat ->
     cxx_elemmatize A junk grow lxbuff stbuff grbuff psz cch dwsets = Ok (Thrown InvalidString)).
Proof.
  destruct (elemmatize_degenerate A psz cch (Some lxbuff) (Some stbuff) (Some grbuff) dwsets junk) as [H1 H2]. unfold cxx_elemmatize, bytes in *. split.
  - intros H. rewrite (H1 H). reflexivity.
  - intros w Hg Hl Hp. rewrite (H2 w Hg Hl Hp). reflexivity.
Qed.
Lemma cxx_fuzzy_degenerate rank sort junk F below lojunk grow astems aforms agrams psz cch dwsets :
  (psz = None \/ given [] psz cch -> cxx_fuzzy_lemmatize rank sort junk F below lojunk grow astems aforms agrams psz cch dwsets = Ok (Returned [])) /\
  (forall w, given w psz cch -> (256 <= length w)%nat -> (length (parts rus_casing w) <= 16)%nat ->
     cxx_fuzzy_lemmatize rank sort junk F below lojunk grow astems aforms agrams psz cch dwsets = Ok (Thrown InvalidString)).
Proof.
  split.
  - intros H. unfold cxx_fuzzy_lemmatize, fuzzy_lemmatize. rewrite (fuzzy_canonic_empty psz cch H). reflexivity.
  - intros w Hg Hl Hp. pose proof (lemmatize_long rank sort junk F below lojunk psz cch (Some astems) (Some aforms) (Some agrams) dwsets w Hg Hl Hp) as E.
    unfold cxx_fuzzy_lemmatize, bytes in *. rewrite E. reflexivity.
Qed.
