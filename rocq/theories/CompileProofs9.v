(** * CompileProofs9: searches in compiled Russian dictionaries, and the answers in terms of the sources alone.  PROOFS. *)
From Verif Require Import Base Serial SerialProofs WordTree TreeSpec WordTreeProofs FlatScan LidsProofs TreeWalk Stems StemSpec StemsProofs DictProofs CharTables CapScheme CapSpec GramMap RusRuntime LevelSpec LevelProofs
  RusSpec RusProofs RusProofs2 RusProofs3 PropRusLemmas RusBuild RusBuildSpec RusBuildProofs4 RusReadings RusReadingsProofs RusLemmaSpec RusLemmaProofs5 Wild WildSpec WildProofs4
  Compile CompileSpec CompileProofs CompileProofs2 CompileProofs3 CompileProofs4 CompileProofs5 CompileFormsSpec CompileProofs6 CompileProofs7 CompileProofs8
  PropBuildLemmas PropBuildLemmas2 PropLemmasLemmas PropWildLemmas.
Local Open Scope N_scope.

Lemma holds_word A L : holds A L -> forall key e st c, has_record (words L) key e -> class_of L (oclass e) = Some (st, c) -> c_word c < 2 ^ 16.
Proof.
  intros HL key e st c Hr Hc. destruct (holds_classes A L HL key e Hr) as (st' & c' & Hc' & Hat & Hrep). rewrite Hc in Hc'. injection Hc' as <- <-.
  destruct Hrep as (<- & _). apply Hat.
Qed.

Section Search.
  Variables ftable mtable : bytes.
  Variable xs : list Compile.lexeme.
  Variable A : arrays.
  Variable L : lexicon.
  Hypothesis HL : holds A L.
  Hypothesis HC : compiled_from ftable mtable xs L.
  Hypothesis Hstems : stemtree A = stemtree_bytes (words L).

  Lemma means_form_id m c g f : class_means ftable mtable m c -> form_id c g f = source_form_id m g f.
  Proof using Type.
    clear. intros Hm. pose proof (cm_table _ _ _ _ Hm) as Ht. unfold form_id, source_form_id. destruct (c_flex c); destruct Ht as [-> _]; [|reflexivity].
    unfold MapWordInfo. rewrite (means_verb _ _ _ _ Hm), (means_adj _ _ _ _ Hm). reflexivity.
  Qed.
  Lemma searchable_within : Forall (lexeme_searchable ftable mtable) xs -> strings_within 47 L.
  Proof using HL HC.
    intros Hs. split.
    - apply (cf_deep _ _ _ _ HC). eapply Forall_impl; [|exact Hs]. intros x H. apply (ls_stem _ _ _ H).
    - rewrite Forall_forall in Hs. intros key e st c ft Hr Hc Ef. destruct (class_source _ _ _ _ _ HL HC _ _ _ _ Hr Hc) as (x & Hx & -> & _ & Ep & _ & _ & Hm & _).
      pose proof (cm_table _ _ _ _ Hm) as Ht. rewrite Ef in Ht. destruct Ht as (Hi & _ & Hd). destruct (ls_room _ _ _ (Hs x Hx) Hi) as (h & a & H1 & H2 & H3).
      exists h, a. split; [apply Hd, H1|]. split; [|rewrite Ep; exact H3]. intros mx Em. pose proof (cm_mix _ _ _ _ Hm) as Hmx. rewrite Em in Hmx. destruct Hmx as [Hz Hmx]. apply (H2 mx Hz Hmx).
  Qed.
  Lemma searchable_plain : Forall (lexeme_searchable ftable mtable) xs -> fixed_plain L.
  Proof using HL HC.
    intros Hs key e st c Hr Hc Ef. rewrite Forall_forall in Hs. destruct (class_source _ _ _ _ _ HL HC _ _ _ _ Hr Hc) as (x & Hx & -> & _ & Ep & _ & _ & Hm & _).
    pose proof (cm_table _ _ _ _ Hm) as Ht. rewrite Ef in Ht. destruct Ht as [Hi _]. rewrite Ep. apply (ls_fixed _ _ _ (Hs x Hx) Hi).
  Qed.
  Lemma compiled_rus_search tl w psz cch : Forall (lexeme_searchable ftable mtable) xs -> tl <> [] \/ (exists x, In x xs /\ l_stem x = []) ->
    given w psz cch -> is_bytes w -> w <> [] -> (length w < 48)%nat -> (length (parts rus_casing w) <= 16)%nat ->
    exists evs : list (N * bytes * N),
      (forall U (add : U -> N -> list (bytes * N) -> U * Z) junk buf u, length junk = 48%nat -> length buf = 48%nat ->
         (Forall call_fits (runs evs) -> find_match add (followed_by A tl) junk buf psz cch u = Ok (deliver add (runs evs) u)) /\
         (~ Forall call_fits (runs evs) -> find_match add (followed_by A tl) junk buf psz cch u = Ub)) /\
      (forall lid str id, In (lid, str, id) evs -> exists x part g f, In x xs /\ l_id x = lid /\ form_of ftable mtable x str part g f /\
         id = source_form_id (l_class x) g f /\ glob (map (locase rus_casing) w) str) /\
      (Forall (bounds_cover ftable mtable) xs -> forall x str part g f, In x xs -> form_of ftable mtable x str part g f -> glob (map (locase rus_casing) w) str -> ~ In 42 str ->
         part <> [] \/ match l_post x with [] => True | b :: _ => l_min x <= b <= l_max x end -> In (l_id x, str, source_form_id (l_class x) g f) evs).
  Proof using HL HC Hstems.
    intros Hs Htl Hg Hb Hw Hlen Hp. assert (HT : holds (followed_by A tl) L) by (apply tailed_holds, HL).
    destruct (find_match_eq (followed_by A tl) L w psz cch tl HT (searchable_plain Hs) (searchable_within Hs)) as (evs & K1 & K2 & K3); try assumption.
    - cbn [followed_by stemtree]. rewrite Hstems. reflexivity.
    - destruct Htl as [H|(x & Hx & Ex)]; [left; exact H|right]. destruct (source_class _ _ _ _ _ HL HC x Hx) as (e & st & c & (l & El & _) & _). rewrite Ex in El. rewrite El. discriminate.
    - intros key e Hr. destruct (cf_only _ _ _ _ HC key e Hr) as (x & st & c & Hx & _ & -> & _). cbn [nlexid]. rewrite Forall_forall in Hs. apply (ls_id _ _ _ (Hs x Hx)).
    - exists evs. split; [exact K1|]. split.
      + intros lid str id Hin. destruct (K2 lid str id Hin) as (key & e & part & [Hr (st & c & g & f & Hc & Hf & -> & ->)] & <- & G).
        destruct (class_source _ _ _ _ _ HL HC _ _ _ _ Hr Hc) as (x & Hx & -> & Ei & Ep & _ & _ & Hm & _). exists x, part, g, f. split; [exact Hx|]. split; [auto|].
        split; [split; [apply (cm_forms _ _ _ _ Hm), Hf|rewrite Ep; reflexivity]|]. split; [apply means_form_id, Hm|exact G].
      + intros Hbc x str part g f Hx [Hch ->] G H42 Hpart. destruct (source_class _ _ _ _ _ HL HC x Hx) as (e & st & c & Hr & Hc & Ei & Ep & Emin & Emax & Hm & _).
        rewrite <- Ei, <- (means_form_id _ _ g f Hm). apply (K3 (from_bounds _ _ _ _ HC Hbc) (l_stem x) e part); try assumption.
        * split; [exact Hr|]. exists st, c, g, f. split; [exact Hc|]. split; [apply (cm_forms _ _ _ _ Hm), Hch|]. rewrite Ep. auto.
        * rewrite Ep, Emin, Emax. exact Hpart.
  Qed.

  (** *** the strings of FindForms *)
  Lemma compiled_rus_forms w psz cch id dwsets junk mem : Forall (lexeme_buildable ftable mtable) xs ->
    given w psz cch -> is_bytes w -> w <> [] -> (length w < 48)%nat -> (length (parts rus_casing w) <= 8)%nat -> mem <> [] ->
    exists groups : list (list bytes),
      delivered mem (concat groups) (Forall small groups) (find_forms A junk (Some mem) psz cch id dwsets) /\
      (forall group, In group groups -> exists x, word_forms ftable mtable xs (bit 1 dwsets) w id x group) /\
      (Forall (bounds_cover ftable mtable) xs -> no_bare_word ftable mtable xs w ->
         forall x part g f, source_word ftable mtable xs (bit 1 dwsets) w x part g f -> exists group, In group groups /\ word_forms ftable mtable xs (bit 1 dwsets) w id x group).
  Proof using HL HC.
    intros Hb Hg Hw Hne Hlen Hp Hm. destruct (find_found A L HL (compiled_rus_buildable _ _ _ _ _ HL HC Hb) w dwsets Hw Hne Hlen Hp) as (hs & Hf & Hd).
    destruct (found_tells _ _ _ _ _ HL HC (holds_word A L HL) _ _ _ Hf) as [T1 T2].
    assert (T : forall r x, tells ftable mtable xs (bit 1 dwsets) w r x -> word_forms ftable mtable xs (bit 1 dwsets) w id x (reading_forms id r)).
    { intros r x Ht. split; [|apply (te_forms _ _ _ _ _ _ _ Ht)]. destruct (te_words _ _ _ _ _ _ _ Ht) as [Hn H]. destruct (rd_descs r) as [|[g f] ds]; [contradiction|].
      exists (rd_part r), g, f. apply H. left. reflexivity. }
    exists (map (reading_forms id) hs). split; [|split].
    - specialize (Hd psz cch mem id junk Hg Hm). rewrite flat_map_concat_map in Hd. destruct Hd as [D1 D2]. unfold delivered. rewrite Forall_map. split; assumption.
    - intros group Hin. apply in_map_iff in Hin as (r & <- & Hin). destruct (T1 r Hin) as (x & _ & Ht). exists x. apply T, Ht.
    - intros Hbc Hbare x part g f Hsw. destruct (T2 Hbc Hbare x part g f Hsw) as (r & Hin & Ht & _). exists (reading_forms id r). split; [apply in_map, Hin|apply T, Ht].
  Qed.

  (** *** Lemmatize *)
  Lemma compiled_rus_lemmatize w dwsets : Forall (lexeme_buildable ftable mtable) xs ->
    is_bytes w -> w <> [] -> (length w < 48)%nat -> (length (parts rus_casing w) <= 8)%nat ->
    exists hs,
      (forall r, In r hs -> exists x, In x xs /\ tells ftable mtable xs (bit 1 dwsets) w r x) /\
      (Forall (bounds_cover ftable mtable) xs -> no_bare_word ftable mtable xs w ->
         forall x part g f, source_word ftable mtable xs (bit 1 dwsets) w x part g f ->
           exists r, In r hs /\ tells ftable mtable xs (bit 1 dwsets) w r x /\ rd_part r = part /\ In (g, f) (rd_descs r)) /\
      forall psz cch plemma pforms pgrams junk, given w psz cch ->
        safe_call dwsets (lexemes_of plemma hs) plemma pforms pgrams ->
        answer dwsets hs plemma pforms pgrams (lemmatize A junk psz cch plemma pforms pgrams dwsets).
  Proof using HL HC.
    intros Hb Hw Hne Hlen Hp. destruct (lemmatize_answer A L HL (compiled_rus_buildable _ _ _ _ _ HL HC Hb) w dwsets Hw Hne Hlen Hp) as (hs & Hf & _ & Ha).
    destruct (found_tells _ _ _ _ _ HL HC (holds_word A L HL) _ _ _ Hf) as [T1 T2]. exists hs. split; [exact T1|]. split; [exact T2|exact Ha].
  Qed.
End Search.
