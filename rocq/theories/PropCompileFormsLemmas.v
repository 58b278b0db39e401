(** * PropCompileFormsLemmas: proofs for Prop_CompileForms.v. *)
From Verif Require Import Base Serial SerialProofs WordTree TreeSpec WordTreeProofs FlatScan LidsProofs TreeWalk Stems StemSpec StemsProofs DictProofs CharTables CapScheme CapSpec GramMap RusRuntime LevelSpec LevelProofs
  RusSpec RusProofs RusProofs2 RusProofs3 PropRusLemmas RusBuild RusBuildSpec RusBuildProofs4 RusReadings RusReadingsProofs RusLemmaSpec RusLemmaProofs5 Wild WildSpec WildProofs4
  Compile CompileSpec CompileProofs CompileProofs2 CompileProofs3 CompileProofs4 CompileProofs5 ResolveSpec ResolveProofs CompileDemo CompileFormsSpec CompileProofs6 CompileProofs7 CompileProofs8 CompileProofs9
  PropBuildLemmas PropBuildLemmas2 PropLemmasLemmas PropWildLemmas.
Local Open Scope N_scope.

Section Compiled.
  Variables (depth : nat) (ftable mtable : bytes) (xs : list Compile.lexeme) (A : arrays).
  Hypothesis Hcomp : compile depth ftable mtable xs = Ok (Some A).
  Hypothesis Hsrc : sources_ok ftable mtable xs.
  Hypothesis Hfit : arrays_fit A.

  Ltac lex := destruct (compile_holds_from depth ftable mtable xs Hsrc A Hcomp Hfit) as (L & HL & HC & El & Es).

  Lemma rus_build x id junk mem : N.of_nat (length (lidstree A)) < 2 ^ 32 -> Forall (lexeme_buildable ftable mtable) xs ->
    In x xs -> (forall y, In y xs -> l_id y = l_id x -> y = x) -> mem <> [] -> (length (lexkeylen (l_id x) ++ junk) = 16)%nat ->
    exists ps, NoDup ps /\ (forall p, In p ps <-> has_number (l_class x) id /\ asked_part ftable mtable (l_class x) (GetGramInfo (m_wdinfo (l_class x)) id) p) /\
      let fs := map (spelled x) ps in delivered mem fs (small fs) (build_form A junk (Some mem) (l_id x) id).
  Proof using Hcomp Hsrc Hfit.
    intros Hl Hb Hx Hu Hm Hj. lex. eapply compiled_rus_build; try eassumption. apply Hfit.
  Qed.
  Lemma rus_class x junk : N.of_nat (length (lidstree A)) < 2 ^ 32 -> Forall (lexeme_buildable ftable mtable) xs ->
    In x xs -> (forall y, In y xs -> l_id y = l_id x -> m_wdinfo (l_class y) mod 64 = m_wdinfo (l_class x) mod 64) -> (length (lexkeylen (l_id x) ++ junk) = 16)%nat ->
    get_wd_info A junk (l_id x) = Ok (1%Z, Some (m_wdinfo (l_class x) mod 64)).
  Proof using Hcomp Hsrc Hfit. intros Hl Hb Hx Hu Hj. lex. eapply compiled_rus_wd_info; try eassumption. apply Hfit. Qed.
  Lemma rus_absent id idform junk mem : N.of_nat (length (lidstree A)) < 2 ^ 32 -> Forall (lexeme_buildable ftable mtable) xs ->
    id < 2 ^ 32 -> (forall y, In y xs -> l_id y <> id) -> mem <> [] -> (length (lexkeylen id ++ junk) = 16)%nat ->
    get_wd_info A junk id = Ok (0%Z, None) /\ build_form A junk (Some mem) id idform = Ok (0%Z, Some mem).
  Proof using Hcomp Hsrc Hfit. intros. lex. eapply compiled_rus_absent; try eassumption. apply Hfit. Qed.
  Lemma rus_recognised x id n mem mem' junk : N.of_nat (length (lidstree A)) < 2 ^ 32 -> Forall (lexeme_buildable ftable mtable) xs -> Forall (lexeme_recognisable ftable mtable) xs ->
    In x xs -> (forall y, In y xs -> l_id y = l_id x -> y = x) -> mem <> [] -> (length (lexkeylen (l_id x) ++ junk) = 16)%nat ->
    build_form A junk (Some mem) (l_id x) id = Ok (n, Some mem') -> (0 < n)%Z ->
    exists fs, n = Z.of_nat (length fs) /\ mem' = filled fs mem /\
      forall form, In form fs -> form <> [] -> (length form < 48)%nat -> forall psz cch dwsets junk', given form psz cch ->
        bit 1 dwsets = true /\ (length (parts rus_casing form) <= 8)%nat \/ casable (required_case (m_wdinfo (l_class x))) (map (locase rus_casing) form) ->
        check_word A junk' psz cch dwsets = Ok 1%Z.
  Proof using Hcomp Hsrc Hfit. intros. lex. eapply compiled_rus_recognised; try eassumption. apply Hfit. Qed.

  Lemma rus_forms w psz cch id dwsets junk mem : Forall (lexeme_buildable ftable mtable) xs ->
    given w psz cch -> is_bytes w -> w <> [] -> (length w < 48)%nat -> (length (parts rus_casing w) <= 8)%nat -> mem <> [] ->
    exists groups : list (list bytes),
      delivered mem (concat groups) (Forall small groups) (find_forms A junk (Some mem) psz cch id dwsets) /\
      (forall group, In group groups -> exists x, word_forms ftable mtable xs (bit 1 dwsets) w id x group) /\
      (Forall (bounds_cover ftable mtable) xs -> no_bare_word ftable mtable xs w ->
         forall x part g f, source_word ftable mtable xs (bit 1 dwsets) w x part g f -> exists group, In group groups /\ word_forms ftable mtable xs (bit 1 dwsets) w id x group).
  Proof using Hcomp Hsrc Hfit. intros. lex. eapply compiled_rus_forms; eassumption. Qed.
  Lemma rus_lemmatize w dwsets : Forall (lexeme_buildable ftable mtable) xs ->
    is_bytes w -> w <> [] -> (length w < 48)%nat -> (length (parts rus_casing w) <= 8)%nat ->
    exists hs,
      (forall r, In r hs -> exists x, In x xs /\ tells ftable mtable xs (bit 1 dwsets) w r x) /\
      (Forall (bounds_cover ftable mtable) xs -> no_bare_word ftable mtable xs w ->
         forall x part g f, source_word ftable mtable xs (bit 1 dwsets) w x part g f ->
           exists r, In r hs /\ tells ftable mtable xs (bit 1 dwsets) w r x /\ rd_part r = part /\ In (g, f) (rd_descs r)) /\
      forall psz cch plemma pforms pgrams junk, given w psz cch ->
        safe_call dwsets (lexemes_of plemma hs) plemma pforms pgrams ->
        answer dwsets hs plemma pforms pgrams (lemmatize A junk psz cch plemma pforms pgrams dwsets).
  Proof using Hcomp Hsrc Hfit. intros. lex. eapply compiled_rus_lemmatize; eassumption. Qed.

  (** grouping *)
  Lemma grouped_first hs g : In g (grouped hs) -> In (lx_first g) hs.
  Proof using Type.
    clear. revert g. induction hs as [|r hs IH]; intros g Hin; [destruct Hin|]. cbn [grouped] in Hin.
    destruct (grouped hs) as [|g0 gs].
    - destruct Hin as [<-|[]]. left. reflexivity.
    - destruct (rd_id (lx_first g0) =? rd_id r); destruct Hin as [<-|Hin]; try (left; reflexivity); right; apply IH.
      + right. exact Hin.
      + exact Hin.
  Qed.
  Lemma grouped_ids hs r : In r hs -> exists g, In g (grouped hs) /\ rd_id (lx_first g) = rd_id r.
  Proof using Type.
    clear. induction hs as [|r0 hs IH]; intros Hin; [destruct Hin|]. cbn [grouped].
    destruct Hin as [->|Hin].
    - destruct (grouped hs) as [|g0 gs]; [|destruct (rd_id (lx_first g0) =? rd_id r)]; eexists; (split; [left; reflexivity|reflexivity]).
    - destruct (IH Hin) as (g & Hg & E). destruct (grouped hs) as [|g0 gs]; [destruct Hg|].
      destruct (N.eqb_spec (rd_id (lx_first g0)) (rd_id r0)) as [Ee|Ne].
      + destruct Hg as [->|Hg]; [eexists; split; [left; reflexivity|]; cbn [lx_first]; congruence|exists g; split; [right; exact Hg|exact E]].
      + exists g. split; [right; exact Hg|exact E].
  Qed.
  Lemma rus_stored w dwsets : Forall (lexeme_buildable ftable mtable) xs ->
    (forall x gf, In x xs -> exists part, dict_part ftable mtable (l_class x) dwsets gf part) ->
    is_bytes w -> w <> [] -> (length w < 48)%nat -> (length (parts rus_casing w) <= 8)%nat ->
    exists n : nat, forall psz cch lemmas forms grams junk z plemma' pforms' pgrams', given w psz cch -> (n < length lemmas)%nat ->
      lemmatize A junk psz cch (Some lemmas) (Some forms) (Some grams) dwsets = Ok (z, (plemma', pforms', pgrams')) -> (0 <= z)%Z ->
      exists lemmas' forms' grams', plemma' = Some lemmas' /\ pforms' = Some forms' /\ pgrams' = Some grams' /\ z = Z.of_nat n /\
        (forall i, (i < n)%nat -> exists cell x part ds o s before after before' after',
           nth_error lemmas' i = Some cell /\ lm_id cell = l_id x /\
           ds <> [] /\ (forall g f, In (g, f) ds -> source_word ftable mtable xs (bit 1 dwsets) w x part g f) /\
           lm_form cell = Some o /\ source_lemma ftable mtable x dwsets (hd (0, 0) ds) s /\ forms' = before ++ s ++ 0 :: after /\ length before = o /\
           grams' = before' ++ map (source_shown (l_class x)) ds ++ after' /\ N.of_nat (length before') = lm_grams cell /\ N.of_nat (length ds) = lm_ngrams cell) /\
        (Forall (bounds_cover ftable mtable) xs -> no_bare_word ftable mtable xs w ->
           forall x part g f, source_word ftable mtable xs (bit 1 dwsets) w x part g f ->
             exists i cell, (i < n)%nat /\ nth_error lemmas' i = Some cell /\ lm_id cell = l_id x).
  Proof using Hcomp Hsrc Hfit.
    intros Hb Hdict Hw Hne Hlen Hp. lex. pose proof (compiled_rus_buildable _ _ _ _ _ HL HC Hb) as HB.
    destruct (well_formed A L HL HB w dwsets Hw Hne Hlen Hp) as (hs & Hf & H). cbv zeta in H. destruct (found_tells _ _ _ _ _ HL HC (holds_word A L HL) _ _ _ Hf) as [T1 T2].
    exists (length (grouped hs)). intros psz cch lemmas forms grams junk z plemma' pforms' pgrams' Hg Hn E Hz.
    destruct (H psz cch lemmas forms grams junk z plemma' pforms' pgrams' Hg) as (lemmas' & forms' & grams' & E1 & E2 & E3 & E4 & Hle & Hcells); [|exact E|exact Hz|].
    { split.
      - intros _. apply Forall_forall. intros g Hgg. apply grouped_first in Hgg. destruct (T1 _ Hgg) as (x & Hx & Ht). apply (te_dict _ _ _ _ _ _ _ Ht). apply Hdict, Hx.
      - intros mem g [= <-] _ _ Hnth. apply nth_error_Some_lt in Hnth || (assert (length lemmas - 1 < length (grouped hs))%nat by (apply nth_error_Some; congruence)). lia. }
    exists lemmas', forms', grams'. do 4 (split; [assumption|]). split.
    - intros i Hi. destruct (nth_error (grouped hs) i) as [g|] eqn:Eg; [|apply nth_error_None in Eg; lia].
      destruct (Hcells i g Eg) as (cell & o & s & before & after & before' & after' & C1 & C2 & C3 & C4 & C5 & C6 & C7 & C8 & C9 & _).
      destruct (T1 _ (grouped_first _ _ (nth_error_In _ _ Eg))) as (x & Hx & Ht). destruct (te_words _ _ _ _ _ _ _ Ht) as [W1 W2].
      exists cell, x, (rd_part (lx_first g)), (rd_descs (lx_first g)), o, s, before, after, before', after'.
      rewrite (te_id _ _ _ _ _ _ _ Ht) in C2. rewrite (te_shown _ _ _ _ _ _ _ Ht) in C7, C9. rewrite map_length in C9. apply (te_lemma _ _ _ _ _ _ _ Ht) in C4.
      repeat match goal with |- _ /\ _ => split end; assumption.
    - intros Hbc Hbare x part g f Hsw. destruct (T2 Hbc Hbare x part g f Hsw) as (r & Hin & Ht & _). destruct (grouped_ids hs r Hin) as (gr & Hgr & Eid).
      apply In_nth_error in Hgr as (i & Hi). destruct (Hcells i gr Hi) as (cell & _ & _ & _ & _ & _ & _ & C1 & C2 & _). exists i, cell.
      split; [apply nth_error_Some; congruence|]. split; [exact C1|]. rewrite C2, Eid. apply (te_id _ _ _ _ _ _ _ Ht).
  Qed.

  Lemma rus_search tl w psz cch : Forall (lexeme_searchable ftable mtable) xs -> tl <> [] \/ (exists x, In x xs /\ l_stem x = []) ->
    given w psz cch -> is_bytes w -> w <> [] -> (length w < 48)%nat -> (length (parts rus_casing w) <= 16)%nat ->
    exists evs : list (N * bytes * N),
      (forall U (add : U -> N -> list (bytes * N) -> U * Z) junk buf u, length junk = 48%nat -> length buf = 48%nat ->
         (Forall call_fits (runs evs) -> find_match add (followed_by A tl) junk buf psz cch u = Ok (deliver add (runs evs) u)) /\
         (~ Forall call_fits (runs evs) -> find_match add (followed_by A tl) junk buf psz cch u = Ub)) /\
      (forall lid str id, In (lid, str, id) evs -> exists x part g f, In x xs /\ l_id x = lid /\ form_of ftable mtable x str part g f /\
         id = source_form_id (l_class x) g f /\ glob (map (locase rus_casing) w) str) /\
      (Forall (bounds_cover ftable mtable) xs -> forall x str part g f, In x xs -> form_of ftable mtable x str part g f -> glob (map (locase rus_casing) w) str -> ~ In 42 str ->
         part <> [] \/ match l_post x with [] => True | b :: _ => l_min x <= b <= l_max x end -> In (l_id x, str, source_form_id (l_class x) g f) evs).
  Proof using Hcomp Hsrc Hfit. intros. lex. eapply compiled_rus_search; eassumption. Qed.
End Compiled.
