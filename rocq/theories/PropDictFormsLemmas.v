(** * PropDictFormsLemmas: proofs for Prop_DictForms. *)
From Coq Require Import String.
From Verif Require Import Base Serial SerialProofs WordTree TreeSpec Stems StemSpec CharTables CapScheme CapSpec GramMap RusRuntime LevelSpec RusSpec RusProofs RusBuild RusBuildSpec RusReadings RusLemmaSpec Wild WildSpec Compile CompileSpec CompileFormsSpec CompileProofs CompileProofs2 CompileProofs5
  Resolve ResolveSpec ResolveProofs ResolveProofs2 StripSpec StripProofs StripProofs2 StripProofs3 Api EngCompileSpec Utf8 RusText RusTextSpec RusTextProofs RusTextProofs2 RusTextProofs3 RusTextProofs4 RusTextProofs5 RusTextProofs6 PropRusTextLemmas
  Tfc TfcSpec TfcProofs2 PropTfcLemmas Makeich MakeichSpec PropMakeichLemmas DictTextSpec DictTextProofs DictTextProofs2 DictTextProofs3 PropDictTextLemmas PropCompileFormsLemmas DictFormsSpec DictFormsProofs.
Local Open Scope N_scope.
Local Open Scope list_scope.
Notation length := List.length.
Notation lookup := RusText.lookup.
Notation lexeme := Compile.lexeme.
Notation tells := TfcSpec.tells.

(** The lexemes compiled are the words meant. *)
Lemma built_lexemes alphabet ds ms xs A : built ds ms xs A -> dictionary_valid alphabet ds ms xs ->
  exists depth b mb ls, compile depth b mb ls = Ok (Some A) /\ sources_ok b mb ls /\ Forall (bounds_cover b mb) ls /\
    (forall l, In l ls -> exists x tw, meant ds ms xs x tw /\ same_word ds b mb x l tw) /\
    (forall x tw, meant ds ms xs x tw -> exists l, In l ls /\ same_word ds b mb x l tw) /\
    (forall x tw l l', In x xs -> (forall x', In x' xs -> r_id x' = r_id x -> x' = x) -> meanings ds ms x [tw] -> In l ls -> In l' ls -> l_id l = r_id x -> l_id l' = r_id x -> l = l').
Proof.
  intros HB HV. destruct (built_tables _ _ _ _ _ HB HV) as (b & ix & mb & mix & k & conv & files & liness & us & M1 & M2 & Hf & Ha & E).
  pose proof (HT alphabet ds ms xs b ix mb mix M1 M2 HV) as HT. pose proof (tv_offsets _ _ HT) as HT0.
  destruct (compiled_listed alphabet ds ms xs b ix mb mix k conv files liness A us M1 M2 HV Hf Ha E) as (ls & us' & Hl & Hn).
  rewrite (rus_text_compiled k _ conv files liness xs ls us' HT0 Hf Hl) in E. apply bind_ok_inv in E as (o & Ec & E). destruct o as [A0|]; [|discriminate]. injection E as -> _.
  destruct (lists_sources alphabet k _ _ xs ls us' HT (dv_articles _ _ _ _ HV) Hl Hn) as [Hso Hcov]. cbn [tb_flex tb_mix] in *.
  pose proof (dv_search _ _ _ _ HV) as Hse. rewrite Forall_forall in Hse.
  assert (Hfrom : forall l, In l ls <-> exists x, In x xs /\ lexeme_of k (Tables b ix mb mix) x l) by (apply (rus_text_from k _ _ xs ls us' HT0 Hl)).
  exists k, b, mb, ls. split; [exact Ec|]. split; [exact Hso|]. split; [exact Hcov|]. split; [|split].
  - intros l H. apply Hfrom in H as (x & Hx & s & Hs & Hin). destruct (senses_meanings ds b ix ms mb mix M1 M2 k x s (Hse x Hx) Hs) as (tws & Hm & HF). destruct (F2_in _ _ _ _ _ _ HF Hin) as (tw & Htw & K).
    exists x, tw. split; [|exact K]. split; [exact Hx|]. exists tws. auto.
  - intros x tw (Hx & tws & Hm & Htw). destruct (proj2 (rlists_in _ _ _ _ _ _ Hl) x Hx) as (line & body & s & _ & _ & Hs & Hi & _).
    destruct (senses_meanings ds b ix ms mb mix M1 M2 k x s (Hse x Hx) Hs) as (tws' & Hm' & HF). rewrite (meanings_unique ds ms x tws tws' (Hse x Hx) Hm Hm') in Htw.
    destruct (F2_in_r _ _ _ _ _ _ HF Htw) as (l & Hin & K). exists l. split; [apply Hi, Hin|exact K].
  - intros x tw l l' Hx Hu Hm H H' E E'.
    assert (G : forall l, In l ls -> l_id l = r_id x -> exists s, senses k (Tables b ix mb mix) x s /\ In l s).
    { clear l l' H H' E E'. intros l H E. apply Hfrom in H as (x1 & Hx1 & s & Hs & Hin). destruct (senses_meanings ds b ix ms mb mix M1 M2 k x1 s (Hse x1 Hx1) Hs) as (tws & _ & HF). destruct (F2_in _ _ _ _ _ _ HF Hin) as (tw1 & _ & K).
      pose proof (sw_id _ _ _ _ _ _ K) as Eid. rewrite (Hu x1 Hx1) in Hs by congruence. exists s. auto. }
    destruct (G l H E) as (s & Hs & Hin). destruct (G l' H' E') as (s' & Hs' & Hin'). destruct (proj2 (rlists_in _ _ _ _ _ _ Hl) x Hx) as (line & body & _ & _ & Hw & _).
    rewrite (senses_unique _ _ _ _ _ _ _ HT0 Hw Hs' Hs) in Hin'. destruct (senses_meanings ds b ix ms mb mix M1 M2 k x s (Hse x Hx) Hs) as (tws & Hm' & HF). rewrite <- (meanings_unique ds ms x [tw] tws (Hse x Hx) Hm Hm') in HF.
    inversion HF as [|l0 ? s0 ? _ HF' Es]; subst. inversion HF'; subst. destruct Hin as [<-|[]], Hin' as [<-|[]]. reflexivity.
Qed.

Section Built.
  Variables (alphabet : bytes) (ds : list definition) (ms : list mixdef) (xs : list rarticle) (A : arrays).
  Hypothesis HB : built ds ms xs A.
  Hypothesis HV : dictionary_valid alphabet ds ms xs.
  Hypothesis Hfit : arrays_fit A.

  Ltac lexemes := destruct (built_lexemes alphabet ds ms xs A HB HV) as (depth & b & mb & ls & Ec & Hso & Hcov & Hfrom & Hto & Hone).
  Lemma all_of (P : lexeme -> Prop) (Q : rarticle -> tword -> Prop) b mb ls : (forall l, In l ls -> exists x tw, meant ds ms xs x tw /\ same_word ds b mb x l tw) ->
    (forall x l tw, same_word ds b mb x l tw -> Q x tw -> In l ls -> P l) -> (forall x tw, meant ds ms xs x tw -> Q x tw) -> Forall P ls.
  Proof using. clear. intros Hfrom HPQ HQ. apply Forall_forall. intros l Hl. destruct (Hfrom l Hl) as (x & tw & Hm & Hs). exact (HPQ x l tw Hs (HQ x tw Hm) Hl). Qed.
  Lemma word_source ignore w x l tw part g f b mb ls : meant ds ms xs x tw -> same_word ds b mb x l tw -> source_word b mb ls ignore w l part g f -> dictionary_word ds ms xs ignore w x tw part g f.
  Proof using.
    clear. intros [Hx Hm] HS (_ & [Hc Ew] & Hsu). split; [exact Hx|]. split; [exact Hm|]. split; [apply (sw_parts _ _ _ _ _ _ HS), Hc|]. rewrite <- (sw_stem _ _ _ _ _ _ HS), <- (sw_post _ _ _ _ _ _ HS), <- (sw_class _ _ _ _ _ _ HS). auto.
  Qed.
  Lemma source_of ignore w x l tw part g f b mb ls : In l ls -> same_word ds b mb x l tw -> dictionary_word ds ms xs ignore w x tw part g f -> source_word b mb ls ignore w l part g f.
  Proof using.
    clear. intros Hl HS (_ & _ & Hp & Ew & Hsu). split; [exact Hl|]. split; [split; [apply (sw_parts _ _ _ _ _ _ HS), Hp|]|]; rewrite ?(sw_stem _ _ _ _ _ _ HS), ?(sw_post _ _ _ _ _ _ HS), ?(sw_class _ _ _ _ _ _ HS); assumption.
  Qed.
  Lemma word_meant ignore w x tw part g f : dictionary_word ds ms xs ignore w x tw part g f -> meant ds ms xs x tw.
  Proof using. clear. intros (Hx & Hm & _). split; assumption. Qed.

  Theorem built_forms x tw id junk mem : N.of_nat (length (lidstree A)) < 2 ^ 32 -> (forall x tw, meant ds ms xs x tw -> word_buildable ds x tw) ->
    In x xs -> (forall x', In x' xs -> r_id x' = r_id x -> x' = x) -> meanings ds ms x [tw] -> mem <> [] -> (length (lexkeylen (r_id x) ++ junk) = 16)%nat ->
    exists ps, NoDup ps /\ (forall p, In p ps <-> word_number tw id /\ word_asked ds tw (GetGramInfo (tw_class tw) id) p) /\
      let fs := map (word_spelled x tw) ps in delivered mem fs (small fs) (build_form A junk (Some mem) (r_id x) id).
  Proof using HB HV Hfit.
    intros Hlen Hb Hx Hu Hm Hmem Hj. lexemes. assert (Hme : meant ds ms xs x tw) by (split; [exact Hx|exists [tw]; split; [exact Hm|left; reflexivity]]). destruct (Hto x tw Hme) as (l & Hl & HS). pose proof (sw_id _ _ _ _ _ _ HS) as Eid.
    rewrite <- Eid in Hj. rewrite <- Eid.
    destruct (rus_build depth b mb ls A Ec Hso Hfit l id junk mem Hlen) as (ps & K1 & K2 & K3); try assumption.
    - apply (all_of _ _ b mb ls Hfrom (fun x l tw S Q _ => buildable_same ds b mb x l tw S Q) Hb).
    - intros y Hy Ey. apply (Hone x tw y l Hx Hu Hm Hy Hl); congruence.
    - exists ps. split; [exact K1|]. split; [|cbv zeta in *; rewrite (map_ext _ _ (fun p => eq_sym (spelled_same ds b mb x l tw HS p))); exact K3].
      intros p. rewrite K2, (number_same ds b mb x l tw HS), (asked_same ds b mb x l tw HS), (sw_class _ _ _ _ _ _ HS). reflexivity.
  Qed.
  Theorem built_class x tw junk : N.of_nat (length (lidstree A)) < 2 ^ 32 -> (forall x tw, meant ds ms xs x tw -> word_buildable ds x tw) ->
    meant ds ms xs x tw -> (forall x' tw', meant ds ms xs x' tw' -> r_id x' = r_id x -> tw_class tw' mod 64 = tw_class tw mod 64) -> (length (lexkeylen (r_id x) ++ junk) = 16)%nat ->
    get_wd_info A junk (r_id x) = Ok (1%Z, Some (tw_class tw mod 64)).
  Proof using HB HV Hfit.
    intros Hlen Hb Hme Hu Hj. lexemes. destruct (Hto x tw Hme) as (l & Hl & HS). pose proof (sw_id _ _ _ _ _ _ HS) as Eid. rewrite <- Eid in Hj. rewrite <- Eid, <- (sw_class _ _ _ _ _ _ HS).
    apply (rus_class depth b mb ls A Ec Hso Hfit l junk Hlen); try assumption.
    - apply (all_of _ _ b mb ls Hfrom (fun x l tw S Q _ => buildable_same ds b mb x l tw S Q) Hb).
    - intros y Hy Ey. destruct (Hfrom y Hy) as (x' & tw' & Hm' & HS'). rewrite (sw_class _ _ _ _ _ _ HS), (sw_class _ _ _ _ _ _ HS'). apply (Hu x' tw' Hm'). rewrite <- Eid, <- (sw_id _ _ _ _ _ _ HS'). exact Ey.
  Qed.
  Theorem built_absent id idform junk mem : N.of_nat (length (lidstree A)) < 2 ^ 32 -> (forall x tw, meant ds ms xs x tw -> word_buildable ds x tw) ->
    id < 2 ^ 32 -> (forall x tw, meant ds ms xs x tw -> r_id x <> id) -> mem <> [] -> (length (lexkeylen id ++ junk) = 16)%nat ->
    get_wd_info A junk id = Ok (0%Z, None) /\ build_form A junk (Some mem) id idform = Ok (0%Z, Some mem).
  Proof using HB HV Hfit.
    intros Hlen Hb Hid Hno Hmem Hj. lexemes. apply (rus_absent depth b mb ls A Ec Hso Hfit id idform junk mem Hlen); try assumption.
    - apply (all_of _ _ b mb ls Hfrom (fun x l tw S Q _ => buildable_same ds b mb x l tw S Q) Hb).
    - intros y Hy. destruct (Hfrom y Hy) as (x & tw & Hm & HS). rewrite (sw_id _ _ _ _ _ _ HS). exact (Hno x tw Hm).
  Qed.
  Theorem built_recognised x tw id n mem mem' junk : N.of_nat (length (lidstree A)) < 2 ^ 32 -> (forall x tw, meant ds ms xs x tw -> word_buildable ds x tw) -> (forall x tw, meant ds ms xs x tw -> word_recognisable ds x tw) ->
    In x xs -> (forall x', In x' xs -> r_id x' = r_id x -> x' = x) -> meanings ds ms x [tw] -> mem <> [] -> (length (lexkeylen (r_id x) ++ junk) = 16)%nat ->
    build_form A junk (Some mem) (r_id x) id = Ok (n, Some mem') -> (0 < n)%Z ->
    exists fs, n = Z.of_nat (length fs) /\ mem' = filled fs mem /\
      forall form, In form fs -> form <> [] -> (length form < 48)%nat -> forall psz cch dwsets junk', given form psz cch ->
        bit 1 dwsets = true /\ (length (parts rus_casing form) <= 8)%nat \/ casable (required_case (tw_class tw)) (map (locase rus_casing) form) ->
        check_word A junk' psz cch dwsets = Ok 1%Z.
  Proof using HB HV Hfit.
    intros Hlen Hb Hr Hx Hu Hm Hmem Hj E Hn. lexemes. assert (Hme : meant ds ms xs x tw) by (split; [exact Hx|exists [tw]; split; [exact Hm|left; reflexivity]]). destruct (Hto x tw Hme) as (l & Hl & HS). pose proof (sw_id _ _ _ _ _ _ HS) as Eid.
    rewrite <- Eid in Hj, E. rewrite <- (sw_class _ _ _ _ _ _ HS).
    apply (rus_recognised depth b mb ls A Ec Hso Hfit l id n mem mem' junk Hlen); try assumption.
    - apply (all_of _ _ b mb ls Hfrom (fun x l tw S Q _ => buildable_same ds b mb x l tw S Q) Hb).
    - refine (all_of _ (word_recognisable ds) b mb ls Hfrom _ Hr). intros x0 l0 tw0 S Q Hin. rewrite Forall_forall in Hcov. apply (recognisable_same ds b mb x0 l0 tw0 S (Hcov l0 Hin) Q).
    - intros y Hy Ey. apply (Hone x tw y l Hx Hu Hm Hy Hl); congruence.
  Qed.

  Lemma no_bare b mb ls w : (forall l, In l ls -> exists x tw, meant ds ms xs x tw /\ same_word ds b mb x l tw) -> Forall (bounds_cover b mb) ls ->
    (forall x tw part g f, dictionary_word ds ms xs true w x tw part g f -> postfix_reached ds x tw part) -> no_bare_word b mb ls w.
  Proof using.
    clear. intros Hfrom Hcov Hp l part g f Hsw. pose proof Hsw as (Hl & _). destruct (Hfrom l Hl) as (x & tw & Hm & HS). rewrite Forall_forall in Hcov.
    apply (reached_same ds b mb x l tw HS part (Hcov l Hl)). apply (Hp x tw part g f). eapply word_source; eassumption.
  Qed.
  Theorem built_find_forms w psz cch id dwsets junk mem : (forall x tw, meant ds ms xs x tw -> word_buildable ds x tw) ->
    given w psz cch -> is_bytes w -> w <> [] -> (length w < 48)%nat -> (length (parts rus_casing w) <= 8)%nat -> mem <> [] ->
    exists groups : list (list bytes),
      delivered mem (concat groups) (Forall small groups) (find_forms A junk (Some mem) psz cch id dwsets) /\
      (forall group, In group groups -> exists x tw part g f, dictionary_word ds ms xs (bit 1 dwsets) w x tw part g f /\ forms_told ds x tw (word_found_number tw id) id group) /\
      ((forall x tw part g f, dictionary_word ds ms xs true w x tw part g f -> postfix_reached ds x tw part) ->
         forall x tw part g f, dictionary_word ds ms xs (bit 1 dwsets) w x tw part g f -> exists group, In group groups /\ forms_told ds x tw (word_found_number tw id) id group).
  Proof using HB HV Hfit.
    intros Hb Hg Hw Hne Hlen Hp Hmem. lexemes.
    assert (HF : forall x l tw group, same_word ds b mb x l tw -> (forall s, In s group <-> found_number (l_class l) id /\ exists part, asked_part b mb (l_class l) (GetGramInfo (m_wdinfo (l_class l)) id) part /\ s = spelled l part) ->
      forms_told ds x tw (word_found_number tw id) id group).
    { intros x l tw group HS H s. rewrite H, (found_same ds b mb x l tw HS), (sw_class _ _ _ _ _ _ HS). apply and_iff_compat_l. split; intros (part & H1 & H2); exists part; (split; [apply (asked_same ds b mb x l tw HS), H1|]).
      - rewrite H2. apply (spelled_same ds b mb x l tw HS).
      - rewrite H2. symmetry. apply (spelled_same ds b mb x l tw HS). }
    destruct (rus_forms depth b mb ls A Ec Hso Hfit w psz cch id dwsets junk mem) as (groups & G1 & G2 & G3); try assumption.
    { apply (all_of _ _ b mb ls Hfrom (fun x l tw S Q _ => buildable_same ds b mb x l tw S Q) Hb). }
    exists groups. split; [exact G1|]. split.
    - intros group Hin. destruct (G2 group Hin) as (l & (part & g & f & Hsw) & Hs). pose proof Hsw as (Hl & _). destruct (Hfrom l Hl) as (x & tw & Hm & HS). exists x, tw, part, g, f. split; [eapply word_source; eassumption|apply (HF x l tw group HS Hs)].
    - intros Hpost x tw part g f Hdw. destruct (Hto x tw (word_meant _ _ _ _ _ _ _ Hdw)) as (l & Hl & HS).
      destruct (G3 Hcov (no_bare b mb ls w Hfrom Hcov Hpost) l part g f (source_of _ _ x l tw part g f b mb ls Hl HS Hdw)) as (group & Hin & _ & Hs). exists group. split; [exact Hin|apply (HF x l tw group HS Hs)].
  Qed.
  Theorem built_lemmatize w dwsets : (forall x tw, meant ds ms xs x tw -> word_buildable ds x tw) -> (forall x tw gf, meant ds ms xs x tw -> exists part, word_dict ds tw dwsets gf part) ->
    is_bytes w -> w <> [] -> (length w < 48)%nat -> (length (parts rus_casing w) <= 8)%nat ->
    exists n : nat, forall psz cch lemmas forms grams junk z plemma' pforms' pgrams', given w psz cch -> (n < length lemmas)%nat ->
      lemmatize A junk psz cch (Some lemmas) (Some forms) (Some grams) dwsets = Ok (z, (plemma', pforms', pgrams')) -> (0 <= z)%Z ->
      exists lemmas' forms' grams', plemma' = Some lemmas' /\ pforms' = Some forms' /\ pgrams' = Some grams' /\ z = Z.of_nat n /\
        (forall i, (i < n)%nat -> exists cell x tw part gfs o s before after before' after',
           nth_error lemmas' i = Some cell /\ lm_id cell = r_id x /\
           gfs <> [] /\ (forall g f, In (g, f) gfs -> dictionary_word ds ms xs (bit 1 dwsets) w x tw part g f) /\
           lm_form cell = Some o /\ word_lemma ds x tw dwsets (hd (0, 0) gfs) s /\ forms' = before ++ s ++ 0 :: after /\ length before = o /\
           grams' = before' ++ map (word_shown tw) gfs ++ after' /\ N.of_nat (length before') = lm_grams cell /\ N.of_nat (length gfs) = lm_ngrams cell) /\
        ((forall x tw part g f, dictionary_word ds ms xs true w x tw part g f -> postfix_reached ds x tw part) ->
           forall x tw part g f, dictionary_word ds ms xs (bit 1 dwsets) w x tw part g f -> exists i cell, (i < n)%nat /\ nth_error lemmas' i = Some cell /\ lm_id cell = r_id x).
  Proof using HB HV Hfit.
    intros Hb Hd Hw Hne Hlen Hp. lexemes. destruct (rus_stored depth b mb ls A Ec Hso Hfit w dwsets) as (n & H); try assumption.
    { apply (all_of _ _ b mb ls Hfrom (fun x l tw S Q _ => buildable_same ds b mb x l tw S Q) Hb). }
    { intros l gf Hl. destruct (Hfrom l Hl) as (x & tw & Hm & HS). destruct (Hd x tw gf Hm) as (part & K). exists part. apply (dict_same ds b mb x l tw HS), K. }
    exists n. intros psz cch lemmas forms grams junk z plemma' pforms' pgrams' Hg Hn E Hz. destruct (H psz cch lemmas forms grams junk z plemma' pforms' pgrams' Hg Hn E Hz) as (lemmas' & forms' & grams' & E1 & E2 & E3 & E4 & Hc & Hall).
    exists lemmas', forms', grams'. do 4 (split; [assumption|]). split.
    - intros i Hi. destruct (Hc i Hi) as (cell & l & part & gfs & o & s & before & after & before' & after' & C1 & C2 & C3 & C4 & C5 & C6 & C7 & C8 & C9 & C10 & C11).
      assert (Hl : In l ls). { destruct gfs as [|[g f] gfs]; [contradiction|]. apply (C4 g f (or_introl eq_refl)). }
      destruct (Hfrom l Hl) as (x & tw & Hm & HS). exists cell, x, tw, part, gfs, o, s, before, after, before', after'. rewrite (sw_id _ _ _ _ _ _ HS) in C2. apply (lemma_same ds b mb x l tw HS) in C6. rewrite (map_ext _ _ (shown_same ds b mb x l tw HS)) in C9.
      split; [exact C1|]. split; [exact C2|]. split; [exact C3|]. split; [intros g f K; eapply word_source; [exact Hm|exact HS|exact (C4 g f K)]|]. do 6 (split; [assumption|]). assumption.
    - intros Hpost x tw part g f Hdw. destruct (Hto x tw (word_meant _ _ _ _ _ _ _ Hdw)) as (l & Hl & HS). rewrite <- (sw_id _ _ _ _ _ _ HS).
      apply (Hall Hcov (no_bare b mb ls w Hfrom Hcov Hpost) l part g f). exact (source_of _ _ x l tw part g f b mb ls Hl HS Hdw).
  Qed.
  Theorem built_search tl w psz cch : (forall x tw, meant ds ms xs x tw -> word_searchable ds x tw) -> tl <> [] \/ (exists x tw, meant ds ms xs x tw /\ tw_stem tw = []) ->
    given w psz cch -> is_bytes w -> w <> [] -> (length w < 48)%nat -> (length (parts rus_casing w) <= 16)%nat ->
    exists evs : list (N * bytes * N),
      (forall U (add : U -> N -> list (bytes * N) -> U * Z) junk buf u, length junk = 48%nat -> length buf = 48%nat ->
         (Forall call_fits (runs evs) -> find_match add (followed_by A tl) junk buf psz cch u = Ok (deliver add (runs evs) u)) /\
         (~ Forall call_fits (runs evs) -> find_match add (followed_by A tl) junk buf psz cch u = Ub)) /\
      (forall lid str id, In (lid, str, id) evs -> exists x tw part g f, meant ds ms xs x tw /\ r_id x = lid /\ word_part ds tw part g f /\ str = tw_stem tw ++ part ++ post_of (r_notes x) /\
         id = word_form_id tw g f /\ glob (map (locase rus_casing) w) str) /\
      (forall x tw str part g f, meant ds ms xs x tw -> word_part ds tw part g f -> str = tw_stem tw ++ part ++ post_of (r_notes x) -> glob (map (locase rus_casing) w) str -> ~ In 42 str ->
         postfix_between ds x tw part -> In (r_id x, str, word_form_id tw g f) evs).
  Proof using HB HV Hfit.
    intros Hs Htl Hg Hw Hne Hlen Hp. lexemes. destruct (rus_search depth b mb ls A Ec Hso Hfit tl w psz cch) as (evs & G1 & G2 & G3); try assumption.
    { apply (all_of _ _ b mb ls Hfrom (fun x l tw S Q _ => searchable_same ds b mb x l tw S Q) Hs). }
    { destruct Htl as [K|(x & tw & Hm & K)]; [left; exact K|right]. destruct (Hto x tw Hm) as (l & Hl & HS). exists l. split; [exact Hl|]. rewrite (sw_stem _ _ _ _ _ _ HS). exact K. }
    exists evs. split; [exact G1|]. split.
    - intros lid str id Hin. destruct (G2 lid str id Hin) as (l & part & g & f & Hl & Ei & [Hc Es] & E & Hgl). destruct (Hfrom l Hl) as (x & tw & Hm & HS). exists x, tw, part, g, f. split; [exact Hm|]. split; [rewrite <- (sw_id _ _ _ _ _ _ HS); exact Ei|].
      split; [apply (sw_parts _ _ _ _ _ _ HS), Hc|]. split; [rewrite <- (sw_stem _ _ _ _ _ _ HS), <- (sw_post _ _ _ _ _ _ HS); exact Es|]. split; [rewrite <- (form_id_same ds b mb x l tw HS); exact E|exact Hgl].
    - intros x tw str part g f Hm Hwp Es Hgl Hstar Hpost. destruct (Hto x tw Hm) as (l & Hl & HS). rewrite <- (sw_id _ _ _ _ _ _ HS), <- (form_id_same ds b mb x l tw HS).
      apply (G3 Hcov l str part g f Hl); try assumption.
      + split; [apply (sw_parts _ _ _ _ _ _ HS), Hwp|]. rewrite (sw_stem _ _ _ _ _ _ HS), (sw_post _ _ _ _ _ _ HS). exact Es.
      + rewrite Forall_forall in Hcov. apply (between_same ds b mb x l tw HS part (Hcov l Hl) Hpost).
  Qed.
End Built.
