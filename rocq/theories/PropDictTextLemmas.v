(** * PropDictTextLemmas: proofs for Prop_DictText. *)
From Coq Require Import String.
From Verif Require Import Base Serial SerialProofs WordTree TreeSpec Stems StemSpec CharTables CapScheme CapSpec GramMap RusRuntime LevelSpec RusSpec RusProofs Compile CompileSpec CompileProofs CompileProofs2 CompileProofs5
  Resolve ResolveSpec ResolveProofs ResolveProofs2 StripSpec StripProofs StripProofs2 StripProofs3 Api EngCompileSpec Utf8 RusText RusTextSpec RusTextProofs RusTextProofs2 RusTextProofs3 RusTextProofs4 RusTextProofs5 RusTextProofs6 PropRusTextLemmas
  Tfc TfcSpec TfcProofs2 PropTfcLemmas Makeich MakeichSpec PropMakeichLemmas DictTextSpec DictTextProofs DictTextProofs2 DictTextProofs3.
Local Open Scope N_scope.
Local Open Scope list_scope.
Notation length := List.length.
Notation lookup := RusText.lookup.

(** ** Tables and alternations *)
Theorem texts_compiled alphabet ds ms fs fs' conv conv' depth depth' name name' :
  file_defines fs conv depth name ds -> mixes_defined fs' conv' depth' name' ms -> texts_valid alphabet ds ms ->
  exists b ix mb mix, tfc depth fs conv name = Some (b, ix) /\ makeich depth' fs' conv' name' = Some (mb, mix) /\
    tables_mean ds b ix /\ mixes_mean ms mb mix /\ tables_valid alphabet (Tables b ix mb mix).
Proof.
  intros Hd Hm HV. destruct (tables_compiled _ _ _ _ _ Hd (tx_format _ _ _ HV) (tx_defined _ _ _ HV) (tx_size _ _ _ HV)) as (b & ix & E1 & M1).
  destruct (mixes_compiled _ _ _ _ _ Hm (tx_consistent _ _ _ HV) (tx_mix_format _ _ _ HV) (tx_mix_size _ _ _ HV)) as (mb & mix & E2 & M2).
  exists b, ix, mb, mix. split; [exact E1|]. split; [exact E2|]. split; [exact M1|]. split; [exact M2|]. eapply texts_tables; eassumption.
Qed.

Section Dictionary.
  Variables (alphabet : bytes) (ds : list definition) (ms : list mixdef) (xs : list rarticle) (b : bytes) (ix : list (bytes * N)) (mb : bytes) (mix : list (bytes * list (N * bytes))).
  Variables (depth : nat) (conv : N -> N) (files : list bytes) (liness : list (list bytes)) (A : arrays) (us : list bytes).
  Hypothesis HM : tables_mean ds b ix.
  Hypothesis HX : mixes_mean ms mb mix.
  Hypothesis HV : dictionary_valid alphabet ds ms xs.
  Let T := Tables b ix mb mix.
  Hypothesis Hf : Forall2 in_lines files liness.
  Hypothesis Hx : articles_in (map (map conv) (concat liness)) xs.
  Hypothesis HA : rcompile depth T conv files = Ok (Some (A, us)).

  Lemma HT : tables_valid alphabet T.
  Proof using HM HX HV. eapply texts_tables; [exact HM|exact HX|apply (dv_texts _ _ _ _ HV)]. Qed.
  Lemma compiled_listed : exists ls us', rlists depth T (map (map conv) (concat liness)) xs ls us' /\ N.of_nat (length ls) < 2 ^ 32.
  Proof using HM HX HV Hf Hx HA.
    pose proof HA as E. rewrite (files_lines _ _ _ _ _ Hf) in E. unfold rcompile_lines in E. apply bind_ok_inv in E as ([o|] & E & _).
    - destruct (listed _ _ _ _ _ _ _ (tv_offsets _ _ HT) Hx _ _ _ E) as (ls & us' & K). exists ls, us'. split; [exact K|]. pose proof (listed_length _ _ _ _ _ _ _ _ _ K) as L. pose proof (dv_count _ _ _ _ HV). lia.
    - exfalso. pose proof HA as E2. rewrite (files_lines _ _ _ _ _ Hf) in E2. unfold rcompile_lines in E2. rewrite E in E2. discriminate.
  Qed.
  Lemma word_of_article ignore w x l part g f : article_word depth T xs ignore w x l part g f -> exists tw, same_word ds b mb x l tw /\ dictionary_word ds ms xs ignore w x tw part g f.
  Proof using HM HX HV.
    intros (Hin & (ls & Hs & Hl) & [Hc Ew] & Hsu). pose proof (dv_search _ _ _ _ HV) as Hse. rewrite Forall_forall in Hse. destruct (senses_meanings ds b ix ms mb mix HM HX depth x ls (Hse x Hin) Hs) as (tws & Hm & HF).
    destruct (F2_in _ _ _ _ _ _ HF Hl) as (tw & Htw & [S1 S2 S3 S4 S5 S6 S7 S8 S9 S10 S11]). exists tw. split; [constructor; assumption|]. split; [exact Hin|]. split; [exists tws; auto|]. split; [apply S5, Hc|]. split; [rewrite <- S1, <- S3; exact Ew|].
    intros K. rewrite <- S2. apply Hsu, K.
  Qed.
  Lemma F2_in_r A' B' (R : A' -> B' -> Prop) l l' y : Forall2 R l l' -> In y l' -> exists x, In x l /\ R x y.
  Proof using. clear. induction 1 as [|a c l l' H Hs IH]; [intros []|]. intros [<-|K]; [exists a; split; [left; reflexivity|exact H]|]. destruct (IH K) as (x & K1 & K2). exists x. split; [right; exact K1|exact K2]. Qed.
  Lemma article_of_word ignore w x tw part g f : dictionary_word ds ms xs ignore w x tw part g f -> exists l, same_word ds b mb x l tw /\ article_word depth T xs ignore w x l part g f.
  Proof using HM HX HV Hf Hx HA.
    intros (Hin & (tws & Hm & Htw) & Hp & Ew & Hsu). destruct compiled_listed as (ls0 & us0 & K & _). destruct (proj2 (rlists_in _ _ _ _ _ _ K) x Hin) as (line & body & s & _ & _ & Hs & _ & _).
    pose proof (dv_search _ _ _ _ HV) as Hse. rewrite Forall_forall in Hse. destruct (senses_meanings ds b ix ms mb mix HM HX depth x s (Hse x Hin) Hs) as (tws' & Hm' & HF).
    rewrite (meanings_unique ds ms x tws tws' (Hse x Hin) Hm Hm') in Htw. destruct (F2_in_r _ _ _ _ _ _ HF Htw) as (l & Hl & [S1 S2 S3 S4 S5 S6 S7 S8 S9 S10 S11]). exists l. split; [constructor; assumption|].
    split; [exact Hin|]. split; [exists s; auto|]. split; [split; [apply S5, Hp|rewrite S1, S3; exact Ew]|]. intros Q. rewrite S2. apply Hsu, Q.
  Qed.
  Theorem dictionary_check w psz cch dwsets junk : arrays_fit A -> given w psz cch -> is_bytes w -> w <> [] -> (length w < 48)%nat -> (length (parts rus_casing w) <= 8)%nat ->
    (forall x tw part g f, dictionary_word ds ms xs (bit 1 dwsets) w x tw part g f -> postfix_reached ds x tw part) ->
    check_word A junk psz cch dwsets = Ok 1%Z /\ (exists x tw part g f, dictionary_word ds ms xs (bit 1 dwsets) w x tw part g f) \/
    check_word A junk psz cch dwsets = Ok 0%Z /\ ~ (exists x tw part g f, dictionary_word ds ms xs (bit 1 dwsets) w x tw part g f).
  Proof using HM HX HV Hf Hx HA.
    intros Hfit Hg Hb Hne Hlen Hp Hpost. destruct compiled_listed as (ls & us0 & Hl & Hn). destruct (lists_sources alphabet depth T _ xs ls us0 HT (dv_articles _ _ _ _ HV) Hl Hn) as [_ Hcov]. rewrite Forall_forall in Hcov.
    destruct (rus_text_check alphabet depth T conv files liness xs ls us0 A us w psz cch dwsets junk HT Hf Hl (dv_articles _ _ _ _ HV) Hn HA Hfit Hg Hb Hne Hlen Hp) as [[E (x & l & part & g & f & K)]|[E K]].
    - intros x l part g f K. pose proof (word_of_article _ _ _ _ _ _ _ K) as (tw & Hsw & Hw). destruct (Hpost _ _ _ _ _ Hw) as [Q|Q]; [left; exact Q|right]. rewrite (sw_post _ _ _ _ _ _ Hsw).
      destruct (post_of (r_notes x)) as [|c r]; [exact I|]. destruct Q as (c' & s & g' & f' & Q1 & Q2). apply (sw_parts _ _ _ _ _ _ Hsw) in Q1. assert (Hin : In l ls).
      { destruct K as (Kx & Kl & _). apply (rus_text_from depth T _ xs ls us0 (tv_offsets _ _ HT) Hl). exists x. auto. }
      pose proof (Hcov l Hin c' s g' f' Q1). lia.
    - left. split; [exact E|]. destruct (word_of_article _ _ _ _ _ _ _ K) as (tw & _ & Hw). exists x, tw, part, g, f. exact Hw.
    - right. split; [exact E|]. intros (x & tw & part & g & f & Hw). apply K. destruct (article_of_word _ _ _ _ _ _ _ Hw) as (l & _ & Q). exists x, l, part, g, f. exact Q.
  Qed.

  Theorem dictionary_headword x n p base lines tw w psz cch dwsets junk : arrays_fit A -> In x xs -> typed (r_mark x) (r_type x) n p -> ~ constant n -> defined ds (table_name x (r_index x)) lines ->
    plain_word (r_head x) = base ++ post_of (r_notes x) -> ~ In 64 base -> ~ In 58 (r_index x) ->
    sense ds ms x (r_index x) (Some tw) -> (if is_verb (class_bits x n p) then reflexive_end ds (table_name x (r_index x)) else tw_mix tw <> None -> p = false) ->
    given w psz cch -> is_bytes w -> w <> [] -> (length w < 48)%nat -> (length (parts rus_casing w) <= 8)%nat ->
    (forall x tw part g f, dictionary_word ds ms xs (bit 1 dwsets) w x tw part g f -> postfix_reached ds x tw part) ->
    map (locase rus_casing) w = plain_word (r_head x) -> (bit 1 dwsets = false -> suits w (required_case (tw_class tw))) ->
    check_word A junk psz cch dwsets = Ok 1%Z.
  Proof using HM HX HV Hf Hx HA.
    intros Hfit Hin Ht Hc Hd Hw H64 H58 Hse Hcond Hg Hb Hne Hlen Hp Hpost Elow Hsuit.
    destruct (dictionary_check w psz cch dwsets junk Hfit Hg Hb Hne Hlen Hp Hpost) as [[E _]|[_ K]]; [exact E|]. exfalso. apply K. clear K.
    pose proof (dv_search _ _ _ _ HV) as Hs. rewrite Forall_forall in Hs. specialize (Hs x Hin). assert (R0 : read_with x (r_index x)) by (left; reflexivity).
    destruct compiled_listed as (ls0 & us0 & K & _). destruct (proj2 (rlists_in _ _ _ _ _ _ K) x Hin) as (line & body & s & _ & _ & Hsn & _ & _).
    assert (He : exists l, entry depth T x (r_index x) (Ok (Some l))).
    { assert (Hno : ~ entry depth T x (r_index x) (Ok None)).
      { intros Q. destruct (entry_sense ds b ix ms mb mix HM HX _ _ _ _ R0 Hs Q) as ([tw'|] & Q1 & Q2); [destruct Q2|]. pose proof (sense_once ds ms _ _ _ _ R0 Hs Hse Q1). discriminate. }
      destruct Hsn as [l Q|Q _|? ? ? ? Q _ _ _ _]; [exists l; exact Q|contradiction|contradiction]. }
    destruct He as (l & He). destruct (entry_sense ds b ix ms mb mix HM HX _ _ _ _ R0 Hs He) as ([tw'|] & Q1 & Q2); [|destruct Q2]. pose proof (sense_once ds ms _ _ _ _ R0 Hs Hse Q1) as E. injection E as <-. cbn [same_sense] in Q2.
    destruct (some_lookup ds b ix HM _ _ Hd) as (off & Hl). assert (Hwp : without_postfix x base) by (exists (post_of (r_notes x)); auto). destruct (Hs (r_index x) n p base lines R0 Ht Hc Hd Hwp) as [Hst (d & Hno)].
    destruct (article_headword depth T x n p off base d l (tv_offsets _ _ HT) Ht Hc Hl Hw H64 H58) as (part & g & f & Hform & Ew); [| |exact He| |].
    - apply (search_compiled ds b ix ms mb mix HM HX _ _ _ _ _ Hl Hst).
    - exact (normal_compiled ds b ix HM _ _ _ _ Hno _ Hl).
    - destruct (is_verb (class_bits x n p)); [apply (reflexive_told ds b ix HM _ _ Hl Hcond)|]. intros Hz. apply Hcond. intros Q. apply Hz, (sw_mix _ _ _ _ _ _ Q2), Q.
    - exists x, tw, part, g, f. split; [exact Hin|]. split; [exists [tw]; split; [apply mg_one, Hse|left; reflexivity]|]. split; [apply (sw_parts _ _ _ _ _ _ Q2), Hform|].
      split; [rewrite Elow, <- (sw_stem _ _ _ _ _ _ Q2), <- (sw_post _ _ _ _ _ _ Q2); exact Ew|exact Hsuit].
  Qed.
End Dictionary.


Lemma built_tables alphabet ds ms xs A : built ds ms xs A -> dictionary_valid alphabet ds ms xs ->
  exists b ix mb mix k conv files liness us, tables_mean ds b ix /\ mixes_mean ms mb mix /\ Forall2 in_lines files liness /\ articles_in (map (map conv) (concat liness)) xs /\
    rcompile k (Tables b ix mb mix) conv files = Ok (Some (A, us)).
Proof.
  intros H HV. destruct H as [fs conv depth name fs' conv' depth' name' b ix mb mix k conv'' files liness us Hd Hm Hl Ha E1 E2 E3].
  destruct (texts_compiled _ _ _ _ _ _ _ _ _ _ _ Hd Hm (dv_texts _ _ _ _ HV)) as (b' & ix' & mb' & mix' & E1' & E2' & M1 & M2 & _).
  rewrite E1 in E1'. rewrite E2 in E2'. injection E1' as <- <-. injection E2' as <- <-.
  exists b, ix, mb, mix, k, conv'', files, liness, us. auto.
Qed.
Theorem built_check alphabet ds ms xs A w psz cch dwsets junk : built ds ms xs A -> dictionary_valid alphabet ds ms xs -> arrays_fit A ->
  given w psz cch -> is_bytes w -> w <> [] -> (length w < 48)%nat -> (length (parts rus_casing w) <= 8)%nat ->
  (forall x tw part g f, dictionary_word ds ms xs (bit 1 dwsets) w x tw part g f -> postfix_reached ds x tw part) ->
  check_word A junk psz cch dwsets = Ok 1%Z /\ (exists x tw part g f, dictionary_word ds ms xs (bit 1 dwsets) w x tw part g f) \/
  check_word A junk psz cch dwsets = Ok 0%Z /\ ~ (exists x tw part g f, dictionary_word ds ms xs (bit 1 dwsets) w x tw part g f).
Proof.
  intros HB HV. destruct (built_tables _ _ _ _ _ HB HV) as (b & ix & mb & mix & k & conv & files & liness & us & M1 & M2 & Hl & Ha & E).
  eapply dictionary_check; eassumption.
Qed.
Theorem built_headword alphabet ds ms xs A x n p base lines tw w psz cch dwsets junk : built ds ms xs A -> dictionary_valid alphabet ds ms xs -> arrays_fit A ->
  In x xs -> typed (r_mark x) (r_type x) n p -> ~ constant n -> defined ds (table_name x (r_index x)) lines ->
  plain_word (r_head x) = base ++ post_of (r_notes x) -> ~ In 64 base -> ~ In 58 (r_index x) ->
  sense ds ms x (r_index x) (Some tw) -> (if is_verb (class_bits x n p) then reflexive_end ds (table_name x (r_index x)) else tw_mix tw <> None -> p = false) ->
  given w psz cch -> is_bytes w -> w <> [] -> (length w < 48)%nat -> (length (parts rus_casing w) <= 8)%nat ->
  (forall x tw part g f, dictionary_word ds ms xs (bit 1 dwsets) w x tw part g f -> postfix_reached ds x tw part) ->
  map (locase rus_casing) w = plain_word (r_head x) -> (bit 1 dwsets = false -> suits w (required_case (tw_class tw))) ->
  check_word A junk psz cch dwsets = Ok 1%Z.
Proof.
  intros HB HV. destruct (built_tables _ _ _ _ _ HB HV) as (b & ix & mb & mix & k & conv & files & liness & us & M1 & M2 & Hl & Ha & E).
  intros. eapply dictionary_headword; eassumption.
Qed.
