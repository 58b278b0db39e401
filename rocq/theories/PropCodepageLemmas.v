(** * PropCodepageLemmas: PROOFS for Prop_Codepage.v. *)
From Verif Require Import Base Serial WordTree TreeSpec FlatScan Stems StemSpec CharTables CapScheme CapSpec CapProofs PropCaseLemmas GramMap RusRuntime RusSpec RusProofs RusProofs2 RusProofs3 PropRusLemmas
  RusBuild RusBuildSpec RusBuildProofs RusReadings RusReadingsProofs RusLemmaSpec RusDemo RusDemo2 RusBuildProofs2 RusBuildProofs3 RusBuildProofs4 CxxProofs2 PropBuildLemmas PropBuildLemmas2 PropLemmasLemmas Wild WildSpec PropWildLemmas
  Codepage CodepageSpec CodepageProofs CodepageProofs2 CodepageProofs3 CodepageProofs4 CodepageProofs5 CodepageProofs6 CodepageProofs7 CodepageProofs8 Utf8.
Local Open Scope N_scope.

Lemma ok_wide E : encoding_ok E -> forall c, enc E c <> [].
Proof. intros H c. destruct (N.eq_dec c 0) as [->|Hc]; [rewrite (enc_nul E H); discriminate|apply (enc_letters E H c Hc)]. Qed.

Lemma encode_spells E t : encoding_ok E -> is_bytes t -> ~ In 0 t -> t <> [] -> spells E (encode E t) t.
Proof.
  intros H Hb H0 Ht. split; [|apply (dec_enc E H); assumption]. pose proof (encode_wide E (ok_wide E H) t) as Hl.
  intros Hn. rewrite Hn in Hl. destruct t; [contradiction|cbn [length] in Hl; lia].
Qed.

Section Check.
  Variables (E : encoding) (A : arrays).
  Hypothesis Hs : (slack E <= 1)%nat.

  Lemma cp_check_same w t psz cch psz' cch' dwsets junk : given w psz cch -> spells E w t -> t <> [] -> given t psz' cch' ->
    (length (parts rus_casing t) <= 16)%nat -> cp_check_word E A junk psz cch dwsets = check_word A junk psz' cch' dwsets.
  Proof.
    intros Hg [Hw Ed] Ht Hg' Hp. destruct (le_dec (length t + slack E) 48) as [Hle|Hgt].
    - unfold cp_check_word. rewrite check_word_1251. rewrite (cp_canonic_text E w psz cch psz' cch'); rewrite ?Ed; auto.
    - rewrite (check_word_long A t psz' cch' dwsets junk Hg' ltac:(lia) Hp). unfold cp_check_word, check_word_with, prologue_with.
      rewrite (cp_canonic_long E w psz cch Hg Hw) by (rewrite Ed; lia). reflexivity.
  Qed.

  Lemma cp_check_exact L w t psz cch dwsets junk :
    holds A L -> bounds_ok L -> given w psz cch -> spells E w t -> is_bytes t -> t <> [] -> (length t < 48)%nat -> (length (parts rus_casing t) <= 8)%nat ->
    (forall key e part g f, word_of L (bit 1 dwsets) t key e part g f -> reachable e part) ->
    cp_check_word E A junk psz cch dwsets = Ok 1%Z /\ (exists key e part g f, word_of L (bit 1 dwsets) t key e part g f) \/
    cp_check_word E A junk psz cch dwsets = Ok 0%Z /\ ~ (exists key e part g f, word_of L (bit 1 dwsets) t key e part g f).
  Proof.
    intros HL Hb Hg Hsp Hbt Ht Hl Hp Hr.
    assert (Hg' : given t (Some (t ++ [])) (N.of_nat (length t))) by (constructor; lia).
    rewrite (cp_check_same w t psz cch _ _ dwsets junk Hg Hsp Ht Hg' ltac:(lia)). eapply check_exact; eassumption.
  Qed.
End Check.

Lemma cp_check_degenerate E A psz cch dwsets junk :
  (psz = None \/ given [] psz cch -> cp_check_word E A junk psz cch dwsets = Ok 0%Z) /\
  (forall w, given w psz cch -> w <> [] -> (48 < length (dec E w) + slack E)%nat -> cp_check_word E A junk psz cch dwsets = Ok (-4)%Z).
Proof.
  split.
  - intros H. unfold cp_check_word, check_word_with, prologue_with. rewrite cp_canonic_empty by assumption. reflexivity.
  - intros w Hg Hw Hl. unfold cp_check_word, check_word_with, prologue_with. rewrite (cp_canonic_long E w psz cch Hg Hw Hl). reflexivity.
Qed.

Lemma cp_build_exact E A L : encoding_ok E -> holds A L -> buildable L -> indexed A L -> forall junk mem key e st c idform,
  mem <> [] -> has_record (words L) key e -> class_of L (oclass e) = Some (st, c) ->
  (forall key' e', has_record (words L) key' e' -> nlexid e' = nlexid e -> key' = key /\ e' = e) ->
  (length (lexkeylen (nlexid e) ++ junk) = 16)%nat ->
  let fs := requested c key (stpost e) idform in delivered_in E mem fs (small fs) (cp_build_form E A junk (Some mem) (nlexid e) idform).
Proof.
  intros HE HL HB HI junk mem key e st c idform Hm Hr Ec Hu Hj.
  assert (Hid : nlexid e < 2 ^ 32) by (pose proof (idx_ids A L HI key e Hr); lia).
  destruct (cp_build_some A L HL HB E (enc_nul E HE) (ok_wide E HE) HI junk (nlexid e) idform Hid Hj) as (key' & e' & st' & c' & Hr' & He' & Ec' & Hd);
    [exists key, e; split; [assumption|reflexivity]|].
  destruct (Hu key' e' Hr' He') as [-> ->]. rewrite Ec in Ec'. injection Ec' as <- <-. apply Hd, Hm.
Qed.

Lemma cp_build_shared E A L : encoding_ok E -> holds A L -> buildable L -> indexed A L -> forall junk id idform,
  id < 2 ^ 32 -> (length (lexkeylen id ++ junk) = 16)%nat -> (exists key e, has_record (words L) key e /\ nlexid e = id) ->
  exists key e st c, has_record (words L) key e /\ nlexid e = id /\ class_of L (oclass e) = Some (st, c) /\
    forall mem, mem <> [] -> let fs := requested c key (stpost e) idform in delivered_in E mem fs (small fs) (cp_build_form E A junk (Some mem) id idform).
Proof. intros HE HL HB HI junk id idform Hid Hj Hx. exact (cp_build_some A L HL HB E (enc_nul E HE) (ok_wide E HE) HI junk id idform Hid Hj Hx). Qed.

Lemma cp_find_exact E A L : encoding_ok E -> holds A L -> buildable L -> forall t dwsets,
  is_bytes t -> t <> [] -> (length t < 48)%nat -> (length (parts rus_casing t) <= 8)%nat -> (length t + slack E <= 48)%nat ->
  exists hs, found L (bit 1 dwsets) t hs /\
    forall w psz cch mem idform junk, given w psz cch -> spells E w t -> mem <> [] ->
      delivered_in E mem (flat_map (reading_forms idform) hs) (Forall (fun r => small (reading_forms idform r)) hs)
        (cp_find_forms E A junk (Some mem) psz cch idform dwsets).
Proof.
  intros HE HL HB t dwsets Hb Ht Hl Hp Hs.
  destruct (cp_find_found A L HL HB E (enc_nul E HE) (ok_wide E HE) t dwsets Hb Ht Hl Hp Hs) as (hs & Hf & H). exists hs. split; [exact Hf|].
  intros w psz cch mem idform junk Hg [Hw Ed] Hm. exact (H w psz cch mem idform junk Hg Hw Ed Hm).
Qed.

Lemma cp_lemmatize_exact E A L : encoding_ok E -> holds A L -> buildable L -> forall t dwsets,
  is_bytes t -> t <> [] -> (length t < 48)%nat -> (length (parts rus_casing t) <= 8)%nat -> (length t + slack E <= 48)%nat ->
  exists hs, found L (bit 1 dwsets) t hs /\
    forall w psz cch plemma pforms pgrams junk, given w psz cch -> spells E w t ->
      safe_call dwsets (lexemes_of plemma hs) plemma pforms pgrams ->
      answer_in E dwsets hs plemma pforms pgrams (cp_lemmatize E A junk psz cch plemma pforms pgrams dwsets).
Proof.
  intros HE HL HB t dwsets Hb Ht Hl Hp Hs.
  destruct (cp_lemmatize_answer E (enc_nul E HE) A L HL HB t dwsets Hb Ht Hl Hp Hs) as (hs & Hf & H). exists hs. split; [exact Hf|].
  intros w psz cch plemma pforms pgrams junk Hg [Hw Ed]. exact (H w psz cch plemma pforms pgrams junk Hg Hw Ed).
Qed.

Lemma cp_lemmatize_degenerate E A psz cch plemma pforms pgrams dwsets junk :
  (psz = None \/ given [] psz cch -> cp_lemmatize E A junk psz cch plemma pforms pgrams dwsets = Ok (0%Z, (plemma, pforms, pgrams))) /\
  (forall w, given w psz cch -> w <> [] -> (48 < length (dec E w) + slack E)%nat ->
     cp_lemmatize E A junk psz cch plemma pforms pgrams dwsets = Ok ((-4)%Z, (plemma, pforms, pgrams))).
Proof.
  split.
  - intros H. unfold cp_lemmatize, lemmatize_with, prologue_with. rewrite cp_canonic_empty by assumption. reflexivity.
  - intros w Hg Hw Hl. unfold cp_lemmatize, lemmatize_with, prologue_with. rewrite (cp_canonic_long E w psz cch Hg Hw Hl). reflexivity.
Qed.

Lemma cp_forms_nowhere E A junk id idform psz cch dwsets :
  cp_build_form E A junk None id idform = Ok ((-5)%Z, None) /\ cp_build_form E A junk (Some []) id idform = Ok ((-5)%Z, Some []) /\
  forall w mem, given w psz cch -> w <> [] -> mem <> [] -> (48 < length (dec E w) + slack E)%nat ->
    cp_find_forms E A junk (Some mem) psz cch idform dwsets = Ok ((-4)%Z, Some mem).
Proof.
  split; [reflexivity|]. split; [reflexivity|]. intros w mem Hg Hw Hm Hl. unfold cp_find_forms, find_forms_with, prologue_with.
  destruct mem; [contradiction|]. rewrite (cp_canonic_long E w psz cch Hg Hw Hl). reflexivity.
Qed.

Lemma cp_match_exact E A L t rest : holds A L -> fixed_plain L -> strings_within 47 L ->
  stemtree A = stemtree_bytes (words L) ++ rest -> rest <> [] \/ lookup [] (words L) <> None ->
  (forall key e, has_record (words L) key e -> nlexid e <> 0) ->
  is_bytes t -> t <> [] -> (length t < 48)%nat -> (length t + slack E <= 48)%nat -> (length (parts rus_casing t) <= 16)%nat ->
  exists evs : list (N * bytes * N),
    (forall w psz cch, given w psz cch -> spells E w t -> (length w < 48)%nat ->
       forall U (add : U -> N -> list (bytes * N) -> U * Z) junk buf u, length junk = 48%nat -> length buf = 48%nat ->
       let fit := Forall (fun ev => (length (encode E (snd (fst ev))) + slack E <= 96)%nat) evs /\ Forall call_fits (runs (map (told_in E) evs)) in
       (fit -> cp_find_match E add A junk buf psz cch u = Ok (deliver add (runs (map (told_in E) evs)) u)) /\
       (~ fit -> cp_find_match E add A junk buf psz cch u = Ub)) /\
    (forall lid str id, In (lid, str, id) evs -> matching L (map (locase rus_casing) t) lid str id) /\
    (bounds_ok L -> forall key e part str id, has_form L key e part str id -> glob (map (locase rus_casing) t) str -> ~ In 42 str ->
       part <> [] \/ match stpost e with [] => True | b :: _ => chrmin e <= b <= chrmax e end -> In (nlexid e, str, id) evs).
Proof.
  intros H1 H2 H3 H4 H5 H6 H7 H8 H9 H10 H11. destruct (cp_find_match_eq E A L t rest H1 H2 H3 H4 H5 H6 H7 H8 H9 H10 H11) as (evs & K & K').
  exists evs. split; [|exact K']. intros w psz cch Hg [Hw Ed] Hl. exact (K w psz cch Hg Hw Hl Ed).
Qed.

(** ** What BuildForm writes, CheckWord recognises *)
Lemma fit_in_dec E n fs : {fit_in E n fs} + {~ fit_in E n fs}.
Proof.
  unfold fit_in. destruct fs as [|f fs]; [left; left; reflexivity|].
  destruct (le_dec (total (map (encode E) (f :: fs)) + slack E) n); [left; right; assumption|right; intros [H|H]; [discriminate|contradiction]].
Qed.

Lemma requested_text A L : holds A L -> buildable L -> recognisable L -> forall key e st c idform form,
  has_record (words L) key e -> class_of L (oclass e) = Some (st, c) -> In form (requested c key (stpost e) idform) ->
  is_bytes form /\ ~ In 0 form /\ (length (parts rus_casing (map (locase rus_casing) form)) = length (parts rus_casing form))%nat.
Proof.
  intros HL HB HR key e st c idform form Hr Ec Hin. unfold requested in Hin. destruct (takes_id c idform) eqn:Hid; [|destruct Hin].
  pose proof (forms_no_nul A L HL HB key e st c (GetGramInfo (c_word c) idform) Hr Ec) as H0. rewrite Forall_forall in H0. pose proof (H0 form Hin) as Hn.
  unfold forms_of in Hin. apply in_map_iff in Hin as (w & <- & Hw).
  pose proof (r_letters L HR key e st c (GetGramInfo (c_word c) idform) Hr Ec) as Hlet. rewrite Forall_forall in Hlet. specialize (Hlet w Hw).
  destruct (respell_facts w (min_case c) Hlet (min_case_le2 c)) as (F1 & F2 & F3). split; [exact F2|]. split; [exact Hn|].
  unfold rlow in *. rewrite F1, F3. reflexivity.
Qed.

Lemma cp_built_recognised E A L : encoding_ok E -> (slack E <= 1)%nat -> holds A L -> buildable L -> indexed A L -> recognisable L ->
  forall junk mem id idform n mem', mem <> [] -> id < 2 ^ 32 -> (length (lexkeylen id ++ junk) = 16)%nat ->
  cp_build_form E A junk (Some mem) id idform = Ok (n, Some mem') -> (0 < n)%Z ->
  exists key e st c fs, has_record (words L) key e /\ nlexid e = id /\ class_of L (oclass e) = Some (st, c) /\
    n = Z.of_nat (length fs) /\ mem' = filled_in E fs mem /\
    forall form, In form fs -> form <> [] -> (length form < 48)%nat -> forall psz cch dwsets junk', given (encode E form) psz cch ->
      bit 1 dwsets = true /\ (length (parts rus_casing form) <= 8)%nat \/ casable (min_case c) (map (locase rus_casing) form) ->
      cp_check_word E A junk' psz cch dwsets = Ok 1%Z.
Proof.
  intros HE Hs HL HB HI HR junk mem id idform n mem' Hm Hid Hj Hb Hn.
  assert (Hex : (exists key e, has_record (words L) key e /\ nlexid e = id) \/ forall key e, has_record (words L) key e -> nlexid e <> id).
  { destruct (find_record A L HL HI id junk Hid Hj) as [(_ & Hno)|(p & p' & off & key & e & _ & _ & _ & He & Hrec)]; [right; exact Hno|left].
    exists key, e. split; [exact Hrec|exact He]. }
  destruct Hex as [Hex|Hno]; [|rewrite (cp_build_unknown A L HL HB E HI junk mem id idform Hm Hid Hj Hno) in Hb; injection Hb as <- _; lia].
  destruct (cp_build_shared E A L HE HL HB HI junk id idform Hid Hj Hex) as (key & e & st & c & Hr & He & Ec & Hd).
  specialize (Hd mem Hm). cbv zeta in Hd. destruct Hd as [D1 D2]. exists key, e, st, c, (requested c key (stpost e) idform).
  assert (Hlim : small (requested c key (stpost e) idform) /\ fit_in E (length mem) (requested c key (stpost e) idform)).
  { assert (Hdec : {small (requested c key (stpost e) idform) /\ fit_in E (length mem) (requested c key (stpost e) idform)} +
                   {~ (small (requested c key (stpost e) idform) /\ fit_in E (length mem) (requested c key (stpost e) idform))}).
    { unfold small. destruct (le_dec (total (requested c key (stpost e) idform)) 256) as [H|H]; [|right; tauto].
      destruct (fit_in_dec E (length mem) (requested c key (stpost e) idform)) as [H'|H']; [left; auto|right; tauto]. }
    destruct Hdec as [H|H]; [exact H|]. destruct (D2 H) as (m3 & _ & E3). rewrite E3 in Hb. injection Hb as <- _. lia. }
  rewrite (D1 Hlim) in Hb. injection Hb as <- <-.
  repeat match goal with |- _ /\ _ => split end; try assumption; try reflexivity.
  intros form Hin Hne Hlen psz cch dwsets junk' Hg Hcase.
  destruct (requested_text A L HL HB HR key e st c idform form Hr Ec Hin) as (Hby & H0 & Hp).
  assert (Hg' : given form (Some (form ++ [])) (N.of_nat (length form))) by (constructor; lia).
  rewrite (cp_check_same E A Hs (encode E form) form psz cch _ _ dwsets junk' Hg (encode_spells E form HE Hby H0 Hne) Hne Hg').
  - exact (built_recognised A L HL HR key e st c idform form _ _ dwsets junk' Hr Ec Hin Hg' Hne Hlen Hcase).
  - destruct Hcase as [[_ H]|(_ & H & _)]; [lia|]. rewrite Hp in H. lia.
Qed.

(** ** The pattern of the caller is measured before the conversion *)
Lemma utf8_pattern_refused : exists A L t, holds A L /\ is_bytes t /\ length t = 24%nat /\ spells (utf8 1) (encode (utf8 1) t) t /\
  (forall U (add : U -> N -> list (bytes * N) -> U * Z) junk buf u,
     cp_find_match (utf8 1) add A junk buf (Some (encode (utf8 1) t)) (N.of_nat (length (encode (utf8 1) t))) u = Ok (u, (-4)%Z)) /\
  cp_check_word (utf8 1) A (repeat 7 48) (Some (encode (utf8 1) t)) (N.of_nat (length (encode (utf8 1) t))) 0 = Ok 0%Z /\
  exists r, find_match note A (repeat 7 48) (repeat 9 48) (Some t) 24 [] = Ok (r, 0%Z).
Proof.
  exists wild_arrays, demo2_lexicon, (repeat 224 24). split; [apply wild_holds|]. split; [repeat constructor|]. split; [reflexivity|].
  split; [split; [discriminate|vm_compute; reflexivity]|]. split; [intros; reflexivity|]. split; [vm_compute; reflexivity|]. eexists. vm_compute. reflexivity.
Qed.
