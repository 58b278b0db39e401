(** * PyProofs5: forms of guesses, the constructors, checking words and reading attributes in the Python modules. *)
From Coq Require Import String.
From Verif Require Import Base Serial WordTree TreeSpec FlatScan Stems StemSpec CharTables CapScheme CapSpec CapProofs GramMap RusRuntime LevelSpec RusSpec RusProofs PropRusLemmas
  RusBuild RusBuildSpec EngRuntime EngSpec PropEngLemmas EngProofs2 Fuzzy FuzzySpec FuzzyProofs2 FuzzyProofs3 FuzzyProofs4 PropFuzzyLemmas Codepage CodepageSpec Utf8 PropCodepageLemmas WideApi WideSpec WideProofs WideProofs3 PropWideLemmas
  Guess GuessRus GuessSpec GuessProofs GuessProofs2 GuessProofs3 PropGuessLemmas GuessWide GuessWideSpec GuessWideProofs CxxApi Api ApiSpec PropApiLemmas PyApi PySpec PyProofs PyProofs2.
Notation length := List.length.
Local Open Scope N_scope.

(** ** Forms of guesses *)
Lemma variants_no_nul T F i c u id : has_class F i c -> is_bytes u -> ~ In 0 u -> Forall (fun f => ~ In 0 f) (variants_in T c (low_in T u) id).
Proof.
  intros Hc Hb H0. unfold variants_in. rewrite Forall_map. apply Forall_forall. intros f Hf. apply filter_In in Hf as [Hf _]. apply nonul_cased. intros Hin.
  apply in_app_iff in Hin as [Hin|Hin]; [exact (gnonul T u Hb H0 Hin)|]. destruct Hc as [Hok _]. pose proof (co_flex _ Hok) as Hx. rewrite Forall_forall in Hx.
  destruct (Hx f Hf) as (_ & _ & Hx0). contradiction.
Qed.

Theorem py_guess_forms T P F lojunk junk stbuff w i c id : page_ok P -> has_class F i c -> by_form (c_inflex c) -> proper_in T P (text_of P w) -> w <> [] ->
  N.of_nat (length w) < 2 ^ 64 - 1 -> length stbuff = 2048%nat -> workable T junk ->
  (forall f, In f (c_inflex c) -> fst f = id -> (length (text_of P w) + length (snd f) <= longest T)%nat) ->
  let fs := variants_in T c (low_in T (text_of P w)) id in
  listed (map (encode (coding P)) fs) (fit_in (coding P) 2048 fs) (py_guess_form_mb T P F lojunk junk stbuff w i id).
Proof.
  intros HP Hc Hby Hw Hw0 Hlen Hst Hj Hf fs.
  assert (Hm : stbuff <> []) by (intros ->; discriminate).
  pose proof (gbuild_exact T P F lojunk junk stbuff w (py_text w) (py_count w) i c id HP Hc Hby Hw Hw0 (py_given w Hlen) Hm Hj Hf) as [D1 D2]. fold fs in D1, D2.
  unfold bytes in D1, D2. rewrite Hst in D1, D2. unfold py_guess_form_mb. destruct Hw as (Hb & _ & _ & _ & _ & H0). apply py_forms_ok.
  - apply Forall_map. refine (Forall_impl _ _ (variants_no_nul T F i c _ id Hc Hb H0)). intros f Hx. apply encode_no_nul; [exact HP|exact Hx].
  - intros H. rewrite map_length. eexists. exact (D1 (conj I H)).
  - intros H. destruct (D2 (fun K => H (proj2 K))) as (mem & _ & E). exists mem. exact E.
Qed.

Theorem py_guess_forms_wide W T F lojunk junk slemma szform stbuff w i c id : wide_ok W -> has_class F i c -> by_form (c_inflex c) ->
  proper_in T Win1251 (narrowed W w) -> (length w + wslack W <= 64)%nat -> length szform = 96%nat -> length stbuff = 2048%nat -> workable T junk ->
  (forall f, In f (c_inflex c) -> fst f = id -> (length w + length (snd f) <= longest T)%nat) ->
  let fs := variants_in T c (low_in T (narrowed W w)) id in
  listed (map (widened W) fs) (guess_fit 2048 fs) (py_guess_form_wc W T F lojunk junk slemma szform stbuff w i id).
Proof.
  intros HW Hc Hby Hw Hlen Hsz Hst Hj Hf fs.
  assert (Hm : stbuff <> []) by (intros ->; discriminate).
  assert (Hl : N.of_nat (length w) < 2 ^ 64 - 1).
  { apply N.le_lt_trans with (N.of_nat 64); [lia|]. vm_compute. reflexivity. }
  assert (Hsh : short_stem W w (py_count w)). { split; [exact Hlen|]. unfold py_count. intros K. rewrite K in Hl. exfalso. revert Hl. apply N.lt_irrefl. }
  pose proof (wg_build_exact W HW T F lojunk junk slemma szform stbuff w (w ++ [0]) (py_count w) i c id Hc Hby Hw (py_given w Hl) Hsh Hj Hsz Hf) as (_ & D1 & D2).
  fold fs in D1, D2. specialize (D1 Hm). specialize (D2 Hm). rewrite Hst in D1, D2. unfold py_guess_form_wc. destruct Hw as (Hb & _ & _ & _ & _ & H0). apply py_forms_ok.
  - apply Forall_map. refine (Forall_impl _ _ (variants_no_nul T F i c _ id Hc Hb H0)). intros f Hx. apply widen_no_nul; [exact HW|exact Hx].
  - intros H. rewrite map_length. eexists. rewrite <- (widen_joined W fs HW). exact (D1 H).
  - intros H. eexists. exact (D2 H).
Qed.

(** ** Constructors *)
Lemma py_new_rus magic codepage name : magic = MORPH_MAGIC \/ magic = FUZZY_MAGIC -> passed name (codepage ++ [0]) ->
  (exists i, names i name /\ py_rus_new magic codepage = Ok (Made i)) \/ (forall i, ~ names i name) /\ py_rus_new magic codepage = Ok Refused.
Proof.
  intros Hm Hp. assert (Hl : length magic = 15%nat) by (destruct Hm as [->| ->]; reflexivity). unfold py_rus_new, py_new. change [58] with (text ":").
  destruct (get_api_found magic name _ Hl Hp) as [(i & Hi & E)|(Hno & E)]; [left; exists i; split; [exact Hi|]|right; split; [exact Hno|]]; rewrite E; reflexivity.
Qed.
Lemma py_new_eng magic codepage name : magic = MORPH_MAGIC \/ magic = FUZZY_MAGIC -> passed name (codepage ++ [0]) ->
  names WcInstance name /\ py_eng_new magic codepage = Ok (Made WcInstance) \/ ~ names WcInstance name /\ py_eng_new magic codepage = Ok (Made Mb1251).
Proof.
  intros Hm Hp. assert (Hl : length magic = 15%nat) by (destruct Hm as [->| ->]; reflexivity). unfold py_eng_new, py_new. change [58] with (text ":").
  destruct (eng_get_api_found magic name _ Hl Hp) as [(Hi & E)|(Hno & E)]; [left; split; [exact Hi|]|right; split; [exact Hno|]]; rewrite E; reflexivity.
Qed.

(** ** Checking *)
Lemma py_check P A L w t junk dwsets : page_ok P -> (slack (coding P) <= 1)%nat ->
  holds A L -> bounds_ok L -> spells (coding P) w t -> N.of_nat (length w) < 2 ^ 64 - 1 -> is_bytes t -> t <> [] -> (length t < 48)%nat -> (length (parts rus_casing t) <= 8)%nat ->
  (forall key e part g f, word_of L (ignores_capitals dwsets) t key e part g f -> reachable e part) ->
  py_check_word P A junk w dwsets = Ok 1%Z /\ (exists key e part g f, word_of L (ignores_capitals dwsets) t key e part g f) \/
  py_check_word P A junk w dwsets = Ok 0%Z /\ ~ (exists key e part g f, word_of L (ignores_capitals dwsets) t key e part g f).
Proof.
  intros HP Hs HL HB Hsp Hl Hb Ht Hlt Hparts Hr. rewrite <- py_sets_ignore in *. unfold py_check_word, page_check_word. pose proof (py_given w Hl) as Hg. destruct P as [|E|E].
  - destruct Hsp as [_ Hsp]. cbn [coding plain dec] in Hsp. subst t. apply check_exact; assumption.
  - apply (cp_check_exact E A Hs L w t); assumption.
  - apply (cp_check_exact E A Hs L w t); assumption.
Qed.
Lemma py_echeck A L w junk dwsets : eholds A L -> ebounds_ok L -> is_bytes w -> w <> [] -> (length w < 48)%nat -> (length (parts eng_casing w) <= 8)%nat ->
  (forall key e part id, eword_of L (ignores_capitals dwsets) w key e part id -> reachable e part) ->
  py_echeck_word A junk w dwsets = Ok 1%Z /\ (exists key e part id, eword_of L (ignores_capitals dwsets) w key e part id) \/
  py_echeck_word A junk w dwsets = Ok 0%Z /\ ~ (exists key e part id, eword_of L (ignores_capitals dwsets) w key e part id).
Proof.
  intros HL HB Hb Ht Hlt Hparts Hr. rewrite <- py_sets_ignore in *. unfold py_echeck_word.
  assert (Hl : N.of_nat (length w) < 2 ^ 64 - 1) by (apply N.le_lt_trans with (N.of_nat 48); [lia|vm_compute; reflexivity]).
  apply echeck_exact; try assumption. apply py_given, Hl.
Qed.
Lemma py_wcheck W A L w junk szword dwsets : wide_ok W -> holds A L -> bounds_ok L -> let t := narrowed W w in w <> [] -> (length w < 48)%nat -> (length (parts rus_casing t) <= 8)%nat ->
  (forall key e part g f, word_of L (ignores_capitals dwsets) t key e part g f -> reachable e part) ->
  py_wcheck_word W A junk szword w dwsets = Ok 1%Z /\ (exists key e part g f, word_of L (ignores_capitals dwsets) t key e part g f) \/
  py_wcheck_word W A junk szword w dwsets = Ok 0%Z /\ ~ (exists key e part g f, word_of L (ignores_capitals dwsets) t key e part g f).
Proof.
  intros HW HL HB t Ht Hlt Hparts Hr. rewrite <- py_sets_ignore in *. unfold py_wcheck_word.
  assert (Hl : N.of_nat (length w) < 2 ^ 64 - 1) by (apply N.le_lt_trans with (N.of_nat 48); [lia|vm_compute; reflexivity]).
  apply (wc_check_exact W A L w); try assumption. apply py_given, Hl.
Qed.
Lemma py_wecheck W A L w junk szword dwsets : wide_ok W -> eholds A L -> ebounds_ok L -> let t := narrowed W w in w <> [] -> (length w < 48)%nat -> (length (parts eng_casing t) <= 8)%nat ->
  (forall key e part id, eword_of L (ignores_capitals dwsets) t key e part id -> reachable e part) ->
  py_wecheck_word W A junk szword w dwsets = Ok 1%Z /\ (exists key e part id, eword_of L (ignores_capitals dwsets) t key e part id) \/
  py_wecheck_word W A junk szword w dwsets = Ok 0%Z /\ ~ (exists key e part id, eword_of L (ignores_capitals dwsets) t key e part id).
Proof.
  intros HW HL HB t Ht Hlt Hparts Hr. rewrite <- py_sets_ignore in *. unfold py_wecheck_word.
  assert (Hl : N.of_nat (length w) < 2 ^ 64 - 1) by (apply N.le_lt_trans with (N.of_nat 48); [lia|vm_compute; reflexivity]).
  apply (wc_echeck_exact W A L w); try assumption. apply py_given, Hl.
Qed.

(** ** Strings *)
Definition str_char (c : N) : bool :=
  match utf8_char (to_unicode c) with
  | [a] => (a <? 128) && (a =? to_unicode c)
  | [a; b] => (194 <=? a) && (a <? 224) && tail_byte b && ((a - 192) * 64 + (b - 128) =? to_unicode c)
  | [a; b; d] => (224 <=? a) && (a <? 240) && tail_byte b && tail_byte d && negb ((a =? 224) && (b <? 160)) && negb ((a =? 237) && (160 <=? b)) &&
      ((a - 224) * 4096 + (b - 128) * 64 + (d - 128) =? to_unicode c)
  | _ => false
  end.
Lemma str_chars : forallb (fun n => str_char (N.of_nat n)) (seq 0 256) = true.
Proof. vm_compute. reflexivity. Qed.
Lemma str_char_ok c : c < 256 -> str_char c = true.
Proof.
  intros H. pose proof str_chars as F. rewrite forallb_forall in F. specialize (F (N.to_nat c)). rewrite N2Nat.id in F. apply F. apply in_seq. lia.
Qed.
Lemma decode_step c : c < 256 -> forall fuel s, py_decode (S fuel) (utf8_char (to_unicode c) ++ s) = option_map (cons (to_unicode c)) (py_decode fuel s).
Proof.
  intros H fuel s. apply str_char_ok in H. unfold str_char in H. destruct (utf8_char (to_unicode c)) as [|a [|b [|d [|]]]]; try discriminate; cbn [app py_decode].
  - apply andb_prop in H as [-> H]. apply N.eqb_eq in H. rewrite <- H. reflexivity.
  - apply andb_prop in H as [H H4]. apply andb_prop in H as [H H3]. apply andb_prop in H as [H1 H2]. apply N.eqb_eq in H4. rewrite <- H4, H1, H2, H3.
    apply N.leb_le in H1. replace (a <? 128) with false by (symmetry; apply N.ltb_ge; lia). reflexivity.
  - repeat (apply andb_prop in H as [H ?]). apply N.eqb_eq in H0. rewrite <- H0. rewrite H, H1, H2, H3, H4, H5. apply N.leb_le in H.
    replace (a <? 128) with false by (symmetry; apply N.ltb_ge; lia). replace (a <? 224) with false by (symmetry; apply N.ltb_ge; lia). rewrite andb_false_r. reflexivity.
Qed.
Lemma decode_more fuel : forall s l, py_decode fuel s = Some l -> forall n, (fuel <= n)%nat -> py_decode n s = Some l.
Proof.
  induction fuel as [|fuel IH]; intros s l H n Hn.
  - destruct s; [|discriminate]. destruct n; exact H.
  - destruct n as [|n]; [lia|]. destruct s as [|a s1]; [exact H|]. cbn [py_decode] in *.
    assert (K : forall x s', option_map (cons x) (py_decode fuel s') = Some l -> option_map (cons x) (py_decode n s') = Some l).
    { intros x s' K. destruct (py_decode fuel s') as [l'|] eqn:E; [|discriminate]. rewrite (IH s' l' E n) by lia. exact K. }
    destruct (a <? 128); [apply K, H|]. destruct ((194 <=? a) && (a <? 224)).
    { destruct s1 as [|b s2]; [discriminate|]. destruct (tail_byte b); [apply K, H|discriminate]. }
    destruct ((224 <=? a) && (a <? 240)).
    { destruct s1 as [|b [|c s3]]; try discriminate. destruct (_ && _ && _ && _); [apply K, H|discriminate]. }
    destruct ((240 <=? a) && (a <? 245)); [|discriminate].
    destruct s1 as [|b [|c [|d s4]]]; try discriminate. destruct (_ && _ && _ && _ && _); [apply K, H|discriminate].
Qed.
Lemma utf8_char_length u : (1 <= length (utf8_char u))%nat.
Proof. unfold utf8_char. destruct (u <? 128); [|destruct (u <? 2048)]; cbn [length]; lia. Qed.

(** the text of a lemma written in UTF-8 is read back *)
Theorem py_str_utf8 k s : is_bytes s -> py_str (encode (utf8 k) s) = Some (map to_unicode s).
Proof.
  intros Hb. unfold py_str.
  assert (H : py_decode (length s) (encode (utf8 k) s) = Some (map to_unicode s) /\ (length s <= length (encode (utf8 k) s))%nat).
  { induction s as [|c s IH]; [split; [reflexivity|cbn; lia]|]. inversion Hb as [|? ? Hc Hs]; subst. destruct (IH Hs) as [IH1 IH2].
    unfold encode in *. cbn [flat_map enc utf8 length map]. cbn [enc utf8] in IH1, IH2. rewrite decode_step by exact Hc. rewrite IH1. split; [reflexivity|].
    rewrite app_length. pose proof (utf8_char_length (to_unicode c)). unfold bytes in *. lia. }
  destruct H as [H1 H2]. exact (decode_more _ _ _ H1 _ H2).
Qed.

(** a text written in windows-1251 that has a Cyrillic letter and nothing but letters is not *)
Lemma py_str_cyrillic s : s <> [] -> Forall (fun c => 192 <= c < 256) s -> py_str s = None.
Proof.
  intros Hs Hf. unfold py_str. destruct s as [|a s1]; [congruence|]. inversion Hf as [|? ? Ha H1]; subst. clear Hs Hf. cbn [length py_decode].
  replace (a <? 128) with false by (symmetry; apply N.ltb_ge; lia).
  assert (Ht : forall b, 192 <= b < 256 -> tail_byte b = false). { intros b Hb. unfold tail_byte. replace (b <? 192) with false by (symmetry; apply N.ltb_ge; lia). apply andb_false_r. }
  destruct ((194 <=? a) && (a <? 224)). { destruct s1 as [|b s2]; [reflexivity|]. inversion H1; subst. rewrite Ht by assumption. reflexivity. }
  destruct ((224 <=? a) && (a <? 240)). { destruct s1 as [|b [|c s3]]; try reflexivity. inversion H1; subst. rewrite Ht by assumption. reflexivity. }
  destruct ((240 <=? a) && (a <? 245)); [|reflexivity]. destruct s1 as [|b [|c [|d s4]]]; try reflexivity. inversion H1; subst. rewrite Ht by assumption. reflexivity.
Qed.
