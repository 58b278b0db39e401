(** * LettersProofs: the game of five letters. *)
From Verif Require Import Base Letters LettersSpec.
Local Open Scope N_scope.

Lemma letter_bit_ok c : is_letter c -> letter_bit c = Ok (2 ^ (c - 1072)).
Proof. intros [H1 H2]. unfold letter_bit. replace ((1072 <=? c) && (c <=? 1103)) with true by lia. reflexivity. Qed.
Lemma land_bit x k : N.land x (2 ^ k) =? 0 = negb (N.testbit x k).
Proof.
  destruct (N.testbit x k) eqn:E; cbn [negb].
  - apply N.eqb_neq. intros H. assert (K : N.testbit (N.land x (2 ^ k)) k = true) by (rewrite N.land_spec, E, N.pow2_bits_true; reflexivity). rewrite H, N.bits_0 in K. discriminate.
  - apply N.eqb_eq. apply N.bits_inj. intros j. rewrite N.land_spec, N.bits_0, N.pow2_bits_eqb. destruct (N.eqb_spec k j) as [->|]; [rewrite E; reflexivity|apply andb_false_r].
Qed.

Lemma is_excluded_ok : forall str exc, Forall is_letter str -> exists b, is_excluded str exc = Ok b /\ (b = true <-> exists c, In c str /\ N.testbit exc (c - 1072) = true).
Proof.
  induction str as [|c str IH]; intros exc H.
  - exists false. split; [reflexivity|]. split; [discriminate|intros (c & [] & _)].
  - inversion H as [|? ? Hc Hs]; subst. cbn [is_excluded]. rewrite letter_bit_ok by exact Hc. cbn [bind]. rewrite land_bit, negb_involutive.
    destruct (N.testbit exc (c - 1072)) eqn:E.
    + exists true. split; [reflexivity|]. split; [|reflexivity]. intros _. exists c. split; [left; reflexivity|exact E].
    + destruct (IH exc Hs) as (b & Eb & Hb). exists b. split; [exact Eb|]. rewrite Hb. split; intros (c' & Hi & Ht); exists c'; (split; [|exact Ht]).
      * right. exact Hi.
      * destruct Hi as [<-|Hi]; [congruence|exact Hi].
Qed.
Lemma is_included_ok : forall str inc, Forall is_letter str -> exists b, is_included str inc = Ok b /\ (b = true <-> forall k, N.testbit inc k = true -> exists c, In c str /\ c - 1072 = k).
Proof.
  induction str as [|c str IH]; intros inc H.
  - exists (inc =? 0). split; [reflexivity|]. split.
    + intros E k Hk. apply N.eqb_eq in E. subst inc. rewrite N.bits_0 in Hk. discriminate.
    + intros Hk. apply N.eqb_eq. apply N.bits_inj. intros j. rewrite N.bits_0. destruct (N.testbit inc j) eqn:E; [|reflexivity]. destruct (Hk j E) as (c & [] & _).
  - inversion H as [|? ? Hc Hs]; subst. cbn [is_included]. rewrite letter_bit_ok by exact Hc. cbn [bind]. destruct (IH (N.ldiff inc (2 ^ (c - 1072))) Hs) as (b & Eb & Hb).
    exists b. split; [exact Eb|]. rewrite Hb. split; intros K k Hk.
    + destruct (N.eq_dec (c - 1072) k) as [E|E]; [exists c; split; [left; reflexivity|exact E]|].
      destruct (K k) as (c' & Hi & Ek); [|exists c'; split; [right; exact Hi|exact Ek]]. rewrite N.ldiff_spec, Hk, N.pow2_bits_false by exact E. reflexivity.
    + rewrite N.ldiff_spec in Hk. apply andb_true_iff in Hk as [Hk Hn]. destruct (K k Hk) as (c' & [<-|Hi] & Ek); [|exists c'; split; assumption].
      rewrite Ek, N.pow2_bits_true in Hn. discriminate.
Qed.

(** Allowed by the masks. *)
Definition allowed (exclude include : N) (w : wstring) : Prop :=
  (forall c, In c w -> N.testbit exclude (c - 1072) = false) /\ forall k, N.testbit include k = true -> exists c, In c w /\ c - 1072 = k.

Lemma take_matches_ok exclude include : forall ms, (forall w id, In (w, id) ms -> id = 0 \/ id = 255 -> Forall is_letter w) ->
  exists l, take_matches exclude include ms = Ok l /\ forall w, In w l <-> exists id, In (w, id) ms /\ (id = 0 \/ id = 255) /\ allowed exclude include w.
Proof.
  induction ms as [|[ws id] ms IH]; intros H.
  - exists []. split; [reflexivity|]. intros w. split; [intros []|intros (id & [] & _)].
  - destruct IH as (more & Em & Hm); [intros w i Hi; apply (H w i); right; exact Hi|]. cbn [take_matches].
    assert (Hp : exists pushed, take_match exclude include ws id = Ok pushed /\
      forall w, In w pushed <-> w = ws /\ (id = 0 \/ id = 255) /\ allowed exclude include w).
    { unfold take_match. destruct ((id =? 0) || (id =? 255)) eqn:Hid.
      - assert (Hid' : id = 0 \/ id = 255) by lia. destruct (is_excluded_ok ws exclude (H ws id (or_introl eq_refl) Hid')) as (b & -> & Hb). cbn [bind]. destruct b.
        + exists []. split; [reflexivity|]. intros w. split; [intros []|]. intros (-> & _ & Ha & _). destruct (proj1 Hb eq_refl) as (c & Hc & Ht). rewrite (Ha c Hc) in Ht. discriminate.
        + destruct (is_included_ok ws include (H ws id (or_introl eq_refl) Hid')) as (i & -> & Hi). cbn [bind].
          assert (Hex : forall c, In c ws -> N.testbit exclude (c - 1072) = false).
          { intros c Hc. destruct (N.testbit exclude (c - 1072)) eqn:E; [|reflexivity]. assert (K : false = true) by (apply Hb; exists c; split; assumption). discriminate. }
          exists (if i then [ws] else []). split; [reflexivity|]. intros w. split.
          * destruct i; [|intros []]. intros [<-|[]]. split; [reflexivity|]. split; [exact Hid'|]. split; [exact Hex|]. apply Hi. reflexivity.
          * intros (-> & _ & _ & Ha). rewrite (proj2 Hi Ha). left. reflexivity.
      - exists []. split; [reflexivity|]. intros w. split; [intros []|]. intros (_ & Hx & _). lia. }
    destruct Hp as (pushed & -> & Hpu). cbn [bind]. rewrite Em. cbn [bind]. eexists. split; [reflexivity|]. intros w. rewrite in_app_iff, Hpu, Hm. split.
    + intros [(-> & Hi & Ha)|(i & Hi & Hx & Ha)]; [exists id; split; [left; reflexivity|split; assumption]|exists i; split; [right; exact Hi|split; assumption]].
    + intros (i & [Hi|Hi] & Hx & Ha); [left; injection Hi as <- <-; split; [reflexivity|split; assumption]|right; exists i; split; [exact Hi|split; assumption]].
Qed.

Lemma take_calls_ok wd exclude include : forall calls,
  (forall lex ms w id, In (lex, ms) calls -> 7 <= wd lex <= 23 -> In (w, id) ms -> id = 0 \/ id = 255 -> Forall is_letter w) ->
  exists l, take_calls wd exclude include calls = Ok l /\
    forall w, In w l <-> (exists lex ms id, In (lex, ms) calls /\ 7 <= wd lex <= 23 /\ In (w, id) ms /\ (id = 0 \/ id = 255)) /\ allowed exclude include w.
Proof.
  induction calls as [|[lex ms] calls IH]; intros H.
  - exists []. split; [reflexivity|]. intros w. split; [intros []|]. intros ((lex & ms & id & [] & _) & _).
  - destruct IH as (more & Em & Hm); [intros l m w i Hi; apply (H l m w i); right; exact Hi|]. cbn [take_calls].
    assert (Hp : exists found, (if (7 <=? wd lex) && (wd lex <=? 23) then take_matches exclude include ms else Ok []) = Ok found /\
      forall w, In w found <-> 7 <= wd lex <= 23 /\ exists id, In (w, id) ms /\ (id = 0 \/ id = 255) /\ allowed exclude include w).
    { destruct ((7 <=? wd lex) && (wd lex <=? 23)) eqn:Hw.
      - assert (Hw' : 7 <= wd lex <= 23) by lia. destruct (take_matches_ok exclude include ms) as (l & -> & Hl); [intros w i; apply (H lex ms w i); [left; reflexivity|exact Hw']|].
        exists l. split; [reflexivity|]. intros w. rewrite Hl. tauto.
      - exists []. split; [reflexivity|]. intros w. split; [intros []|]. intros (Hx & _). lia. }
    destruct Hp as (found & -> & Hf). cbn [bind]. rewrite Em. cbn [bind]. eexists. split; [reflexivity|]. intros w. rewrite in_app_iff, Hf, Hm. split.
    + intros [(Hw & id & Hi & Hx & Ha)|((l & m & id & Hi & Hr) & Ha)]; (split; [|exact Ha]).
      * exists lex, ms, id. split; [left; reflexivity|]. tauto.
      * exists l, m, id. split; [right; exact Hi|exact Hr].
    + intros ((l & m & id & [Hi|Hi] & Hw & Hm' & Hx) & Ha).
      * injection Hi as <- <-. left. split; [exact Hw|]. exists id. tauto.
      * right. split; [|exact Ha]. exists l, m, id. tauto.
Qed.

Lemma get_wordset_ok find wd nouns pattern exclude include : dictionary_of find wd nouns -> Forall (Forall is_letter) nouns -> pattern_ok pattern ->
  exists l, get_wordset find wd pattern exclude include = Ok l /\ forall w, In w l <-> (In w nouns /\ fits pattern w) /\ allowed exclude include w.
Proof.
  intros Hd Hn Hp. unfold get_wordset. destruct (take_calls_ok wd exclude include (find pattern)) as (l & E & Hl).
  - intros lex ms w id Hi Hw Hm Hx. rewrite Forall_forall in Hn. apply Hn. apply (Hd pattern Hp w). exists lex, ms, id. tauto.
  - exists l. split; [exact E|]. intros w. rewrite Hl. specialize (Hd pattern Hp w). unfold noun_found in Hd. rewrite Hd. tauto.
Qed.

Lemma weight_cons c w : weight (c :: w) = nth (N.to_nat (c - 1072)) char_rank 0 + weight w.
Proof. reflexivity. Qed.
Lemma ranks_small i : nth i char_rank 0 <= 8450.
Proof.
  assert (F : Forall (fun r => r <= 8450) char_rank) by (repeat (constructor; [lia|]); constructor). rewrite Forall_forall in F.
  destruct (nth_in_or_default i char_rank 0) as [H| ->]; [exact (F _ H)|lia].
Qed.
Lemma word_rank_ok : forall w r, Forall is_letter w -> r + 8450 * N.of_nat (length w) < 2 ^ 32 -> word_rank w r = Ok (r + weight w).
Proof.
  induction w as [|c w IH]; intros r H Hb; [cbn [word_rank]; unfold weight; cbn [fold_right]; rewrite N.add_0_r; reflexivity|]. inversion H as [|? ? [H1 H2] Hw]; subst. cbn [word_rank]. destruct (N.ltb_spec c 1072); [lia|].
  rewrite weight_cons. pose proof (ranks_small (N.to_nat (c - 1072))) as Hr. cbn [length] in Hb.
  destruct (nth_error char_rank (N.to_nat (c - 1072))) as [x|] eqn:E; [|apply nth_error_None in E; change (length char_rank) with 32%nat in E; lia].
  rewrite (nth_error_nth _ _ 0 E) in *. set (M := 2 ^ 32) in *. clearbody M. rewrite N.mod_small by lia. rewrite IH; [f_equal; lia|exact Hw|lia].
Qed.

Lemma tested_spec w tested : existsb (same_word w) tested = true <-> In w tested.
Proof.
  rewrite existsb_exists. unfold same_word. split.
  - intros (x & Hi & Hx). destruct (list_eq_dec N.eq_dec w x); [subst; exact Hi|discriminate].
  - intros Hi. exists w. split; [exact Hi|]. destruct (list_eq_dec N.eq_dec w w); [reflexivity|congruence].
Qed.

Lemma select_ok tested : forall hypots best, Forall (fun w => five w /\ Forall is_letter w) hypots -> (forall w r, best = Some (w, r) -> r = weight w) ->
  exists o, select_word tested hypots best = Ok o /\
    match o with
    | Some w => ((In w hypots /\ ~ In w tested) \/ (exists r, best = Some (w, r))) /\ (forall x, In x hypots -> ~ In x tested -> weight x <= weight w) /\ (forall x r, best = Some (x, r) -> weight x <= weight w)
    | None => best = None /\ forall w, In w hypots -> In w tested
    end.
Proof.
  induction hypots as [|w hypots IH]; intros best H Hbest.
  - exists (option_map fst best). split; [reflexivity|]. destruct best as [[w r]|]; cbn [option_map fst]; [|split; [reflexivity|intros w []]].
    split; [right; exists r; reflexivity|]. split; [intros x []|]. intros x r' E. injection E as -> ->. lia.
  - inversion H as [|? ? [H5 Hw] Hh]; subst. cbn [select_word]. destruct (existsb (same_word w) tested) eqn:E.
    + destruct (IH best Hh Hbest) as (o & Eo & Ho). exists o. split; [exact Eo|]. destruct o as [x|].
      * destruct Ho as [Ho [Hmax Hmax2]]. split; [destruct Ho as [[H1 H2]|Ho]; [left; split; [right; exact H1|exact H2]|right; exact Ho]|]. split; [|exact Hmax2].
        intros y [<-|Hy] Hny; [exfalso; apply Hny, tested_spec; exact E|exact (Hmax y Hy Hny)].
      * destruct Ho as [H1 H2]. split; [exact H1|]. intros y [<-|Hy]; [apply tested_spec; exact E|exact (H2 y Hy)].
    + rewrite (word_rank_ok w 0 Hw) by (rewrite H5; reflexivity). cbn [bind]. rewrite N.add_0_l.
      assert (Hnt : ~ In w tested) by (intros K; apply tested_spec in K; congruence).
      match goal with |- exists o, select_word _ _ ?b = _ /\ _ => destruct (IH b Hh) as (o & Eo & Ho); [|exists o; split; [exact Eo|]; set (b' := b) in *] end.
      { intros x r Ex. destruct best as [[w' r']|]; [|injection Ex as <- <-; reflexivity]. destruct (r' <? weight w); [injection Ex as <- <-; reflexivity|exact (Hbest x r Ex)]. }
      assert (Hb : exists x, b' = Some x /\ (x = (w, weight w) \/ best = Some x) /\ weight w <= weight (fst x) /\ forall y r, best = Some (y, r) -> weight y <= weight (fst x)).
      { unfold b'. destruct best as [[w' r']|]; [|exists (w, weight w); split; [reflexivity|]; split; [left; reflexivity|]; split; [cbn [fst]; lia|discriminate]].
        pose proof (Hbest w' r' eq_refl) as Er. destruct (N.ltb_spec r' (weight w)).
        - exists (w, weight w). split; [reflexivity|]. split; [left; reflexivity|]. split; [cbn [fst]; lia|]. intros y r E2. injection E2 as <- _. cbn [fst]. lia.
        - exists (w', r'). split; [reflexivity|]. split; [right; reflexivity|]. split; [cbn [fst]; lia|]. intros y r E2. injection E2 as <- _. cbn [fst]. lia. }
      destruct Hb as (x & Ex & Hx & Hwx & Hbx). destruct o as [y|]; [|destruct Ho as [Ho _]; congruence].
      destruct Ho as [Ho [Hmax Hmax2]]. assert (Hxy : weight (fst x) <= weight y) by (destruct x as [x r]; exact (Hmax2 x r Ex)). split; [|split].
      * destruct Ho as [[H1 H2]|(ry & Hy)]; [left; split; [right; exact H1|exact H2]|]. rewrite Ex in Hy. injection Hy as ->.
        destruct Hx as [Hx|Hx]; [injection Hx as -> ->; left; split; [left; reflexivity|exact Hnt]|right; exists ry; exact Hx].
      * intros z [<-|Hz] Hnz; [lia|exact (Hmax z Hz Hnz)].
      * intros z r Ez. pose proof (Hbx z r Ez). lia.
Qed.

Lemma existsb_in c l : existsb (N.eqb c) l = if in_dec N.eq_dec c l then true else false.
Proof.
  destruct (in_dec N.eq_dec c l) as [H|H]; [apply existsb_exists; exists c; split; [exact H|apply N.eqb_refl]|].
  destruct (existsb (N.eqb c) l) eqn:E; [|reflexivity]. apply existsb_exists in E as (x & Hx & E). apply N.eqb_eq in E. subst x. contradiction.
Qed.
Lemma mark_eq task c : mark task c c = c.
Proof. unfold mark. rewrite N.eqb_refl. reflexivity. Qed.
Lemma mark_ne task s c : s <> c -> mark task s c = if in_dec N.eq_dec c task then 43 else 45.
Proof. intros H. unfold mark. destruct (N.eqb_spec s c); [contradiction|reflexivity]. Qed.
Lemma check_letters_ok task : forall rest word, length rest = length word ->
  exists b, check_letters task rest word = Ok (map (fun sc => mark task (fst sc) (snd sc)) (combine rest word), b) /\ (b = true <-> rest = word).
Proof.
  induction rest as [|t rest IH]; intros [|c word] H; try discriminate.
  - exists true. split; [reflexivity|]. split; reflexivity.
  - injection H as H. destruct (IH word H) as (b & E & Hb). cbn [check_letters combine map fst snd]. rewrite E. cbn [bind].
    destruct (N.eqb_spec t c) as [->|Hn].
    + rewrite mark_eq. exists b. split; [reflexivity|]. rewrite Hb. split; [intros ->; reflexivity|congruence].
    + exists false. rewrite existsb_in, mark_ne by exact Hn. destruct (in_dec N.eq_dec c task); (split; [reflexivity|]); (split; [discriminate|congruence]).
Qed.

Lemma learn_ok task : forall sample word search inc exc, length word = length sample -> length search = length sample -> Forall is_letter word ->
  exists search' inc' exc', learn sample word (map (fun sc => mark task (fst sc) (snd sc)) (combine sample word)) search inc exc = Ok (search', inc', exc') /\
    length search' = length sample /\ (Forall (fun q => q = 63 \/ is_letter q) search -> Forall (fun q => q = 63 \/ is_letter q) search') /\ (fits search sample -> fits search' sample) /\
    (forall k, N.testbit inc' k = true -> N.testbit inc k = true \/ In (1072 + k) task) /\
    (forall k, N.testbit exc' k = true -> N.testbit exc k = true \/ ~ In (1072 + k) task).
Proof.
  induction sample as [|s sample IH]; intros [|c word] [|q search] inc exc Hw Hs Hl; try discriminate.
  - exists [], inc, exc. split; [reflexivity|]. split; [reflexivity|]. split; [auto|]. split; [auto|]. split; auto.
  - injection Hw as Hw. injection Hs as Hs. inversion Hl as [|? ? Hc Hl']; subst. cbn [combine map fst snd learn].
    assert (Hb : make_mask [c] 0 = Ok (2 ^ (c - 1072))) by (cbn [make_mask]; rewrite letter_bit_ok by exact Hc; reflexivity).
    assert (Hk : forall x k, N.testbit (N.lor x (2 ^ (c - 1072))) k = true -> N.testbit x k = true \/ 1072 + k = c).
    { intros x k. rewrite N.lor_spec, orb_true_iff, N.pow2_bits_eqb, N.eqb_eq. unfold is_letter in Hc. intros [K|K]; [left; exact K|right; lia]. }
    destruct (N.eq_dec s c) as [->|Hsc].
    + rewrite mark_eq, N.eqb_refl. destruct (IH word search inc exc Hw Hs Hl') as (s' & i' & e' & E & L1 & L2 & L3 & L4 & L5). rewrite E. cbn [bind].
      exists (c :: s'), i', e'. split; [reflexivity|]. split; [cbn [length]; congruence|]. split.
      { intros F. inversion F; subst. constructor; [right; exact Hc|apply L2; assumption]. }
      split; [|split; assumption]. intros F. inversion F; subst. constructor; [right; reflexivity|apply L3; assumption].
    + rewrite mark_ne by exact Hsc. destruct (in_dec N.eq_dec c task) as [Hin|Hin].
      * replace (43 =? c) with false by (unfold is_letter in Hc; lia). cbn [N.eqb Pos.eqb]. rewrite Hb. cbn [bind].
        destruct (IH word search (N.lor inc (2 ^ (c - 1072))) exc Hw Hs Hl') as (s' & i' & e' & E & L1 & L2 & L3 & L4 & L5). rewrite E. cbn [bind].
        exists (q :: s'), i', e'. split; [reflexivity|]. split; [cbn [length]; congruence|]. split.
        { intros F. inversion F; subst. constructor; [assumption|apply L2; assumption]. }
        split; [intros F; inversion F; subst; constructor; [assumption|apply L3; assumption]|]. split; [|exact L5].
        intros k K. destruct (L4 k K) as [K'|K']; [|right; exact K']. destruct (Hk inc k K') as [K2|K2]; [left; exact K2|right; rewrite K2; exact Hin].
      * replace (45 =? c) with false by (unfold is_letter in Hc; lia). cbn [N.eqb Pos.eqb]. rewrite Hb. cbn [bind].
        destruct (IH word search inc (N.lor exc (2 ^ (c - 1072))) Hw Hs Hl') as (s' & i' & e' & E & L1 & L2 & L3 & L4 & L5). rewrite E. cbn [bind].
        exists (q :: s'), i', e'. split; [reflexivity|]. split; [cbn [length]; congruence|]. split.
        { intros F. inversion F; subst. constructor; [assumption|apply L2; assumption]. }
        split; [intros F; inversion F; subst; constructor; [assumption|apply L3; assumption]|]. split; [exact L4|].
        intros k K. destruct (L5 k K) as [K'|K']; [|right; exact K']. destruct (Hk exc k K') as [K2|K2]; [left; exact K2|right; rewrite K2; exact Hin].
Qed.

(** What is known after a guess. *)
Definition knows (task sample t search : wstring) (inc exc : N) : Prop :=
  forall i s c, nth_error sample i = Some s -> nth_error t i = Some c ->
    (s = c -> nth_error search i = Some c) /\
    (s <> c -> (In c task -> N.testbit inc (c - 1072) = true) /\ (~ In c task -> N.testbit exc (c - 1072) = true)).
Definition keeps (sample search search' : wstring) (inc inc' exc exc' : N) : Prop :=
  (forall i s, nth_error sample i = Some s -> nth_error search i = Some s -> nth_error search' i = Some s) /\
  (forall k, N.testbit inc k = true -> N.testbit inc' k = true) /\ (forall k, N.testbit exc k = true -> N.testbit exc' k = true).
Lemma lor_bit x k : N.testbit (N.lor x (2 ^ k)) k = true.
Proof. rewrite N.lor_spec, N.pow2_bits_true. apply orb_true_r. Qed.
Lemma lor_keep x y k : N.testbit x k = true -> N.testbit (N.lor x y) k = true.
Proof. intros H. rewrite N.lor_spec, H. reflexivity. Qed.

Lemma learn_knows task : forall sample word search inc exc search' inc' exc', Forall is_letter word ->
  learn sample word (map (fun sc => mark task (fst sc) (snd sc)) (combine sample word)) search inc exc = Ok (search', inc', exc') ->
  knows task sample word search' inc' exc' /\ keeps sample search search' inc inc' exc exc'.
Proof.
  induction sample as [|s sample IH]; intros [|c word] [|q search] inc exc search' inc' exc' Hl E; try discriminate.
  - cbn [learn combine map] in E. injection E as <- <- <-. split; [intros [|i] s c H; discriminate|]. split; [auto|]. split; auto.
  - inversion Hl as [|? ? Hc Hl']; subst. cbn [combine map fst snd learn] in E.
    assert (Hb : make_mask [c] 0 = Ok (2 ^ (c - 1072))) by (cbn [make_mask]; rewrite letter_bit_ok by exact Hc; reflexivity).
    destruct (N.eq_dec s c) as [->|Hsc].
    + rewrite mark_eq, N.eqb_refl in E. destruct (learn sample word _ search inc exc) as [[[s1 i1] e1]|] eqn:El; cbn [bind] in E; try discriminate. injection E as <- <- <-.
      destruct (IH _ _ _ _ _ _ _ Hl' El) as [K (P1 & P2 & P3)]. split.
      * intros [|i] s' c' H1 H2; cbn [nth_error] in *; [|exact (K i s' c' H1 H2)]. injection H1 as <-. injection H2 as <-. split; [reflexivity|congruence].
      * split; [|split; assumption]. intros [|i] s' H1 H2; cbn [nth_error] in *; [exact H1|exact (P1 i s' H1 H2)].
    + rewrite mark_ne in E by exact Hsc. destruct (in_dec N.eq_dec c task) as [Hin|Hin].
      * replace (43 =? c) with false in E by (unfold is_letter in Hc; lia). cbn [N.eqb Pos.eqb] in E. rewrite Hb in E. cbn [bind] in E.
        destruct (learn sample word _ search _ exc) as [[[s1 i1] e1]|] eqn:El; cbn [bind] in E; try discriminate. injection E as <- <- <-.
        destruct (IH _ _ _ _ _ _ _ Hl' El) as [K (P1 & P2 & P3)]. split.
        -- intros [|i] s' c' H1 H2; cbn [nth_error] in *; [|exact (K i s' c' H1 H2)]. injection H1 as <-. injection H2 as <-. split; [congruence|]. intros _. split; [intros _; apply P2, lor_bit|contradiction].
        -- split; [|split; [intros k Hk; apply P2, lor_keep; exact Hk|exact P3]]. intros [|i] s' H1 H2; cbn [nth_error] in *; [exact H2|exact (P1 i s' H1 H2)].
      * replace (45 =? c) with false in E by (unfold is_letter in Hc; lia). cbn [N.eqb Pos.eqb] in E. rewrite Hb in E. cbn [bind] in E.
        destruct (learn sample word _ search inc _) as [[[s1 i1] e1]|] eqn:El; cbn [bind] in E; try discriminate. injection E as <- <- <-.
        destruct (IH _ _ _ _ _ _ _ Hl' El) as [K (P1 & P2 & P3)]. split.
        -- intros [|i] s' c' H1 H2; cbn [nth_error] in *; [|exact (K i s' c' H1 H2)]. injection H1 as <-. injection H2 as <-. split; [congruence|]. intros _. split; [contradiction|intros _; apply P3, lor_bit].
        -- split; [|split; [exact P2|intros k Hk; apply P3, lor_keep; exact Hk]]. intros [|i] s' H1 H2; cbn [nth_error] in *; [exact H2|exact (P1 i s' H1 H2)].
Qed.
Lemma lor_bit_inv c x k : is_letter c -> N.testbit (N.lor x (2 ^ (c - 1072))) k = true -> N.testbit x k = true \/ c - 1072 = k.
Proof. intros Hc. rewrite N.lor_spec, orb_true_iff, N.pow2_bits_eqb, N.eqb_eq. intros H. exact H. Qed.
Definition told (task sample word : wstring) (k : N) (there : Prop -> Prop) : Prop :=
  exists i s c, nth_error sample i = Some s /\ nth_error word i = Some c /\ s <> c /\ there (In c task) /\ c - 1072 = k.
Lemma told_cons task s sample c word k there : told task sample word k there -> told task (s :: sample) (c :: word) k there.
Proof. intros (i & s' & c' & H1 & H2 & Hr). exists (S i), s', c'. split; [exact H1|]. split; [exact H2|exact Hr]. Qed.
Lemma learn_only task : forall sample word search inc exc search' inc' exc', Forall is_letter word ->
  learn sample word (map (fun sc => mark task (fst sc) (snd sc)) (combine sample word)) search inc exc = Ok (search', inc', exc') ->
  (forall x, fits search x -> (forall i s, nth_error sample i = Some s -> nth_error word i = Some s -> nth_error x i = Some s) -> fits search' x) /\
  (forall k, N.testbit inc' k = true -> N.testbit inc k = true \/ told task sample word k (fun p => p)) /\
  (forall k, N.testbit exc' k = true -> N.testbit exc k = true \/ told task sample word k not).
Proof.
  induction sample as [|s sample IH]; intros [|c word] [|q search] inc exc search' inc' exc' Hl E; try discriminate.
  - cbn [learn combine map] in E. injection E as <- <- <-. split; [auto|]. split; auto.
  - inversion Hl as [|? ? Hc Hl']; subst. cbn [combine map fst snd learn] in E.
    assert (Hb : make_mask [c] 0 = Ok (2 ^ (c - 1072))) by (cbn [make_mask]; rewrite letter_bit_ok by exact Hc; reflexivity).
    destruct (N.eq_dec s c) as [->|Hsc].
    + rewrite mark_eq, N.eqb_refl in E. destruct (learn sample word _ search inc exc) as [[[s1 i1] e1]|] eqn:El; cbn [bind] in E; try discriminate. injection E as <- <- <-.
      destruct (IH _ _ _ _ _ _ _ Hl' El) as (P1 & P2 & P3). split; [|split].
      * intros x F Hx. inversion F as [|? x0 ? x' Hq F']; subst. constructor; [|apply P1; [exact F'|intros i s' H1 H2; exact (Hx (S i) s' H1 H2)]].
        specialize (Hx 0%nat c eq_refl eq_refl). injection Hx as ->. right. reflexivity.
      * intros k Hk. destruct (P2 k Hk) as [H|H]; [left; exact H|right; apply told_cons; exact H].
      * intros k Hk. destruct (P3 k Hk) as [H|H]; [left; exact H|right; apply told_cons; exact H].
    + rewrite mark_ne in E by exact Hsc. destruct (in_dec N.eq_dec c task) as [Hin|Hin].
      * replace (43 =? c) with false in E by (unfold is_letter in Hc; lia). cbn [N.eqb Pos.eqb] in E. rewrite Hb in E. cbn [bind] in E.
        destruct (learn sample word _ search _ exc) as [[[s1 i1] e1]|] eqn:El; cbn [bind] in E; try discriminate. injection E as <- <- <-.
        destruct (IH _ _ _ _ _ _ _ Hl' El) as (P1 & P2 & P3). split; [|split].
        -- intros x F Hx. inversion F as [|? x0 ? x' Hq F']; subst. constructor; [exact Hq|apply P1; [exact F'|intros i s' H1 H2; exact (Hx (S i) s' H1 H2)]].
        -- intros k Hk. destruct (P2 k Hk) as [H|H]; [|right; apply told_cons; exact H]. destruct (lor_bit_inv c inc k Hc H) as [H'|H']; [left; exact H'|right]. exists 0%nat, s, c. repeat split; assumption.
        -- intros k Hk. destruct (P3 k Hk) as [H|H]; [left; exact H|right; apply told_cons; exact H].
      * replace (45 =? c) with false in E by (unfold is_letter in Hc; lia). cbn [N.eqb Pos.eqb] in E. rewrite Hb in E. cbn [bind] in E.
        destruct (learn sample word _ search inc _) as [[[s1 i1] e1]|] eqn:El; cbn [bind] in E; try discriminate. injection E as <- <- <-.
        destruct (IH _ _ _ _ _ _ _ Hl' El) as (P1 & P2 & P3). split; [|split].
        -- intros x F Hx. inversion F as [|? x0 ? x' Hq F']; subst. constructor; [exact Hq|apply P1; [exact F'|intros i s' H1 H2; exact (Hx (S i) s' H1 H2)]].
        -- intros k Hk. destruct (P2 k Hk) as [H|H]; [left; exact H|right; apply told_cons; exact H].
        -- intros k Hk. destruct (P3 k Hk) as [H|H]; [|right; apply told_cons; exact H]. destruct (lor_bit_inv c exc k Hc H) as [H'|H']; [left; exact H'|right]. exists 0%nat, s, c. repeat split; assumption.
Qed.
Lemma knows_keeps task sample t search search' inc inc' exc exc' : knows task sample t search inc exc -> keeps sample search search' inc inc' exc exc' -> knows task sample t search' inc' exc'.
Proof.
  intros K (P1 & P2 & P3) i s c H1 H2. destruct (K i s c H1 H2) as [K1 K2]. split; [intros ->; apply P1; [exact H1|apply K1; reflexivity]|].
  intros Hn. destruct (K2 Hn) as [K3 K4]. split; intros H; [apply P2, K3; exact H|apply P3, K4; exact H].
Qed.
Lemma fits_nth : forall pattern w i c, fits pattern w -> nth_error pattern i = Some c -> c <> 63 -> nth_error w i = Some c.
Proof.
  intros pattern w i c F. revert i. induction F as [|q x pattern w Hq F IH]; intros [|i] H Hc; try discriminate; cbn [nth_error] in *; [|exact (IH i H Hc)].
  injection H as ->. destruct Hq as [Hq|Hq]; [contradiction|subst; reflexivity].
Qed.
Lemma knows_respects sample t search inc exc x : knows sample sample t search inc exc -> Forall is_letter t -> Forall is_letter x -> fits search x -> allowed exc inc x -> respects sample t x.
Proof.
  intros K Ht Hx F [A1 A2] i s c H1 H2. destruct (K i s c H1 H2) as [K1 K2]. rewrite Forall_forall in Ht, Hx. pose proof (Ht c (nth_error_In _ _ H2)) as Hc. unfold is_letter in Hc. split.
  - intros E. apply (fits_nth search); [exact F|apply K1; exact E|lia].
  - intros Hn. destruct (K2 Hn) as [K3 K4]. split; intros H.
    + destruct (A2 _ (K3 H)) as (c' & Hi & E). pose proof (Hx c' Hi) as Hc'. unfold is_letter in Hc'. replace c with c' by lia. exact Hi.
    + intros Hi. specialize (K4 H). rewrite (A1 c Hi) in K4. discriminate.
Qed.

Section Game.
  Variable find : wstring -> list (N * list (wstring * N)).
  Variable wd : N -> N.
  Variable nouns : list wstring.
  Variable sample : wstring.
  Hypothesis Hd : dictionary_of find wd nouns.
  Hypothesis Hn : Forall (fun w => five w /\ Forall is_letter w) nouns.
  Hypothesis H5 : five sample.

  Lemma noun_facts w : In w nouns -> length w = length sample /\ Forall is_letter w.
  Proof. intros H. rewrite Forall_forall in Hn. destruct (Hn w H) as [H1 H2]. unfold five in *. split; [congruence|exact H2]. Qed.

  Lemma nouns_five hypots : (forall w, In w hypots -> In w nouns) -> Forall (fun w => five w /\ Forall is_letter w) hypots.
  Proof. intros H. apply Forall_forall. intros w Hw. rewrite Forall_forall in Hn. exact (Hn w (H w Hw)). Qed.

  Lemma play_greedy pattern unused : forall fuel search inc exc hypots tested lines v, pattern_ok search -> (forall w, In w hypots -> In w nouns) ->
    (forall x, In x nouns -> fits pattern x -> (forall t, In t tested -> respects sample t x) -> fits search x /\ allowed exc inc x) ->
    (forall x, possible nouns sample pattern unused tested x -> In x hypots) ->
    play find wd sample fuel search inc exc hypots tested = Ok (lines, v) ->
    (forall before w m after x, lines = before ++ (w, m) :: after -> possible nouns sample pattern unused (tested ++ map fst before) x -> weight x <= weight w) /\
    (v = Not_guessed -> forall x, ~ possible nouns sample pattern unused (tested ++ map fst lines) x).
  Proof.
    induction fuel as [|fuel IH]; intros search inc exc hypots tested lines v Hp Hh Hcomp Hall E; cbn [play] in E.
    - injection E as <- <-. split; [|discriminate]. intros before w m after x K. destruct before; discriminate.
    - destruct hypots as [|h0 hypots0] eqn:Eh.
      + injection E as <- <-. split; [intros before w m after x K; destruct before; discriminate|]. intros _ x Hx. cbn [map] in Hx. rewrite app_nil_r in Hx. exact (Hall x Hx).
      + rewrite <- Eh in *. destruct (select_ok tested hypots None (nouns_five hypots Hh) ltac:(discriminate)) as (o & Es & Ho). rewrite Es in E. cbn [bind] in E. destruct o as [w|].
        2:{ injection E as <- <-. split; [intros before w m after x K; destruct before; discriminate|]. intros _ x Hx. cbn [map] in Hx. rewrite app_nil_r in Hx.
            destruct Ho as [_ Ho]. pose proof (Ho x (Hall x Hx)). destruct Hx as (_ & _ & Hx & _). contradiction. }
        destruct Ho as [[[Hw Hwt]|(r & Hr)] [Hmax _]]; [|discriminate]. pose proof (Hh w Hw) as Hwn. destruct (noun_facts w Hwn) as [Hwl Hwlet].
        assert (Hfirst : forall x, possible nouns sample pattern unused (tested ++ []) x -> weight x <= weight w).
        { intros x Hx. rewrite app_nil_r in Hx. apply Hmax; [exact (Hall x Hx)|apply Hx]. }
        destruct (check_letters_ok sample sample w (eq_sym Hwl)) as (b & Ec & Hb). unfold check_guess in E. rewrite Ec in E. cbn [bind] in E. destruct b.
        * injection E as <- <-. split; [|discriminate]. intros before x m after y K Hy. destruct before as [|p before]; [|destruct before; discriminate]. injection K as <- _ _. exact (Hfirst y Hy).
        * destruct (learn_ok sample sample w search inc exc Hwl ltac:(destruct Hp as [Hp _]; unfold five in *; congruence) Hwlet) as (search' & inc' & exc' & El & L1 & L2 & _).
          rewrite El in E. cbn [bind] in E. destruct (learn_only sample sample w search inc exc search' inc' exc' Hwlet El) as (P1 & P2 & P3).
          assert (Hp' : pattern_ok search') by (split; [unfold five in *; congruence|apply L2, Hp]).
          destruct (get_wordset_ok find wd nouns search' exc' inc' Hd) as (hs & Eg & Hg); [apply Forall_impl with (2 := Hn); intros a Ha; apply Ha|exact Hp'|]. rewrite Eg in E. cbn [bind] in E.
          destruct (play find wd sample fuel search' inc' exc' hs (tested ++ [w])) as [[lines' v']|] eqn:Epl; cbn [bind] in E; [|discriminate]. injection E as <- <-.
          assert (Hcomp' : forall x, In x nouns -> fits pattern x -> (forall t, In t (tested ++ [w]) -> respects sample t x) -> fits search' x /\ allowed exc' inc' x).
          { intros x Hx Hfx Hres. destruct (Hcomp x Hx Hfx) as [F [A1 A2]]; [intros t Ht; apply Hres, in_or_app; left; exact Ht|].
            pose proof (Hres w ltac:(apply in_or_app; right; left; reflexivity)) as Hrw. destruct (noun_facts x Hx) as [_ Hxl]. split; [|split].
            - apply P1; [exact F|]. intros i s H1 H2. exact (proj1 (Hrw i s s H1 H2) eq_refl).
            - intros c Hc. destruct (N.testbit exc' (c - 1072)) eqn:Et; [|reflexivity]. exfalso. destruct (P3 _ Et) as [K|(i & s & c' & H1 & H2 & H3 & H4 & Hk)]; [rewrite (A1 c Hc) in K; discriminate|].
              rewrite Forall_forall in Hxl, Hwlet. pose proof (Hxl c Hc) as Hcl. pose proof (Hwlet c' (nth_error_In _ _ H2)) as Hcl'. unfold is_letter in *. replace c' with c in * by lia.
              exact (proj2 (proj2 (Hrw i s c H1 H2) H3) H4 Hc).
            - intros k Hk. destruct (P2 k Hk) as [K|(i & s & c' & H1 & H2 & H3 & H4 & Hk')]; [exact (A2 k K)|]. exists c'. split; [|exact Hk']. exact (proj1 (proj2 (Hrw i s c' H1 H2) H3) H4). }
          destruct (IH search' inc' exc' hs (tested ++ [w]) lines' v' Hp') as [G1 G2].
          -- intros x Hx. apply Hg in Hx. tauto.
          -- exact Hcomp'.
          -- intros x (Hx & Hfx & _ & Hres & _). apply Hg. destruct (Hcomp' x Hx Hfx Hres) as [F A]. split; [split; assumption|exact A].
          -- exact Epl.
          -- split.
             ++ intros before x m after y K Hy. destruct before as [|p before]; [injection K as <- _ _; exact (Hfirst y Hy)|]. injection K as <- K. apply (G1 before x m after y K).
                rewrite <- app_assoc. exact Hy.
             ++ intros Ev x Hx. apply (G2 Ev x). rewrite <- app_assoc. exact Hx.
  Qed.

  Lemma play_ok : forall fuel search inc exc hypots tested, pattern_ok search -> (forall w, In w hypots -> In w nouns) -> NoDup tested -> incl tested nouns -> ~ In sample tested ->
    (length nouns < fuel + length tested)%nat ->
    (forall t, In t tested -> knows sample sample t search inc exc /\ forall w, In w hypots -> respects sample t w) ->
    exists lines v, play find wd sample fuel search inc exc hypots tested = Ok (lines, v) /\ fair_game nouns sample lines v /\ (forall w, In w (map fst lines) -> ~ In w tested) /\
      (forall t w, In t tested -> In w (map fst lines) -> respects sample t w) /\
      (In sample nouns -> fits search sample -> (forall k, N.testbit inc k = true -> In (1072 + k) sample) -> (forall k, N.testbit exc k = true -> ~ In (1072 + k) sample) ->
       In sample hypots -> v = Guessed).
  Proof.
    assert (Hlose : fair_game nouns sample [] Not_guessed) by (split; [discriminate|constructor|constructor|constructor|split; [discriminate|intros []]]).
    induction fuel as [|fuel IH]; intros search inc exc hypots tested Hp Hh Hnd Hincl Hs Hfuel Hkn.
    - pose proof (NoDup_incl_length Hnd Hincl). lia.
    - cbn [play]. destruct hypots as [|h0 hypots0] eqn:Eh.
      + exists [], Not_guessed. split; [reflexivity|]. split; [exact Hlose|]. split; [intros w []|]. split; [intros t w _ []|]. intros _ _ _ _ [].
      + rewrite <- Eh in *.
        destruct (select_ok tested hypots None (nouns_five hypots Hh) ltac:(discriminate)) as (o & -> & Ho). cbn [bind]. destruct o as [w|].
        2:{ exists [], Not_guessed. split; [reflexivity|]. split; [exact Hlose|]. split; [intros w []|]. split; [intros t w _ []|]. intros _ _ _ _ Hin. exfalso. apply Hs. apply Ho. exact Hin. }
        destruct Ho as [[[Hw Hwt]|(r & Hr)] _]; [|discriminate]. pose proof (Hh w Hw) as Hwn. destruct (noun_facts w Hwn) as [Hwl Hwlet].
        destruct (check_letters_ok sample sample w (eq_sym Hwl)) as (b & Ec & Hb). unfold check_guess. rewrite Ec. cbn [bind]. fold (marks sample w) in *. destruct b.
        * assert (E : sample = w) by (apply Hb; reflexivity). exists [(w, marks sample w)], Guessed. split; [reflexivity|]. split; [|split; [|split]].
          -- split; [discriminate|constructor; [split; [exact Hwn|reflexivity]|constructor]|repeat constructor; intros []|repeat constructor|]. split; [intros _; left; symmetry; exact E|reflexivity].
          -- intros x [<-|[]]. exact Hwt.
          -- intros t x Ht [<-|[]]. apply (Hkn t Ht). exact Hw.
          -- reflexivity.
        * assert (Hne : sample <> w) by (intros E; apply Hb in E; discriminate).
          destruct (learn_ok sample sample w search inc exc Hwl ltac:(destruct Hp as [Hp _]; unfold five in *; congruence) Hwlet) as (search' & inc' & exc' & El & L1 & L2 & L3 & L4 & L5).
          destruct (learn_knows sample sample w search inc exc search' inc' exc' Hwlet El) as [Hk1 Hk2].
          unfold marks at 1. rewrite El. cbn [bind].
          assert (Hp' : pattern_ok search') by (split; [unfold five in *; congruence|apply L2, Hp]).
          destruct (get_wordset_ok find wd nouns search' exc' inc' Hd) as (hs & Eg & Hg); [apply Forall_impl with (2 := Hn); intros a Ha; apply Ha|exact Hp'|]. rewrite Eg. cbn [bind].
          destruct (IH search' inc' exc' hs (tested ++ [w]) Hp') as (lines & v & Epl & [F1 F2 F3 F5 F4] & Hdis & Hres & Hwin).
          -- intros x Hx. apply Hg in Hx. tauto.
          -- apply (NoDup_Add (a := w) (l := tested ++ [])); [apply Add_app|]. rewrite app_nil_r. split; assumption.
          -- intros x Hx. apply in_app_iff in Hx as [Hx|[<-|[]]]; [apply Hincl; exact Hx|exact Hwn].
          -- intros Hx. apply in_app_iff in Hx as [Hx|[Hx|[]]]; [exact (Hs Hx)|congruence].
          -- rewrite app_length. cbn [length]. lia.
          -- intros t Ht. assert (Hkt : knows sample sample t search' inc' exc' /\ In t nouns).
             { apply in_app_iff in Ht as [Ht|[<-|[]]]; [|split; [exact Hk1|exact Hwn]]. split; [|apply Hincl; exact Ht]. destruct (Hkn t Ht) as [Hkn' _]. exact (knows_keeps _ _ _ _ _ _ _ _ _ Hkn' Hk2). }
             destruct Hkt as [Hkt Htn]. split; [exact Hkt|]. intros x Hx. apply Hg in Hx as [[Hxn Hxf] Hxa].
             apply (knows_respects sample t search' inc' exc' x Hkt); [apply (noun_facts t Htn)|apply (noun_facts x Hxn)|exact Hxf|exact Hxa].
          -- rewrite Epl. cbn [bind]. exists ((w, marks sample w) :: lines), v. split; [reflexivity|]. split; [|split; [|split]].
             ++ split; [exact F1|constructor; [split; [exact Hwn|reflexivity]|exact F2]| | |].
                ** cbn [map fst]. constructor; [|exact F3]. intros K. apply (Hdis w K). apply in_or_app. right. left. reflexivity.
                ** constructor; [|exact F5]. apply Forall_forall. intros [x m] Hx. cbn [fst]. apply Hres; [apply in_or_app; right; left; reflexivity|]. change x with (fst (x, m)). apply in_map. exact Hx.
                ** rewrite F4. cbn [map fst]. split; [intros K; right; exact K|]. intros [K|K]; [congruence|exact K].
             ++ cbn [map fst]. intros x [<-|Hx]; [exact Hwt|]. intros K. apply (Hdis x Hx). apply in_or_app. left. exact K.
             ++ cbn [map fst]. intros t x Ht [<-|Hx]; [apply (Hkn t Ht); exact Hw|]. apply Hres; [apply in_or_app; left; exact Ht|exact Hx].
             ++ intros Hsn Hfit Hinc Hexc Hin.
                assert (Hinc' : forall k, N.testbit inc' k = true -> In (1072 + k) sample) by (intros k K; destruct (L4 k K) as [K'|K']; [apply Hinc; exact K'|exact K']).
                assert (Hexc' : forall k, N.testbit exc' k = true -> ~ In (1072 + k) sample) by (intros k K; destruct (L5 k K) as [K'|K']; [apply Hexc; exact K'|exact K']).
                apply Hwin; [exact Hsn|apply L3; exact Hfit|exact Hinc'|exact Hexc'|]. apply Hg. split; [split; [exact Hsn|apply L3; exact Hfit]|]. destruct (noun_facts sample Hsn) as [_ Hsl]. rewrite Forall_forall in Hsl.
                split.
                ** intros c Hc. destruct (N.testbit exc' (c - 1072)) eqn:E; [|reflexivity]. exfalso. apply (Hexc' _ E). replace (1072 + (c - 1072)) with c; [exact Hc|]. specialize (Hsl c Hc). unfold is_letter in Hsl. lia.
                ** intros k K. exists (1072 + k). split; [apply Hinc'; exact K|lia].
  Qed.
End Game.

Lemma make_mask_ok : forall str mask, Forall is_letter str -> exists m, make_mask str mask = Ok m /\ forall k, N.testbit m k = true <-> N.testbit mask k = true \/ In (1072 + k) str.
Proof.
  induction str as [|c str IH]; intros mask H.
  - exists mask. split; [reflexivity|]. intros k. split; [intros K; left; exact K|intros [K|[]]; exact K].
  - inversion H as [|? ? Hc Hs]; subst. cbn [make_mask]. rewrite letter_bit_ok by exact Hc. cbn [bind]. destruct (IH (N.lor mask (2 ^ (c - 1072))) Hs) as (m & E & Hm). exists m. split; [exact E|].
    intros k. rewrite Hm, N.lor_spec, orb_true_iff, N.pow2_bits_eqb, N.eqb_eq. cbn [In]. unfold is_letter in Hc.
    assert (K : c - 1072 = k <-> c = 1072 + k) by lia. rewrite K. tauto.
Qed.

Theorem game_ok find wd nouns sample search unused fuel : dictionary_of find wd nouns -> Forall (fun w => five w /\ Forall is_letter w) nouns ->
  five sample -> pattern_ok search -> Forall is_letter unused -> (length nouns < fuel)%nat ->
  exists lines v, letters_game find wd fuel sample search unused = Ok (lines, v) /\ fair_game nouns sample lines v /\ greedy_game nouns sample search unused lines v /\
    (In sample nouns -> fits search sample -> (forall c, In c sample -> ~ In c unused) -> v = Guessed).
Proof.
  intros Hd Hn H5 Hp Hu Hf. unfold letters_game. destruct (make_mask_ok unused 0 Hu) as (m & -> & Hm). cbn [bind].
  destruct (get_wordset_ok find wd nouns search m 0 Hd) as (hs & -> & Hg); [apply Forall_impl with (2 := Hn); intros a Ha; apply Ha|exact Hp|]. cbn [bind].
  destruct (play_ok find wd nouns sample Hd Hn H5 fuel search 0 0 hs []) as (lines & v & E & Hfair & _ & _ & Hwin).
  - exact Hp.
  - intros w Hw. apply Hg in Hw. tauto.
  - constructor.
  - intros x [].
  - intros [].
  - cbn [length]. lia.
  - intros t [].
  - destruct (play_greedy find wd nouns sample Hd Hn H5 search unused fuel search 0 0 hs [] lines v Hp) as [G1 G2].
    { intros w Hw. apply Hg in Hw. tauto. }
    { intros x Hx Hfx _. split; [exact Hfx|]. split; [intros c _; apply N.bits_0|intros k K; rewrite N.bits_0 in K; discriminate]. }
    { intros x (Hx & Hfx & _ & _ & Hun). apply Hg. split; [split; assumption|]. rewrite Forall_forall in Hn. destruct (Hn x Hx) as [_ Hxl]. rewrite Forall_forall in Hxl. split.
      - intros c Hc. destruct (N.testbit m (c - 1072)) eqn:Et; [|reflexivity]. exfalso. apply Hm in Et as [Et|Et]; [rewrite N.bits_0 in Et; discriminate|].
        apply (Hun eq_refl c Hc). specialize (Hxl c Hc). unfold is_letter in Hxl. replace (1072 + (c - 1072)) with c in Et by lia. exact Et.
      - intros k K. rewrite N.bits_0 in K. discriminate. }
    { exact E. }
    exists lines, v. split; [exact E|]. split; [exact Hfair|]. split; [split; assumption|]. intros Hsn Hfit Hnu. apply Hwin; [exact Hsn|exact Hfit|intros k K; rewrite N.bits_0 in K; discriminate|intros k K; rewrite N.bits_0 in K; discriminate|].
    apply Hg. split; [split; assumption|]. rewrite Forall_forall in Hn. destruct (Hn sample Hsn) as [_ Hsl]. rewrite Forall_forall in Hsl. split.
    + intros c Hc. destruct (N.testbit m (c - 1072)) eqn:Et; [|reflexivity]. exfalso. apply Hm in Et as [Et|Et]; [rewrite N.bits_0 in Et; discriminate|].
      apply (Hnu c Hc). specialize (Hsl c Hc). unfold is_letter in Hsl. replace (1072 + (c - 1072)) with c in Et by lia. exact Et.
    + intros k K. rewrite N.bits_0 in K. discriminate.
Qed.
