(** * RusTextProofs5: the lexemes found are fit for compiling.  PROOFS. *)
From Coq Require Import String Ascii.
From Verif Require Import Base Serial SerialProofs WordTree TreeSpec Stems StemSpec CharTables CapScheme CapSpec GramMap RusRuntime LevelSpec RusSpec RusProofs LevelProofs Compile CompileSpec CompileProofs CompileProofs2 CompileProofs5
  Resolve ResolveSpec ResolveProofs ResolveProofs2 Api Utf8
  EngCompile EngCompileSpec EngCompileProofs EngCompileProofs2 EngCompileProofs4 RusText RusTextSpec RusTextProofs RusTextProofs2 RusTextProofs3 RusTextProofs4.
Local Open Scope N_scope.
Local Open Scope list_scope.
Notation length := List.length.
Notation visible := RusTextSpec.visible.

(** ** What [resolve] gives *)
Definition begins (s w : bytes) : Prop := exists rest, w = s ++ rest.
Lemma begins_refl s : begins s s.
Proof. exists []. symmetry. apply app_nil_r. Qed.
Lemma begins_trans a b c : begins a b -> begins b c -> begins a c.
Proof. intros (r & ->) (q & ->). exists (r ++ q). rewrite <- app_assoc. reflexivity. Qed.
Lemma begins_firstn n s : begins (firstn n s) s.
Proof. exists (skipn n s). symmetry. apply firstn_skipn. Qed.
Lemma cut_begins s n s' : cut s n = Ok s' -> begins s' s.
Proof. unfold cut. destruct (_ <? _); [discriminate|]. intros [= <-]. apply begins_firstn. Qed.

Lemma cut_firstn s (p : bytes) s' : cut s (N.of_nat (length p)) = Ok s' -> s' = firstn (length s - length p) s.
Proof. unfold cut. destruct (_ <? _); [discriminate|]. rewrite Nnat.Nat2N.id. intros [= <-]. reflexivity. Qed.

Lemma strip_begins depth : forall levels tables s g off cl b s', strip_str depth levels tables s g off cl = Ok (b, s') -> begins s' s.
Proof.
  induction depth as [|depth IH]; intros levels tables s g off cl b s' E; [discriminate|]. rewrite strip_str_S in E.
  apply bind_ok_inv in E as (p & _ & E). apply bind_ok_inv in E as ([n q] & _ & E). revert E. generalize (N.to_nat (N.land n 127)) as k. intros k. revert q s. induction k as [|k IHk]; intros q s E.
  - rewrite strip_items_nil in E. destruct (_ && _); [eapply IH; exact E|]. injection E as _ <-. apply begins_refl.
  - cbn [strip_items] in E. apply bind_ok_inv in E as ([it q'] & _ & E).
    destruct (negb (N.land g (nth cl levels 0) =? N.land (fi_info it) (nth cl levels 0))); [eapply IHk; exact E|].
    destruct ((N.land g (nth cl levels 0) =? 0) && negb (nth cl levels 0 =? 65535)); [eapply IHk; exact E|].
    destruct ((cl <? 2)%nat && bit 7 (fi_flags it)).
    + apply bind_ok_inv in E as ([done s1] & E1 & E). apply IH in E1. destruct (done && has_tail s1 (N.of_nat (length (fi_text it))) (fi_text it)).
      * apply bind_ok_inv in E as (s2 & Ec & E). injection E as _ <-. eapply begins_trans; [eapply cut_begins, Ec|exact E1].
      * eapply begins_trans; [eapply IHk; exact E|exact E1].
    + destruct (has_tail s (N.of_nat (length (fi_text it))) (fi_text it)); [|eapply IHk; exact E]. apply bind_ok_inv in E as (s2 & Ec & E). injection E as _ <-. eapply cut_begins, Ec.
Qed.
Lemma find_alt_in mtable alts wd s rems o : find_alt mtable alts wd s rems = Ok o -> o = 0 \/ exists cond, In (o, cond) alts.
Proof.
  induction alts as [|[o' cond] alts IH]; cbn [find_alt]; [intros [= <-]; left; reflexivity|]. intros E. apply bind_ok_inv in E as ([c t] & _ & E).
  assert (K : find_alt mtable alts wd s rems = Ok o -> o = 0 \/ exists cond0, In (o, cond0) ((o', cond) :: alts)) by (intros K; destruct (IH K) as [|(c0 & K1)]; [left; assumption|right; exists c0; right; exact K1]).
  destruct (negb (has_tail s c t)); [apply K, E|]. destruct (suits_cond wd cond s rems); [|apply K, E]. injection E as <-. right. exists cond. left. reflexivity.
Qed.
Lemma alt_byte mtable o lo hi lo' hi' : alt_minmax mtable o lo hi = Ok (lo', hi') -> lo < 256 -> hi < 256 -> lo' < 256 /\ hi' < 256.
Proof.
  unfold alt_minmax. intros E H1 H2. apply bind_ok_inv in E as (p & _ & E). apply bind_ok_inv in E as ([n q] & _ & E). apply bind_ok_inv in E as ([a b] & _ & E). injection E as <- <-.
  split; [destruct (a =? 0)%Z|destruct (b <=? 0)%Z]; try assumption; pose proof (Z.mod_pos_bound a 256); pose proof (Z.mod_pos_bound b 256); lia.
Qed.

Lemma resolve_facts depth ft mt alts word post rems wd off cases at_mark colon mixkind id x :
  resolve depth ft mt alts word post rems wd off cases at_mark colon mixkind id = Ok (Some x) ->
  begins (l_stem x) (firstn (length word - length post) word) /\ l_post x = post /\ l_id x = id /\ l_min x < 256 /\ l_max x < 256 /\
  (off = 0 /\ l_class x = Morphclass wd (if N.land wd 63 =? 51 then cases else 0) 0 \/
   off <> 0 /\ exists o, (o = 0 \/ exists cond, In (o, cond) alts) /\ l_class x = Morphclass (if o =? 0 then wd else N.lor wd (N.shiftl mixkind 11)) off o) /\
  (off = 0 \/ wd mod 64 <> 51 -> letter_bounds depth ft mt (l_class x) = Ok (l_min x, l_max x)).
Proof.
  intros E. unfold resolve in E. apply bind_ok_inv in E as (s0 & E0 & E). apply cut_firstn in E0. subst s0. destruct (N.eqb_spec off 0) as [Hz|Hz].
  - injection E as <-. cbn [l_stem l_class l_post l_id l_min l_max]. split; [apply begins_refl|]. repeat (split; [reflexivity|]). split; [left; split; [exact Hz|reflexivity]|]. intros _. unfold letter_bounds. cbn [m_tfoffs m_wdinfo].
    destruct (N.land wd 63 =? 51); [rewrite orb_true_r|]; reflexivity.
  - apply bind_ok_inv in E as ([done s1] & E1 & E). set (s0 := firstn (length word - length post) word) in *. assert (B1 : begins s1 s0).
    { destruct at_mark as [k|]; [injection E1 as _ <-; apply begins_firstn|]. destruct (normal_form wd s0) as [nf levels]. eapply strip_begins, E1. }
    destruct (negb done && negb colon); [discriminate|]. apply bind_ok_inv in E as ([lo hi] & Ef & E). apply bind_ok_inv in E as (o & Ea & E). pose proof (minmax_byte _ _ _ _ _ Ef) as [L1 L2].
    pose proof (find_alt_in _ _ _ _ _ _ Ea) as Hin. destruct (N.eqb_spec o 0) as [Ho|Ho].
    + injection E as <-. cbn [l_stem l_class l_post l_id l_min l_max]. split; [exact B1|]. repeat (split; [reflexivity || assumption|]). split.
      * right. split; [exact Hz|]. exists 0. split; [left; reflexivity|reflexivity].
      * intros [K|K]; [contradiction|]. unfold letter_bounds. cbn [m_tfoffs m_wdinfo m_mtoffs]. rewrite mod64 in K. destruct (N.eqb_spec off 0); [contradiction|]. destruct (N.eqb_spec (N.land wd 63) 51); [contradiction|]. cbn [orb]. rewrite Ef. reflexivity.
    + apply bind_ok_inv in E as ([lo' hi'] & Em & E). apply bind_ok_inv in E as ([count tail] & _ & E). apply bind_ok_inv in E as (s2 & Ec & E). apply cut_begins in Ec. injection E as <-. cbn [l_stem l_class l_post l_id l_min l_max].
      destruct (alt_byte _ _ _ _ _ _ Em L1 L2) as [M1 M2]. split; [eapply begins_trans; [exact Ec|exact B1]|]. repeat (split; [reflexivity || assumption|]). split.
      * right. split; [exact Hz|]. exists o. split; [exact Hin|]. destruct (N.eqb_spec o 0); [contradiction|reflexivity].
      * intros [K|K]; [contradiction|]. unfold letter_bounds. cbn [m_tfoffs m_wdinfo m_mtoffs].
        assert (K' : N.land (N.lor wd (N.shiftl mixkind 11)) 63 <> 51).
        { rewrite mod64 in K. rewrite N.land_lor_distr_l. replace (N.land (N.shiftl mixkind 11) 63) with 0; [rewrite N.lor_0_r; exact K|]. symmetry. change 63 with (N.ones 6). apply N.bits_inj. intros i. rewrite N.land_spec, N.bits_0.
          destruct (N.ltb_spec i 11); [rewrite N.shiftl_spec_low by assumption; reflexivity|]. rewrite N.ones_spec_high by lia. apply andb_false_r. }
        destruct (N.eqb_spec off 0); [contradiction|]. destruct (N.eqb_spec (N.land (N.lor wd (N.shiftl mixkind 11)) 63) 51); [contradiction|]. cbn [orb]. rewrite Ef. cbn [bind]. destruct (N.eqb_spec o 0); [contradiction|]. exact Em.
Qed.

(** ** Word classes *)
Lemma attr_bound l : attribute_bits l <= 1920.
Proof. unfold attribute_bits. destruct (has_attribute l 0), (has_attribute l 1), (has_attribute l 2), (has_attribute l 3); vm_compute; discriminate. Qed.
Lemma attr_mod l : attribute_bits l mod 64 = 0.
Proof. unfold attribute_bits. destruct (has_attribute l 0), (has_attribute l 1), (has_attribute l 2), (has_attribute l 3); reflexivity. Qed.
Lemma class_number x n p : n < 64 -> class_bits x n p mod 64 = n.
Proof.
  intros H. unfold class_bits. pose proof (attr_mod (r_notes x)) as E. pose proof (N.div_mod (attribute_bits (r_notes x)) 64). rewrite E in H0. rewrite N.add_0_r in H0. specialize (H0 ltac:(discriminate)). rewrite H0.
  replace (n + (if p then 64 else 0) + 64 * (attribute_bits (r_notes x) / 64)) with (n + ((if p then 1 else 0) + attribute_bits (r_notes x) / 64) * 64) by (destruct p; lia).
  rewrite N.mod_add by discriminate. apply N.mod_small, H.
Qed.
Lemma class_bound x n p : n < 64 -> class_bits x n p < 2 ^ 11.
Proof. intros H. unfold class_bits. pose proof (attr_bound (r_notes x)). change (2 ^ 11) with 2048. destruct p; lia. Qed.
Lemma lt_pow2 n k : (forall i, k <= i -> N.testbit n i = false) -> n < 2 ^ k.
Proof.
  intros H. destruct (N.eq_dec n 0) as [->|Hn]; [apply N.neq_0_lt_0, N.pow_nonzero; discriminate|]. apply N.log2_lt_pow2; [lia|].
  destruct (N.lt_ge_cases (N.log2 n) k) as [K|K]; [exact K|]. apply H in K. rewrite N.bit_log2 in K by exact Hn. discriminate.
Qed.
Lemma lor_bound a b k : a < 2 ^ k -> b < 2 ^ k -> N.lor a b < 2 ^ k.
Proof.
  intros H1 H2. apply lt_pow2. intros i Hi. rewrite N.lor_spec. assert (forall n, n < 2 ^ k -> N.testbit n i = false).
  { intros n Hn. destruct (N.eq_dec n 0) as [->|Hz]; [apply N.bits_0|]. apply N.bits_above_log2. apply N.log2_lt_pow2 in Hn; lia. }
  rewrite !H by assumption. reflexivity.
Qed.
Lemma kind_small index : verb_kind index <= 2.
Proof. unfold verb_kind. destruct (list_eq_dec _ _ _); [lia|]. destruct (existsb _ _); lia. Qed.

(** ** A lexeme of an article *)
Section Entry.
  Variables (alphabet : bytes) (depth : nat) (T : tables) (x : rarticle).
  Hypothesis HT : tables_valid alphabet T.
  Hypothesis Hok : rarticle_ok x.
  Hypothesis Hx : rarticle_valid alphabet x.

  Lemma typed_number n p : typed (r_mark x) (r_type x) n p -> 1 <= n < 63.
  Proof using. intros H. apply typed_type in H. apply H. Qed.
  Lemma cases_bounds cases index : (forall i, N.testbit cases (N.of_nat i) = true <-> cases_in index i) -> cases < 2 ^ 6.
  Proof using.
    intros H. clear -H. apply lt_pow2. intros i Hi. destruct (N.testbit cases i) eqn:E; [|reflexivity]. exfalso. rewrite <- (N2Nat.id i) in E. apply H in E. destruct E as (a & b & rest & _ & _ & _ & _ & c & Hc & _).
    assert (K : (N.to_nat i < length (cyr "ИРДВТП"%string))%nat) by (apply nth_error_Some; congruence). change (length (cyr "ИРДВТП"%string)) with 6%nat in K. lia.
  Qed.

  Lemma entry_lexeme index l : entry depth T x index (Ok (Some l)) -> (forall p, typed (r_mark x) (r_type x) 51 p -> index = r_index x) ->
    lexeme_ok (tb_flex T) (tb_mix T) alphabet l /\ bounds_cover (tb_flex T) (tb_mix T) l.
  Proof using HT Hok Hx.
    intros H Hidx. inversion H as [| |n p off cases at_mark r Hty Hoff Hcases word post Hlen Hat Hr]; subst r. pose proof (typed_number n p Hty) as Hn.
    destruct (resolve_facts _ _ _ _ _ _ _ _ _ _ _ _ _ _ _ Hr) as (Hb & Hp & Hi & Hlo & Hhi & Hc & Hl).
    assert (Hwd : class_bits x n p mod 64 = n) by (apply class_number; lia).
    assert (Hoff' : off <> 0 -> ~ constant n /\ RusText.lookup (r_type x ++ 32 :: index) (tb_findex T) = Some off).
    { intros Hz. destruct Hoff as [[_ K]|[K1 [K2|(_ & _ & K2)]]]; try contradiction. split; [exact K1|]. exact K2. }
    assert (H51 : off <> 0 -> n <> 51) by (intros Hz; destruct (Hoff' Hz) as [K _]; unfold constant in K; lia).
    assert (Hbounds : bounds_cover (tb_flex T) (tb_mix T) l).
    { apply (bounds_sound depth).
      - apply Hl. rewrite Hwd. destruct (N.eq_dec off 0); [left; assumption|right; apply H51; assumption].
      - intros Hinf. destruct Hc as [[Hz Hc]|(Hz & o & Ho & Hc)]; rewrite Hc in *; cbn [m_tfoffs].
        + exfalso. unfold inflected in Hinf. cbn [m_tfoffs m_wdinfo] in Hinf. rewrite mod64 in Hinf. destruct (N.land (class_bits x n p) 63 =? 51); [rewrite andb_false_r in Hinf|]; discriminate.
        + destruct (Hoff' Hz) as [_ K]. eapply tv_links; [eassumption| |exact K]. apply in_or_app. right. left. reflexivity.
      - intros mx Hinf Hm Hmx. destruct Hc as [[Hz Hc]|(Hz & o & Ho & Hc)]; rewrite Hc in *; cbn [m_mtoffs m_tfoffs] in *; [congruence|]. destruct Ho as [|(cond & Ho)]; [contradiction|].
        destruct (RusText.lookup (r_type x ++ 32 :: index) (tb_mindex T)) as [alts|] eqn:El; [|destruct Ho]. destruct (tv_mixes alphabet T HT _ _ _ _ El Ho) as (_ & _ & K). apply K; [exact Hmx|]. apply (Hoff' Hz). }
    split; [|exact Hbounds].
    assert (Hmixes : forall o cond, In (o, cond) (match RusText.lookup (r_type x ++ 32 :: index) (tb_mindex T) with Some l => l | None => [] end) -> 0 < o < 2 ^ 16 /\ exists mx, mix_at (tb_mix T) o mx).
    { intros o cond Ho. destruct (RusText.lookup (r_type x ++ 32 :: index) (tb_mindex T)) as [alts|] eqn:El; [|destruct Ho]. destruct (tv_mixes alphabet T HT _ _ _ _ El Ho) as (K1 & K2 & _). auto. }
    pose proof (tv_offsets alphabet T HT) as Htoff. 
    constructor.
    - intros c Hcin. destruct Hb as (rest & Eb). apply (rv_head alphabet x Hx). fold word. fold post. rewrite Eb. apply in_or_app. left. exact Hcin.
    - auto.
    - rewrite Hi. apply (ro_id x Hok).
    - rewrite Hp. destruct (rv_post alphabet x Hx) as [K1 K2]. split; [exact K1|]. unfold post. lia.
    - pose proof (class_bound x n p ltac:(lia)) as Kb. assert (Kb' : class_bits x n p < 2 ^ 13) by (change (2 ^ 13) with (4 * 2 ^ 11); lia). destruct Hc as [[Hz Hc]|(Hz & o & Ho & Hc)]; rewrite Hc; cbn [m_wdinfo m_tfoffs].
      + split; [exact Kb'|]. pose proof (cases_bounds cases index Hcases) as Kc. change (2 ^ 6) with 64 in Kc. change (2 ^ 16) with 65536. destruct (_ =? 51); lia.
      + split; [|destruct (Hoff' Hz) as [_ K]; apply (Htoff _ _ K)]. destruct (o =? 0); [exact Kb'|]. apply lor_bound; [exact Kb'|]. rewrite N.shiftl_mul_pow2. pose proof (kind_small index). change (2 ^ 13) with 8192. change (2 ^ 11) with 2048. destruct (n <=? 6); lia.
    - intros E51. destruct Hc as [[Hz Hc]|(Hz & o & Ho & Hc)]; rewrite Hc in *; cbn [m_wdinfo m_tfoffs] in *.
      + rewrite Hwd in E51. subst n. destruct (rv_prep alphabet x Hx p Hty) as (Ea & i & Ei). rewrite <- mod64, Hwd. change (51 =? 51) with true. cbn beta iota. split.
        * unfold class_bits. rewrite Ea. destruct p; [|reflexivity]. exfalso. clear -Hty. destruct Hty as (names & name & Hin & Hname & _). cbn [word_types In] in Hin. repeat destruct Hin as [Hin|Hin]; try (injection Hin as _ E _; discriminate); try discriminate; contradiction.
        * intros Ec. rewrite <- (Hidx p Hty) in Ei. apply Hcases in Ei. rewrite Ec, N.bits_0 in Ei. discriminate.
      + exfalso. apply (H51 Hz). rewrite <- Hwd. destruct (o =? 0); [exact E51|]. rewrite <- E51. rewrite !mod64, N.land_lor_distr_l.
        match goal with |- context[N.land (N.shiftl ?k 11) 63] => replace (N.land (N.shiftl k 11) 63) with 0; [symmetry; apply N.lor_0_r|] end. symmetry. change 63 with (N.ones 6). apply N.bits_inj. intros i. rewrite N.land_spec, N.bits_0.
        destruct (N.ltb_spec i 11); [rewrite N.shiftl_spec_low by assumption; reflexivity|]. rewrite N.ones_spec_high by lia. apply andb_false_r.
    - destruct Hc as [[Hz Hc]|(Hz & o & Ho & Hc)]; rewrite Hc; cbn [m_mtoffs]; [left; reflexivity|]. destruct Ho as [->|(cond & Ho)]; [left; reflexivity|]. right. destruct (Hmixes o cond Ho) as [K1 K2]. split; [apply K1|exact K2].
    - intros Hinf s g f He. destruct Hc as [[Hz Hc]|(Hz & o & Ho & Hc)]; rewrite Hc in *; cbn [m_tfoffs] in *.
      + exfalso. unfold inflected in Hinf. cbn [m_tfoffs m_wdinfo] in Hinf. rewrite mod64 in Hinf. destruct (N.land (class_bits x n p) 63 =? 51); [rewrite andb_false_r in Hinf|]; discriminate.
      + destruct (Hoff' Hz) as [_ K]. eapply tv_endings; eassumption.
    - intros Hinf s ds Hnd He. destruct Hc as [[Hz Hc]|(Hz & o & Ho & Hc)]; rewrite Hc in *; cbn [m_tfoffs] in *.
      + exfalso. unfold inflected in Hinf. cbn [m_tfoffs m_wdinfo] in Hinf. rewrite mod64 in Hinf. destruct (N.land (class_bits x n p) 63 =? 51); [rewrite andb_false_r in Hinf|]; discriminate.
      + destruct (Hoff' Hz) as [_ K]. eapply tv_descs; eassumption.
  Qed.

  (** a preposition never has its index split *)
  Lemma senses_lexeme ls : senses depth T x ls -> Forall (fun l => lexeme_ok (tb_flex T) (tb_mix T) alphabet l /\ bounds_cover (tb_flex T) (tb_mix T) l) ls.
  Proof using HT Hok Hx.
    intros H. destruct H as [l H|H|a b la lb H Ei Hlack Ha Hb].
    - constructor; [|constructor]. apply (entry_lexeme (r_index x)); [exact H|reflexivity].
    - constructor.
    - assert (Hno : forall p, ~ typed (r_mark x) (r_type x) 51 p).
      { intros p Hp. pose proof (typed_type _ _ _ _ Hp) as [Ep _]. inversion H as [Hn|n q Hn Hc|n q off cases at_mark r Hn Hoff Hcases word post Hlen Hat Hr]; subst.
        - apply (Hn 51 p Hp).
        - pose proof (typed_type _ _ _ _ Hn) as [En Hb0]. rewrite Ep in En. assert (n = 51). { pose proof (bits_low 51 p ltac:(lia)) as K1. pose proof (bits_low n q Hb0) as K2. rewrite <- En in K2. congruence. } subst n. apply Hc. unfold constant. lia.
        - pose proof (typed_type _ _ _ _ Hn) as [En Hb0]. rewrite Ep in En. assert (n = 51). { pose proof (bits_low 51 p ltac:(lia)) as K1. pose proof (bits_low n q Hb0) as K2. rewrite <- En in K2. congruence. } subst n.
          destruct Hoff as [[_ ->]|[K _]]; [|apply K; unfold constant; lia]. unfold resolve in Hr. apply bind_ok_inv in Hr as (s & _ & Hr). discriminate. }
      apply Forall_app. split.
      + destruct la as [l|]; [|constructor]. constructor; [|constructor]. apply (entry_lexeme a); [exact Ha|]. intros p Hp. destruct (Hno p Hp).
      + destruct lb as [l|]; [|constructor]. constructor; [|constructor]. apply (entry_lexeme b); [exact Hb|]. intros p Hp. destruct (Hno p Hp).
  Qed.
End Entry.

Lemma lists_lexemes alphabet depth T lines xs ls us : tables_valid alphabet T -> Forall (rarticle_valid alphabet) xs -> rlists depth T lines xs ls us ->
  Forall (fun l => lexeme_ok (tb_flex T) (tb_mix T) alphabet l /\ bounds_cover (tb_flex T) (tb_mix T) l) ls.
Proof.
  intros HT Hxs H. apply Forall_forall. intros l Hl. destruct (proj1 (rlists_in _ _ _ _ _ _ H) l Hl) as (x & line & body & s & Hx & _ & (Hok & _) & Hs & Hin).
  rewrite Forall_forall in Hxs. pose proof (senses_lexeme alphabet depth T x HT Hok (Hxs x Hx) s Hs) as K. rewrite Forall_forall in K. apply K, Hin.
Qed.
Lemma lists_sources alphabet depth T lines xs ls us : tables_valid alphabet T -> Forall (rarticle_valid alphabet) xs -> rlists depth T lines xs ls us -> N.of_nat (length ls) < 2 ^ 32 ->
  sources_ok (tb_flex T) (tb_mix T) ls /\ Forall (bounds_cover (tb_flex T) (tb_mix T)) ls.
Proof.
  intros HT Hxs H Hc. pose proof (lists_lexemes alphabet depth T lines xs ls us HT Hxs H) as K. split; [|eapply Forall_impl; [|exact K]; intros l Hl; apply Hl].
  split; [apply (tv_bytes alphabet T HT)|exact Hc|]. exists alphabet. split; [apply (tv_alphabet alphabet T HT)|]. eapply Forall_impl; [|exact K]. intros l Hl; apply Hl.
Qed.
