(** * DictTextProofs2: what the compiler makes of an article against what the texts tell. *)
From Coq Require Import String.
From Verif Require Import Base Serial WordTree TreeSpec Stems StemSpec CharTables CapScheme CapSpec GramMap RusRuntime LevelSpec RusSpec RusProofs Compile CompileSpec CompileProofs CompileProofs2 CompileProofs5
  Resolve ResolveSpec ResolveProofs ResolveProofs2 StripSpec StripProofs StripProofs2 StripProofs3 Api EngCompileSpec Utf8 RusText RusTextSpec RusTextProofs RusTextProofs2 RusTextProofs3 RusTextProofs4 RusTextProofs5 RusTextProofs6 PropRusTextLemmas
  Tfc TfcSpec TfcProofs2 Makeich MakeichSpec DictTextSpec DictTextProofs.
Local Open Scope N_scope.
Local Open Scope list_scope.
Notation length := List.length.
Notation lookup := RusText.lookup.

Lemma colon_same index : existsb (N.eqb 58) index = colon_in index.
Proof.
  unfold colon_in. destruct (in_dec N.eq_dec 58 index) as [H|H]; [|apply existsb_false_in, H]. apply existsb_exists. exists 58. split; [exact H|reflexivity].
Qed.
Lemma class_below x n p : n < 64 -> class_bits x n p < 2048.
Proof. intros Hn. unfold class_bits, attribute_bits. destruct p, (has_attribute _ 0), (has_attribute _ 1), (has_attribute _ 2), (has_attribute _ 3); lia. Qed.
Lemma lor_kind wd k : wd < 2048 -> N.lor wd (N.shiftl k 11) = wd + 2048 * k.
Proof.
  intros H. replace (2048 * k) with (N.shiftl k 11) by (rewrite N.shiftl_mul_pow2; change (2 ^ 11) with 2048; lia). symmetry.
  rewrite <- N.lxor_lor.
  - apply N.add_nocarry_lxor. apply N.bits_inj. intros i. rewrite N.land_spec, N.bits_0. destruct (N.ltb_spec i 11) as [Hi|Hi]; [rewrite N.shiftl_spec_low by exact Hi; apply andb_false_r|].
    destruct (N.eq_dec wd 0) as [->|Hz]; [rewrite N.bits_0; reflexivity|]. rewrite N.bits_above_log2; [reflexivity|]. eapply N.lt_le_trans; [|exact Hi]. apply N.log2_lt_pow2; [lia|exact H].
  - apply N.bits_inj. intros i. rewrite N.land_spec, N.bits_0. destruct (N.ltb_spec i 11) as [Hi|Hi]; [rewrite N.shiftl_spec_low by exact Hi; apply andb_false_r|].
    destruct (N.eq_dec wd 0) as [->|Hz]; [rewrite N.bits_0; reflexivity|]. rewrite N.bits_above_log2; [reflexivity|]. eapply N.lt_le_trans; [|exact Hi]. apply N.log2_lt_pow2; [lia|exact H].
Qed.
Lemma unended_unique base l m c o o' : unended base l m c o -> unended base l m c o' -> o = o'.
Proof.
  assert (HT : forall stem d, taken_off l base stem d -> ~ none_there l base).
  { intros stem d (before & behind & -> & E & _) K. apply Forall_app in K as [_ K]. apply Forall_inv in K. apply K. exists stem. exact E. }
  intros H H'. inversion H as [n E|stem d E Ht|E Hn Hc|E Hn Hc]; inversion H' as [n' E'|stem' d' E' Ht'|E' Hn' Hc'|E' Hn' Hc']; try congruence; try (exfalso; eapply HT; eassumption).
  destruct Ht as (b1 & k1 & E1 & S1 & F1), Ht' as (b2 & k2 & E2 & S2 & F2). rewrite E1 in E2. clear E1 H H' HT.
  assert (Ed : fst (fst d) = fst (fst d')).
  { rewrite Forall_forall in F1, F2. revert b2 E2 F2. induction b1 as [|z b1 IH]; intros [|z' b2] E2 F2; cbn [app] in E2.
    - injection E2 as -> _. reflexivity.
    - injection E2 as -> _. exfalso. apply (F2 z' (or_introl eq_refl)). exists stem. exact S1.
    - injection E2 as -> _. exfalso. apply (F1 d' (or_introl eq_refl)). exists stem'. exact S2.
    - injection E2 as -> E2. apply (IH (fun q K => F1 q (or_intror K)) b2 E2). intros q K. apply F2. right. exact K. }
  rewrite Ed in S1. rewrite S1 in S2. apply app_inv_tail in S2. congruence.
Qed.
Lemma without_unique x base base' : without_postfix x base -> without_postfix x base' -> base = base'.
Proof.
  intros (r & E & Hl) (r' & E' & Hl'). rewrite E in E'. assert (K : length base = length base') by (apply (f_equal (@List.length N)) in E'; rewrite !app_length in E'; lia).
  clear E. revert base' E' K. induction base as [|c base IH]; intros [|c' base'] E' K; cbn in *; try discriminate; [reflexivity|]. injection E' as -> E'. f_equal. apply IH; [exact E'|lia].
Qed.
Lemma without_cut x : let word := plain_word (r_head x) in let post := post_of (r_notes x) in (length post <= length word)%nat ->
  without_postfix x (firstn (length word - length post) word) .
Proof.
  intros word post H. exists (skipn (length word - length post) word). split; [symmetry; apply firstn_skipn|]. rewrite skipn_length. fold post. lia.
Qed.
Lemma marked_at_unique base m m' : marked base m -> marked base m' -> m = m'.
Proof.
  assert (G : forall k r, base = firstn k base ++ 64 :: r -> In 64 base) by (intros k r ->; apply in_or_app; right; left; reflexivity).
  assert (L : forall k k' r r', base = firstn k base ++ 64 :: r -> base = firstn k' base ++ 64 :: r' -> ~ In 64 (firstn k' base) -> (k <= length base)%nat -> (k' <= k)%nat).
  { intros k k' r r' E E' Hn Hk. destruct (Nat.le_gt_cases k' k) as [H|H]; [exact H|]. exfalso. apply Hn. rewrite E. rewrite firstn_app. rewrite firstn_length_le by exact Hk. apply in_or_app. right. destruct (k' - k)%nat eqn:Ek; [lia|]. left. reflexivity. }
  destruct m as [k|], m' as [k'|]; cbn [marked]; intros H H'.
  - destruct H as (r & E & Hn & Hk), H' as (r' & E' & Hn' & Hk'). f_equal. apply Nat.le_antisymm; [apply (L k' k r' r)|apply (L k k' r r')]; assumption.
  - destruct H as (r & E & _). exfalso. apply H', (G k r E).
  - destruct H' as (r & E & _). exfalso. apply H, (G k' r E).
  - reflexivity.
Qed.
Lemma marked_cut (word base rest : bytes) m : word = base ++ rest ->
  match m with None => ~ In 64 base | Some k => exists r, base = firstn k word ++ 64 :: r /\ ~ In 64 (firstn k word) /\ (k <= length word)%nat end -> marked base m.
Proof.
  intros E. destruct m as [k|]; [|auto]. intros (r & Eb & Hn & Hk). assert (Lk : length (firstn k word) = k) by (apply firstn_length_le, Hk).
  assert (Ek : firstn k base = firstn k word) by (rewrite Eb at 1; rewrite firstn_app, Lk, Nat.sub_diag, app_nil_r, firstn_firstn, Nat.min_id; reflexivity).
  exists r. rewrite Ek. split; [exact Eb|]. split; [exact Hn|]. rewrite Eb, app_length, Lk. lia.
Qed.
Lemma cases_unique index c c' : (forall i, N.testbit c (N.of_nat i) = true <-> cases_in index i) -> (forall i, N.testbit c' (N.of_nat i) = true <-> cases_in index i) -> c = c'.
Proof.
  intros H H'. apply N.bits_inj. intros i. rewrite <- (N2Nat.id i). destruct (N.testbit c' (N.of_nat (N.to_nat i))) eqn:E.
  - apply H, H', E.
  - apply not_true_iff_false. intros K. apply H, H' in K. congruence.
Qed.

Section Entries.
  Variables (alphabet : bytes) (ds : list definition) (b : bytes) (ix : list (bytes * N)) (ms : list mixdef) (mb : bytes) (mix : list (bytes * list (N * bytes))).
  Hypothesis HM : tables_mean ds b ix.
  Hypothesis HX : mixes_mean ms mb mix.
  Let T := Tables b ix mb mix.

  (** The lexeme compiled is the word told. *)
  Record same_word (x : rarticle) (l : lexeme) (tw : tword) : Prop := {
    sw_stem : l_stem l = tw_stem tw;
    sw_class : m_wdinfo (l_class l) = tw_class tw;
    sw_post : l_post l = post_of (r_notes x);
    sw_mix : m_mtoffs (l_class l) = 0 <-> tw_mix tw = None;
    sw_parts : forall part g f, changing b mb (l_class l) part g f <-> word_part ds tw part g f;
    sw_id : l_id l = r_id x;
    sw_inflected : inflected (l_class l) = match tw_table tw with Some _ => true | None => false end;
    sw_offset : m_tfoffs (l_class l) = 0 <-> tw_table tw = None /\ tw_cases tw = 0;
    sw_endings : forall name s g f, tw_table tw = Some name -> (ending b (m_tfoffs (l_class l)) s g f <-> tells ds name s g f);
    sw_same_mix : same_mix mb (m_mtoffs (l_class l)) (tw_mix tw);
    sw_cases : tw_table tw = None -> tw_mix tw = None /\ m_tfoffs (l_class l) = tw_cases tw;
  }.
  Definition same_sense (x : rarticle) (o : option lexeme) (o' : option tword) : Prop :=
    match o, o' with None, None => True | Some l, Some tw => same_word x l tw | _, _ => False end.

  Lemma no_lookup name : lookup name ix = None <-> no_table ds name.
  Proof using HM.
    destruct HM as (_ & H1 & _). specialize (H1 name). split.
    - intros E lines K. destruct (proj2 H1 (ex_intro _ _ K)) as (off & E'). congruence.
    - intros K. destruct (lookup name ix) as [off|]; [|reflexivity]. exfalso. destruct (proj1 H1 (ex_intro _ _ eq_refl)) as (lines & Hd). apply (K lines Hd).
  Qed.
  Lemma some_lookup name lines : defined ds name lines -> exists off, lookup name ix = Some off.
  Proof using HM. destruct HM as (_ & H1 & _). intros H. apply H1. exists lines. exact H. Qed.

  Lemma search_compiled name off wd base rems : lookup name ix = Some off -> search_told ds wd name base -> searchable b mb (match lookup name mix with Some l => l | None => [] end) wd off base rems.
  Proof using HM HX.
    intros Hl Hs. constructor.
    - apply (st_plural _ _ _ _ Hs).
    - apply (tidy_told ds b ix HM name off Hl), (st_links _ _ _ _ Hs).
    - apply (whole_told ds b ix HM name off wd base Hl Hs).
    - intros o cond Hin. destruct (alts_there ms mb mix HX name o cond Hin) as [K1 K2]. split; [lia|exact K2].
    - apply (st_zero _ _ _ _ Hs).
  Qed.

  Lemma resolve_rest depth alts word base rest post rems wd off cases m colon kind id : word = base ++ rest -> length rest = length post ->
    resolve depth b mb alts word post rems wd off cases m colon kind id = resolve depth b mb alts (base ++ post) post rems wd off cases m colon kind id.
  Proof using. clear. intros -> E. unfold resolve. rewrite cut_app, <- E, cut_app. reflexivity. Qed.

  (** A word that changes: the search for its stem. *)
  Lemma changing_word depth x index n p off cases at_mark base l o lines :
    typed (r_mark x) (r_type x) n p -> ~ constant n -> lookup (table_name x index) ix = Some off -> defined ds (table_name x index) lines -> without_postfix x base ->
    search_told ds (class_bits x n p) (table_name x index) base -> normal_of_table ds (class_bits x n p) (table_name x index) base l -> marked base at_mark ->
    resolve depth b mb (match lookup (table_name x index) mix with Some l => l | None => [] end) (plain_word (r_head x)) (post_of (r_notes x))
      (remark_of (r_notes x)) (class_bits x n p) off cases at_mark (colon_in index) (if n <=? 6 then verb_kind index else 0) (r_id x) = Ok o ->
    exists o', sense ds ms x index o' /\ same_sense x o o'.
  Proof using HM HX.
    intros Ht Hc Hl Hd Hw Hs Hn Hm Hr. pose proof Hw as (rest & Ew & El). rewrite (resolve_rest _ _ _ _ _ _ _ _ _ _ _ _ _ _ Ew El) in Hr.
    destruct (table_here ds b ix HM _ _ Hl) as (_ & _ & _ & _ & Hoff & _). pose proof (typed_type _ _ _ _ Ht) as [_ Hn64].
    pose proof (resolve_found _ _ _ _ _ _ _ _ _ _ _ _ _ _ l _ Hr ltac:(lia) (search_compiled _ _ _ _ _ Hl Hs) (normal_compiled ds b ix HM _ _ _ _ Hn _ Hl)) as K.
    destruct o as [lx|].
    - destruct K as (stem & mt & Hu & Ha & Hcl & Hp & Hid). destruct (alternation_compiled mb _ _ _ _ _ _ _ (refs_told ms mb mix HX (table_name x index)) Ha) as (mo & Hmo & Hsm).
      exists (Some (TWord (l_stem lx) (class_bits x n p + kind_bits index n mo) (Some (table_name x index)) mo 0)). split; [eapply sn_changes; eassumption|]. cbn [same_sense].
      assert (Ewd : (if mt =? 0 then class_bits x n p else N.lor (class_bits x n p) (N.shiftl (if n <=? 6 then verb_kind index else 0) 11)) = class_bits x n p + kind_bits index n mo).
      { unfold kind_bits. destruct mo as [mx|]; cbn [same_mix] in Hsm.
        - destruct Hsm as [K _]. destruct (N.eqb_spec mt 0); [lia|]. apply lor_kind, class_below. lia.
        - subst mt. cbn [N.eqb]. lia. }
      rewrite Ewd in Hcl. assert (H51 : (class_bits x n p + kind_bits index n mo) mod 64 <> 51).
      { assert (E : (class_bits x n p + kind_bits index n mo) mod 64 = n).
        { unfold kind_bits. destruct mo as [mx|]; [|rewrite N.add_0_r; apply class_number; lia]. replace (2048 * (if n <=? 6 then verb_kind index else 0)) with ((32 * (if n <=? 6 then verb_kind index else 0)) * 64) by lia.
          rewrite N.mod_add by discriminate. apply class_number. lia. }
        rewrite E. unfold constant in Hc. lia. }
      constructor; cbn [tw_stem tw_class tw_table tw_mix tw_cases].
      + reflexivity.
      + rewrite Hcl. reflexivity.
      + exact Hp.
      + rewrite Hcl. cbn [m_mtoffs tw_mix]. destruct mo as [mx|]; cbn [same_mix] in Hsm; [split; [lia|discriminate]|split; auto].
      + intros part g f. rewrite Hcl. rewrite (part_compiled ds b ix mb HM (table_name x index) off _ mt mo part g f Hl H51 Hsm). split.
        * intros K. eapply wp_changing; [reflexivity|exact K].
        * intros K. inversion K as [E|name part' g' f' E K']; subst; [discriminate|]. cbn [tw_table tw_class tw_mix] in *. injection E as <-. exact K'.
      + exact Hid.
      + rewrite Hcl. unfold inflected. cbn [m_tfoffs m_wdinfo]. destruct (N.eqb_spec off 0); [lia|]. destruct (N.eqb_spec ((class_bits x n p + kind_bits index n mo) mod 64) 51); [contradiction|reflexivity].
      + rewrite Hcl. cbn [m_tfoffs]. split; [lia|intros [K _]; discriminate].
      + intros name s g f E. injection E as <-. rewrite Hcl. cbn [m_tfoffs]. apply (ending_tells ds b ix HM), Hl.
      + rewrite Hcl. exact Hsm.
      + discriminate.
    - exists None. split; [|exact I]. eapply sn_refused; eassumption.
  Qed.
  Lemma fixed_word x l tw base wd cases : l_stem l = base -> l_class l = Morphclass wd cases 0 -> l_post l = post_of (r_notes x) -> inflected (l_class l) = false -> l_id l = r_id x -> tw = TWord base wd None None cases -> same_word x l tw.
  Proof using.
    clear. intros E1 E2 E3 E4 E5 ->. constructor; cbn [tw_stem tw_class tw_table tw_mix tw_cases]; [exact E1|rewrite E2; reflexivity|exact E3|rewrite E2; cbn [m_mtoffs tw_mix]; split; auto| |exact E5|exact E4|rewrite E2; cbn [m_tfoffs]; tauto|discriminate|rewrite E2; reflexivity|intros _; rewrite E2; auto]. intros part g f. split.
    - intros H. inversion H as [K|? ? ? K|? ? ? ? ? ? K]; subst; [|congruence|congruence]. rewrite E2. cbn [m_tfoffs]. apply (wp_fixed ds (TWord (l_stem l) wd None None cases)). reflexivity.
    - intros H. inversion H as [K|? ? ? ? K]; subst; [|discriminate]. cbn [tw_cases]. replace cases with (m_tfoffs (l_class l)) by (rewrite E2; reflexivity). apply changing_never, E4.
  Qed.
  Lemma fixed_resolve depth x index alts n p base cases m colon kind o rest : typed (r_mark x) (r_type x) n p ->
    plain_word (r_head x) = base ++ rest -> length rest = length (post_of (r_notes x)) ->
    resolve depth b mb alts (plain_word (r_head x)) (post_of (r_notes x)) (remark_of (r_notes x)) (class_bits x n p) 0 cases m colon kind (r_id x) = Ok o ->
    (forall i, N.testbit cases (N.of_nat i) = true <-> cases_in index i) ->
    exists l, o = Some l /\ same_word x l (TWord base (class_bits x n p) None None (if n =? 51 then cases else 0)).
  Proof using.
    intros Ht Ew El Hr Hc. pose proof (typed_type _ _ _ _ Ht) as [_ Hn64]. rewrite (resolve_rest _ _ _ _ _ _ _ _ _ _ _ _ _ _ Ew El) in Hr. unfold resolve in Hr. rewrite cut_app in Hr. cbn [bind N.eqb] in Hr. injection Hr as <-. eexists. split; [reflexivity|].
    assert (En : N.land (class_bits x n p) 0x3f = n) by (change 63 with (N.ones 6); rewrite N.land_ones; change (2 ^ 6) with 64; apply class_number; lia). rewrite En.
    eapply fixed_word; [reflexivity|reflexivity|reflexivity| |reflexivity|reflexivity]. cbn [l_class]. unfold inflected. cbn [m_tfoffs m_wdinfo]. replace (class_bits x n p mod 64) with n by (symmetry; apply class_number; lia).
    destruct (N.eqb_spec n 51); [apply andb_false_r|reflexivity].
  Qed.

  Lemma sense_unique x index o o' : sense ds ms x index o -> sense ds ms x index o' -> 
    (forall n p base lines, typed (r_mark x) (r_type x) n p -> ~ constant n -> defined ds (table_name x index) lines -> without_postfix x base -> exists l, forall l', normal_of_table ds (class_bits x n p) (table_name x index) base l' -> l' = l) -> o = o'.
  Proof using.
    clear. intros H H' HN.
    inversion H as [U|n p Ht Hc Hz Hno|n p base cases Ht Hc Hw Hcs|n p base lines l m stem lf mo Ht Hc Hd Hw Hm Hn Hu Ha|n p base lines l m Ht Hc Hd Hw Hm Hn Hu];
    inversion H' as [U'|n' p' Ht' Hc' Hz' Hno'|n' p' base' cases' Ht' Hc' Hw' Hcs'|n' p' base' lines' l' m' stem' lf' mo' Ht' Hc' Hd' Hw' Hm' Hn' Hu' Ha'|n' p' base' lines' l' m' Ht' Hc' Hd' Hw' Hm' Hn' Hu'];
    try reflexivity; try (exfalso; eapply U; eassumption); try (exfalso; eapply U'; eassumption); destruct (typed_unique _ _ _ _ _ _ Ht Ht') as [<- <-].
    all: try match type of Hc with _ \/ _ => destruct Hc as [Hc|[Hc Hc2]] end; try match type of Hc' with _ \/ _ => destruct Hc' as [Hc'|[Hc' Hc2']] end; try contradiction;
      try (exfalso; match goal with K : no_table ?d ?n, D : defined ?d ?n ?l |- _ => exact (K l D) end).
    all: destruct (without_unique _ _ _ Hw Hw'); try (rewrite (cases_unique _ _ _ Hcs Hcs'); reflexivity).
    all: destruct (marked_at_unique _ _ _ Hm Hm'); destruct (HN _ _ _ _ Ht Hc Hd Hw) as (l0 & HN'); rewrite (HN' _ Hn) in Hu; rewrite (HN' _ Hn') in Hu'; pose proof (unended_unique _ _ _ _ _ _ Hu Hu') as E; try discriminate E.
    injection E as <-. destruct (told_unique _ _ _ _ _ _ _ _ Ha Ha') as [<- <-]. reflexivity.
  Qed.
End Entries.

(** The endings of the normal form are determined. *)
Lemma normal_told_unique ds verb nf : forall name l, normal_told ds verb nf name l -> forall l', normal_told ds verb nf name l' -> l = l'.
Proof.
  fix IH 3. intros name l H. destruct H as [name lines l ls Hd Ho HF]. intros l' H'. inversion H' as [name' lines' l2 ls' Hd' Ho' HF']; subst. rewrite (defined_unique _ _ _ _ Hd' Hd) in Ho'. rewrite (ordered_unique _ _ _ Ho' Ho) in *. f_equal. f_equal.
  clear Hd Hd' Ho Ho' H'. revert ls' HF'. induction HF as [|it d l ls H1 HF IHF]; intros ls' HF'; inversion HF' as [|? d' ? ls'' H1' HF'']; subst; [reflexivity|]. f_equal; [|apply IHF, HF'']. clear IHF HF HF' HF''.
  destruct H1 as [it Hno|it Hn Hb|it d Hn Hb H1]; inversion H1' as [? Hno'|? Hn' Hb'|? d2 Hn' Hb' H2]; subst; try contradiction; try congruence; try reflexivity. f_equal. exact (IH _ _ H1 _ H2).
Qed.
