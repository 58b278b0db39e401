(** * CompileProofs5: from sources to answers.  PROOFS. *)
From Verif Require Import Base Serial SerialProofs WordTree TreeSpec WordTreeProofs FlatScan LidsProofs TreeWalk Stems StemSpec StemsProofs DictProofs CharTables CapScheme CapSpec GramMap RusRuntime LevelSpec LevelProofs
  RusSpec RusProofs RusProofs2 RusProofs3 PropRusLemmas Compile CompileSpec CompileProofs CompileProofs2 CompileProofs3 CompileProofs4.
From Coq Require Import Permutation.
Local Open Scope N_scope.

Lemma Forall2_len {X Y} (R : X -> Y -> Prop) l l' : Forall2 R l l' -> length l = length l'.
Proof. induction 1; cbn; congruence. Qed.
Lemma Forall2_in_l {X Y} (R : X -> Y -> Prop) l l' x : Forall2 R l l' -> In x l -> exists y, In y l' /\ R x y.
Proof. induction 1 as [|a b l l' H _ IH]; intros Hin; [destruct Hin|]. destruct Hin as [<-|Hin]; [exists b; cbn; auto|]. destruct (IH Hin) as (y & H1 & H2). exists y. cbn. auto. Qed.
Lemma Forall2_in_r {X Y} (R : X -> Y -> Prop) l l' y : Forall2 R l l' -> In y l' -> exists x, In x l /\ R x y.
Proof. induction 1 as [|a b l l' H _ IH]; intros Hin; [destruct Hin|]. destruct Hin as [<-|Hin]; [exists a; cbn; auto|]. destruct (IH Hin) as (x & H1 & H2). exists x. cbn. auto. Qed.

Lemma records_of_in items key e : In e (records_of items key) <-> In (key, e) items.
Proof.
  unfold records_of. rewrite in_map_iff. split.
  - intros ([k e'] & <- & H). apply filter_In in H as [H E]. cbn [fst snd] in *. destruct (list_eq_dec N.eq_dec k key) as [->|]; [exact H|discriminate].
  - intros H. exists (key, e). split; [reflexivity|]. apply filter_In. split; [exact H|]. cbn [fst]. destruct (list_eq_dec N.eq_dec key key); [reflexivity|contradiction].
Qed.
Lemma filter_short {X} (p : X -> bool) l : (length (filter p l) <= length l)%nat.
Proof. induction l as [|x l IH]; [constructor|]. cbn [filter]. destruct (p x); cbn [length]; lia. Qed.
Lemma records_of_length items key : (length (records_of items key) <= length items)%nat.
Proof. unfold records_of. rewrite map_length. apply filter_short. Qed.

Lemma within_reader n items : forall t, within n t -> Forall (fun ke => (length (fst ke) <= n)%nat) items -> within n (dict_reader items t).
Proof.
  unfold dict_reader. induction items as [|[key e] l IH]; intros t Ht H; cbn [fold_left]; [exact Ht|]. apply IH; [|eapply Forall_inv_tail, H]. cbn [fst snd]. apply within_insert; [exact Ht|]. apply (Forall_inv H).
Qed.

Section Main.
  Variable depth : nat.
  Variables ftable mtable : bytes.
  Variable xs : list lexeme.
  Hypothesis Hsrc : sources_ok ftable mtable xs.
  Variable A : arrays.
  Hypothesis Hcomp : compile depth ftable mtable xs = Ok (Some A).
  Hypothesis Hfit : arrays_fit A.

  Lemma compile_inv : exists b items, A = save_tables mtable b /\ bld_inv depth ftable b /\ Forall2 (record_rel b) xs items /\ tree b = dict_reader items wempty.
  Proof using Hcomp Hfit.
    unfold compile in Hcomp. apply bind_ok_inv in Hcomp as (o & E & H). destruct o as [b|]; [|discriminate]. injection H as <-.
    destruct (add_lexemes_inv _ _ _ _ _ (new_inv depth ftable) E) as (I & _ & items & R & T). exists b, items. auto.
  Qed.

  Lemma dict_letters alphabet items : forall t, letters_in alphabet t -> Forall (fun ke => incl (fst ke) alphabet) items -> letters_in alphabet (dict_reader items t).
  Proof using Type.
    induction items as [|ke items IH]; intros t Ht H; [exact Ht|]. inversion H as [|? ? H1 H2]; subst. apply IH; [|exact H2]. apply letters_insert; assumption.
  Qed.

  Lemma compile_holds_from : exists L, holds A L /\ compiled_from ftable mtable xs L /\ lidstree A = lidstree_bytes (create_lids (words L)) /\ stemtree A = stemtree_bytes (words L).
  Proof using Hsrc Hcomp Hfit.
    destruct compile_inv as (b & items & -> & I & R & T). destruct Hsrc as [Hft Hcnt (alphabet & Hal & Hlex)]. rewrite Forall_forall in Hlex.
    assert (Hitem : forall key e, In (key, e) items -> exists x m', In x xs /\ lexeme_ok ftable mtable alphabet x /\ mapped b (l_class x) m' /\
        In (m', oclass e) (clsset (classes b)) /\ key = l_stem x /\ e = Entry (l_min x) (l_max x) (l_id x) (oclass e) (l_post x)).
    { intros key e Hin. destruct (Forall2_in_r _ _ _ _ R Hin) as (x & Hx & m' & off & H1 & H2 & [= -> ->]). exists x, m'. cbn [oclass]. auto 10. }
    assert (Hkeys : Forall (fun ke => incl (fst ke) alphabet) items).
    { apply Forall_forall. intros [key e] Hin. destruct (Hitem _ _ Hin) as (x & m' & _ & Hx & _ & _ & -> & _). apply (lo_stem _ _ _ _ Hx). }
    assert (Hkeyb : Forall (fun ke => is_bytes (fst ke)) items).
    { eapply Forall_impl; [|exact Hkeys]. intros ke Hk. apply Forall_forall. intros c Hc. destruct Hal as (Ha & _). unfold is_bytes in Ha. rewrite Forall_forall in Ha. apply Ha, Hk, Hc. }
    destruct (dict_reader_facts items wempty ordered_wempty Hkeyb) as (T1 & T2 & T3 & T4); [intros key l; rewrite lookup_wempty; discriminate|].
    assert (Hrec : forall key e, has_record (tree b) key e <-> In (key, e) items).
    { intros key e. rewrite <- records_of_in, T. specialize (T2 key). rewrite lookup_wempty, app_nil_r in T2. unfold has_record. split.
      - intros (l & El & Hin). rewrite El in T2. eapply Permutation_in; [exact T2|exact Hin].
      - intros Hin. apply (Permutation_in _ (Permutation_sym T2)) in Hin. destruct (lookup key (dict_reader items wempty)) as [l|]; [|destruct Hin]. exists l. auto. }
    set (P := fun off (sc : steminfo * aclass) => class_at (save_tables mtable b) off (fst sc) /\ class_repr (save_tables mtable b) (fst sc) (snd sc) /\
          forall x m', In x xs -> mapped b (l_class x) m' -> In (m', off) (clsset (classes b)) -> class_means ftable mtable (l_class x) (snd sc)).
    destruct (finite_choice P (map (fun ke => oclass (snd ke)) items)) as (cof & Hcof).
    { intros off Hoff. apply in_map_iff in Hoff as ([key e] & <- & Hin). cbn [snd]. destruct (Hitem _ _ Hin) as (x & m' & Hx & Ox & Mx & Cx & _).
      destruct (class_one depth ftable mtable alphabet Hft Hal b I Hfit x m' _ Ox Mx Cx) as (st & c & K1 & K2 & K3). exists (st, c). split; [exact K1|]. split; [exact K2|].
      intros y m'' Hy My Cy. cbn [snd]. rewrite (cls_offset_inj _ _ _ _ (bi_cls _ _ _ I) Cx Cy) in Mx.
      rewrite <- (mapped_inj depth ftable mtable alphabet b I Hfit x y m'' Ox (Hlex y Hy) Mx My). exact K3. }
    assert (Hcls : forall key e, In (key, e) items -> exists st c, cof (oclass e) = Some (st, c) /\ P (oclass e) (st, c)).
    { intros key e Hin. destruct (Hcof (oclass e)) as ([st c] & H1 & H2); [apply in_map_iff; exists (key, e); auto|]. exists st, c. auto. }
    exists (Lexicon (tree b) cof). split; [|split; [|split; reflexivity]].
    - assert (Ho : ordered (tree b)) by (rewrite T; exact T1).
      assert (Hlists : forall key l, lookup key (tree b) = Some l -> stems_ok l /\ max_descending l).
      { intros key l El. split; [|apply (T4 key); rewrite <- T; exact El]. split.
        - apply Forall_forall. intros e He. assert (Hin : In (key, e) items) by (apply Hrec; exists l; auto).
          destruct (Hitem _ _ Hin) as (x & m' & Hx & Ox & Mx & Cx & _ & ->). unfold entry_ok. cbn [chrmin chrmax nlexid oclass stpost].
          destruct (lo_bounds _ _ _ _ Ox) as [B1 B2]. destruct (lo_post _ _ _ _ Ox) as [B3 B4]. split; [exact B1|]. split; [exact B2|]. split; [apply (lo_id _ _ _ _ Ox)|].
          split; [|split; assumption]. destruct (bi_cls _ _ _ I) as [CI1 CI2 CI3 CI4]. destruct (CI3 _ _ Cx) as (l1 & l2 & Ec & Eo). destruct Hfit as (_ & F & _).
          cbn [save_tables classmap] in F. unfold classtable_ser in F. rewrite Ec in F. cbn [oclass] in Eo. rewrite Eo.
          pose proof (sers_pos l1 (m', oclass e) l2) as Hs. unfold sers in *. rewrite Eo in F at 1. cbn [oclass] in *. change (2 ^ 15) with 32768 in *.
          match type of F with ?a <= _ => assert (Ha : a >= N.of_nat (length (flat_map (fun r : morphclass * N => morphclass_ser (fst r)) l1)) + 2) end; [|lia].
          rewrite flat_map_app, app_length. cbn [flat_map fst]. rewrite app_length. pose proof (morphclass_ser_len m'). pose proof (morphclass_len_pos m'). lia.
        - specialize (T2 key). rewrite lookup_wempty, app_nil_r, <- T, El in T2. cbn [default] in T2. apply Permutation_length in T2. pose proof (records_of_length items key) as Hl.
          rewrite (Forall2_len _ _ _ R) in Hcnt. lia. }
      assert (Hlet : letters_in alphabet (tree b)) by (rewrite T; apply dict_letters; [apply letters_wempty|exact Hkeys]).
      assert (Hsz : all_data (sized stems_ser stems_len) (tree b)).
      { apply lookup_all_data; [exact Ho|]. intros key l El. apply stems_ser_len, (Hlists key l El). }
      constructor; cbn [words class_of].
      + exists []. rewrite app_nil_r. reflexivity.
      + apply dumpable_intro; [exact Ho|eapply letters_counts; [apply Hal|exact Ho|exact Hlet]|].
        rewrite <- (sized_len C8 stems_ser stems_len _ Hsz). apply Hfit.
      + eapply letters_nonzero; [apply Hal|exact Hlet].
      + exact Hlists.
      + intros key e H. apply Hrec in H. destruct (Hcls _ _ H) as (st & c & E & P1 & P2 & _). exists st, c. auto.
    - constructor; cbn [words class_of].
      + intros x Hx. destruct (Forall2_in_l _ _ _ _ R Hx) as (ke & Hin & m' & off & H1 & H2 & ->). destruct (Hcls _ _ Hin) as (st & c & E & P1 & P2 & P3). cbn [oclass] in *.
        exists off, st, c. split; [apply Hrec, Hin|]. split; [exact E|]. exact (P3 x m' Hx H1 H2).
      + intros key e H. apply Hrec in H. destruct (Hitem _ _ H) as (x & m' & Hx & Ox & Mx & Cx & K1 & K2). destruct (Hcls _ _ H) as (st & c & E & P1 & P2 & P3).
        exists x, st, c. split; [exact Hx|]. split; [exact K1|]. split; [exact K2|]. split; [exact E|]. exact (P3 x m' Hx Mx Cx).
      + intros n Hn. rewrite T. apply within_reader; [apply within_wempty|]. apply Forall_forall. intros [key e] Hin. destruct (Hitem _ _ Hin) as (x & m' & Hx & _ & _ & _ & -> & _).
        cbn [fst]. rewrite Forall_forall in Hn. apply Hn, Hx.
  Qed.
End Main.

Lemma from_bounds ftable mtable xs L : compiled_from ftable mtable xs L -> Forall (bounds_cover ftable mtable) xs -> bounds_ok L.
Proof.
  intros HC Hb key e st c part g f Hr Hc Hf ch rest ->. destruct (cf_only _ _ _ _ HC key e Hr) as (x & st' & c' & Hx & _ & -> & Hc' & Hm). cbn [oclass chrmin chrmax] in *.
  rewrite Hc in Hc'. injection Hc' as <- <-. rewrite Forall_forall in Hb. apply (Hb x Hx ch rest g f). apply (cm_forms _ _ _ _ Hm), Hf.
Qed.

Lemma from_words ftable mtable xs L ignore w key e part g f : compiled_from ftable mtable xs L -> word_of L ignore w key e part g f ->
  exists x, source_word ftable mtable xs ignore w x part g f /\ l_stem x = key /\ l_id x = nlexid e /\ l_post x = stpost e /\ l_max x = chrmax e.
Proof.
  intros HC [(E & Hr & st & c & Hc & Hf) Hs]. destruct (cf_only _ _ _ _ HC key e Hr) as (x & st' & c' & Hx & -> & Ee & Hc' & Hm). rewrite Hc in Hc'. injection Hc' as <- <-.
  assert (Ep : l_post x = stpost e /\ l_id x = nlexid e /\ l_max x = chrmax e) by (rewrite Ee; repeat split; reflexivity). destruct Ep as (Ep & Ei & Em).
  exists x. split; [|auto]. split; [exact Hx|]. split; [split; [apply (cm_forms _ _ _ _ Hm), Hf|rewrite Ep; exact E]|].
  intros Hi. destruct (Hs Hi) as (st' & c' & Hc' & Hsu). rewrite Hc in Hc'. injection Hc' as <- <-. unfold min_case in Hsu. rewrite <- required_mod13, (cm_word _ _ _ _ Hm) in Hsu. exact Hsu.
Qed.

Lemma to_words ftable mtable xs L ignore w x part g f : compiled_from ftable mtable xs L -> source_word ftable mtable xs ignore w x part g f ->
  exists e, word_of L ignore w (l_stem x) e part g f /\ l_id x = nlexid e /\ l_post x = stpost e.
Proof.
  intros HC (Hx & [Hc Ew] & Hs). destruct (cf_all _ _ _ _ HC x Hx) as (off & st & c & Hr & Hco & Hm). exists (Entry (l_min x) (l_max x) (l_id x) off (l_post x)). split; [|split; reflexivity].
  split; [split; [exact Ew|split; [exact Hr|]]|].
  - exists st, c. split; [exact Hco|]. apply (cm_forms _ _ _ _ Hm), Hc.
  - intros Hi. exists st, c. split; [exact Hco|]. unfold min_case. rewrite <- required_mod13, (cm_word _ _ _ _ Hm). apply Hs, Hi.
Qed.

Lemma compiled_check depth ftable mtable xs A w psz cch dwsets junk :
  compile depth ftable mtable xs = Ok (Some A) -> sources_ok ftable mtable xs -> arrays_fit A -> Forall (bounds_cover ftable mtable) xs ->
  given w psz cch -> is_bytes w -> w <> [] -> (length w < 48)%nat -> (length (parts rus_casing w) <= 8)%nat ->
  (forall x part g f, source_word ftable mtable xs (bit 1 dwsets) w x part g f ->
     part <> [] \/ match l_post x with [] => True | c :: _ => c <= l_max x end) ->
  check_word A junk psz cch dwsets = Ok 1%Z /\ (exists x part g f, source_word ftable mtable xs (bit 1 dwsets) w x part g f) \/
  check_word A junk psz cch dwsets = Ok 0%Z /\ ~ (exists x part g f, source_word ftable mtable xs (bit 1 dwsets) w x part g f).
Proof.
  intros Hc Hs Hf Hb Hg Hw Hne Hl Hp Hside. destruct (compile_holds_from _ _ _ _ Hs _ Hc Hf) as (L & HL & HC & _).
  destruct (check_exact A L w psz cch dwsets junk HL (from_bounds _ _ _ _ HC Hb) Hg Hw Hne Hl Hp) as [[E (key & e & part & g & f & H)]|[E H]].
  - intros key e part g f H. destruct (from_words _ _ _ _ _ _ _ _ _ _ _ HC H) as (x & Hx & _ & _ & Ep & Em). unfold reachable. rewrite <- Ep, <- Em. eapply Hside. exact Hx.
  - left. split; [exact E|]. destruct (from_words _ _ _ _ _ _ _ _ _ _ _ HC H) as (x & Hx & _). exists x, part, g, f. exact Hx.
  - right. split; [exact E|]. intros (x & part & g & f & Hx). apply H. destruct (to_words _ _ _ _ _ _ _ _ _ _ HC Hx) as (e & He & _). exists (l_stem x), e, part, g, f. exact He.
Qed.
