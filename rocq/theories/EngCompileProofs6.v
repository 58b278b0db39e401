(** * EngCompileProofs6: from the articles to the answers.  PROOFS. *)
From Coq Require Import String Ascii Permutation.
From Verif Require Import Base Serial SerialProofs WordTree TreeSpec WordTreeProofs FlatScan LidsProofs TreeWalk Stems StemSpec StemsProofs DictProofs CharTables CapScheme CapSpec CapProofs GramMap RusRuntime RusSpec RusProofs
  EngRuntime EngSpec EngProofs EngProofs2 PropEngLemmas Api CompileProofs CompileProofs2 CompileProofs4 CompileProofs5 EngCompile EngCompileSpec EngCompileProofs EngCompileProofs2 EngCompileProofs3 EngCompileProofs4 EngCompileProofs5.
Local Open Scope N_scope.
Local Open Scope list_scope.

Definition article_good (x : article) : Prop := article_ok x /\ fits x /\ few_homonyms x.
Definition aclass_of (x : article) : eclass := EClass (awd x) (option_map (fun forms => t_items (article_table forms)) (a_forms x)).
Definition astem_of (x : article) (ref : tableref) : estem := EStem (awd x) (t_offset ref).

Lemma forms_facts x forms : article_good x -> a_forms x = Some forms ->
  Forall form_ok forms /\ forms <> [] /\ (length (put_forms (Some forms)) < 256)%nat /\
  (forall part, (count_occ (list_eq_dec N.eq_dec) (map to_small (concat forms)) part <= 64)%nat) /\
  table_of (put_forms (Some (map (map to_small) forms))) = article_table forms.
Proof.
  intros (Hok & (Hl & _) & Hh) E. destruct (ao_forms x Hok forms E) as [Hne Hf]. rewrite E in Hl.
  split; [exact Hf|]. split; [exact Hne|]. split; [exact Hl|]. split; [intros part; apply Hh, E|]. apply table_of_eq.
  - apply Forall_map. eapply Forall_impl; [|exact Hf]. apply small_form.
  - destruct forms; [contradiction|discriminate].
  - rewrite map_length. destruct (put_forms_long forms) as (K & _). lia.
Qed.

Lemma aclass_means x : article_good x -> ameans x (aclass_of x).
Proof.
  intros Hx. constructor; [reflexivity|]. intros part id. unfold aclass_of. destruct (a_forms x) as [forms|] eqn:E.
  - destruct (forms_facts x forms Hx E) as (F1 & F2 & F3 & F4 & _). destruct (article_table_facts forms F1 F3 F4) as (_ & Hin & _). cbv zeta in Hin. split.
    + intros H. remember (EClass (awd x) (option_map (fun forms => t_items (article_table forms)) (Some forms))) as c eqn:Ec.
      destruct H as [Hn|t part id Ht Hi]; subst c; cbn [k_ends option_map] in *; [discriminate|]. injection Ht as <-. apply Hin in Hi as (k & alts & e & H1 & H2 & -> & ->).
      eapply aform_listed; eassumption.
    + intros H. destruct H as [Hn|forms' i alts e Hf Hnth He]; [congruence|]. rewrite E in Hf. injection Hf as <-. eapply eform_listed; [reflexivity|]. apply Hin. exists i, alts, e. auto.
  - split.
    + intros H. remember (EClass (awd x) (option_map (fun forms => t_items (article_table forms)) None)) as c eqn:Ec.
      destruct H as [Hn|t part id Ht Hi]; subst c; cbn [k_ends option_map] in *; [apply aform_fixed, E|discriminate].
    + intros H. destruct H as [Hn|forms' i alts e Hf Hnth He]; [|congruence]. apply eform_fixed. reflexivity.
Qed.

Section Class.
  Variable b : ebuilder.
  Hypothesis Hb : eb_inv b.
  Hypothesis Hfit : earrays_fit (esave b).

  Lemma ref_facts x ref : article_good x -> ref_for b x ref ->
    match a_forms x with
    | None => ref = TableRef 0 0 0
    | Some forms => exists t, In (put_forms (Some (map (map to_small) forms)), t) (fb_tables (eb_flex b)) /\ ref = t_ref t /\ t_items t = t_items (article_table forms) /\
        t_lower ref = t_lower (t_ref (article_table forms)) /\ t_upper ref = t_upper (t_ref (article_table forms)) /\ 4 <= t_offset ref < 2 ^ 16
    end.
  Proof using Hb Hfit.
    intros Hx H. unfold ref_for in H. destruct (a_forms x) as [forms|] eqn:E; [|exact H]. destruct H as (t & Hin & ->). exists t.
    destruct (forms_facts x forms Hx E) as (_ & _ & _ & _ & Et). destruct (table_split b Hb Hfit _ _ Hin) as (l1 & l2 & _ & Eo & Hlt & Ei & El & Eu). rewrite Et in *. rewrite Eo.
    repeat match goal with |- _ /\ _ => split end; try assumption; try reflexivity. lia.
  Qed.

  Lemma ref_inj x y ref ref' : article_good x -> article_good y -> ref_for b x ref -> ref_for b y ref' -> t_offset ref = t_offset ref' ->
    option_map (fun forms => t_items (article_table forms)) (a_forms x) = option_map (fun forms => t_items (article_table forms)) (a_forms y).
  Proof using Hb Hfit.
    intros Hx Hy Rx Ry E. apply ref_facts in Rx; [|exact Hx]. apply ref_facts in Ry; [|exact Hy].
    destruct (a_forms x) as [fx|], (a_forms y) as [fy|]; cbn [option_map].
    - destruct Rx as (t & H1 & -> & H2 & _). destruct Ry as (t' & H1' & -> & H2' & _). rewrite <- H2, <- H2'. rewrite (table_inj b Hb Hfit _ _ _ _ H1 H1' E). reflexivity.
    - destruct Rx as (t & _ & _ & _ & _ & _ & H). rewrite Ry in E. cbn in E. lia.
    - destruct Ry as (t & _ & _ & _ & _ & _ & H). rewrite Rx in E. cbn in E. lia.
    - reflexivity.
  Qed.

  Lemma eclass_one x ref off : article_good x -> ref_for b x ref -> In (awd x, t_offset ref, off) (ec_list (eb_classes b)) ->
    eclass_at (esave b) off (astem_of x ref) /\ eclass_repr (esave b) (astem_of x ref) (aclass_of x).
  Proof using Hb Hfit.
    intros Hx Hr Hc. assert (Hw : awd x < 2 ^ 16).
    { unfold awd. destruct Hx as (_ & (_ & _ & Hp) & _). pose proof (acase_le x). change (2 ^ 16) with 65536. lia. }
    pose proof (ref_facts x ref Hx Hr) as Hf.
    assert (Ho : t_offset ref < 2 ^ 16).
    { destruct (a_forms x); [destruct Hf as (t & _ & _ & _ & _ & _ & H); lia|]. rewrite Hf. reflexivity. }
    split; [apply class_stored; assumption|]. unfold eclass_repr, astem_of, aclass_of. cbn [e_wdinfo e_tfoffs k_word k_ends]. split; [reflexivity|]. split; [exact Ho|].
    destruct (a_forms x) as [forms|] eqn:E; cbn [option_map]; [|rewrite Hf; reflexivity].
    destruct Hf as (t & Hin & -> & Ei & _ & _ & Hlo). split; [lia|]. destruct (forms_facts x forms Hx E) as (F1 & F2 & F3 & F4 & _).
    destruct (article_table_facts forms F1 F3 F4) as (Hok & _). cbv zeta in Hok. split; [exact Hok|]. rewrite <- Ei in *. apply (table_stored b Hb Hfit _ _ Hin Hok).
  Qed.
End Class.

Definition english_letters : bytes := map N.of_nat (seq 33 94).
Lemma english_ok : (length english_letters < 128)%nat /\ ~ In 0 english_letters.
Proof. split; [vm_compute; lia|]. intros H. apply in_map_iff in H as (n & E & H). apply in_seq in H. lia. Qed.
Lemma small_letters s : word_text s -> incl (to_small s) english_letters /\ is_bytes (to_small s).
Proof.
  intros H. assert (K : Forall (fun c => 33 <= c <= 126) (to_small s)).
  { unfold to_small. apply Forall_map. eapply Forall_impl; [|exact H]. unfold visible, capital. intros c Hc. destruct (N.leb_spec 65 c), (N.leb_spec c 90); cbn [andb]; lia. }
  split.
  - intros c Hc. rewrite Forall_forall in K. specialize (K c Hc). apply in_map_iff. exists (N.to_nat c). split; [lia|]. apply in_seq. lia.
  - eapply Forall_impl; [|exact K]. cbn. lia.
Qed.

Section Main.
  Variable lines : list bytes.
  Variable xs : list article.
  Hypothesis Hlists : lists lines xs.
  Hypothesis Hfew : Forall few_homonyms xs.
  Hypothesis Hcount : N.of_nat (length xs) < 2 ^ 32.
  Variable A : earrays.
  Hypothesis Hcomp : ecompile lines = Ok (Some A).
  Hypothesis Hfit : earrays_fit A.

  Lemma all_good x : In x xs -> article_good x.
  Proof using Hlists Hfew.
    intros Hx. pose proof (lists_facts _ _ Hlists) as H. rewrite Forall_forall in H, Hfew. destruct (H x Hx) as [H1 H2]. split; [exact H1|]. split; [exact H2|apply Hfew, Hx].
  Qed.
  Lemma ecompile_inv : exists b items, A = esave b /\ eb_inv b /\ Forall2 (erecord_rel b) xs items /\ eb_tree b = dict_reader items wempty.
  Proof using Hlists Hcomp Hfit.
    destruct (add_articles _ _ Hlists new_ebuilder) as (b & E & I & _ & items & R & T); [constructor; [apply new_fb_inv|apply new_ec_inv]|].
    unfold ecompile in Hcomp. rewrite E in Hcomp. cbn [bind option_map] in Hcomp. injection Hcomp as <-. exists b, items. auto.
  Qed.

  Lemma ecompile_holds : exists L, eholds A L /\ acompiled xs L /\ ebounds_ok L /\
    (forall key e st c, has_record (ewords L) key e -> eclass_of L (oclass e) = Some (st, c) -> c = EClass (k_word c) (k_ends c) /\
       exists x, In x xs /\ key = to_small (a_stem x) /\ nlexid e = a_id x /\ stpost e = a_post x /\ c = aclass_of x) /\
    (forall key e st c c' rest id, has_record (ewords L) key e -> eclass_of L (oclass e) = Some (st, c) -> eform_part c (c' :: rest) id -> c' <= chrmax e) /\
    e_lids A = lidstree_bytes (create_lids (ewords L)) /\ e_stems A = stemtree_bytes (ewords L) /\
    (forall n, Forall (fun x => length (a_stem x) <= n)%nat xs -> within n (ewords L)).
  Proof using Hlists Hfew Hcount Hcomp Hfit.
    destruct ecompile_inv as (b & items & -> & I & R & T).
    assert (Hitem : forall key e, In (key, e) items -> exists x ref, In x xs /\ article_good x /\ ref_for b x ref /\
        In (awd x, t_offset ref, oclass e) (ec_list (eb_classes b)) /\ key = to_small (a_stem x) /\ e = Entry (t_lower ref) (t_upper ref) (a_id x) (oclass e) (a_post x)).
    { intros key e Hin. destruct (Forall2_in_r _ _ _ _ R Hin) as (x & Hx & ref & off & H1 & H2 & [= -> ->]). exists x, ref. cbn [oclass]. pose proof (all_good x Hx). auto 10. }
    assert (Hkeys : Forall (fun ke => incl (fst ke) english_letters) items).
    { apply Forall_forall. intros [key e] Hin. destruct (Hitem _ _ Hin) as (x & ref & _ & Hx & _ & _ & -> & _). apply small_letters, (ao_stem x (proj1 Hx)). }
    assert (Hkeyb : Forall (fun ke => is_bytes (fst ke)) items).
    { apply Forall_forall. intros [key e] Hin. destruct (Hitem _ _ Hin) as (x & ref & _ & Hx & _ & _ & -> & _). apply small_letters, (ao_stem x (proj1 Hx)). }
    destruct (dict_reader_facts items wempty ordered_wempty Hkeyb) as (T1 & T2 & T3 & T4); [intros key l; rewrite lookup_wempty; discriminate|].
    assert (Hrec : forall key e, has_record (eb_tree b) key e <-> In (key, e) items).
    { intros key e. rewrite <- records_of_in, T. specialize (T2 key). rewrite lookup_wempty, app_nil_r in T2. unfold has_record. split.
      - intros (l & El & Hin). rewrite El in T2. eapply Permutation_in; [exact T2|exact Hin].
      - intros Hin. apply (Permutation_in _ (Permutation_sym T2)) in Hin. destruct (lookup key (dict_reader items wempty)) as [l|]; [|destruct Hin]. exists l. auto. }
    set (P := fun off (sc : estem * eclass) => eclass_at (esave b) off (fst sc) /\ eclass_repr (esave b) (fst sc) (snd sc) /\
          forall x ref, In x xs -> ref_for b x ref -> In (awd x, t_offset ref, off) (ec_list (eb_classes b)) -> snd sc = aclass_of x).
    destruct (finite_choice P (map (fun ke => oclass (snd ke)) items)) as (cof & Hcof).
    { intros off Hoff. apply in_map_iff in Hoff as ([key e] & <- & Hin). cbn [snd]. destruct (Hitem _ _ Hin) as (x & ref & Hx & Gx & Rx & Cx & _).
      destruct (eclass_one b I Hfit x ref _ Gx Rx Cx) as (K1 & K2). exists (astem_of x ref, aclass_of x). split; [exact K1|]. split; [exact K2|].
      intros y ref' Hy Ry Cy. cbn [snd]. destruct (class_inj b I Hfit _ _ _ _ _ Cx Cy) as [E1 E2]. unfold aclass_of. rewrite E1.
      rewrite (ref_inj b I Hfit x y ref ref' Gx (all_good y Hy) Rx Ry E2). reflexivity. }
    assert (Hcls : forall key e, In (key, e) items -> exists st c, cof (oclass e) = Some (st, c) /\ P (oclass e) (st, c)).
    { intros key e Hin. destruct (Hcof (oclass e)) as ([st c] & H1 & H2); [apply in_map_iff; exists (key, e); auto|]. exists st, c. auto. }
    assert (Hfull : forall key e st c, has_record (eb_tree b) key e -> cof (oclass e) = Some (st, c) ->
        exists x ref, In x xs /\ article_good x /\ ref_for b x ref /\ key = to_small (a_stem x) /\ e = Entry (t_lower ref) (t_upper ref) (a_id x) (oclass e) (a_post x) /\ c = aclass_of x).
    { intros key e st c Hr Ec. apply Hrec in Hr. destruct (Hitem _ _ Hr) as (x & ref & Hx & Gx & Rx & Cx & K1 & K2). destruct (Hcls _ _ Hr) as (st' & c' & E & P1 & P2 & P3).
      rewrite Ec in E. injection E as <- <-. exists x, ref. pose proof (P3 x ref Hx Rx Cx) as P4. cbn [snd] in P4. auto 10. }
    assert (Hbound : forall key e st c ch rest id, has_record (eb_tree b) key e -> cof (oclass e) = Some (st, c) -> eform_part c (ch :: rest) id -> chrmin e <= ch <= chrmax e).
    { intros key e st c ch rest id Hr Ec Hf. destruct (Hfull _ _ _ _ Hr Ec) as (x & ref & _ & Gx & Rx & _ & Ee & ->). rewrite Ee. cbn [chrmin chrmax].
      pose proof (ref_facts b I Hfit x ref Gx Rx) as Rf. inversion Hf as [|t part id' Ht Hin Ep Ei]; subst. unfold aclass_of in Ht. cbn [k_ends] in Ht.
      destruct (a_forms x) as [forms|] eqn:Ef; [|discriminate]. cbn [option_map] in Ht. injection Ht as <-.
      destruct (forms_facts x forms Gx Ef) as (F1 & F2 & F3 & F4 & _). destruct (article_table_facts forms F1 F3 F4) as (_ & _ & Hbd & _). cbv zeta in Hbd.
      destruct Rf as (t & _ & _ & _ & -> & -> & _). rewrite Forall_forall in Hbd. apply (Hbd _ Hin). }
    exists (ELexicon (eb_tree b) cof). cbn [ewords eclass_of]. split; [|split; [|split; [|split; [|split; [|split; [reflexivity|split; [reflexivity|]]]]]]].
    - assert (Ho : ordered (eb_tree b)) by (rewrite T; exact T1).
      assert (Hlists' : forall key l, lookup key (eb_tree b) = Some l -> stems_ok l /\ max_descending l).
      { intros key l El. split; [|apply (T4 key); rewrite <- T; exact El]. split.
        - apply Forall_forall. intros e He. assert (Hin : In (key, e) items) by (apply Hrec; exists l; auto).
          destruct (Hitem _ _ Hin) as (x & ref & Hx & Gx & Rx & Cx & _ & ->). unfold entry_ok. cbn [chrmin chrmax nlexid oclass stpost].
          assert (Hlu : t_lower ref < 256 /\ t_upper ref < 256).
          { pose proof (ref_facts b I Hfit x ref Gx Rx) as Rf. destruct (a_forms x) as [forms|] eqn:Ef; [|rewrite Rf; split; reflexivity].
            destruct (forms_facts x forms Gx Ef) as (F1 & F2 & F3 & F4 & _). destruct (article_table_facts forms F1 F3 F4) as (_ & _ & _ & B1 & B2 & _). cbv zeta in *.
            destruct Rf as (t & _ & _ & _ & -> & -> & _). lia. }
          destruct Gx as (Gx & (_ & Gp & _) & _). split; [apply Hlu|]. split; [apply Hlu|]. split; [apply (ao_id x Gx)|].
          destruct (class_split b I Hfit _ _ _ Cx) as (_ & _ & _ & _ & Hlt). cbn [oclass] in Hlt. split; [exact Hlt|]. split; [|lia].
          eapply Forall_impl; [|apply (word_low _ (ao_post x Gx))]. cbn. lia.
        - specialize (T2 key). rewrite lookup_wempty, app_nil_r, <- T, El in T2. cbn [default] in T2. apply Permutation_length in T2. pose proof (records_of_length items key) as Hl.
          rewrite (Forall2_len _ _ _ R) in Hcount. lia. }
      assert (Hlet : letters_in english_letters (eb_tree b)) by (rewrite T; apply dict_letters; [apply letters_wempty|exact Hkeys]).
      assert (Hsz : all_data (sized stems_ser stems_len) (eb_tree b)).
      { apply lookup_all_data; [exact Ho|]. intros key l El. apply stems_ser_len, (Hlists' key l El). }
      constructor; cbn [ewords eclass_of].
      + exists []. rewrite app_nil_r. reflexivity.
      + apply dumpable_intro; [exact Ho|eapply letters_counts; [apply english_ok|exact Ho|exact Hlet]|].
        rewrite <- (sized_len C8 stems_ser stems_len _ Hsz). apply Hfit.
      + eapply letters_nonzero; [apply english_ok|exact Hlet].
      + exact Hlists'.
      + intros key e H. apply Hrec in H. destruct (Hcls _ _ H) as (st & c & E & P1 & P2 & _). exists st, c. auto.
    - constructor; cbn [ewords eclass_of].
      + intros x Hx. destruct (Forall2_in_l _ _ _ _ R Hx) as (ke & Hin & ref & off & H1 & H2 & ->). destruct (Hcls _ _ Hin) as (st & c & E & P1 & P2 & P3). cbn [oclass snd] in *.
        exists (Entry (t_lower ref) (t_upper ref) (a_id x) off (a_post x)), st, c. split; [apply Hrec, Hin|]. split; [reflexivity|]. split; [reflexivity|]. split; [exact E|].
        rewrite (P3 x ref Hx H1 H2). apply aclass_means, all_good, Hx.
      + intros key e H. pose proof H as H'. apply Hrec in H'. destruct (Hcls _ _ H') as (st & c & E & _). destruct (Hfull _ _ _ _ H E) as (x & ref & Hx & Gx & Rx & K1 & K2 & ->).
        exists x, st, (aclass_of x). split; [exact Hx|]. split; [exact K1|]. split; [rewrite K2; reflexivity|]. split; [rewrite K2; reflexivity|]. split; [exact E|apply aclass_means, Gx].
    - intros key e st c part id Hr Ec Hf ch rest ->. eapply Hbound; eassumption.
    - intros key e st c Hr Ec. split; [destruct c; reflexivity|]. destruct (Hfull _ _ _ _ Hr Ec) as (x & ref & Hx & Gx & Rx & K1 & K2 & K3). exists x. split; [exact Hx|]. split; [exact K1|].
      split; [rewrite K2; reflexivity|]. split; [rewrite K2; reflexivity|exact K3].
    - intros key e st c c' rest id Hr Ec Hf. apply (Hbound _ _ _ _ _ _ _ Hr Ec Hf).
    - intros n Hn. rewrite T. apply within_reader; [apply within_wempty|]. apply Forall_forall. intros [key e] Hin. destruct (Hitem _ _ Hin) as (x & ref & Hx & _ & _ & _ & -> & _). cbn [fst].
      unfold to_small. rewrite map_length. rewrite Forall_forall in Hn. apply Hn, Hx.
  Qed.
End Main.

Lemma ecompile_total lines xs : lists lines xs -> exists A, ecompile lines = Ok (Some A).
Proof.
  intros H. destruct (add_articles _ _ H new_ebuilder) as (b & E & _); [constructor; [apply new_fb_inv|apply new_ec_inv]|]. exists (esave b). unfold ecompile. rewrite E. reflexivity.
Qed.
