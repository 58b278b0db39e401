(** * EngCompileProofs7: answers from the compiled English dictionary.  PROOFS. *)
From Coq Require Import String Ascii Permutation.
From Verif Require Import Base Serial SerialProofs WordTree TreeSpec WordTreeProofs FlatScan LidsProofs TreeWalk Stems StemSpec StemsProofs DictProofs CharTables CapScheme CapSpec CapProofs GramMap RusRuntime RusSpec RusProofs RusProofs2 PropRusLemmas
  RusBuild RusBuildSpec EngRuntime EngSpec EngProofs EngProofs2 EngFormsSpec EngRecognised PropEngLemmas Api CompileProofs CompileProofs2 CompileProofs4 CompileProofs5 EngCompile EngCompileSpec EngCompileProofs EngCompileProofs2
  EngCompileProofs3 EngCompileProofs4 EngCompileProofs5 EngCompileProofs6.
Local Open Scope N_scope.
Local Open Scope list_scope.

Lemma all_data_any {X} (P : X -> Prop) : (forall a, P a) -> forall t : wtree X, all_data P t.
Proof.
  intros HP. apply (wtree_ind' (all_data P)). intros l d IH. constructor; [intros a _; apply HP|]. intros c t Hin. rewrite Forall_forall in IH. exact (IH (c, t) Hin).
Qed.
Lemma lids_size t : N.of_nat (length (lidstree_bytes t)) = getbuflen C16 seriallen t.
Proof. apply sized_len, all_data_any. intros n. apply putserial_len. Qed.

(** what compilation gives, in one record *)
Record compiled_lexicon (xs : list article) (A : earrays) (L : elexicon) : Prop := {
  cl_holds : eholds A L;
  cl_from : acompiled xs L;
  cl_bounds : ebounds_ok L;
  cl_class : forall key e st c, has_record (ewords L) key e -> eclass_of L (oclass e) = Some (st, c) ->
    exists x, In x xs /\ key = to_small (a_stem x) /\ nlexid e = a_id x /\ stpost e = a_post x /\ c = aclass_of x;
  cl_upper : forall key e st c c' rest id, has_record (ewords L) key e -> eclass_of L (oclass e) = Some (st, c) -> eform_part c (c' :: rest) id -> c' <= chrmax e;
  cl_lids : e_lids A = lidstree_bytes (create_lids (ewords L));
  cl_stems : e_stems A = stemtree_bytes (ewords L);
  cl_within : forall n, Forall (fun x => length (a_stem x) <= n)%nat xs -> within n (ewords L);
  cl_good : forall x, In x xs -> article_good x;
}.
Lemma compiled_lexicon_intro lines xs A : lists lines xs -> Forall few_homonyms xs -> N.of_nat (length xs) < 2 ^ 32 -> ecompile lines = Ok (Some A) -> earrays_fit A ->
  exists L, compiled_lexicon xs A L.
Proof.
  intros H1 H2 H3 H4 H5. destruct (ecompile_holds lines xs H1 H2 H3 A H4 H5) as (L & K1 & K2 & K3 & K4 & K5 & K6 & K7 & K8). exists L. constructor; try assumption.
  - intros key e st c Hr Hc. apply (K4 key e st c Hr Hc).
  - intros x Hx. eapply all_good; eassumption.
Qed.

Lemma good_part x : article_good x -> a_part x < 20.
Proof. intros (_ & (_ & _ & H) & _). exact H. Qed.
Lemma aclass_case x : article_good x -> ecase (aclass_of x) = acase x.
Proof.
  intros H. apply good_part in H. unfold ecase, aclass_of, awd. cbn [k_word]. pose proof (acase_le x). replace (a_part x + 128 * acase x) with (acase x * 128 + a_part x) by lia.
  rewrite N.div_add_l, (N.div_small (a_part x)) by lia. rewrite N.add_0_r. apply N.mod_small. lia.
Qed.
Lemma aclass_part x : article_good x -> k_word (aclass_of x) mod 64 = a_part x.
Proof.
  intros H. apply good_part in H. unfold aclass_of, awd. cbn [k_word]. replace (a_part x + 128 * acase x) with (a_part x + (2 * acase x) * 64) by lia. rewrite N.mod_add by lia. apply N.mod_small. lia.
Qed.

Section Answers.
  Variables (xs : list article) (A : earrays) (L : elexicon).
  Hypothesis HC : compiled_lexicon xs A L.

  Lemma from_ewords ignore w key e part id : Forall small_post xs -> eword_of L ignore w key e part id ->
    exists x, aword xs ignore w x part id /\ nlexid e = a_id x /\ stpost e = a_post x /\
      (forall c' rest id', aform x (c' :: rest) id' -> c' <= chrmax e).
  Proof using HC.
    intros Hsp [(Ew & Hr & st & c & Hc & Hf) Hs]. destruct (cl_class _ _ _ HC _ _ _ _ Hr Hc) as (x & Hx & -> & Ei & Ep & ->). pose proof (cl_good _ _ _ HC x Hx) as Gx.
    pose proof (aclass_means x Gx) as [_ Hm]. exists x. rewrite Forall_forall in Hsp. split; [|split; [exact Ei|split; [exact Ep|]]].
    - split; [exact Hx|]. split; [apply Hm, Hf|]. split; [rewrite (Hsp x Hx), <- Ep; exact Ew|]. intros Hi. destruct (Hs Hi) as (st' & c' & Hc' & Hsu). rewrite Hc in Hc'. injection Hc' as _ <-.
      rewrite aclass_case in Hsu by exact Gx. exact Hsu.
    - intros c' rest id' Hf'. eapply (cl_upper _ _ _ HC); [exact Hr|exact Hc|apply Hm, Hf'].
  Qed.
  Lemma to_ewords ignore w x part id : Forall small_post xs -> aword xs ignore w x part id -> exists e, eword_of L ignore w (to_small (a_stem x)) e part id /\ nlexid e = a_id x.
  Proof using HC.
    intros Hsp (Hx & Hf & Ew & Hs). rewrite Forall_forall in Hsp. destruct (ac_all _ _ (cl_from _ _ _ HC) x Hx) as (e & st & c & Hr & Ei & Ep & Hc & [Hw Hm]). exists e. split; [|exact Ei].
    pose proof (Hsp x Hx) as Hsx. unfold small_post in Hsx. rewrite Hsx in Ew. split; [split; [rewrite Ep; exact Ew|split; [exact Hr|exists st, c; split; [exact Hc|apply Hm, Hf]]]|]. intros Hi. exists st, c. split; [exact Hc|].
    pose proof (cl_good _ _ _ HC x Hx) as Gx. rewrite <- (aclass_case x Gx) in Hs. unfold ecase in *. rewrite Hw. apply Hs, Hi.
  Qed.

  Lemma compiled_echeck w psz cch dwsets junk : Forall small_post xs ->
    given w psz cch -> is_bytes w -> w <> [] -> (length w < 48)%nat -> (length (parts eng_casing w) <= 8)%nat ->
    (forall x id, aword xs (bit 1 dwsets) w x [] id -> post_reached x) ->
    echeck_word A junk psz cch dwsets = Ok 1%Z /\ (exists x part id, aword xs (bit 1 dwsets) w x part id) \/
    echeck_word A junk psz cch dwsets = Ok 0%Z /\ ~ (exists x part id, aword xs (bit 1 dwsets) w x part id).
  Proof using HC.
    intros Hsp Hg Hw Hne Hl Hp Hside. destruct (echeck_exact A L w psz cch dwsets junk (cl_holds _ _ _ HC) (cl_bounds _ _ _ HC) Hg Hw Hne Hl Hp) as [[E (key & e & part & id & H)]|[E H]].
    - intros key e part id H. destruct (from_ewords _ _ _ _ _ _ Hsp H) as (x & Hx & _ & Ep & Hu). destruct part as [|c part]; [|left; discriminate]. right. rewrite Ep. apply Hside in Hx. unfold post_reached in Hx.
      destruct (a_post x) as [|c q]; [exact I|]. destruct Hx as (c' & rest & id' & Hf & Hle). apply Hu in Hf. lia.
    - left. split; [exact E|]. destruct (from_ewords _ _ _ _ _ _ Hsp H) as (x & Hx & _). eauto.
    - right. split; [exact E|]. intros (x & part & id & Hx). apply H. destruct (to_ewords _ _ _ _ _ Hsp Hx) as (e & He & _). eauto 10.
  Qed.
  Lemma compiled_echeck_sound w psz cch dwsets junk : Forall small_post xs ->
    given w psz cch -> is_bytes w -> w <> [] -> (length w < 48)%nat -> (length (parts eng_casing w) <= 8)%nat ->
    exists r, echeck_word A junk psz cch dwsets = Ok r /\ (r = 0%Z \/ r = 1%Z) /\ (r = 1%Z -> exists x part id, aword xs (bit 1 dwsets) w x part id).
  Proof using HC.
    intros Hsp Hg Hw Hne Hl Hp. destruct (echeck_word_sound A L (cl_holds _ _ _ HC) w psz cch dwsets junk Hg Hw Hne Hl Hp) as (r & E & Hr & H). exists r. split; [exact E|]. split; [exact Hr|].
    intros H1. destruct (H H1) as (key & e & part & id & He). destruct (from_ewords _ _ _ _ _ _ Hsp He) as (x & Hx & _). eauto.
  Qed.

  (** *** building *)
  Lemma small_nul s : Forall (fun c => visible c /\ c <> 124 /\ c <> 58) s -> ~ In 0 s.
  Proof. clear HC. intros H Hin. rewrite Forall_forall in H. destruct (H 0 Hin) as [K _]. unfold visible in K. lia. Qed.
  Lemma compiled_buildable : Forall abuildable xs -> ebuildable L.
  Proof using HC.
    intros Hb. pose proof Hb as Hb'. rewrite Forall_forall in Hb'. constructor.
    - apply (cl_within _ _ _ HC). eapply Forall_impl; [|exact Hb]. intros x [H _ _]. exact H.
    - intros key e Hr. destruct (ac_only _ _ (cl_from _ _ _ HC) key e Hr) as (x & st & c & Hx & _ & _ & -> & _). apply small_nul, (ao_post x), (cl_good _ _ _ HC x Hx).
    - intros key e st c t id part Hr Hc Ht Hin. destruct (cl_class _ _ _ HC _ _ _ _ Hr Hc) as (x & Hx & _ & _ & _ & ->). pose proof (cl_good _ _ _ HC x Hx) as Gx.
      assert (Hf : aform x part id) by (apply (am_forms x _ (aclass_means x Gx)); eapply eform_listed; eassumption).
      destruct Hf as [|forms i alts e0 Ef Hn He]; [intros []|]. destruct (ao_forms x (proj1 Gx) forms Ef) as [_ Hf]. rewrite Forall_forall in Hf. destruct (Hf _ (nth_error_In _ _ Hn)) as [_ Hen].
      rewrite Forall_forall in Hen. destruct (small_ending _ (Hen _ He)) as [K _]. intros H0. rewrite Forall_forall in K. destruct (K 0 H0) as [K0 _]. unfold visible in K0. lia.
    - intros key e st c Hr Hc. destruct (cl_class _ _ _ HC _ _ _ _ Hr Hc) as (x & Hx & _ & _ & _ & ->). rewrite aclass_case by (apply (cl_good _ _ _ HC x Hx)). apply acase_le.
    - intros key e st c Hr Hc Hk. destruct (cl_class _ _ _ HC _ _ _ _ Hr Hc) as (x & Hx & _ & _ & -> & ->). unfold aclass_of in Hk. cbn [k_ends] in Hk. apply (abu_fixed x (Hb' x Hx)). destruct (a_forms x); [discriminate|reflexivity].
  Qed.
  Lemma compiled_eindexed : Forall abuildable xs -> N.of_nat (length (e_lids A)) < 2 ^ 32 -> N.of_nat (length (e_stems A)) < 2 ^ 32 -> eindexed A L.
  Proof using HC.
    intros Hb Hlen Hfit. rewrite Forall_forall in Hb. constructor.
    - exists []. rewrite app_nil_r. apply (cl_lids _ _ _ HC).
    - rewrite (cl_lids _ _ _ HC), lids_size in Hlen. exact Hlen.
    - rewrite (cl_stems _ _ _ HC) in Hfit. unfold stemtree_bytes in Hfit. rewrite sized_len in Hfit; [exact Hfit|]. pose proof (cl_holds _ _ _ HC) as HL.
      apply lookup_all_data; [eapply dumpable_ordered, (eh_dump _ _ HL)|]. intros k l E. apply stems_ser_len, (eh_lists _ _ HL k l E).
    - intros key e Hr. destruct (ac_only _ _ (cl_from _ _ _ HC) key e Hr) as (x & st & c & Hx & _ & -> & _). apply (abu_id x (Hb x Hx)).
  Qed.

  (** *** forms *)
  Lemma filter_perm {X} (f : X -> bool) l l' : Permutation l l' -> Permutation (filter f l) (filter f l').
  Proof.
    clear HC. induction 1 as [|a l l' _ IH|a b l|l l' l'' _ I1 _ I2]; cbn [filter]; [reflexivity| | |etransitivity; eassumption].
    - destruct (f a); [constructor|]; exact IH.
    - destruct (f a), (f b); try reflexivity. apply perm_swap.
  Qed.
  Lemma filter_ascending (f : N * bytes -> bool) l : ascending (map snd l) -> ascending (map snd (filter f l)).
  Proof.
    clear HC. induction l as [|x l IH]; cbn [filter map ascending]; [auto|]. intros [H1 H2]. destruct (f x); [|auto]. cbn [map ascending]. split; [|auto].
    rewrite Forall_forall in *. intros b Hb. apply H1. apply in_map_iff in Hb as (y & <- & Hy). apply filter_In in Hy as [Hy _]. apply in_map, Hy.
  Qed.
  Lemma listing_filter id : forall forms i, i <= id -> map snd (filter (fun ie => fst ie =? id) (listing forms i)) = nth (N.to_nat (id - i)) forms [].
  Proof.
    clear HC. assert (Hm : forall i (l : list bytes), map snd (filter (fun ie => fst ie =? id) (map (pair i) l)) = if i =? id then l else []).
    { intros i l. induction l as [|e l IH]; cbn [map filter fst]; [destruct (i =? id); reflexivity|]. destruct (i =? id); [cbn [map snd]; rewrite IH; reflexivity|exact IH]. }
    assert (Hz : forall forms i, id < i -> map snd (filter (fun ie => fst ie =? id) (listing forms i)) = []).
    { induction forms as [|l forms IH]; intros i Hi; [reflexivity|]. cbn [listing]. rewrite filter_app, map_app, Hm, IH by lia. assert (E : (i =? id) = false) by (apply N.eqb_neq; lia). rewrite E. reflexivity. }
    induction forms as [|l forms IH]; intros i Hi; [cbn; destruct (N.to_nat (id - i)); reflexivity|]. cbn [listing]. rewrite filter_app, map_app, Hm.
    destruct (N.eqb_spec i id) as [->|Hne].
    - rewrite Hz by lia. rewrite N.sub_diag, app_nil_r. reflexivity.
    - rewrite IH by lia. replace (N.to_nat (id - i)) with (S (N.to_nat (id - (i + 1)))) by lia. reflexivity.
  Qed.
  Lemma nth_small forms : forall n, nth n (map (map to_small) forms) [] = map to_small (nth n forms []).
  Proof. clear HC. intros n. change ([] : list bytes) with (map to_small []) at 1. apply map_nth. Qed.

  Lemma asked_forms x id : article_good x -> exists l, Permutation l (map to_small (asked x id)) /\ ascending l /\
    erequested (aclass_of x) (to_small (a_stem x)) (a_post x) id = map (aspell x) l.
  Proof.
    clear HC. intros Gx. unfold erequested, eraw_forms, etakes, etails, asked. rewrite aclass_case by exact Gx. unfold aclass_of. cbn [k_ends]. destruct (a_forms x) as [forms|] eqn:Ef; cbn [option_map].
    - destruct (forms_facts x forms Gx Ef) as (F1 & F2 & F3 & F4 & _). destruct (put_forms_long forms) as (S1 & _ & _).
      unfold article_table, table_for. set (forms' := map (map to_small) forms).
      destruct (fold_add_facts (listing forms' 0) (FTab [] (TableRef 0 0xff 0)) I) as (P & Ha & _). cbv zeta in *. cbn [t_items] in *. rewrite app_nil_r in P.
      set (t := fold_left add_ie (listing forms' 0) (FTab [] (TableRef 0 0xff 0))) in *.
      exists (map snd (filter (fun ie => fst ie =? id) (t_items t))). 
      assert (P' : Permutation (map snd (filter (fun ie => fst ie =? id) (t_items t))) (map to_small (nth (N.to_nat id) forms []))).
      { rewrite (Permutation_map snd (filter_perm (fun ie => fst ie =? id) _ _ P)). rewrite listing_filter by lia. rewrite N.sub_0_r. unfold forms'. rewrite nth_small. reflexivity. }
      split; [exact P'|]. split; [apply filter_ascending, Ha|].
      destruct (N.eqb_spec id 255) as [->|Hne]; cbn [negb]; [|rewrite map_map; reflexivity].
      rewrite nth_overflow in P' by lia. apply Permutation_sym, Permutation_nil in P'. rewrite P'. reflexivity.
    - destruct (id =? 255); [exists [[]]|exists []]; (split; [reflexivity|]; split; [|reflexivity]); cbn; auto.
  Qed.

  Lemma compiled_ebuild x id junk mem : Forall abuildable xs -> N.of_nat (length (e_lids A)) < 2 ^ 32 -> N.of_nat (length (e_stems A)) < 2 ^ 32 ->
    In x xs -> (forall y, In y xs -> a_id y = a_id x -> y = x) -> mem <> [] -> (length (lexkeylen (a_id x) ++ junk) = 16)%nat ->
    exists l, Permutation l (map to_small (asked x id)) /\ ascending l /\
      let fs := map (aspell x) l in delivered mem fs (small fs) (ebuild_form A junk (Some mem) (a_id x) id).
  Proof using HC.
    intros Hb Hl Hs Hx Hu Hm Hj. assert (Hid : a_id x < 2 ^ 32) by (apply (ao_id x), (cl_good _ _ _ HC x Hx)).
    destruct (ebuild_some A L (cl_holds _ _ _ HC) (compiled_buildable Hb) (compiled_eindexed Hb Hl Hs) junk mem (a_id x) id Hm Hid Hj) as (key & e & st & c & Hr & Ei & Hc & Hd).
    { destruct (ac_all _ _ (cl_from _ _ _ HC) x Hx) as (e & st & c & Hr & Ei & _). eauto. }
    destruct (cl_class _ _ _ HC _ _ _ _ Hr Hc) as (y & Hy & -> & Ey & Ep & ->). rewrite Ei in Ey. rewrite (Hu y Hy (eq_sym Ey)) in *. rewrite Ep in Hd.
    destruct (asked_forms x id (cl_good _ _ _ HC x Hx)) as (l & P1 & P2 & E). rewrite E in Hd. exists l. auto.
  Qed.
  Lemma compiled_wd_info x junk : Forall abuildable xs -> N.of_nat (length (e_lids A)) < 2 ^ 32 -> N.of_nat (length (e_stems A)) < 2 ^ 32 ->
    In x xs -> (forall y, In y xs -> a_id y = a_id x -> a_part y = a_part x) -> (length (lexkeylen (a_id x) ++ junk) = 16)%nat ->
    eget_wd_info A junk (a_id x) = Ok (1%Z, Some (a_part x)).
  Proof using HC.
    intros Hb Hl Hs Hx Hu Hj. destruct (ac_all _ _ (cl_from _ _ _ HC) x Hx) as (e & st & c & Hr & Ei & _ & Hc & _).
    assert (Hk : forall key' e' st' c', has_record (ewords L) key' e' -> nlexid e' = nlexid e -> eclass_of L (oclass e') = Some (st', c') -> k_word c' mod 64 = a_part x).
    { intros key' e' st' c' Hr' Ei' Hc'. destruct (cl_class _ _ _ HC _ _ _ _ Hr' Hc') as (y & Hy & _ & Ey & _ & ->). rewrite aclass_part by (apply (cl_good _ _ _ HC y Hy)). apply Hu; [exact Hy|congruence]. }
    rewrite <- Ei in *. rewrite <- (Hk _ _ _ _ Hr eq_refl Hc). eapply ewd_info_found; try eassumption; [apply (cl_holds _ _ _ HC)|apply compiled_eindexed; assumption|].
    intros key' e' st' c' Hr' Ei' Hc'. rewrite (Hk _ _ _ _ Hr eq_refl Hc). eapply Hk; eassumption.
  Qed.
  Lemma compiled_absent id idform junk mem : Forall abuildable xs -> N.of_nat (length (e_lids A)) < 2 ^ 32 -> N.of_nat (length (e_stems A)) < 2 ^ 32 ->
    id < 2 ^ 32 -> (forall y, In y xs -> a_id y <> id) -> mem <> [] -> (length (lexkeylen id ++ junk) = 16)%nat ->
    eget_wd_info A junk id = Ok (0%Z, None) /\ ebuild_form A junk (Some mem) id idform = Ok (0%Z, Some mem).
  Proof using HC.
    intros Hb Hl Hs Hid Hn Hm Hj. assert (Hn' : forall key e, has_record (ewords L) key e -> nlexid e <> id).
    { intros key e Hr. destruct (ac_only _ _ (cl_from _ _ _ HC) key e Hr) as (y & _ & _ & Hy & _ & -> & _). apply Hn, Hy. }
    split; [eapply ewd_info_none|eapply ebuild_unknown]; try eassumption; try apply (cl_holds _ _ _ HC); try (apply compiled_eindexed; assumption). apply compiled_buildable, Hb.
  Qed.

  (** *** the built forms are recognised *)
  Lemma ordinary_plain c : ordinary c -> eplain c.
  Proof.
    clear HC. intros H. assert (Hc : c < 128) by (unfold ordinary in H; lia).
    set (ok := fun c => let ord := (97 <=? c) && (c <=? 122) || (c =? 39) || (c =? 44) || (c =? 45) in
      negb ord || (negb (c =? 0) && ((ctype eng_casing c =? 2) || (ctype eng_casing c =? 1) && (locase eng_casing c =? c)))).
    assert (Hall : forall c, c < 128 -> ok c = true) by (apply (forall_below ok 128); vm_compute; reflexivity).
    specialize (Hall c Hc). unfold ok in Hall. cbv zeta in Hall.
    assert (Ho : (97 <=? c) && (c <=? 122) || (c =? 39) || (c =? 44) || (c =? 45) = true).
    { unfold ordinary in H. destruct H as [[H1 H2]|[->|[->| ->]]]; try reflexivity. apply N.leb_le in H1, H2. rewrite H1, H2. reflexivity. }
    rewrite Ho in Hall. cbn [negb orb] in Hall. apply andb_true_iff in Hall as [H0 Hall]. apply negb_true_iff, N.eqb_neq in H0. split; [lia|]. split; [exact H0|].
    apply orb_true_iff in Hall as [Hall|Hall]; [left; apply N.eqb_eq, Hall|]. apply andb_true_iff in Hall as [H1 H2]. apply N.eqb_eq in H1, H2. right. auto.
  Qed.
  Lemma compiled_recognisable : Forall abuildable xs -> Forall aordinary xs -> erecognisable L.
  Proof using HC.
    intros Hb Ho. rewrite Forall_forall in Hb, Ho. constructor; [apply (cl_bounds _ _ _ HC)| |].
    - intros key e st c id Hr Hc. apply Forall_forall. intros part Hin. destruct (cl_class _ _ _ HC _ _ _ _ Hr Hc) as (x & Hx & -> & _ & Ep & ->). pose proof (cl_good _ _ _ HC x Hx) as Gx.
      destruct part as [|c part]; [|left; discriminate]. right. rewrite Ep. unfold etails, aclass_of in Hin. cbn [k_ends] in Hin. destruct (a_forms x) as [forms|] eqn:Ef.
      + cbn [option_map] in Hin. apply in_map_iff in Hin as ([i p] & E & Hin). cbn [snd] in E. subst p. apply filter_In in Hin as [Hin _].
        assert (Hf : aform x [] i) by (apply (am_forms x _ (aclass_means x Gx)); eapply eform_listed; [unfold aclass_of; cbn [k_ends]; rewrite Ef; reflexivity|exact Hin]).
        apply (aor_reach x (Ho x Hx)) in Hf. unfold post_reached in Hf. destruct (a_post x) as [|c q]; [exact I|]. destruct Hf as (c' & rest & id' & Hf & Hle).
        assert (Hle' : c' <= chrmax e) by (eapply (cl_upper _ _ _ HC); [exact Hr|exact Hc|]; apply (am_forms x _ (aclass_means x Gx)), Hf). lia.
      + rewrite (abu_fixed x (Hb x Hx) Ef). exact I.
    - intros key e st c id Hr Hc. apply Forall_forall. intros w Hin. unfold eraw_forms in Hin. apply in_map_iff in Hin as (part & <- & Hin).
      destruct (cl_class _ _ _ HC _ _ _ _ Hr Hc) as (x & Hx & -> & _ & -> & ->). pose proof (cl_good _ _ _ HC x Hx) as Gx.
      assert (Hf : part = [] \/ exists id', aform x part id').
      { unfold etails, aclass_of in Hin. cbn [k_ends] in Hin. destruct (a_forms x) as [forms|] eqn:Ef; [|destruct Hin as [<-|[]]; auto]. right.
        cbn [option_map] in Hin. apply in_map_iff in Hin as ([i p] & E & Hin). cbn [snd] in E. subst p. apply filter_In in Hin as [Hin _]. exists i.
        apply (am_forms x _ (aclass_means x Gx)); eapply eform_listed; [unfold aclass_of; cbn [k_ends]; rewrite Ef; reflexivity|exact Hin]. }
      assert (Hp : forall l, Forall ordinary l -> Forall eplain l) by (intros l H; eapply Forall_impl; [|exact H]; apply ordinary_plain).
      repeat (apply Forall_app; split); apply Hp; [apply (aor_stem x (Ho x Hx))| |apply (aor_post x (Ho x Hx))].
      destruct Hf as [->|(id' & Hf)]; [constructor|]. eapply (aor_forms x (Ho x Hx)), Hf.
  Qed.
End Answers.
