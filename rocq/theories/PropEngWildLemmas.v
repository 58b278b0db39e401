(** * PropEngWildLemmas: proofs for Prop_EngWild.v. *)
From Coq Require Import String Permutation.
From Verif Require Import Base Serial SerialProofs WordTree TreeSpec WordTreeProofs FlatScan FlatScanProofs LidsProofs TrackProofs
  TreeWalk Stems StemSpec StemsProofs DictProofs CharTables CapScheme CapSpec PropTreesLemmas GramMap RusRuntime RusBuild RusSpec RusBuildSpec RusDemo RusDemo2
  Wild WildSpec EngRuntime EngSpec EngFormsSpec EngProofs EngProofs2 EngDemo EngWild EngWildSpec EngWildProofs EngWildProofs2
  Api EngCompile EngCompileSpec EngCompileProofs EngCompileProofs2 EngCompileProofs3 EngCompileProofs6 EngCompileProofs7 PropEngCompileLemmas.
Local Open Scope N_scope.
Local Open Scope list_scope.

(** ** Searching the compiled dictionary *)
Lemma compiled_few xs A L : compiled_lexicon xs A L -> (forall x y, In x xs -> In y xs -> a_id x = a_id y -> x = y) -> eforms_at_most 256 L.
Proof.
  intros HC Hu lid ms Hnd Hms. destruct ms as [|[s0 i0] ms0]; [cbn; lia|]. set (ms := (s0, i0) :: ms0) in *.
  destruct (Hms s0 i0 (or_introl eq_refl)) as (key & e & part0 & [Hr _] & Hl).
  destruct (eh_classes A L (cl_holds _ _ _ HC) key e Hr) as (st & c & Ec & Hat & Hrep).
  destruct (cl_class _ _ _ HC _ _ _ _ Hr Ec) as (x & Hx & Ek & Ei & Ep & Ecx).
  assert (Hall : forall str id, In (str, id) ms -> exists part, eform_part c part id /\ str = key ++ part ++ stpost e).
  { intros str id Hi. destruct (Hms str id Hi) as (key' & e' & part & [Hr' (st' & c' & Ec' & Hf & ->)] & Hl').
    destruct (cl_class _ _ _ HC _ _ _ _ Hr' Ec') as (y & Hy & Ek' & Ei' & Ep' & Ecy).
    assert (y = x) by (apply Hu; [exact Hy|exact Hx|congruence]). subst y. exists part. rewrite Ek, Ek', Ep, Ep', Ecx. rewrite Ecy in Hf. auto. }
  clear Ecx. destruct (k_ends c) as [t|] eqn:Eends.
  - destruct (etable A st c t Hrep Eends) as (_ & _ & (Ht & _)).
    assert (Hincl : incl ms (map (fun ie => (key ++ snd ie ++ stpost e, fst ie)) t)).
    { intros [str id] Hi. destruct (Hall str id Hi) as (part & Hf & ->). destruct Hf as [Ek'|t' part id Ek' Hin]; [congruence|]. rewrite Eends in Ek'. injection Ek' as <-.
      apply in_map_iff. exists (id, part). auto. }
    pose proof (NoDup_incl_length Hnd Hincl) as K. rewrite map_length in K. unfold bytes in *. lia.
  - assert (Hincl : incl ms [(key ++ [] ++ stpost e, 255)]).
    { intros [str id] Hi. destruct (Hall str id Hi) as (part & Hf & ->). destruct Hf as [Ek'|t' part id Ek' Hin]; [left; reflexivity|congruence]. }
    pose proof (NoDup_incl_length Hnd Hincl) as K. cbn [length] in K. unfold bytes in *. lia.
Qed.

Lemma english_search lines xs A w psz cch :
  lists lines xs -> Forall few_homonyms xs -> N.of_nat (length xs) < 2 ^ 32 -> ecompile lines = Ok (Some A) -> earrays_fit A ->
  Forall abuildable xs -> (forall x y, In x xs -> In y xs -> a_id x = a_id y -> x = y) ->
  (exists x, In x xs /\ a_stem x = []) ->
  (forall x, In x xs -> (length (a_stem x) <= 47)%nat /\ forall part id, aform x part id -> (length (a_stem x) + length part + length (a_post x) <= 47)%nat) ->
  given w psz cch -> is_bytes w -> w <> [] -> (length w < 48)%nat -> (length (parts eng_casing w) <= 16)%nat ->
  exists calls : list (N * list (bytes * N)),
    (forall U (add : U -> N -> list (bytes * N) -> U * Z) junk buf u, length junk = 48%nat -> length buf = 48%nat ->
       efind_match add A junk buf psz cch u = Ok (deliver add calls u)) /\
    (forall lid ms str id, In (lid, ms) calls -> In (str, id) ms ->
       exists x part, In x xs /\ a_id x = lid /\ aform x part id /\ str = to_small (a_stem x) ++ part ++ a_post x /\ glob (map (locase eng_casing) w) str) /\
    (forall x part id, In x xs -> aform x part id -> let str := to_small (a_stem x) ++ part ++ a_post x in
       glob (map (locase eng_casing) w) str -> ~ In 42 str -> part <> [] \/ post_between x ->
       exists ms, In (a_id x, ms) calls /\ In (str, id) ms) /\
    Forall (fun call => NoDup (snd call) /\ snd call <> []) calls /\ neighbours_differ calls.
Proof.
  intros H1 H2 H3 H4 H5 Hb Hu (x0 & Hx0 & Ex0) Hlen Hg Hw Hne Hl Hp.
  destruct (compiled_lexicon_intro lines xs A H1 H2 H3 H4 H5) as (L & HC).
  assert (Hfrom : forall key e part str id, ehas_form L key e part str id ->
            exists x, In x xs /\ key = to_small (a_stem x) /\ nlexid e = a_id x /\ stpost e = a_post x /\ aform x part id /\ str = key ++ part ++ stpost e).
  { intros key e part str id [Hr (st & c & Hc & Hf & ->)]. destruct (cl_class _ _ _ HC _ _ _ _ Hr Hc) as (x & Hx & Ek & Ei & Ep & ->). exists x.
    repeat match goal with |- _ /\ _ => split end; try assumption; try reflexivity. apply (am_forms x _ (aclass_means x (cl_good _ _ _ HC x Hx))), Hf. }
  destruct (efind_match_eq A L w psz cch [] (cl_holds _ _ _ HC) (compiled_buildable xs A L HC Hb)) as (calls & K1 & K2 & K3 & K4 & K5); try assumption.
  - split.
    + apply (cl_within _ _ _ HC). apply Forall_forall. intros x Hx. apply Hlen, Hx.
    + intros key e part str id Hf. destruct (Hfrom _ _ _ _ _ Hf) as (x & Hx & -> & _ & -> & Hfx & ->). rewrite !app_length. unfold to_small. rewrite map_length. pose proof (proj2 (Hlen x Hx) part id Hfx). lia.
  - apply (compiled_few xs A L HC Hu).
  - rewrite app_nil_r. apply (cl_stems _ _ _ HC).
  - right. destruct (ac_all _ _ (cl_from _ _ _ HC) x0 Hx0) as (e & st & c & (l & E & _) & _). rewrite Ex0 in E. cbn [to_small map] in E. rewrite E. discriminate.
  - intros key e Hr. destruct (ac_only _ _ (cl_from _ _ _ HC) key e Hr) as (x & st & c & Hx & _ & -> & _). pose proof (ao_id x (proj1 (cl_good _ _ _ HC x Hx))). lia.
  - exists calls. split; [exact K1|]. split; [|split; [|split; assumption]].
    + intros lid ms str id I1 I2. destruct (K2 lid ms str id I1 I2) as [(key & e & part & Hf & El) G]. destruct (Hfrom _ _ _ _ _ Hf) as (x & Hx & -> & Ei & Ep & Hfx & ->).
      exists x, part. rewrite Ep in *. repeat match goal with |- _ /\ _ => split end; try assumption; try reflexivity. congruence.
    + intros x part id Hx Hfx str G H42 Hpart. destruct (ac_all _ _ (cl_from _ _ _ HC) x Hx) as (e & st & c & Hr & Ei & Ep & Hc & [_ Hm]).
      rewrite <- Ei. apply (K3 (cl_bounds _ _ _ HC) (to_small (a_stem x)) e part); try assumption.
      * split; [exact Hr|]. exists st, c. split; [exact Hc|]. split; [apply Hm, Hfx|]. rewrite Ep. reflexivity.
      * destruct Hpart as [Hpart|Hpart]; [left; exact Hpart|right]. rewrite Ep. unfold post_between in Hpart. destruct (a_post x) as [|b post]; [exact I|].
        destruct Hpart as (c1 & r1 & i1 & c2 & r2 & i2 & F1 & F2 & Hle).
        pose proof (cl_bounds _ _ _ HC _ _ _ _ _ _ Hr Hc (proj2 (Hm _ _) F1) c1 r1 eq_refl). pose proof (cl_bounds _ _ _ HC _ _ _ _ _ _ Hr Hc (proj2 (Hm _ _) F2) c2 r2 eq_refl). lia.
Qed.

(** ** Concrete dictionaries *)
Definition etailed (A : earrays) (tl : bytes) : earrays := EArrays (e_flex A) (e_class A) (e_stems A ++ tl) (e_lids A).
Lemma etailed_holds A L tl : eholds A L -> eholds (etailed A tl) L.
Proof.
  intros H. constructor.
  - destruct (eh_stems A L H) as (rest & E). exists (rest ++ tl). cbn [etailed e_stems]. rewrite E, <- app_assoc. reflexivity.
  - apply (eh_dump A L H).
  - apply (eh_nonzero A L H).
  - apply (eh_lists A L H).
  - intros key e Hr. destruct (eh_classes A L H key e Hr) as (st & c & H1 & H2 & H3). exists st, c. split; [exact H1|]. split; [exact H2|exact H3].
Qed.
Lemma eitems_record items key e : eitemsb items = true -> has_record (words_of items) key e -> In (key, e) items.
Proof.
  intros Hok (l & Hl & Hin). destruct (dict_reader_facts items wempty) as (_ & F2 & _ & _).
  - apply ordered_wempty.
  - apply (eitems_facts items Hok).
  - intros k l'. rewrite lookup_wempty. discriminate.
  - specialize (F2 key). unfold words_of in Hl. rewrite Hl, lookup_wempty in F2. cbn [default] in F2. rewrite app_nil_r in F2.
    apply (Permutation_in _ F2) in Hin. unfold records_of in Hin. apply in_map_iff in Hin. destruct Hin as ([k e'] & <- & Hin).
    apply filter_In in Hin. destruct Hin as [Hin E]. cbn [fst snd] in *. destruct (list_eq_dec N.eq_dec k key); [subst; exact Hin|discriminate].
Qed.
Lemma ewithin_items n items : Forall (fun ke => (length (fst ke) <= n)%nat) items -> within n (words_of items).
Proof.
  intros H. unfold words_of, dict_reader. assert (Hw : within n (@wempty (list entry))) by apply within_wempty. revert Hw. generalize (@wempty (list entry)) as t.
  induction H as [|ke items Hke H IH]; intros t Ht; cbn [fold_left]; [exact Ht|]. apply IH, within_insert; assumption.
Qed.
Lemma esmall_within items n : eitemsb items = true -> Forall (fun ke => (length (fst ke) + 2 + length (stpost (snd ke)) <= n)%nat) items ->
  estrings_within n (elexicon_of (words_of items)).
Proof.
  intros Hok Hl. split.
  - apply ewithin_items. eapply Forall_impl; [|exact Hl]. cbn. intros ke H. lia.
  - intros key e part str id [Hr (st & c & Hc & Hf & ->)]. pose proof (eitems_record items key e Hok Hr) as Hi. rewrite Forall_forall in Hl. specialize (Hl _ Hi). cbn [fst snd] in Hl.
    assert (Hp : (length part <= 2)%nat); [|rewrite !app_length; lia].
    destruct (eclass_cases items _ _ _ Hc) as [[_ ->]|[[_ ->]|[[_ ->]|[[_ ->]|[_ ->]]]]]; destruct Hf as [Ek|t part id Ek Hin]; try discriminate; try (cbn; lia);
      injection Ek as <-; cbn in Hin; repeat (destruct Hin as [[= <- <-]|Hin]; [cbn; lia|]); destruct Hin.
Qed.
Lemma edemo_single : single_records edemo_lexicon.
Proof.
  intros key e key' e' H H' E. apply (eitems_record edemo_items key e edemo_ok) in H. apply (eitems_record edemo_items key' e' edemo_ok) in H'. cbn in H, H'.
  repeat (destruct H as [[= <- <-]|H]; [repeat (destruct H' as [[= <- <-]|H']; [try discriminate E; auto|]); destruct H'|]). destruct H.
Qed.
Lemma edemo_ids key e : has_record (ewords edemo_lexicon) key e -> nlexid e <> 0.
Proof. intros H. apply (eitems_record edemo_items key e edemo_ok) in H. cbn in H. repeat (destruct H as [[= <- <-]|H]; [discriminate|]). destruct H. Qed.

(** collecting the calls *)
Definition enote (u : list (N * list (bytes * N))) (l : N) (ms : list (bytes * N)) : list (N * list (bytes * N)) * Z := (u ++ [(l, ms)], 0%Z).
Definition esearched (A : earrays) (pat : bytes) : res (list (N * list (bytes * N)) * Z) :=
  efind_match enote A (repeat 7 48) (repeat 9 48) (Some pat) (N.of_nat (length pat)) [].

(** ** Refutations *)
Lemma efixed_wrong : exists A L w lid str id rest, eholds A L /\ ebounds_ok L /\ estrings_within 47 L /\ e_stems A = stemtree_bytes (ewords L) ++ rest /\ rest <> [] /\
  is_bytes w /\ length w = 2%nat /\ esearched A w = Ok ([(lid, [(str, id)])], 0%Z) /\ ~ elexeme_form L lid str id.
Proof.
  exists (etailed eodd_arrays [0]), eodd_lexicon, [97; 116], 7, [97; 116], 255, [0].
  split; [apply etailed_holds, eodd_holds|]. split; [apply eodd_bounds|]. split; [apply esmall_within; [apply eodd_ok|repeat constructor]|]. split; [reflexivity|]. split; [discriminate|].
  split; [repeat constructor|]. split; [reflexivity|]. split; [vm_compute; reflexivity|].
  intros (key & e & part & [Hr (st & c & Hc & Hf & Es)] & Hid). apply (eitems_record eodd_items key e eodd_ok) in Hr. cbn in Hr.
  repeat (destruct Hr as [[= <- <-]|Hr]; [try discriminate Hid|]); [|destruct Hr].
  apply (f_equal (@length N)) in Es. rewrite !app_length in Es. cbn in Es. lia.
Qed.

Definition into_items : list (bytes * entry) := [([119], Entry 0 115 9 0 [116; 111])].   (* w..to *)
Lemma into_ok : eitemsb into_items = true.
Proof. vm_compute. reflexivity. Qed.
Lemma epostfix_missed : exists A L w key e str id rest, eholds A L /\ ebuildable L /\ ebounds_ok L /\ estrings_within 47 L /\ eforms_at_most 256 L /\
  e_stems A = stemtree_bytes (ewords L) ++ rest /\ rest <> [] /\ ehas_form L key e [] str id /\ glob (map (locase eng_casing) w) str /\ ~ In 42 str /\
  esearched A w = Ok ([], 0%Z).
Proof.
  exists (etailed (earrays_of (words_of into_items)) [0]), (elexicon_of (words_of into_items)), [119; 116; 111], [119], (Entry 0 115 9 0 [116; 111]), [119; 116; 111], 0, [0].
  assert (HL : eholds (etailed (earrays_of (words_of into_items)) [0]) (elexicon_of (words_of into_items))) by (apply etailed_holds, (esmall_holds into_items into_ok)).
  split; [exact HL|]. split; [apply (esmall_buildable into_items into_ok); [repeat constructor|apply eplainb_ok; vm_compute; reflexivity]|].
  split; [exact (esmall_bounds into_items into_ok)|]. split; [apply esmall_within; [apply into_ok|repeat constructor]|].
  split; [apply (single_few _ _ HL)|].
  { intros key e key' e' H H' _. apply (eitems_record into_items key e into_ok) in H. apply (eitems_record into_items key' e' into_ok) in H'. cbn in H, H'.
    destruct H as [[= <- <-]|[]]. destruct H' as [[= <- <-]|[]]. auto. }
  split; [reflexivity|]. split; [discriminate|]. split; [|split; [|split]].
  - split; [exists [Entry 0 115 9 0 [116; 111]]; split; [vm_compute; reflexivity|left; reflexivity]|].
    exists est_noun, ecl_noun. split; [reflexivity|]. split; [eapply eform_listed; [reflexivity|left; reflexivity]|reflexivity].
  - change (map (locase eng_casing) [119; 116; 111]) with [119; 116; 111]. repeat (apply glob_same; [discriminate|discriminate|]). apply glob_end.
  - cbn. intuition discriminate.
  - vm_compute. reflexivity.
Qed.

Lemma erepeated : exists A L w rest lid ms1 between ms2 after str id, eholds A L /\ ebuildable L /\ ebounds_ok L /\ estrings_within 47 L /\ single_records L /\
  e_stems A = stemtree_bytes (ewords L) ++ rest /\ rest <> [] /\ length w = 4%nat /\
  esearched A w = Ok ((lid, ms1) :: between ++ (lid, ms2) :: after, 0%Z) /\ In (str, id) ms1 /\ In (str, id) ms2.
Proof.
  exists (etailed edemo_arrays [0]), edemo_lexicon, (text "b*s*"), [0], 6.
  eexists _, [_], _, [_], (text "brothers"), 1.
  split; [apply etailed_holds, edemo_holds|]. split; [apply edemo_buildable|]. split; [apply edemo_bounds|]. split; [apply esmall_within; [apply edemo_ok|repeat constructor]|].
  split; [apply edemo_single|]. split; [reflexivity|]. split; [discriminate|]. split; [reflexivity|].
  split; [vm_compute; reflexivity|]. split; [left; reflexivity|right; left; reflexivity].
Qed.

Lemma eread_past : exists A L, eholds A L /\ ebuildable L /\ e_stems A = stemtree_bytes (ewords L) /\ ebounds_ok L /\ estrings_within 47 L /\ single_records L /\
  forall U (add : U -> N -> list (bytes * N) -> U * Z) u, efind_match add A (repeat 7 48) (repeat 9 48) (Some [63]) 1 u = Ub.
Proof.
  exists edemo_arrays, edemo_lexicon.
  split; [apply edemo_holds|]. split; [apply edemo_buildable|]. split; [reflexivity|]. split; [apply edemo_bounds|]. split; [apply esmall_within; [apply edemo_ok|repeat constructor]|].
  split; [apply edemo_single|]. intros U add u. vm_compute. reflexivity.
Qed.

Definition ezero_items : list (bytes * entry) := [([99; 97; 116], Entry 0 115 0 0 [])].
Lemma ezero_ok : eitemsb ezero_items = true.
Proof. vm_compute. reflexivity. Qed.
Lemma ezero_id : exists A L rest, eholds A L /\ ebuildable L /\ e_stems A = stemtree_bytes (ewords L) ++ rest /\ rest <> [] /\ ebounds_ok L /\ estrings_within 47 L /\ single_records L /\
  forall U (add : U -> N -> list (bytes * N) -> U * Z) u, efind_match add A (repeat 7 48) (repeat 9 48) (Some (text "cat")) 3 u = Ub.
Proof.
  exists (etailed (earrays_of (words_of ezero_items)) [0]), (elexicon_of (words_of ezero_items)), [0].
  split; [apply etailed_holds, (esmall_holds ezero_items ezero_ok)|]. split; [apply (esmall_buildable ezero_items ezero_ok); [repeat constructor|apply eplainb_ok; vm_compute; reflexivity]|].
  split; [reflexivity|]. split; [discriminate|]. split; [exact (esmall_bounds ezero_items ezero_ok)|].
  split; [apply esmall_within; [apply ezero_ok|repeat constructor]|].
  split; [|intros U add u; vm_compute; reflexivity].
  intros key e key' e' H H' _. apply (eitems_record ezero_items key e ezero_ok) in H. apply (eitems_record ezero_items key' e' ezero_ok) in H'. cbn in H, H'.
  destruct H as [[= <- <-]|[]]. destruct H' as [[= <- <-]|[]]. auto.
Qed.

(** Three articles with the same lexeme id and 90 forms each: more than 256 matches in one call. *)
Definition many (s : string) : article := Article (text s) [] (Some (repeat [[]] 60 ++ repeat [[115]] 40)) 1 7.
Definition many_line (s : string) : bytes := text s ++ flat_map (fun _ => [124; 48]) (repeat tt 60) ++ flat_map (fun _ => [124; 115]) (repeat tt 40) ++ [9] ++ text "N" ++ [9] ++ text "LID:7".
Definition many_arts : list article := [to_be; many "x"; many "xy"; many "xyz"].
Definition many_lines : list bytes := [text "|be|am|is|are|was|were|been" ++ [9] ++ text "V_BE" ++ [9] ++ text "LID:141312"; many_line "x"; many_line "xy"; many_line "xyz"].
Lemma many_lists : lists many_lines many_arts.
Proof.
  unfold many_lines, many_arts. apply lists_one; [apply (line_written to_be "V_BE" "141312" []); [vm_compute; reflexivity|constructor]|].
  apply lists_one; [apply (line_written (many "x") "N" "7" []); [vm_compute; reflexivity|constructor]|].
  apply lists_one; [apply (line_written (many "xy") "N" "7" []); [vm_compute; reflexivity|constructor]|].
  apply lists_one; [apply (line_written (many "xyz") "N" "7" []); [vm_compute; reflexivity|constructor]|apply lists_nil].
Qed.
Lemma many_few s : few_homonyms (many s).
Proof.
  intros forms part [= <-]. cbn [map concat repeat app]. 
  change (count_occ (list_eq_dec N.eq_dec) (repeat [] 60 ++ repeat [115%N] 40) part <= 64)%nat. rewrite count_occ_app.
  destruct (list_eq_dec N.eq_dec [] part) as [<-|Hn].
  - vm_compute. repeat constructor.
  - rewrite (proj1 (count_occ_not_In (list_eq_dec N.eq_dec) _ _)) by (intros K; apply repeat_spec in K; congruence). eapply Nat.le_trans; [apply count_le|]. rewrite repeat_length. lia.
Qed.
Lemma many_compile : compiles many_lines = true.
Proof. vm_compute. reflexivity. Qed.
Lemma eoverrun : exists lines xs A w, lists lines xs /\ Forall few_homonyms xs /\ ecompile lines = Ok (Some A) /\ earrays_fit A /\ Forall abuildable xs /\
  (exists x, In x xs /\ a_stem x = []) /\ is_bytes w /\ (length w < 48)%nat /\
  forall U (add : U -> N -> list (bytes * N) -> U * Z) u, efind_match add A (repeat 7 48) (repeat 9 48) (Some w) (N.of_nat (length w)) u = Ub.
Proof.
  destruct (compiles_ok _ many_compile) as (C1 & C2 & _).
  exists many_lines, many_arts, (arrays_of many_lines), (text "x*"). split; [apply many_lists|].
  split; [unfold many_arts; repeat (apply Forall_cons; [first [apply many_few|apply few_by_length; vm_compute; repeat constructor]|]); apply Forall_nil|].
  split; [exact C1|]. split; [exact C2|].
  split; [unfold many_arts; repeat (apply Forall_cons; [constructor; [vm_compute; repeat constructor|reflexivity|discriminate]|]); apply Forall_nil|].
  split; [exists to_be; split; [left; reflexivity|reflexivity]|]. split; [repeat constructor|]. split; [cbn; lia|].
  intros U add u. vm_compute. reflexivity.
Qed.

(** ** The demonstration sources *)
Lemma edict_within x : In x edict -> (length (a_stem x) <= 47)%nat /\ forall part id, aform x part id -> (length (a_stem x) + length part + length (a_post x) <= 47)%nat.
Proof.
  intros Hx. assert (Hc : forall y, In y edict -> Nat.leb (length (a_stem y)) 47 && match a_forms y with None => Nat.leb (length (a_stem y) + length (a_post y)) 47
    | Some forms => forallb (forallb (fun e => Nat.leb (length (a_stem y) + length e + length (a_post y)) 47)) forms end = true).
  { apply forallb_forall. vm_compute. reflexivity. }
  specialize (Hc x Hx). apply andb_true_iff in Hc as [H1 H2]. apply Nat.leb_le in H1. split; [exact H1|]. intros part id [Ef|forms i alts e Ef Hn He]; rewrite Ef in H2.
  - apply Nat.leb_le in H2. cbn [length]. lia.
  - rewrite forallb_forall in H2. specialize (H2 alts (nth_error_In _ _ Hn)). rewrite forallb_forall in H2. specialize (H2 e He). apply Nat.leb_le in H2. unfold to_small. rewrite map_length. lia.
Qed.
Lemma edict_between : Forall post_between edict.
Proof.
  unfold edict. repeat (apply Forall_cons; [try exact I|]); [|apply Forall_nil].
  exists 39, [115], 2, 115, [], 1. split; [|split; [|split; discriminate]].
  - change (39 :: [115]) with (to_small (text "'s")). eapply (aform_listed brother _ 2); [reflexivity|reflexivity|left; reflexivity].
  - change [115] with (to_small (text "s")). eapply (aform_listed brother _ 1); [reflexivity|reflexivity|left; reflexivity].
Qed.
