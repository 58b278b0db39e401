(** * EngProofs: the search of the English analyser is a walk over the list of analyses.  PROOFS. *)
From Verif Require Import Base Serial SerialProofs WordTree TreeSpec WordTreeProofs FlatScan FlatScanProofs LidsProofs TrackProofs
  TreeWalk Stems StemSpec StemsProofs DictProofs CharTables CapScheme CapSpec CapProofs CapProofs2 CapProofs3 PropCaseLemmas PropTreesLemmas
  GramMap RusRuntime RusBuild RusSpec RusProofs RusProofs2 RusProofs3 RusBuildSpec EngRuntime EngSpec.
Local Open Scope N_scope.

(** ** Tables of endings *)
Definition items (t : list (N * bytes)) : bytes := flat_map (fun ie => fst ie :: N.of_nat (length (snd ie)) :: snd ie) t.
Definition mark (wd id : N) : gram := Gram (N.land wd 0x7f) id 0 0.

Lemma mem_cmp_eq a x : forall b y, exists k,
  mem_cmp (Nat.min (length a) (length b)) (a ++ x) (b ++ y) = Ok k /\
  (k = Gt -> lex_lt b a) /\ (k = Lt -> a <> b) /\ (k = Eq -> length a = length b -> a = b).
Proof.
  induction a as [|c a IH]; intros b y; cbn [length Nat.min mem_cmp app].
  - exists Eq. repeat split; try discriminate. intros _ H. destruct b; [reflexivity|discriminate].
  - destruct b as [|d b]; cbn [length Nat.min mem_cmp app rd bind].
    + exists Eq. repeat split; try discriminate.
    + destruct (N.ltb_spec c d).
      * exists Lt. repeat split; try discriminate. intros _ [= -> _]. lia.
      * destruct (N.ltb_spec d c).
        -- exists Gt. repeat split; try discriminate. intros _. apply lex_head. assumption.
        -- assert (c = d) as -> by lia. destruct (IH b y) as (k & -> & Hg & Hl & He). exists k. split; [reflexivity|].
           split; [intros E; apply lex_tail; auto|]. split; [intros E [= Hab]; exact (Hl E Hab)|].
           intros E [= El]. f_equal. auto.
Qed.

Lemma ids_of_cons id e t part :
  ids_of ((id, e) :: t) part = (if list_eq_dec N.eq_dec e part then [id] else []) ++ ids_of t part.
Proof. unfold ids_of. cbn [filter snd]. destruct (list_eq_dec N.eq_dec e part); reflexivity. Qed.

Lemma ids_of_above t part a : lex_lt part a -> Forall (fun b => lex_lt a b \/ a = b) (map snd t) -> ids_of t part = [].
Proof.
  intros Hlt. induction t as [|[id e] t IH]; intros H; [reflexivity|]. cbn [map snd] in H. inversion H as [|? ? He Ht]; subst.
  rewrite ids_of_cons, (IH Ht). destruct (list_eq_dec N.eq_dec e part) as [->|]; [|reflexivity]. exfalso.
  destruct He as [He|He]; [eapply lex_lt_irrefl, lex_lt_trans; eassumption|subst a; eapply lex_lt_irrefl; eassumption].
Qed.

Lemma in_ids_of t part id : In id (ids_of t part) <-> In (id, part) t.
Proof.
  unfold ids_of. rewrite in_map_iff. split.
  - intros ([i e] & <- & H). apply filter_In in H as [H E]. cbn [fst snd] in *.
    destruct (list_eq_dec N.eq_dec e part) as [->|]; [exact H|discriminate].
  - intros H. exists (id, part). split; [reflexivity|]. apply filter_In. split; [exact H|]. cbn [snd].
    destruct (list_eq_dec N.eq_dec part part); congruence.
Qed.

Lemma escan_loop_eq wd infl tail t : forall rest v,
  ascending (map snd t) -> (length v + length (ids_of t infl) <= 64)%nat ->
  escan_loop wd (Frag (infl ++ tail) (N.of_nat (length infl))) (length t) (items t ++ rest) v =
  Ok (v ++ map (mark wd) (ids_of t infl)).
Proof.
  induction t as [|[id e] t IH]; intros rest v Hasc Hlen; cbn [length escan_loop].
  - cbn. rewrite app_nil_r. reflexivity.
  - rewrite ids_of_cons in *. cbn [map snd ascending] in Hasc. destruct Hasc as [Hge Hasc].
    unfold items in *. cbn [flat_map fst snd app rd bind]. rewrite <- ?app_assoc. cbn [app rd bind flen fstr]. rewrite <- ?app_assoc.
    replace (if N.of_nat (length infl) <? N.of_nat (length e) then N.of_nat (length infl) else N.of_nat (length e))
      with (N.of_nat (Nat.min (length e) (length infl))) by (destruct (N.ltb_spec (N.of_nat (length infl)) (N.of_nat (length e))); lia).
    rewrite Nnat.Nat2N.id.
    unfold bytes in *. set (tl := flat_map (fun ie : N * list N => fst ie :: N.of_nat (length (snd ie)) :: snd ie) t ++ rest).
    destruct (mem_cmp_eq e tl infl tail) as (k & Ek & Hgt & Hlt & Heq).
    assert (Hk : (if 0 <? N.of_nat (Nat.min (length e) (length infl))
                  then mem_cmp (Nat.min (length e) (length infl)) (e ++ tl) (infl ++ tail) else Ok Eq) = Ok k).
    { destruct (N.ltb_spec 0 (N.of_nat (Nat.min (length e) (length infl)))) as [|Hz]; [exact Ek|].
      assert (Nat.min (length e) (length infl) = 0)%nat as Hz' by lia. rewrite Hz' in Ek. exact Ek. }
    rewrite Hk. cbn [bind].
    assert (Hadv : advance (N.of_nat (length e)) (e ++ tl) = Ok tl) by (apply advance_app; reflexivity).
    destruct k.
    + rewrite Hadv. cbn [bind]. rewrite orb_false_r. destruct (N.eqb_spec (N.of_nat (length e)) (N.of_nat (length infl))) as [El|El]; cbn [negb].
      * assert (e = infl) as -> by (apply Heq; [reflexivity|lia]).
        destruct (list_eq_dec N.eq_dec infl infl) as [_|]; [|congruence]. cbn [app length] in Hlen |- *.
        destruct (Nat.ltb_spec (length v) 64) as [_|]; [|lia].
        unfold tl. rewrite IH; [|exact Hasc|rewrite app_length; cbn [length]; lia]. rewrite <- app_assoc. reflexivity.
      * destruct (list_eq_dec N.eq_dec e infl) as [->|_]; [congruence|]. cbn [app] in *. apply IH; [exact Hasc|exact Hlen].
    + rewrite Hadv. cbn [bind]. rewrite orb_true_r.
      destruct (list_eq_dec N.eq_dec e infl) as [->|_]; [exfalso; exact (Hlt eq_refl eq_refl)|]. cbn [app] in *. apply IH; [exact Hasc|exact Hlen].
    + rewrite (ids_of_above t infl e (Hgt eq_refl) Hge).
      destruct (list_eq_dec N.eq_dec e infl) as [->|_]; [exfalso; exact (lex_lt_irrefl _ (Hgt eq_refl))|]. cbn. rewrite app_nil_r. reflexivity.
Qed.

Lemma escan_tables_eq wd t infl tail rest : etable_ok t ->
  escan_tables wd (table_ser t ++ rest) (Frag (infl ++ tail) (N.of_nat (length infl))) = Ok (map (mark wd) (ids_of t infl)).
Proof.
  intros (_ & _ & Hasc & Hlen). unfold escan_tables, table_ser. cbn [app rd bind]. rewrite Nnat.Nat2N.id.
  apply (escan_loop_eq wd infl tail t rest []); [exact Hasc|apply Hlen].
Qed.

(** ** Classes *)
Lemma eload_class A off st c : eclass_at A off st -> eclass_repr A st c -> off < 2 ^ 15 -> estem_at A off = Ok st.
Proof.
  intros (Hw & pre & rest & E & Hlen) (_ & Htf & _) Hoff. unfold estem_at.
  destruct (N.eqb_spec off 0xffff); [lia|]. rewrite (advance_pre _ _ _ _ E Hlen). cbn [bind]. unfold eload.
  rewrite <- !app_assoc, getword16_put by assumption. cbn [bind]. rewrite getword16_put by assumption. cbn [bind]. destruct st; reflexivity.
Qed.

Lemma emincap_eq A st c : eclass_repr A st c -> emincap st = ecase c.
Proof.
  unfold emincap, ecase. intros (-> & _). rewrite N.shiftr_div_pow2. change 3 with (N.ones 2). rewrite N.land_ones. reflexivity.
Qed.

(** what a class offers for changing part [infl]: the fields as handed on, and the descriptions *)
Definition ehits (c : eclass) (st : estem) (infl : bytes) : list (estem * list gram) :=
  match k_ends c with
  | None => match infl with [] => [(EStem (e_wdinfo st) 0, [Gram 0 0 0 0])] | _ => [] end
  | Some t => match map (mark (k_word c)) (ids_of t infl) with [] => [] | gs => [(st, gs)] end
  end.

Definition ecap_ok (scheme dwsets : N) (c : eclass) : bool := bit 1 dwsets || IsGoodSheme scheme (ecase c).

Lemma etable A st c t : eclass_repr A st c -> k_ends c = Some t -> exists rest, eflex_table A st = Ok (Some (table_ser t ++ rest)) /\ etable_ok t.
Proof.
  intros (_ & _ & H) E. rewrite E in H. destruct H as (Hnz & Hok & pre & rest & Ef & Hlen). exists rest. split; [|exact Hok].
  unfold eflex_table. destruct (N.eqb_spec (e_tfoffs st) 0); [contradiction|]. cbn [negb]. rewrite (advance_pre _ _ _ _ Ef Hlen). reflexivity.
Qed.
Lemma no_etable A st c : eclass_repr A st c -> k_ends c = None -> eflex_table A st = Ok None /\ e_tfoffs st = 0.
Proof. intros (_ & _ & H) E. rewrite E in H. unfold eflex_table. rewrite H. split; reflexivity. Qed.

Section EMatch.
  Context {St : Type} (A : earrays) (target : St -> N -> estem -> frag -> frag -> list gram -> res (St * Z)).

  Lemma ematch_class_eq scheme dwsets st c off lid infl tail suffix s :
    eclass_at A off st -> eclass_repr A st c -> off < 2 ^ 15 ->
    ematch_class A target scheme dwsets s lid off (Frag (infl ++ tail) (N.of_nat (length infl))) suffix =
    until_nonzero (fun s sg => target s lid (fst sg) (Frag (infl ++ tail) (N.of_nat (length infl))) suffix (snd sg))
      (if ecap_ok scheme dwsets c then ehits c st infl else []) s.
  Proof.
    intros Hat Hrep Hoff. unfold ematch_class. rewrite (eload_class A off st c Hat Hrep Hoff). cbn [bind].
    rewrite (emincap_eq A st c Hrep). unfold ecap_ok.
    destruct (bit 1 dwsets || IsGoodSheme scheme (ecase c)) eqn:Ecap.
    2:{ apply orb_false_iff in Ecap as [-> ->]. reflexivity. }
    replace (negb (bit 1 dwsets) && negb (IsGoodSheme scheme (ecase c))) with false
      by (rewrite <- negb_orb, Ecap; reflexivity).
    unfold ehits. destruct (k_ends c) as [t|] eqn:Ef.
    - destruct (etable A st c t Hrep Ef) as (rest & -> & Hok). cbn [bind]. rewrite (escan_tables_eq _ t infl tail rest Hok). cbn [bind].
      assert (Hw : e_wdinfo st = k_word c) by apply Hrep. rewrite Hw.
      destruct (map _ _) as [|g0 gs]; [reflexivity|]. cbn [until_nonzero fst snd].
      destruct (target _ _ _ _ _ _) as [[s' z]|]; cbn [bind]; [|reflexivity].
      destruct (Z.eqb_spec z 0) as [->|]; reflexivity.
    - destruct (no_etable A st c Hrep Ef) as (-> & ->). cbn [bind flen].
      destruct infl as [|x infl].
      + cbn [length N.of_nat N.eqb until_nonzero fst snd].
        destruct (target _ _ _ _ _ _) as [[s' z]|]; cbn [bind]; [|reflexivity].
        destruct (Z.eqb_spec z 0) as [->|]; reflexivity.
      + destruct (N.eqb_spec (N.of_nat (length (x :: infl))) 0); [cbn [length] in *; lia|]. reflexivity.
  Qed.
End EMatch.

Section EPost.
  Context {St : Type} (A : earrays).
  Variables target target' : St -> N -> estem -> frag -> frag -> list gram -> res (St * Z).
  Variables suf suf' : frag.
  Hypothesis Heq : forall s lid st fr gr, target s lid st fr suf gr = target' s lid st fr suf' gr.

  Lemma ematch_class_post scheme dwsets s lid ocl fr :
    ematch_class A target scheme dwsets s lid ocl fr suf = ematch_class A target' scheme dwsets s lid ocl fr suf'.
  Proof.
    unfold ematch_class. destruct (estem_at A ocl) as [st|]; cbn [bind]; [|reflexivity].
    destruct (_ && _); [reflexivity|].
    destruct (eflex_table A st) as [[pt|]|]; cbn [bind]; [| |reflexivity].
    - destruct (escan_tables _ _ _) as [[|g gs]|]; cbn [bind]; try reflexivity. apply Heq.
    - destruct (_ =? _); [apply Heq|reflexivity].
  Qed.
End EPost.

(** ** The list of analyses *)
Record eanal := EAnal { ea_key : bytes; ea_entry : entry; ea_part : bytes; ea_stem : estem; ea_grams : list gram }.

Definition eentry_analyses (L : elexicon) (scheme dwsets : N) (key : bytes) (ei : entry * bytes) : list eanal :=
  match eclass_of L (oclass (fst ei)) with
  | Some (st, c) =>
      if ecap_ok scheme dwsets c
      then map (fun sg => EAnal key (fst ei) (snd ei) (fst sg) (snd sg)) (ehits c st (snd ei)) else []
  | None => []
  end.

Definition eanalyses (L : elexicon) (scheme dwsets : N) (w : bytes) : list eanal :=
  flat_map (fun lr => flat_map (eentry_analyses L scheme dwsets (firstn (length w - length (snd lr)) w)) (candidates (snd lr) (fst lr)))
           (prefix_hits (ewords L) w).

Definition evisit {St} (tgt : St -> N -> estem -> frag -> bytes -> list gram -> res (St * Z)) (tail : bytes) (s : St) (a : eanal) :=
  tgt s (nlexid (ea_entry a)) (ea_stem a)
      (Frag (ea_part a ++ stpost (ea_entry a) ++ tail) (N.of_nat (length (ea_part a)))) (stpost (ea_entry a)) (ea_grams a).

Section EScan.
  Context {St : Type} (A : earrays) (L : elexicon).
  Variable target : St -> N -> estem -> frag -> frag -> list gram -> res (St * Z).
  Variable tgt : St -> N -> estem -> frag -> bytes -> list gram -> res (St * Z).
  Hypothesis Htgt : forall s lid st fr e after gr, target s lid st fr (post_frag e after) gr = tgt s lid st fr (stpost e) gr.
  Hypothesis HL : eholds A L.

  Lemma escan_words_eq scheme dwsets w tail s : (length w < 64)%nat ->
    escan_words A target scheme dwsets (w ++ tail) (N.of_nat (length w)) s =
    until_nonzero (evisit tgt tail) (eanalyses L scheme dwsets w) s.
  Proof.
    intros Hlen. unfold escan_words. destruct HL as [(rest & ->) Hd Hz Hl Hc].
    set (item := fun (s : St) (l : list entry) (r : bytes) =>
      until_nonzero (evisit tgt tail) (flat_map (eentry_analyses L scheme dwsets (firstn (length w - length r) w)) (candidates r l)) s).
    unfold stemtree_bytes.
    rewrite (scan_gen C8 stems_ser stems_len _ item tail w 64 (ewords L) rest s).
    - unfold eanalyses. rewrite until_flat_map. apply until_ext. intros s0 [l r] _. reflexivity.
    - exact Hd.
    - exact Hz.
    - apply lookup_all_data; [eapply dumpable_ordered; eassumption|]. intros k l E. unfold sized. apply stems_ser_len, (Hl k l E).
    - exact Hlen.
    - unfold size_max1. lia.
    - intros k l r Hw Ek s0 junk.
      rewrite (lookup_list_eq (ematch_class A target scheme dwsets)
        (fun s lid cl fr post => ematch_class A (fun s lid st fr _ gr => tgt s lid st fr post gr) scheme dwsets s lid cl fr (Frag [] 0))).
      + unfold item. rewrite until_flat_map. apply until_ext. intros s1 [e part] Hin. cbn [fst snd].
        destruct (candidates_sound _ _ _ _ Hin) as (Hel & Hsp & _).
        destruct (Hc k e (ex_intro _ l (conj Ek Hel))) as (st & c & Ec & Hat & Hrep).
        unfold eentry_analyses. cbn [fst snd]. rewrite Ec.
        assert (Hoff : oclass e < 2 ^ 15).
        { destruct (Hl k l Ek) as [[Hok _] _]. rewrite Forall_forall in Hok. apply (Hok e Hel). }
        unfold splits in Hsp.
        replace (r ++ tail) with (part ++ (stpost e ++ tail)) by (rewrite Hsp, <- app_assoc; reflexivity).
        rewrite (ematch_class_eq A _ scheme dwsets st c (oclass e) (nlexid e) part (stpost e ++ tail) (Frag [] 0) s1 Hat Hrep Hoff).
        destruct (ecap_ok scheme dwsets c); [|reflexivity]. rewrite until_map. apply until_ext. intros s2 sg _. reflexivity.
      + intros s1 lid cl fr e after. apply ematch_class_post. intros. apply Htgt.
      + apply (Hl k l Ek).
  Qed.
End EScan.

(** ** Analyses and forms *)
Lemma eanalyses_in L scheme dwsets w a : In a (eanalyses L scheme dwsets w) <->
  exists l rest st c, w = ea_key a ++ rest /\ lookup (ea_key a) (ewords L) = Some l /\
    In (ea_entry a, ea_part a) (candidates rest l) /\ eclass_of L (oclass (ea_entry a)) = Some (st, c) /\
    ecap_ok scheme dwsets c = true /\ In (ea_stem a, ea_grams a) (ehits c st (ea_part a)).
Proof.
  unfold eanalyses. rewrite in_flat_map. split.
  - intros ([l r] & Hlr & H). apply prefix_hits_in in Hlr as (k & -> & Ek). cbn [fst snd] in H.
    apply in_flat_map in H as ([e part] & Hc & H). unfold eentry_analyses in H. cbn [fst snd] in H.
    destruct (eclass_of L (oclass e)) as [[st c]|] eqn:Ec; [|destruct H].
    destruct (ecap_ok scheme dwsets c) eqn:Ecap; [|destruct H].
    apply in_map_iff in H as ([st' gs] & <- & H). cbn [ea_key ea_entry ea_part ea_stem ea_grams fst snd].
    rewrite firstn_key. exists l, r, st, c. repeat split; assumption.
  - intros (l & r & st & c & -> & Ek & Hc & Ec & Ecap & H). exists (l, r). split.
    + apply prefix_hits_in. exists (ea_key a). split; [reflexivity|exact Ek].
    + cbn [fst snd]. rewrite firstn_key. apply in_flat_map. exists (ea_entry a, ea_part a). split; [exact Hc|].
      unfold eentry_analyses. cbn [fst snd]. rewrite Ec, Ecap. apply in_map_iff. exists (ea_stem a, ea_grams a).
      split; [destruct a; reflexivity|exact H].
Qed.

(** the description the lemmatizer shows for form [id] *)
Lemma ehits_sound c st part st' gs : In (st', gs) (ehits c st part) ->
  gs <> [] /\
  match k_ends c with
  | None => part = [] /\ gs = [Gram 0 0 0 0] /\ st' = EStem (e_wdinfo st) 0
  | Some t => gs = map (mark (k_word c)) (ids_of t part) /\ st' = st
  end.
Proof.
  unfold ehits. destruct (k_ends c) as [t|].
  - destruct (map _ _) as [|g gs0] eqn:E; [intros []|]. intros [[= <- <-]|[]]. split; [discriminate|]. split; reflexivity.
  - destruct part; [|intros []]. intros [[= <- <-]|[]]. split; [discriminate|]. repeat split.
Qed.

Lemma ehits_complete c st part id : eform_part c part id -> exists st' gs, In (st', gs) (ehits c st part).
Proof.
  unfold ehits. intros [E|t part' id' E H]; rewrite E.
  - eexists _, _. left. reflexivity.
  - assert (Hin : In (mark (k_word c) id') (map (mark (k_word c)) (ids_of t part'))) by (apply in_map, in_ids_of, H).
    destruct (map _ _) as [|g gs]; [destruct Hin|]. eexists _, _. left. reflexivity.
Qed.

Lemma eanalyses_sound L scheme dwsets w a : In a (eanalyses L scheme dwsets w) ->
  w = ea_key a ++ ea_part a ++ stpost (ea_entry a) /\ has_record (ewords L) (ea_key a) (ea_entry a) /\
  exists st c, eclass_of L (oclass (ea_entry a)) = Some (st, c) /\ ecap_ok scheme dwsets c = true /\ ea_grams a <> [] /\
  match k_ends c with
  | None => ea_part a = [] /\ ea_grams a = [Gram 0 0 0 0] /\ ea_stem a = EStem (e_wdinfo st) 0
  | Some t => ea_grams a = map (mark (k_word c)) (ids_of t (ea_part a)) /\ ea_stem a = st
  end.
Proof.
  intros H. apply eanalyses_in in H as (l & r & st & c & -> & Ek & Hc & Ec & Ecap & H).
  apply candidates_sound in Hc as (Hin & -> & _). apply ehits_sound in H as (Hne & Hg).
  split; [reflexivity|]. split; [exists l; split; assumption|]. exists st, c. repeat (split; [assumption|]). exact Hg.
Qed.

Lemma ehits_form c st part : (exists id, eform_part c part id) -> exists st' gs, ehits c st part = [(st', gs)].
Proof.
  intros (id & H). destruct (ehits_complete c st part id H) as (st' & gs & Hin). unfold ehits in *.
  destruct (k_ends c); [destruct (map _ _); [destruct Hin|eauto]|destruct part; [eauto|destruct Hin]].
Qed.

Lemma eanal_form L scheme dwsets w a : In a (eanalyses L scheme dwsets w) -> forall st c, eclass_of L (oclass (ea_entry a)) = Some (st, c) ->
  exists id, eform_part c (ea_part a) id.
Proof.
  intros H st c Ec. destruct (eanalyses_sound L scheme dwsets w a H) as (_ & _ & st' & c' & Ec' & _ & Hne & Hm).
  rewrite Ec in Ec'. injection Ec' as <- <-. destruct (k_ends c) as [t|] eqn:E.
  - destruct Hm as [Hm _]. destruct (ids_of t (ea_part a)) as [|id ids] eqn:Ei; [rewrite Hm in Hne; exfalso; apply Hne; reflexivity|].
    exists id. eapply eform_listed; [exact E|]. apply in_ids_of. rewrite Ei. left. reflexivity.
  - destruct Hm as (-> & _). exists 255. constructor. exact E.
Qed.

Lemma eanalyses_complete L scheme dwsets w key e part st c id :
  (forall l, lookup key (ewords L) = Some l -> max_descending l) -> w = key ++ part ++ stpost e ->
  has_record (ewords L) key e -> eclass_of L (oclass e) = Some (st, c) -> ecap_ok scheme dwsets c = true ->
  eform_part c part id -> admits e part -> reachable e part ->
  exists a, In a (eanalyses L scheme dwsets w) /\ ea_key a = key /\ ea_entry a = e /\ ea_part a = part.
Proof.
  intros Hmax -> (l & Ek & Hin) Ec Ecap Hf Ha Hside.
  destruct (ehits_complete c st part id Hf) as (st' & gs & Hh).
  exists (EAnal key e part st' gs). cbn [ea_key ea_entry ea_part ea_grams]. repeat split.
  apply eanalyses_in. cbn [ea_key ea_entry ea_part ea_grams ea_stem]. exists l, (part ++ stpost e), st, c.
  repeat split; try assumption. apply candidates_complete; try assumption; [apply Hmax, Ek|reflexivity].
Qed.

Lemma eanalyses_blind L s s' dwsets w : bit 1 dwsets = true -> eanalyses L s dwsets w = eanalyses L s' dwsets w.
Proof.
  intros Hb. unfold eanalyses. apply flat_map_ext. intros lr. apply flat_map_ext. intros ei.
  unfold eentry_analyses. destruct (eclass_of L _) as [[st c]|]; [|reflexivity]. unfold ecap_ok. rewrite Hb. reflexivity.
Qed.
