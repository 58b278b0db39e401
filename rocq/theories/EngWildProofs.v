(** * EngWildProofs: the English search by pattern over a class and over the dictionary.  PROOFS. *)
From Verif Require Import Base Serial SerialProofs WordTree TreeSpec WordTreeProofs FlatScan FlatScanProofs LidsProofs TrackProofs
  TreeWalk Stems StemSpec StemsProofs DictProofs CharTables CapScheme CapSpec CapProofs CapProofs2 CapProofs3 PropCaseLemmas PropTreesLemmas
  GramMap RusRuntime RusBuild RusSpec RusProofs RusProofs2 RusProofs3 RusBuildSpec Wild WildSpec WildProofs WildProofs2 WildProofs3 WildProofs4
  EngRuntime EngSpec EngFormsSpec EngProofs EngProofs2 EngWild EngWildSpec.
Local Open Scope N_scope.

Section Str.
  Context {St : Type}.
  Variable output : bytes -> gram -> St -> res (St * Z).
  Notation out := (fun s (x : bytes * gram) => output (fst x) (snd x) s).
  Variable suffix : bytes.
  Variable gr : gram.

  Fixpoint str_ev (stflex : bytes) : bytes -> bytes -> list (bytes * gram) :=
    fix inner (inflex : bytes) (path : bytes) : list (bytes * gram) :=
      match stflex with
      | [] => suf_ev (path ++ suffix, gr) inflex suffix
      | z :: stflex' =>
          match inflex with
          | [] => []
          | a :: inflex' =>
              if z =? a then str_ev stflex' inflex' (path ++ [z])
              else if a =? 63 then str_ev stflex' inflex' (path ++ [z])
              else if a =? 42 then inner inflex' path ++ str_ev stflex' inflex (path ++ [z])
              else []
          end
      end.

  Lemma str_ev_cons z sz a inflex path :
    str_ev (z :: sz) (a :: inflex) path =
    (if z =? a then str_ev sz inflex (path ++ [z])
     else if a =? 63 then str_ev sz inflex (path ++ [z])
     else if a =? 42 then str_ev (z :: sz) inflex path ++ str_ev sz (a :: inflex) (path ++ [z]) else []).
  Proof. reflexivity. Qed.
  Lemma str_ev_nil inflex path : str_ev [] inflex path = suf_ev (path ++ suffix, gr) inflex suffix.
  Proof. destruct inflex; reflexivity. Qed.
  Lemma escan_string_cons z sz a inflex mem n s :
    escan_string output (z :: sz) suffix gr (a :: inflex) mem n s =
    (let! mem := mem_write mem n z in
     if z =? a then escan_string output sz suffix gr inflex mem (S n) s
     else if a =? 63 then escan_string output sz suffix gr inflex mem (S n) s
     else if a =? 42 then
       let! (mem, s, r) := escan_string output (z :: sz) suffix gr inflex mem n s in
       if Z.eqb r 0 then escan_string output sz suffix gr (a :: inflex) mem (S n) s else Ok (mem, s, r)
     else Ok (mem, s, 0%Z)).
  Proof. reflexivity. Qed.
  Lemma escan_string_nil inflex mem n s : escan_string output [] suffix gr inflex mem n s = scan_suffix output inflex gr suffix mem n s.
  Proof. destruct inflex; reflexivity. Qed.

  Lemma escan_string_does sz : forall inflex mem n s,
    (n + length sz + length suffix <= length mem)%nat ->
    does (escan_string output sz suffix gr inflex mem n s) n mem (until_nonzero out (str_ev sz inflex (firstn n mem)) s) /\
    (forall z sz', sz = z :: sz' -> firstn (S n) mem = firstn n mem ++ [z] ->
     does (escan_string output sz suffix gr inflex mem n s) (S n) mem (until_nonzero out (str_ev sz inflex (firstn n mem)) s)).
  Proof.
    induction sz as [|z sz IH].
    - intros inflex mem n s Hm. split; [|intros; discriminate]. rewrite escan_string_nil, str_ev_nil. cbn [length] in Hm. apply scan_suffix_does. lia.
    - induction inflex as [|a inflex IHi]; intros mem n s Hm.
      + split; [apply does_ok|intros; apply does_ok].
      + enough (G : forall mem1, length mem1 = length mem -> firstn (S n) mem1 = firstn n mem ++ [z] ->
            does (if z =? a then escan_string output sz suffix gr inflex mem1 (S n) s
                  else if a =? 63 then escan_string output sz suffix gr inflex mem1 (S n) s
                  else if a =? 42 then
                       let! (mem, s, r) := escan_string output (z :: sz) suffix gr inflex mem1 n s in
                       if Z.eqb r 0 then escan_string output sz suffix gr (a :: inflex) mem (S n) s else Ok (mem, s, r)
                  else Ok (mem1, s, 0%Z)) (S n) mem1
                 (until_nonzero out (str_ev (z :: sz) (a :: inflex) (firstn n mem)) s)).
        { destruct (write_facts mem n z) as (mem1 & E & L1 & F1 & F1'); [cbn [length] in Hm; lia|].
          rewrite escan_string_cons, E. cbn [bind]. specialize (G mem1 L1 F1). split.
          - apply does_from with mem1; [apply does_less; assumption|assumption|assumption].
          - intros z' sz' [= <- <-] Hz. apply does_from with mem1; [assumption|assumption|congruence]. }
        intros mem1 L1 F1. cbn [length] in Hm.
        assert (F0 : firstn n mem1 = firstn n mem).
        { assert (length (firstn n mem) = n) by (rewrite firstn_length; lia).
          rewrite <- (Nat.min_l n (S n)) at 1 by lia. rewrite <- firstn_firstn, F1. rewrite firstn_app.
          replace (n - length (firstn n mem))%nat with 0%nat by lia. cbn [firstn]. rewrite app_nil_r. apply firstn_all2. lia. }
        rewrite str_ev_cons. rewrite <- F1.
        destruct (z =? a); [apply IH; lia|].
        destruct (a =? 63); [apply IH; lia|].
        destruct (a =? 42); [|apply does_ok].
        apply does_app.
        * rewrite <- F0. apply (proj2 (IHi mem1 n s ltac:(cbn [length]; lia)) z sz eq_refl). congruence.
        * intros mem2 s2 L2 F2. rewrite <- F2. apply IH. lia.
  Qed.

  Lemma str_ev_sound sz : forall inflex path x, In x (str_ev sz inflex path) -> x = (path ++ sz ++ suffix, gr) /\ glob inflex (sz ++ suffix).
  Proof.
    induction sz as [|z sz IH].
    - intros inflex path x Hx. rewrite str_ev_nil in Hx. apply suf_ev_sound in Hx. exact Hx.
    - induction inflex as [|a inflex IHi]; intros path x Hx; [destruct Hx|]. rewrite str_ev_cons in Hx.
      assert (Hn : forall inf y, In y (str_ev sz inf (path ++ [z])) -> y = (path ++ (z :: sz) ++ suffix, gr) /\ glob inf (sz ++ suffix)).
      { intros inf y Hy. destruct (IH _ _ _ Hy) as (H3 & H4). split; [|exact H4]. rewrite H3, <- app_assoc. reflexivity. }
      destruct (N.eqb_spec z a) as [->|Hza].
      + destruct (Hn _ _ Hx) as (H3 & H4). split; [exact H3|]. cbn [app].
        destruct (N.eq_dec a 42) as [->|]; [apply glob_more, glob_none; assumption|].
        destruct (N.eq_dec a 63) as [->|]; [apply glob_one; assumption|apply glob_same; assumption].
      + destruct (N.eqb_spec a 63) as [->|].
        * destruct (Hn _ _ Hx) as (H3 & H4). split; [exact H3|]. apply glob_one. exact H4.
        * destruct (N.eqb_spec a 42) as [->|]; [|destruct Hx]. apply in_app_or in Hx as [Hx|Hx].
          -- destruct (IHi _ _ Hx) as (H3 & H4). split; [exact H3|]. apply glob_none. exact H4.
          -- destruct (Hn _ _ Hx) as (H3 & H4). split; [exact H3|]. apply glob_more. exact H4.
  Qed.

  Lemma str_ev_complete sz : forall inflex path, glob inflex (sz ++ suffix) -> ~ In 42 (sz ++ suffix) ->
    In (path ++ sz ++ suffix, gr) (str_ev sz inflex path).
  Proof.
    induction sz as [|z sz IH].
    - intros inflex path G H. rewrite str_ev_nil. apply suf_ev_complete; assumption.
    - induction inflex as [|a inflex IHi]; intros path G H; [inversion G|]. rewrite str_ev_cons. cbn [app In] in H.
      assert (Hn : forall inf, glob inf (sz ++ suffix) -> In (path ++ (z :: sz) ++ suffix, gr) (str_ev sz inf (path ++ [z]))).
      { intros inf Gi. specialize (IH inf (path ++ [z]) Gi). rewrite <- app_assoc in IH. apply IH. intros K. apply H. right. exact K. }
      inversion G as [|c p s Hc1 Hc2 G' E1 E2|c p s G' E1 E2|p s G' E1 E2|c p s G' E1 E2]; subst.
      + rewrite N.eqb_refl. apply Hn. assumption.
      + destruct (z =? 63); apply Hn; assumption.
      + destruct (N.eqb_spec z 42) as [->|]; [exfalso; apply H; left; reflexivity|]. change (42 =? 63) with false. change (42 =? 42) with true. cbn iota.
        apply in_or_app. left. apply IHi; assumption.
      + destruct (N.eqb_spec z 42) as [->|]; [exfalso; apply H; left; reflexivity|]. change (42 =? 63) with false. change (42 =? 42) with true. cbn iota.
        apply in_or_app. right. apply Hn. assumption.
  Qed.
End Str.

(** ** A table *)
Definition table_ev (t : list (N * bytes)) (pat suffix path : bytes) : list (bytes * gram) :=
  flat_map (fun ie => str_ev suffix (Gram 0 (fst ie) (fst ie) 0) (snd ie) pat path) t.

Lemma eflex_search_does {St} (output : bytes -> gram -> St -> res (St * Z)) pat suffix t : forall rest mem n s,
  Forall (fun ie => (n + length (snd ie) + length suffix <= length mem)%nat) t ->
  does (eflex_search output (length t) (items t ++ rest) pat suffix mem n s) n mem
       (until_nonzero (fun s (x : bytes * gram) => output (fst x) (snd x) s) (table_ev t pat suffix (firstn n mem)) s).
Proof.
  induction t as [|[id e] t IH]; intros rest mem n s Hm; [apply does_ok|]. cbn [length eflex_search]. unfold items. cbn [flat_map fst snd app rd bind].
  rewrite <- app_assoc. fold (items t). rewrite (advance_app e) by reflexivity. cbn [bind]. rewrite Nnat.Nat2N.id, firstn_app, Nat.sub_diag, firstn_all, firstn_O, app_nil_r.
  pose proof (Forall_inv Hm) as He. cbn [snd] in He.
  unfold table_ev. cbn [flat_map fst snd]. fold (table_ev t pat suffix (firstn n mem)).
  apply does_app.
  - assert (E : (if N.of_nat (length e) =? 0 then scan_suffix output pat (Gram 0 id id 0) suffix mem n s
                 else escan_string output e suffix (Gram 0 id id 0) pat mem n s) = escan_string output e suffix (Gram 0 id id 0) pat mem n s).
    { destruct (N.eqb_spec (N.of_nat (length e)) 0) as [E0|]; [|reflexivity]. destruct e; [rewrite escan_string_nil; reflexivity|cbn [length] in E0; lia]. }
    match goal with |- does ?m _ _ _ => replace m with (escan_string output e suffix (Gram 0 id id 0) pat mem n s) by (symmetry; exact E) end.
    apply escan_string_does, He.
  - intros mem' s' L F. rewrite <- F. apply IH. eapply Forall_impl; [|exact (Forall_inv_tail Hm)]. intros ie Hie. cbn beta in *. rewrite L. exact Hie.
Qed.

(** ** A class *)
Definition eclass_ev (st : estem) (c : eclass) (pat suffix path : bytes) : list (bytes * gram) :=
  match k_ends c with
  | None => if negb (nonempty pat) || is_asterisk pat then [(path, ewild_gram st (Gram 0 255 0 0))] else []
  | Some t => map (fun x : bytes * gram => (fst x, ewild_gram st (snd x))) (table_ev t pat suffix path)
  end.

Lemma eclass_ev_sound st c pat suffix path str gr : (k_ends c = None -> suffix = []) ->
  In (str, gr) (eclass_ev st c pat suffix path) ->
  exists part, eform_part c part (gidForm gr) /\ str = path ++ part ++ suffix /\ glob pat (part ++ suffix).
Proof.
  intros Hfix H. unfold eclass_ev in H. destruct (k_ends c) as [t|] eqn:Ek.
  - apply in_map_iff in H as ([str' gr'] & [= <- <-] & H). apply in_flat_map in H as ([id e] & Hin & H). apply str_ev_sound in H as [[= -> ->] G].
    exists e. cbn [fst snd ewild_gram gidForm] in *. split; [apply eform_listed with t; assumption|auto].
  - destruct (negb (nonempty pat) || is_asterisk pat) eqn:E; [|destruct H]. destruct H as [[= <- <-]|[]]. apply asterisks_glob in E.
    exists []. rewrite (Hfix eq_refl). cbn [app]. rewrite app_nil_r. split; [apply eform_fixed, Ek|auto].
Qed.

Lemma eclass_ev_complete st c pat suffix path part id : (k_ends c = None -> suffix = []) ->
  eform_part c part id -> glob pat (part ++ suffix) -> ~ In 42 (part ++ suffix) ->
  exists gr, In (path ++ part ++ suffix, gr) (eclass_ev st c pat suffix path) /\ gidForm gr = id.
Proof.
  intros Hfix Hf G H42. unfold eclass_ev. destruct Hf as [Ek|t part id Ek Hin]; rewrite Ek.
  - rewrite (Hfix Ek) in *. cbn [app] in *. apply asterisks_glob in G. rewrite G, app_nil_r. eexists. split; [left; reflexivity|reflexivity].
  - exists (ewild_gram st (Gram 0 id id 0)). split; [|reflexivity]. apply in_map_iff. exists (path ++ part ++ suffix, Gram 0 id id 0). split; [reflexivity|].
    apply in_flat_map. exists (id, part). split; [exact Hin|]. apply str_ev_complete; assumption.
Qed.

Lemma ematch_model_does A st c off lid pat suffix path {St} (target : N -> bytes -> gram -> St -> res (St * Z)) mem s :
  eclass_at A off st -> eclass_repr A st c -> off < 2 ^ 15 ->
  firstn (length path) mem = path -> (length path <= length mem)%nat ->
  (forall t, k_ends c = Some t -> Forall (fun ie => (length path + length (snd ie) + length suffix <= length mem)%nat) t) ->
  does (ematch_model A target lid off pat suffix mem (length path) s) (length path) mem
    (until_nonzero (fun s (x : bytes * gram) => target lid (fst x) (snd x) s) (eclass_ev st c pat suffix path) s).
Proof.
  intros Hat Hrep Hoff Hp Hlen Hroom. unfold ematch_model. rewrite (eload_class A off st c Hat Hrep Hoff). cbn [bind]. unfold eclass_ev.
  destruct (k_ends c) as [t|] eqn:Ek.
  - destruct (etable A st c t Hrep Ek) as (rest & -> & Hok). cbn [bind]. unfold table_ser. cbn [app rd bind]. rewrite Nnat.Nat2N.id.
    rewrite until_map. cbn [fst snd].
    replace (table_ev t pat suffix path) with (table_ev t pat suffix (firstn (length path) mem)) by (rewrite Hp; reflexivity).
    apply (eflex_search_does (fun str gr s => target lid str (ewild_gram st gr) s)). apply Hroom. reflexivity.
  - destruct (no_etable A st c Hrep Ek) as [-> _]. cbn [bind]. destruct (negb (nonempty pat) || is_asterisk pat); [|apply does_ok].
    unfold wild_call. destruct (Nat.ltb_spec (length mem) (length path)); [lia|]. rewrite Hp. cbn [until_nonzero fst snd].
    destruct (target lid path (ewild_gram st (Gram 0 255 0 0)) s) as [[s' r]|]; cbn [bind]; [|reflexivity].
    destruct (Z.eqb_spec r 0) as [->|]; exists mem; auto.
Qed.

(** ** The dictionary *)
Definition eentry_ev (L : elexicon) (pat path : bytes) (e : entry) : list (N * bytes * gram) :=
  match eclass_of L (oclass e) with
  | Some (st, c) => map (fun x : bytes * gram => (nlexid e, fst x, snd x)) (eclass_ev st c pat (stpost e) path)
  | None => []
  end.
Definition elist_ev (L : elexicon) (path : bytes) (l : list entry) (pat : bytes) : list (N * bytes * gram) :=
  flat_map (eentry_ev L pat path) (stems_sel pat l).
Definition edict_ev (L : elexicon) (fuel : nat) (pat : bytes) : list (N * bytes * gram) :=
  flat_map (hits (elist_ev L)) (tree_ev fuel (ewords L) pat []).

Section Dict.
  Variable A : earrays.
  Variable L : elexicon.
  Hypothesis HL : eholds A L.
  Hypothesis HB : ebuildable L.
  Hypothesis Hroom : estrings_within 47 L.

  Lemma eclass_here key e : has_record (ewords L) key e -> exists st c, eclass_of L (oclass e) = Some (st, c) /\ eclass_at A (oclass e) st /\
    eclass_repr A st c /\ oclass e < 2 ^ 15 /\ (k_ends c = None -> stpost e = []) /\
    (forall t, k_ends c = Some t -> Forall (fun ie => (length key + length (snd ie) + length (stpost e) <= 47)%nat) t).
  Proof.
    intros Hr. destruct (eh_classes A L HL key e Hr) as (st & c & E & H1 & H2).
    assert (He : entry_ok e).
    { destruct Hr as (l & Hl & Hin). destruct (eh_lists A L HL key l Hl) as [[Hok _] _]. rewrite Forall_forall in Hok. apply Hok. assumption. }
    exists st, c. split; [exact E|]. split; [exact H1|]. split; [exact H2|]. split; [apply He|]. split; [exact (eb_fixed L HB key e st c Hr E)|].
    intros t Ek. apply Forall_forall. intros [id part] Hin. cbn [snd].
    pose proof (proj2 Hroom key e part (key ++ part ++ stpost e) id) as Hw. rewrite !app_length in Hw.
    enough (length key + (length part + length (stpost e)) <= 47)%nat by lia. apply Hw. split; [exact Hr|]. exists st, c.
    split; [exact E|]. split; [apply eform_listed with t; assumption|reflexivity].
  Qed.

  Definition etgt {U} (add : U -> N -> list (bytes * N) -> U * Z) (s : reglex_state) (x : N * bytes * gram) : res (reglex_state * Z) :=
    ereglex add (fst (fst x)) (snd (fst x)) (snd x) s.

  Lemma elist_does {U} (add : U -> N -> list (bytes * N) -> U * Z) path l pt junk mem s : lookup path (ewords L) = Some l -> length mem = 48%nat -> firstn (length path) mem = path ->
    (length path <= 48)%nat ->
    does (wild_list (ematch_model A (ereglex add)) (stems_ser l ++ junk) pt mem (length path) s) (length path) mem
         (until_nonzero (etgt add) (elist_ev L path l pt) s).
  Proof.
    intros Hl Hmem Hpath Hlen. unfold elist_ev. apply wild_list_does; [apply (eh_lists A L HL path l Hl)|].
    intros e mem' s' Hin L' F'. assert (Hr : has_record (ewords L) path e) by (exists l; auto).
    destruct (eclass_here path e Hr) as (st & c & E & H1 & H2 & H3 & H4 & H5). unfold eentry_ev. rewrite E. rewrite until_map.
    apply (ematch_model_does A st c (oclass e) (nlexid e) pt (stpost e) path (ereglex add) mem' s' H1 H2 H3).
    - congruence.
    - congruence.
    - intros t Et. eapply Forall_impl; [|exact (H5 t Et)]. intros ie Hie. cbn beta in *. rewrite L', Hmem. lia.
  Qed.

  Lemma edict_does {U} (add : U -> N -> list (bytes * N) -> U * Z) pt rest mem s : e_stems A = stemtree_bytes (ewords L) ++ rest -> rest <> [] \/ lookup [] (ewords L) <> None -> length mem = 48%nat ->
    does (wild_tree (ematch_model A (ereglex add)) (S (length (e_stems A) + length pt)) (e_stems A) pt mem 0 s) 0 mem
         (until_nonzero (etgt add) (edict_ev L (S (length (e_stems A) + length pt)) pt) s).
  Proof.
    intros E Hne Hmem. rewrite E at 2. unfold stemtree_bytes, edict_ev.
    apply (wild_tree_does (ematch_model A (ereglex add)) (etgt add) (elist_ev L) 48
             (fun path l => lookup path (ewords L) = Some l)) with (h := 47%nat) (path := []); try assumption.
    - intros path l pat junk mem' s' Hl Hm Hp Hle. apply elist_does; assumption.
    - apply (eh_dump A L HL).
    - apply lookup_all_data; [apply (eholds_ordered A L HL)|]. intros key l Hl. apply stems_ser_len. apply (eh_lists A L HL key l Hl).
    - apply (proj1 Hroom).
    - rewrite E, app_length. unfold stemtree_bytes. lia.
    - reflexivity.
    - cbn [length]. lia.
    - intros k l Hl. exact Hl.
  Qed.

  Lemma edict_ev_sound fuel pt lid str gr : In (lid, str, gr) (edict_ev L fuel pt) -> elexeme_form L lid str (gidForm gr) /\ glob pt str.
  Proof.
    intros H. apply in_flat_map in H. destruct H as ([[k l] p'] & Hk & H). unfold hits, elist_ev in H. cbn [fst snd] in H.
    apply in_flat_map in H. destruct H as (e & He & H). apply stems_sel_in in He.
    apply tree_ev_sound in Hk; [|apply (eholds_ordered A L HL)]. destruct Hk as (k0 & -> & Hl & Hg). cbn [app] in *.
    assert (Hr : has_record (ewords L) k0 e) by (exists l; auto).
    destruct (eclass_here k0 e Hr) as (st & c & E & H1 & H2 & H3 & H4 & H5). unfold eentry_ev in H. rewrite E in H.
    apply in_map_iff in H. destruct H as ([str' gr'] & Eq & H). cbn [fst snd] in Eq. injection Eq as <- -> ->.
    apply (eclass_ev_sound _ _ _ _ _ _ _ H4) in H as (part & G1 & -> & G3). split.
    - exists k0, e, part. split; [|reflexivity]. split; [exact Hr|]. exists st, c. auto.
    - apply Hg, G3.
  Qed.

  Lemma edict_ev_complete pt key e part str id : ebounds_ok L -> ehas_form L key e part str id -> glob pt str -> ~ In 42 str ->
    part <> [] \/ match stpost e with [] => True | b :: _ => chrmin e <= b <= chrmax e end ->
    exists gr, In (nlexid e, str, gr) (edict_ev L (S (length (e_stems A) + length pt)) pt) /\ gidForm gr = id.
  Proof.
    intros Hb [Hr (st & c & Ec & Hform & ->)] G H42 Hpart.
    destruct (eclass_here key e Hr) as (st' & c' & E & H1 & H2 & H3 & H4 & H5).
    assert (st' = st /\ c' = c) as [-> ->] by (rewrite E in Ec; injection Ec; auto).
    pose proof Hr as (l & Hl & Hin).
    destruct (tree_ev_complete (length key + length pt) (S (length (e_stems A) + length pt)) (ewords L) pt [] key l (part ++ stpost e) (le_n _)) as (p' & Hk & Gp).
    - destruct (eh_stems A L HL) as (rest & ->). rewrite app_length. unfold stemtree_bytes.
      pose proof (lookup_length C8 stems_ser stems_len key (ewords L) l Hl). lia.
    - exact Hl.
    - exact G.
    - destruct (eclass_ev_complete st c p' (stpost e) key part id H4 Hform Gp) as (gr & Hgr & Eid).
      { intros C. apply H42. apply in_or_app. right. exact C. }
      exists gr. split; [|exact Eid]. apply in_flat_map. exists (key, l, p'). split; [exact Hk|].
      unfold hits, elist_ev. cbn [fst snd]. apply in_flat_map. exists e. split.
      + eapply stems_sel_complete; [assumption|apply (eh_lists A L HL key l Hl)|exact Gp|].
        assert (Ha : admits e part) by (eapply Hb; eassumption).
        intros ch r Er. destruct part as [|b part].
        * destruct Hpart as [C|C]; [contradiction|]. cbn [app] in Er. rewrite Er in C. exact C.
        * injection Er as -> _. eapply Ha. reflexivity.
      + unfold eentry_ev. rewrite E. apply in_map_iff. exists (key ++ part ++ stpost e, gr). auto.
  Qed.
End Dict.
