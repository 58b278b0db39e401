(** * RusProofs2: analyses of a word; soundness and completeness.  PROOFS. *)
From Verif Require Import Base Serial SerialProofs WordTree TreeSpec WordTreeProofs FlatScan FlatScanProofs LidsProofs TrackProofs
  TreeWalk Stems StemSpec StemsProofs CharTables CapScheme CapSpec CapProofs CapProofs2 PropCaseLemmas GramMap RusRuntime LevelSpec LevelProofs RusSpec RusProofs.
Local Open Scope N_scope.

(** ** The target sees the postfix only as a string *)
Section Post.
  Context {St : Type} (A : arrays).
  Variables target target' : St -> N -> steminfo -> frag -> frag -> list gram -> res (St * Z).
  Variables suf suf' : frag.
  Hypothesis Heq : forall s lid st fr gr, target s lid st fr suf gr = target' s lid st fr suf' gr.

  Lemma mix_loop_post lid lextem ptable inflex n : forall mixtab s,
    mix_loop target lid lextem ptable inflex suf n mixtab s = mix_loop target' lid lextem ptable inflex suf' n mixtab s.
  Proof.
    induction n as [|n IH]; intros mixtab s; cbn [mix_loop]; [reflexivity|].
    destruct (rd mixtab) as [[head curmix]|]; cbn [bind]; [|reflexivity].
    destruct (advance _ curmix) as [next|]; cbn [bind]; [|reflexivity].
    destruct (mix_compare _ _ _) as [[rescmp fl]|]; cbn [bind]; [|reflexivity].
    destruct (match rescmp with Eq => _ | Lt => _ | Gt => _ end); [|apply IH|reflexivity].
    destruct (scan_tables _ _ _) as [[gr ng]|]; cbn [bind]; [|reflexivity].
    destruct (Z.eqb ng 0); [apply IH|]. rewrite Heq.
    destruct (target' _ _ _ _ _ _) as [[s' r]|]; cbn [bind]; [|reflexivity].
    destruct (Z.eqb r 0); [apply IH|reflexivity].
  Qed.

  Lemma match_class_post scheme dwsets s lid ocl fr :
    match_class A target scheme dwsets s lid ocl fr suf = match_class A target' scheme dwsets s lid ocl fr suf'.
  Proof.
    unfold match_class. destruct (steminfo_at A ocl) as [st|]; cbn [bind]; [|reflexivity].
    destruct (_ && _); [reflexivity|].
    destruct (GetFlexTable A st) as [[pt|]|]; cbn [bind]; [| |reflexivity].
    - destruct (GetSwapTable A st) as [[mt|]|]; cbn [bind]; [| |reflexivity].
      + destruct (rd mt) as [[mc mt']|]; cbn [bind]; [|reflexivity]. apply mix_loop_post.
      + destruct (scan_tables _ _ _) as [[gr ng]|]; cbn [bind]; [|reflexivity]. destruct (Z.eqb ng 0); [reflexivity|]. apply Heq.
    - destruct (_ =? _); [apply Heq|reflexivity].
  Qed.
End Post.

(** ** The list of analyses *)
Record analysis := Analysis { an_key : bytes; an_entry : entry; an_part : bytes; an_stem : steminfo; an_grams : list gram }.

Definition entry_analyses (L : lexicon) (scheme dwsets : N) (key : bytes) (ei : entry * bytes) : list analysis :=
  match class_of L (oclass (fst ei)) with
  | Some (st, c) =>
      if cap_ok scheme dwsets c
      then map (fun sg => Analysis key (fst ei) (snd ei) (fst sg) (snd sg)) (class_hits c st (snd ei)) else []
  | None => []
  end.

Definition analyses (L : lexicon) (scheme dwsets : N) (w : bytes) : list analysis :=
  flat_map (fun lr => flat_map (entry_analyses L scheme dwsets (firstn (length w - length (snd lr)) w)) (candidates (snd lr) (fst lr)))
           (prefix_hits (words L) w).

Definition visit {St} (tgt : St -> N -> steminfo -> frag -> bytes -> list gram -> res (St * Z)) (tail : bytes) (s : St) (a : analysis) :=
  tgt s (nlexid (an_entry a)) (an_stem a)
      (Frag (an_part a ++ stpost (an_entry a) ++ tail) (N.of_nat (length (an_part a)))) (stpost (an_entry a)) (an_grams a).

Lemma dumpable_ordered {X} w len : forall t : wtree X, dumpable w len t -> ordered t.
Proof.
  apply (wtree_ind' (fun t => dumpable w len t -> ordered t)). intros l d IH H.
  inversion H as [l0 d0 Hd Hb Hc Hs]; subst. constructor; [assumption..|].
  intros c t Hin. rewrite Forall_forall in IH. apply (IH (c, t) Hin), (Hs c t Hin).
Qed.

Lemma firstn_key (k r : bytes) : firstn (length (k ++ r) - length r) (k ++ r) = k.
Proof.
  rewrite app_length. replace (length k + length r - length r)%nat with (length k) by lia.
  rewrite firstn_app, Nat.sub_diag, firstn_O, app_nil_r. apply firstn_all.
Qed.

Section Scan.
  Context {St : Type} (A : arrays) (L : lexicon).
  Variable target : St -> N -> steminfo -> frag -> frag -> list gram -> res (St * Z).
  Variable tgt : St -> N -> steminfo -> frag -> bytes -> list gram -> res (St * Z).
  Hypothesis Htgt : forall s lid st fr e after gr, target s lid st fr (post_frag e after) gr = tgt s lid st fr (stpost e) gr.
  Hypothesis HL : holds A L.

  Lemma scan_words_eq scheme dwsets w tail s : (length w < 64)%nat ->
    scan_words A target scheme dwsets (w ++ tail) (N.of_nat (length w)) s =
    until_nonzero (visit tgt tail) (analyses L scheme dwsets w) s.
  Proof.
    intros Hlen. unfold scan_words. destruct HL as [(rest & ->) Hd Hz Hl Hc].
    set (item := fun (s : St) (l : list entry) (r : bytes) =>
      until_nonzero (visit tgt tail) (flat_map (entry_analyses L scheme dwsets (firstn (length w - length r) w)) (candidates r l)) s).
    unfold stemtree_bytes.
    rewrite (scan_gen C8 stems_ser stems_len _ item tail w 64 (words L) rest s).
    - unfold analyses. rewrite until_flat_map. apply until_ext. intros s0 [l r] _. reflexivity.
    - exact Hd.
    - exact Hz.
    - apply lookup_all_data; [eapply dumpable_ordered; eassumption|]. intros k l E. unfold sized. apply stems_ser_len, (Hl k l E).
    - exact Hlen.
    - unfold size_max1. lia.
    - intros k l r Hw Ek s0 junk.
      rewrite (lookup_list_eq (match_class A target scheme dwsets)
        (fun s lid cl fr post => match_class A (fun s lid st fr _ gr => tgt s lid st fr post gr) scheme dwsets s lid cl fr (Frag [] 0))).
      + unfold item. rewrite until_flat_map. apply until_ext. intros s1 [e part] Hin. cbn [fst snd].
        destruct (candidates_sound _ _ _ _ Hin) as (Hel & Hsp & _).
        destruct (Hc k e (ex_intro _ l (conj Ek Hel))) as (st & c & Ec & Hat & Hrep).
        unfold entry_analyses. cbn [fst snd]. rewrite Ec.
        assert (Hoff : oclass e < 2 ^ 15).
        { destruct (Hl k l Ek) as [[Hok _] _]. rewrite Forall_forall in Hok. apply (Hok e Hel). }
        unfold splits in Hsp.
        replace (r ++ tail) with (part ++ (stpost e ++ tail)) by (rewrite Hsp, <- app_assoc; reflexivity).
        rewrite (match_class_eq A _ scheme dwsets st c (oclass e) (nlexid e) part (stpost e ++ tail) (Frag [] 0) s1 Hat Hrep Hoff).
        * destruct (cap_ok scheme dwsets c); [|reflexivity]. rewrite until_map. apply until_ext. intros s2 sg _. reflexivity.
        * subst w r. rewrite !app_length in Hlen. lia.
      + intros s1 lid cl fr e after. apply match_class_post. intros. apply Htgt.
      + apply (Hl k l Ek).
  Qed.
End Scan.

(** ** Analyses and forms *)
Lemma analyses_in L scheme dwsets w a : In a (analyses L scheme dwsets w) <->
  exists l rest st c, w = an_key a ++ rest /\ lookup (an_key a) (words L) = Some l /\
    In (an_entry a, an_part a) (candidates rest l) /\ class_of L (oclass (an_entry a)) = Some (st, c) /\
    cap_ok scheme dwsets c = true /\ In (an_stem a, an_grams a) (class_hits c st (an_part a)).
Proof.
  unfold analyses. rewrite in_flat_map. split.
  - intros ([l r] & Hlr & H). apply prefix_hits_in in Hlr as (k & -> & Ek). cbn [fst snd] in H.
    apply in_flat_map in H as ([e part] & Hc & H). unfold entry_analyses in H. cbn [fst snd] in H.
    destruct (class_of L (oclass e)) as [[st c]|] eqn:Ec; [|destruct H].
    destruct (cap_ok scheme dwsets c) eqn:Ecap; [|destruct H].
    apply in_map_iff in H as ([st' gs] & <- & H). cbn [an_key an_entry an_part an_stem an_grams fst snd].
    rewrite firstn_key. exists l, r, st, c. repeat split; assumption.
  - intros (l & r & st & c & -> & Ek & Hc & Ec & Ecap & H). exists (l, r). split.
    + apply prefix_hits_in. exists (an_key a). split; [reflexivity|exact Ek].
    + cbn [fst snd]. rewrite firstn_key. apply in_flat_map. exists (an_entry a, an_part a). split; [exact Hc|].
      unfold entry_analyses. cbn [fst snd]. rewrite Ec, Ecap. apply in_map_iff. exists (an_stem a, an_grams a).
      split; [destruct a; reflexivity|exact H].
Qed.

Lemma pass_in filter l g : In g (pass filter l) <->
  exists x y, g = Gram 0 0 x y /\ In (x, y) l /\ filter x y = true.
Proof.
  unfold pass. rewrite in_map_iff. split.
  - intros ([x y] & <- & H). apply filter_In in H as [H1 H2]. exists x, y. repeat split; assumption.
  - intros (x & y & -> & H1 & H2). exists (x, y). split; [reflexivity|]. apply filter_In. split; assumption.
Qed.

Lemma bit_testbit n x : bit n x = N.testbit x n.
Proof. reflexivity. Qed.

Lemma number_okb_ok c g : number_okb c g = true <-> number_ok c g.
Proof.
  unfold number_okb, any_or_multiple, number_ok. rewrite !bit_testbit.
  destruct (N.testbit (c_word c) 6); [|split; [discriminate|reflexivity]]. split; [intros -> _; reflexivity|intros H; apply H; reflexivity].
Qed.

Definition gram_is (gr : gram) (g f : N) : Prop := gr = Gram 0 0 g f.

Lemma class_hits_sound c st part st' gs : In (st', gs) (class_hits c st part) ->
  gs <> [] /\ (forall gr, In gr gs -> exists g f, gr = Gram 0 0 g f /\ form_part c part g f) /\
  st' = (match c_flex c with None => Steminfo (wdinfo st) 0 0 | Some _ => st end).
Proof.
  unfold class_hits. destruct (c_flex c) as [ft|] eqn:Ef.
  - destruct (c_mix c) as [mx|] eqn:Em.
    + intros H. apply in_flat_map in H as ([mask alt] & Hin & H). cbn [fst snd] in H.
      destruct (strip_prefix alt part) as [r|] eqn:Es; [|destruct H]. apply strip_prefix_some in Es. subst part.
      destruct (pass _ _) as [|g0 gs0] eqn:Ep; [destruct H|]. destruct H as [[= <- <-]|[]].
      split; [discriminate|]. split; [|reflexivity]. intros gr Hg. rewrite <- Ep in Hg. apply pass_in in Hg as (g & f & -> & Hl & Hf).
      exists g, f. split; [reflexivity|]. apply andb_true_iff in Hf as [H1 H2].
      destruct (lookup r ft) as [l|] eqn:El; [|destruct Hl].
      eapply form_mixed; [exact Ef|exact Em|exact Hin|unfold altlevel in H1; rewrite level_eq in H1; exact H1| |apply number_okb_ok, H2]. exists l. split; assumption.
    + intros H. destruct (pass _ _) as [|g0 gs0] eqn:Ep; [destruct H|]. destruct H as [[= <- <-]|[]].
      split; [discriminate|]. split; [|reflexivity]. intros gr Hg. rewrite <- Ep in Hg. apply pass_in in Hg as (g & f & -> & Hl & Hf).
      exists g, f. split; [reflexivity|]. destruct (lookup part ft) as [l|] eqn:El; [|destruct Hl].
      eapply form_plain; [exact Ef|exact Em| |apply number_okb_ok, Hf]. exists l. split; assumption.
  - destruct part; [|intros []]. intros [[= <- <-]|[]]. split; [discriminate|]. split; [|reflexivity].
    intros gr [<-|[]]. exists (c_case c), 0. split; [reflexivity|]. constructor. exact Ef.
Qed.

Lemma class_hits_complete c st part g f : form_part c part g f ->
  exists st' gs, In (st', gs) (class_hits c st part) /\ In (Gram 0 0 g f) gs.
Proof.
  intros H. unfold class_hits. destruct H as [Ef|ft e g f Ef Em (l & El & Hl) Hn|ft mx mask alt e g f Ef Em Hin Hb (l & El & Hl) Hn];
    rewrite ?Ef, ?Em.
  - eexists _, _. split; [left; reflexivity|left; reflexivity].
  - rewrite El. assert (Hp : In (Gram 0 0 g f) (pass (fun g0 _ => number_okb c g0) l)).
    { apply pass_in. exists g, f. repeat split; [exact Hl|]. apply number_okb_ok, Hn. }
    destruct (pass _ _) as [|g0 gs]; [destruct Hp|]. eexists _, _. split; [left; reflexivity|exact Hp].
  - assert (Hp : In (Gram 0 0 g f) (pass (fun g0 f0 => altlevel (c_word c) mask g0 f0 && number_okb c g0) l)).
    { apply pass_in. exists g, f. repeat split; [exact Hl|]. apply andb_true_iff. split; [unfold altlevel; rewrite level_eq; exact Hb|apply number_okb_ok, Hn]. }
    eexists st, _. split; [|exact Hp]. apply in_flat_map. exists (mask, alt). split; [exact Hin|]. cbn [fst snd].
    rewrite (proj2 (strip_prefix_some alt (alt ++ e) e) eq_refl), El.
    destruct (pass _ _); [destruct Hp|left; reflexivity].
Qed.

(** [cls_of] relates: every analysis is a record with a form part *)
Lemma analyses_sound L scheme dwsets w a : In a (analyses L scheme dwsets w) ->
  w = an_key a ++ an_part a ++ stpost (an_entry a) /\ has_record (words L) (an_key a) (an_entry a) /\ an_grams a <> [] /\
  exists st c, class_of L (oclass (an_entry a)) = Some (st, c) /\ cap_ok scheme dwsets c = true /\
    (forall gr, In gr (an_grams a) -> exists g f, gr = Gram 0 0 g f /\ form_part c (an_part a) g f) /\
    an_stem a = (match c_flex c with None => Steminfo (wdinfo st) 0 0 | Some _ => st end).
Proof.
  intros H. apply analyses_in in H as (l & r & st & c & -> & Ek & Hc & Ec & Ecap & H).
  apply candidates_sound in Hc as (Hin & -> & _). apply class_hits_sound in H as (Hne & Hg & Hst).
  split; [reflexivity|]. split; [exists l; split; assumption|]. split; [assumption|]. exists st, c. repeat split; assumption.
Qed.

Lemma analyses_complete L scheme dwsets w key e part st c g f :
  (forall l, lookup key (words L) = Some l -> max_descending l) -> w = key ++ part ++ stpost e ->
  has_record (words L) key e -> class_of L (oclass e) = Some (st, c) -> cap_ok scheme dwsets c = true ->
  form_part c part g f -> admits e part -> reachable e part ->
  exists a, In a (analyses L scheme dwsets w) /\ an_key a = key /\ an_entry a = e /\ an_part a = part /\
            In (Gram 0 0 g f) (an_grams a).
Proof.
  intros Hmax -> (l & Ek & Hin) Ec Ecap Hf Ha Hside.
  destruct (class_hits_complete c st part g f Hf) as (st' & gs & Hh & Hg).
  exists (Analysis key e part st' gs). cbn [an_key an_entry an_part an_grams]. repeat split; [|exact Hg].
  apply analyses_in. cbn [an_key an_entry an_part an_grams an_stem]. exists l, (part ++ stpost e), st, c.
  repeat split; try assumption. apply candidates_complete; try assumption; [apply Hmax, Ek|reflexivity].
Qed.

(** ** Capitalisation *)
Lemma rus_ok : casing_ok rus_casing.
Proof. apply PropCaseLemmas.tables_consistent. Qed.
