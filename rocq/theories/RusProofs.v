(** * RusProofs: the search is a walk over the list of analyses.  PROOFS. *)
From Verif Require Import Base Serial SerialProofs WordTree TreeSpec WordTreeProofs FlatScan FlatScanProofs LidsProofs TrackProofs
  TreeWalk Stems StemSpec StemsProofs CharTables CapScheme CapSpec GramMap RusRuntime LevelSpec LevelProofs RusSpec.
Local Open Scope N_scope.

(** ** General *)
Lemma until_flat_map {St X Y} (h : St -> Y -> res (St * Z)) (f : X -> list Y) l : forall s,
  until_nonzero h (flat_map f l) s = until_nonzero (fun s x => until_nonzero h (f x) s) l s.
Proof.
  induction l as [|x l IH]; intros s; cbn [flat_map until_nonzero]; [reflexivity|].
  rewrite until_app'. destruct (until_nonzero h (f x) s) as [[s' r]|]; cbn [bind]; [|reflexivity].
  destruct (Z.eqb r 0); [apply IH|reflexivity].
Qed.

Lemma until_ext {St X} (h h' : St -> X -> res (St * Z)) l :
  (forall s x, In x l -> h s x = h' s x) -> forall s, until_nonzero h l s = until_nonzero h' l s.
Proof.
  induction l as [|x l IH]; intros H s; cbn [until_nonzero]; [reflexivity|].
  rewrite H by (left; reflexivity). destruct (h' s x) as [[s' r]|]; cbn [bind]; [|reflexivity].
  destruct (Z.eqb r 0); [|reflexivity]. apply IH. intros; apply H; right; assumption.
Qed.

Lemma until_map {St X Y} (h : St -> Y -> res (St * Z)) (f : X -> Y) l : forall s,
  until_nonzero h (map f l) s = until_nonzero (fun s x => h s (f x)) l s.
Proof.
  induction l as [|x l IH]; intros s; cbn [map until_nonzero]; [reflexivity|].
  destruct (h s (f x)) as [[s' r]|]; cbn [bind]; [|reflexivity]. destruct (Z.eqb r 0); [apply IH|reflexivity].
Qed.

Lemma prefix_hits_split {X} key : forall t : wtree X, exists tl,
  prefix_hits t key = (match lookup key t with Some a => [(a, [])] | None => [] end) ++ tl /\
  Forall (fun ar => snd ar <> []) tl.
Proof.
  induction key as [|c key IH]; intros t.
  - exists []. rewrite prefix_hits_nil, app_nil_r. split; [reflexivity|constructor].
  - rewrite prefix_hits_cons. cbn [lookup]. destruct (assoc c (nested t)) as [t'|].
    + destruct (IH t') as (tl & -> & Htl). eexists. rewrite <- app_assoc. split; [reflexivity|].
      apply Forall_app. split; [exact Htl|]. destruct (p_data t); repeat constructor; discriminate.
    + eexists. split; [reflexivity|]. destruct (p_data t); repeat constructor; discriminate.
Qed.

Lemma prefix_hits_in {X} (t : wtree X) key a r :
  In (a, r) (prefix_hits t key) <-> exists k, key = k ++ r /\ lookup k t = Some a.
Proof.
  unfold prefix_hits. rewrite in_flat_map. split.
  - intros (n & Hn & H). destruct (lookup (firstn n key) t) as [a'|] eqn:E; [|destruct H].
    destruct H as [H|[]]. injection H as -> <-. exists (firstn n key). split; [symmetry; apply firstn_skipn|exact E].
  - intros (k & -> & E). exists (length k). split.
    + rewrite <- in_rev, in_seq, app_length. lia.
    + rewrite firstn_app, Nat.sub_diag, firstn_O, app_nil_r, firstn_all, E. left. f_equal.
      rewrite skipn_app, Nat.sub_diag, skipn_all. reflexivity.
Qed.

(** ** Inflexion trees *)
Definition mkgram (gf : N * N) : gram := Gram 0 0 (fst gf) (snd gf).

Lemma flex_sized l : descs_ok l -> sized flex_ser flex_len l.
Proof.
  intros [_ _]. unfold sized, flex_ser, flex_len. cbn [length].
  assert (length (flat_map (fun gf => putword16 (fst gf) ++ [snd gf]) l) = 3 * length l)%nat as ->; [|lia].
  induction l as [|gf l IH]; [reflexivity|]. cbn [flat_map]. rewrite app_length, IH. cbn [length]. cbn. lia.
Qed.

Definition pass (filter : N -> N -> bool) (l : list (N * N)) : list gram :=
  map mkgram (List.filter (fun gf => filter (fst gf) (snd gf)) l).

Lemma pass_length filter l : (length (pass filter l) <= length l)%nat.
Proof. unfold pass. rewrite map_length. induction l as [|x l IH]; cbn; [lia|]. destruct (filter _ _); cbn; lia. Qed.

Lemma gram_loop_eq filter room l : forall junk v,
  Forall (fun gf => fst gf < 2 ^ 16 /\ snd gf < 256) l -> (length v + length l <= room)%nat ->
  gram_loop filter room (length l) (flat_map (fun gf => putword16 (fst gf) ++ [snd gf]) l ++ junk) v = Ok (v ++ pass filter l).
Proof.
  induction l as [|[g f] l IH]; intros junk v Hl Hr; cbn [length gram_loop flat_map].
  - unfold pass. cbn. rewrite app_nil_r. reflexivity.
  - inversion Hl as [|? ? [Hg Hf] Hl']; subst. cbn [fst snd] in *. rewrite <- !app_assoc, getword16_put by assumption.
    cbn [bind app rd]. cbn [length] in Hr. unfold pass. cbn [List.filter fst snd].
    destruct (filter g f).
    + destruct (Nat.ltb_spec (length v) room) as [_|?]; [|lia].
      rewrite IH; [|assumption|rewrite app_length; cbn [length]; lia].
      rewrite <- app_assoc. reflexivity.
    + apply IH; [assumption|lia].
Qed.

Lemma scan_tables_eq ft filter infl tail rest : flex_ok ft -> (length infl < 64)%nat ->
  scan_tables (serialize C8 flex_ser flex_len ft ++ rest) filter (Frag (infl ++ tail) (N.of_nat (length infl))) =
  (let gs := pass filter (match lookup infl ft with Some l => l | None => [] end) in Ok (gs, Z.of_nat (length gs))).
Proof.
  intros (Hd & Hz & Ha) Hlen. unfold scan_tables.
  set (item := fun (s : list gram) (l : list (N * N)) (r : bytes) =>
    gram_list filter 64 s (flex_ser l) (Frag r (N.of_nat (length r)))).
  rewrite (scan_gen C8 flex_ser flex_len (gram_list filter 64) item tail infl 64 ft rest []).
  - destruct (prefix_hits_split infl ft) as (tl & -> & Htl). rewrite until_app'.
    assert (Htail : until_nonzero (fun s ar => item s (fst ar) (snd ar)) tl [] = Ok ([], 0%Z)).
    { induction tl as [|[a r] tl IH]; [reflexivity|]. inversion Htl; subst. cbn [until_nonzero fst snd]. cbn [snd] in *.
      unfold item at 1. unfold gram_list. cbn [flen]. destruct r as [|x r]; [congruence|].
      destruct (N.eqb_spec (N.of_nat (length (x :: r))) 0); [cbn [length] in *; lia|]. cbn [bind length Z.of_nat Z.eqb]. apply IH; assumption. }
    destruct (lookup infl ft) as [l|] eqn:E.
    + cbn [until_nonzero fst snd]. unfold item at 1. unfold gram_list. cbn [flen length N.of_nat N.eqb].
      unfold flex_ser. cbn [rd bind]. rewrite Nnat.Nat2N.id.
      destruct (all_data_lookup _ _ _ _ Ha E) as [Hc Hl].
      pose proof (gram_loop_eq filter 64 l [] [] Hl) as G. rewrite app_nil_r in G. rewrite G by (cbn; lia). cbn [bind app].
      destruct (Z.eqb_spec (Z.of_nat (length (pass filter l))) 0) as [E0|E0]; cbn [bind].
      * destruct (pass filter l); [|cbn [length] in E0; lia]. cbn [Z.eqb]. exact Htail.
      * destruct (Z.eqb_spec (Z.of_nat (length (pass filter l))) 0); [contradiction|reflexivity].
    + cbn [until_nonzero bind Z.eqb]. exact Htail.
  - exact Hd.
  - exact Hz.
  - eapply all_data_impl; [|exact Ha]. apply flex_sized.
  - exact Hlen.
  - unfold size_max1. lia.
  - intros k l r _ Hl s junk. unfold item, gram_list. cbn [flen].
    destruct (N.eqb_spec (N.of_nat (length r)) 0); [|reflexivity].
    unfold flex_ser. cbn [rd bind app]. rewrite Nnat.Nat2N.id.
    destruct (all_data_lookup _ _ _ _ Ha Hl) as [Hc Hl']. f_equal.
    clear - Hl'. revert s junk. induction l as [|[g f] l IH]; intros s junk; [reflexivity|].
    inversion Hl' as [|? ? [Hg Hf] Hl]; subst. cbn [fst snd] in *.
    cbn [length gram_loop flat_map fst snd]. rewrite <- !app_assoc, !getword16_put by assumption. cbn [bind app rd].
    destruct (filter g f); [|apply IH; assumption]. destruct (Nat.ltb _ _); [|reflexivity]. apply IH; assumption.
Qed.

(** ** Alternations *)
Fixpoint strip_prefix (alt infl : bytes) : option bytes :=
  match alt, infl with
  | [], r => Some r
  | a :: alt', c :: infl' => if a =? c then strip_prefix alt' infl' else None
  | _ :: _, [] => None
  end.
Lemma strip_prefix_some alt : forall infl r, strip_prefix alt infl = Some r <-> infl = alt ++ r.
Proof.
  induction alt as [|a alt IH]; intros infl r; cbn [strip_prefix app].
  - split; congruence.
  - destruct infl as [|c infl]; [split; discriminate|]. destruct (N.eqb_spec a c) as [->|Hne].
    + rewrite IH. split; [intros ->; reflexivity|congruence].
    + split; [discriminate|]. intros H. congruence.
Qed.

(** the comparison the search makes *)
Fixpoint pcmp (alt infl : bytes) : comparison :=
  match alt, infl with
  | [], _ => Eq
  | _ :: _, [] => Gt
  | a :: alt', c :: infl' => if a =? c then pcmp alt' infl' else if a <? c then Lt else Gt
  end.
Lemma pcmp_eq alt : forall infl, pcmp alt infl = Eq <-> exists r, strip_prefix alt infl = Some r.
Proof.
  induction alt as [|a alt IH]; intros infl; cbn [pcmp strip_prefix]; [split; eauto|].
  destruct infl as [|c infl]; [split; [discriminate|intros (r & Hr); discriminate]|].
  destruct (a =? c); [apply IH|]. destruct (a <? c); split; try discriminate; intros (r & Hr); discriminate.
Qed.
Lemma pcmp_gt alt : forall infl, pcmp alt infl = Gt -> lex_lt infl alt.
Proof.
  induction alt as [|a alt IH]; intros infl; cbn [pcmp]; [discriminate|].
  destruct infl as [|c infl]; [intros _; constructor|]. destruct (N.eqb_spec a c) as [->|Hne].
  - intros H. apply lex_tail, IH, H.
  - destruct (N.ltb_spec a c); [discriminate|]. intros _. apply lex_head. lia.
Qed.
Lemma lex_lt_irrefl a : ~ lex_lt a a.
Proof. induction a as [|x a IH]; intros H; inversion H; subst; [lia|auto]. Qed.
Lemma lex_lt_trans a b c : lex_lt a b -> lex_lt b c -> lex_lt a c.
Proof.
  intros H. revert c. induction H as [y b|x a y b Hxy|x a b H IH]; intros c Hc; inversion Hc; subst.
  - constructor.
  - constructor.
  - apply lex_head. lia.
  - apply lex_head. assumption.
  - apply lex_head. assumption.
  - apply lex_tail, IH. assumption.
Qed.
Lemma prefix_le alt r : lex_lt alt (alt ++ r) \/ alt = alt ++ r.
Proof.
  induction alt as [|a alt IH]; [destruct r; [right; reflexivity|left; constructor]|].
  destruct IH as [IH|IH]; [left; apply lex_tail, IH|right; cbn; congruence].
Qed.
Lemma gt_no_prefix alt alt' infl : pcmp alt infl = Gt -> lex_lt alt alt' \/ alt = alt' -> strip_prefix alt' infl = None.
Proof.
  intros Hgt Hle. destruct (strip_prefix alt' infl) as [r|] eqn:E; [|reflexivity]. exfalso.
  apply strip_prefix_some in E. subst infl. apply pcmp_gt in Hgt.
  assert (lex_lt (alt' ++ r) alt') by (destruct Hle as [Hle| <-]; [eapply lex_lt_trans; eassumption|assumption]).
  destruct (prefix_le alt' r) as [Hp|Hp].
  - eapply lex_lt_irrefl, lex_lt_trans; eassumption.
  - rewrite <- Hp in H. eapply lex_lt_irrefl; eassumption.
Qed.

Lemma mix_compare_eq alt x y : forall infl,
  let n := Nat.min (length alt) (length infl) in
  exists c fl, mix_compare n (alt ++ x) (infl ++ y) = Ok (c, fl) /\
    pcmp alt infl = (match c with Eq => if Nat.ltb 0 (length alt - n) then Gt else Eq | c => c end) /\
    (pcmp alt infl = Eq -> exists r, infl = alt ++ r /\ fl = r ++ y).
Proof.
  induction alt as [|a alt IH]; intros infl; cbn [length Nat.min mix_compare app pcmp].
  - exists Eq, (infl ++ y). cbn. repeat split; eauto.
  - destruct infl as [|c infl]; cbn [length Nat.min mix_compare app rd bind].
    + exists Eq, y. cbn. repeat split. discriminate.
    + destruct (N.eqb_spec a c) as [->|Hne].
      * destruct (IH infl) as (k & fl & E & P & F). cbn [Nat.sub] in *. exists k, fl. split; [exact E|]. split; [exact P|].
        intros H. destruct (F H) as (r & -> & ->). exists r. split; reflexivity.
      * exists (if a <? c then Lt else Gt), (infl ++ y). split; [reflexivity|].
        destruct (a <? c); split; try reflexivity; discriminate.
Qed.

(** ** Classes *)
Lemma advance_pre (a b c : bytes) n : a = b ++ c -> N.of_nat (length b) = n -> advance n a = Ok c.
Proof. intros -> H. apply advance_app. lia. Qed.

Lemma load_class A off st c : class_at A off st -> class_repr A st c -> off < 2 ^ 15 -> steminfo_at A off = Ok st.
Proof.
  intros (Hw & Ht & Hm & pre & rest & E & Hlen) (_ & Htf & Hmt & _) Hoff. unfold steminfo_at.
  destruct (N.eqb_spec off 0xffff); [lia|]. rewrite (advance_pre _ _ _ _ E Hlen). cbn [bind].
  unfold class_ser. unfold load. rewrite <- !app_assoc, getword16_put by assumption. cbn [bind].
  destruct st as [wd tf mt]. cbn [wdinfo tfoffs mtoffs] in *.
  destruct (bit 13 wd || (N.land wd 63 =? 51)).
  - rewrite <- ?app_assoc, getword16_put by assumption. cbn [bind]. destruct (bit 14 wd).
    + rewrite getword16_put by assumption. reflexivity.
    + cbn [bind]. rewrite (Hm eq_refl). reflexivity.
  - cbn [bind app]. rewrite (Ht eq_refl). destruct (bit 14 wd).
    + rewrite getword16_put by assumption. reflexivity.
    + cbn [bind]. rewrite (Hm eq_refl). reflexivity.
Qed.

(** what a class offers for changing part [infl]: the class as handed on, and the descriptions *)
Definition number_okb (c : aclass) (g : N) : bool := any_or_multiple (c_word c) g.
Definition class_hits (c : aclass) (st : steminfo) (infl : bytes) : list (steminfo * list gram) :=
  match c_flex c with
  | None => match infl with [] => [(Steminfo (wdinfo st) 0 0, [Gram 0 0 (c_case c) 0])] | _ => [] end
  | Some ft =>
      match c_mix c with
      | None =>
          match pass (fun g _ => number_okb c g) (match lookup infl ft with Some l => l | None => [] end) with
          | [] => []
          | gs => [(st, gs)]
          end
      | Some mx =>
          flat_map (fun ma =>
            match strip_prefix (snd ma) infl with
            | None => []
            | Some r =>
                match pass (fun g f => altlevel (c_word c) (fst ma) g f && number_okb c g)
                           (match lookup r ft with Some l => l | None => [] end) with
                | [] => []
                | gs => [(st, gs)]
                end
            end) mx
      end
  end.

Definition cap_ok (scheme dwsets : N) (c : aclass) : bool := bit 1 dwsets || IsGoodSheme scheme (min_case c).

Section MatchProofs.
  Context {St : Type} (A : arrays) (target : St -> N -> steminfo -> frag -> frag -> list gram -> res (St * Z)).

  Lemma firstn_all' {X} (l : list X) : firstn (Z.to_nat (Z.of_nat (length l))) l = l.
  Proof. rewrite Nat2Z.id. apply firstn_all. Qed.

  Lemma land_hi a b : a < 16 -> b < 16 -> N.land (a * 16 + b) 0x0f = b /\ N.shiftr (a * 16 + b) 4 = a.
  Proof.
    intros Ha Hb. change 0x0f with (N.ones 4). rewrite N.land_ones, N.shiftr_div_pow2. change (2 ^ 4) with 16. split.
    - rewrite N.add_comm, N.mod_add by discriminate. apply N.mod_small, Hb.
    - rewrite N.div_add_l by discriminate. rewrite N.div_small by assumption. lia.
  Qed.

  Lemma mix_loop_eq lid lextem ft rest1 infl tail suffix :
    flex_ok ft -> (length infl < 64)%nat -> forall mx rest s,
    Forall (fun ma => fst ma < 16 /\ (length (snd ma) < 16)%nat) mx -> ascending (map snd mx) ->
    mix_loop target lid lextem (serialize C8 flex_ser flex_len ft ++ rest1) (Frag (infl ++ tail) (N.of_nat (length infl))) suffix
             (length mx) (flat_map (fun ma => fst ma * 16 + N.of_nat (length (snd ma)) :: snd ma) mx ++ rest) s =
    until_nonzero (fun s sg => target s lid (fst sg) (Frag (infl ++ tail) (N.of_nat (length infl))) suffix (snd sg))
      (flat_map (fun ma =>
            match strip_prefix (snd ma) infl with
            | None => []
            | Some r =>
                match pass (fun g f => altlevel (wdinfo lextem) (fst ma) g f && any_or_multiple (wdinfo lextem) g)
                           (match lookup r ft with Some l => l | None => [] end) with
                | [] => []
                | gs => [(lextem, gs)]
                end
            end) mx) s.
  Proof.
    intros Hft Hlen mx. induction mx as [|[mask alt] mx IH]; intros rest s Hall Hasc; cbn [length mix_loop flat_map]; [reflexivity|].
    inversion Hall as [|? ? [Hmask Halt] Hall']; subst. cbn [fst snd] in *. cbn [map ascending snd] in Hasc. destruct Hasc as [Hge Hasc].
    cbn [app rd bind]. destruct (land_hi mask (N.of_nat (length alt)) Hmask ltac:(lia)) as [-> ->].
    rewrite <- app_assoc.
    rewrite (advance_app alt _ (N.of_nat (length alt)) eq_refl). cbn [bind flen fstr].
    set (tl := flat_map (fun ma => fst ma * 16 + N.of_nat (length (snd ma)) :: snd ma) mx ++ rest) in *.
    replace (if N.of_nat (length alt) <? N.of_nat (length infl) then N.of_nat (length alt) else N.of_nat (length infl))
      with (N.of_nat (Nat.min (length alt) (length infl))) by (destruct (N.ltb_spec (N.of_nat (length alt)) (N.of_nat (length infl))); lia).
    rewrite Nnat.Nat2N.id. destruct (mix_compare_eq alt tl tail infl) as (k & fl & -> & P & F). cbn [bind].
    replace (match k with Eq => if 0 <? N.of_nat (length alt) - N.of_nat (Nat.min (length alt) (length infl)) then Gt else Eq | c => c end)
      with (pcmp alt infl).
    2:{ rewrite P. destruct k; try reflexivity.
        destruct (Nat.ltb_spec 0 (length alt - Nat.min (length alt) (length infl)));
        destruct (N.ltb_spec 0 (N.of_nat (length alt) - N.of_nat (Nat.min (length alt) (length infl)))); try reflexivity; lia. }
    rewrite until_app'.
    destruct (pcmp alt infl) eqn:Ep.
    - destruct (F eq_refl) as (r & Er & Efl).
      assert (strip_prefix alt infl = Some r) as -> by (apply strip_prefix_some; assumption).
      assert (Hn : N.of_nat (length infl) - N.of_nat (Nat.min (length alt) (length infl)) = N.of_nat (length r)).
      { rewrite Er, app_length. lia. }
      rewrite Hn, Efl.
      rewrite scan_tables_eq by (try assumption; rewrite Er, app_length in Hlen; lia). cbn [bind]. rewrite firstn_all'.
      destruct (pass _ _) as [|g0 gs].
      + cbn [length Z.of_nat Z.eqb until_nonzero bind]. apply IH; assumption.
      + destruct (Z.eqb_spec (Z.of_nat (length (g0 :: gs))) 0) as [E0|_]; [cbn [length] in E0; lia|].
        cbn [until_nonzero fst snd]. destruct (target s lid lextem _ suffix (g0 :: gs)) as [[s' z]|]; cbn [bind]; [|reflexivity].
        destruct (Z.eqb_spec z 0) as [->|Hz].
        * cbn [bind Z.eqb]. apply IH; assumption.
        * cbn [bind]. destruct (Z.eqb_spec z 0); [contradiction|reflexivity].
    - assert (strip_prefix alt infl = None) as ->.
      { destruct (strip_prefix alt infl) eqn:E; [|reflexivity]. assert (pcmp alt infl = Eq) by (apply pcmp_eq; eauto). congruence. }
      cbn [until_nonzero bind Z.eqb]. apply IH; assumption.
    - assert (strip_prefix alt infl = None) as ->.
      { destruct (strip_prefix alt infl) eqn:E; [|reflexivity]. assert (pcmp alt infl = Eq) by (apply pcmp_eq; eauto). congruence. }
      cbn [until_nonzero bind Z.eqb].
      replace (flat_map _ mx) with (@nil (steminfo * list gram)); [reflexivity|].
      symmetry. clear - Hge Ep. induction mx as [|[m' a'] mx IH]; [reflexivity|]. cbn [flat_map snd].
      cbn [map snd] in Hge. inversion Hge; subst.
      rewrite (gt_no_prefix alt a' infl Ep) by assumption. cbn [app]. apply IH. assumption.
  Qed.

  Lemma class_min A' st c : class_repr A' st c -> MinCapScheme st = min_case c.
  Proof. intros (E & _). unfold MinCapScheme, min_case. rewrite E. apply required_eq. Qed.

  Lemma flex_table st c ft : class_repr A st c -> c_flex c = Some ft -> exists rest,
    GetFlexTable A st = Ok (Some (serialize C8 flex_ser flex_len ft ++ rest)) /\ flex_ok ft.
  Proof.
    intros (Hw & Htf & Hmt & Hf & Hm) E. rewrite E in Hf.
    destruct Hf as (Hnz & H51 & Hok & pre & rest & Ef & Hlen). exists rest. split; [|exact Hok].
    unfold GetFlexTable. rewrite Hw.
    destruct (N.eqb_spec (tfoffs st) 0); [contradiction|]. destruct (N.eqb_spec (N.land (c_word c) 0x3f) 51); [contradiction|].
    cbn [negb andb]. rewrite (advance_pre _ pre _ (N.shiftl (tfoffs st) 4) Ef); [reflexivity|].
    rewrite N.shiftl_mul_pow2. change (2 ^ 4) with 16. lia.
  Qed.

  Lemma no_flex_table st c : class_repr A st c -> c_flex c = None -> GetFlexTable A st = Ok None /\ tfoffs st = c_case c.
  Proof.
    intros (Hw & Htf & Hmt & Hf & Hm) E. rewrite E in Hf. destruct Hf as [Hf Hc]. split; [|congruence].
    unfold GetFlexTable. rewrite Hw. destruct Hf as [-> | ->].
    - reflexivity.
    - rewrite andb_false_r. reflexivity.
  Qed.

  Lemma swap_table st c : class_repr A st c ->
    match c_mix c with
    | None => GetSwapTable A st = Ok None
    | Some mx => mix_ok mx /\ exists rest, GetSwapTable A st = Ok (Some (mix_ser mx ++ rest))
    end.
  Proof.
    intros (Hw & Htf & Hmt & Hf & Hm). unfold GetSwapTable. destruct (c_mix c) as [mx|].
    - destruct Hm as (Hnz & Hok & pre & rest & Em & Hlen). split; [exact Hok|]. exists rest.
      destruct (N.eqb_spec (mtoffs st) 0); [contradiction|]. cbn [negb]. rewrite (advance_pre _ _ _ _ Em Hlen). reflexivity.
    - rewrite Hm. reflexivity.
  Qed.

  Lemma match_class_eq scheme dwsets st c off lid infl tail suffix s :
    class_at A off st -> class_repr A st c -> off < 2 ^ 15 -> (length infl < 64)%nat ->
    match_class A target scheme dwsets s lid off (Frag (infl ++ tail) (N.of_nat (length infl))) suffix =
    until_nonzero (fun s sg => target s lid (fst sg) (Frag (infl ++ tail) (N.of_nat (length infl))) suffix (snd sg))
      (if cap_ok scheme dwsets c then class_hits c st infl else []) s.
  Proof.
    intros Hat Hrep Hoff Hlen. unfold match_class. rewrite (load_class A off st c Hat Hrep Hoff). cbn [bind].
    rewrite (class_min A st c Hrep). unfold cap_ok.
    destruct (bit 1 dwsets || IsGoodSheme scheme (min_case c)) eqn:Ecap.
    2:{ apply orb_false_iff in Ecap as [-> ->]. reflexivity. }
    replace (negb (bit 1 dwsets) && negb (IsGoodSheme scheme (min_case c))) with false
      by (rewrite <- negb_orb, Ecap; reflexivity).
    unfold class_hits. destruct (c_flex c) as [ft|] eqn:Ef.
    - destruct (flex_table st c ft Hrep Ef) as (rest & -> & Hok). cbn [bind].
      assert (Hw : wdinfo st = c_word c) by apply Hrep.
      pose proof (swap_table st c Hrep) as Hsw. destruct (c_mix c) as [mx|].
      + destruct Hsw as ((Hcnt & Hall & Hasc) & rest' & ->). cbn [bind]. unfold mix_ser. cbn [app rd bind].
        rewrite Nnat.Nat2N.id. rewrite mix_loop_eq by assumption. rewrite Hw. reflexivity.
      + rewrite Hsw. cbn [bind]. rewrite scan_tables_eq by assumption. cbn [bind]. rewrite firstn_all'.
        rewrite Hw. unfold number_okb.
        destruct (pass _ _) as [|g0 gs]; [reflexivity|].
        destruct (Z.eqb_spec (Z.of_nat (length (g0 :: gs))) 0) as [E0|_]; [cbn [length] in E0; lia|].
        cbn [until_nonzero fst snd]. destruct (target _ _ _ _ _ _) as [[s' z]|]; cbn [bind]; [|reflexivity].
        destruct (Z.eqb_spec z 0) as [->|]; reflexivity.
    - destruct (no_flex_table st c Hrep Ef) as (-> & ->). cbn [bind flen].
      destruct infl as [|x infl].
      + cbn [length N.of_nat N.eqb until_nonzero fst snd].
        destruct (target _ _ _ _ _ _) as [[s' z]|]; cbn [bind]; [|reflexivity].
        destruct (Z.eqb_spec z 0) as [->|]; reflexivity.
      + destruct (N.eqb_spec (N.of_nat (length (x :: infl))) 0); [cbn [length] in *; lia|]. reflexivity.
  Qed.
End MatchProofs.
