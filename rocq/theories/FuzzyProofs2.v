(** * FuzzyProofs2: building the forms of a guessed word.  PROOFS ONLY. *)
From Verif Require Import Base Serial SerialProofs TreeSpec FlatScanProofs CharTables CapScheme CapSpec CapProofs CapProofs2 CapProofs3 GramMap RusRuntime
  LevelSpec LevelProofs RusSpec RusProofs RusProofs2 RusProofs3 RusBuild RusBuildSpec RusBuildProofs RusBuildProofs2 RusBuildProofs3 Fuzzy FuzzySpec FuzzyProofs.
Local Open Scope N_scope.

(** ** Set on a string without terminator *)
Section Junk.
  Variable cs : casing.
  Hypothesis Hnul : is_delim cs 0.

  Lemma recap_length p : forall s, length (recap cs s p) = length p.
  Proof. induction p as [|c p IH]; intros s; cbn [recap length]; [reflexivity|rewrite IH; reflexivity]. Qed.
  Lemma recap_app p q : forall s, exists q', recap cs s (p ++ q) = recap cs s p ++ q' /\ length q' = length q.
  Proof.
    induction p as [|c p IH]; intros s; cbn [app recap].
    - exists (recap cs s q). split; [reflexivity|apply recap_length].
    - destruct (IH (N.land s (2 ^ 32 - 2))) as (q' & -> & Hl). exists q'. split; [reflexivity|exact Hl].
  Qed.

  Lemma nodelim_nonul p : nodelim cs p -> ~ In 0 p.
  Proof. unfold nodelim. rewrite Forall_forall. intros H Hin. specialize (H 0 Hin). rewrite Hnul in H. discriminate. Qed.

  Lemma set_loop_junk w : ~ In 0 w -> forall sch j1 d j2, nodelim cs j1 -> (ctype cs d =? 2) = true ->
    exists w' j1', length w' = length w /\ length j1' = length j1 /\
      set_loop cs (length (parts cs w)) (w ++ [0]) sch = Ok (w' ++ [0]) /\
      set_loop cs (length (parts cs w)) (w ++ j1 ++ d :: j2) sch = Ok (w' ++ j1' ++ d :: j2).
  Proof.
    pattern w. apply (parts_ind cs); clear w.
    - intros p Hp H0 sch j1 d j2 Hj Hd.
      destruct (recap_app p j1 (N.land sch 3)) as (j1' & Ej & Hlj). exists (recap cs (N.land sch 3) p), j1'.
      split; [apply recap_length|]. split; [exact Hlj|].
      rewrite parts_nodelim by assumption. cbn [length set_loop].
      assert (Hpj : nodelim cs (p ++ j1)) by (apply Forall_app; split; assumption).
      split.
      + destruct p as [|c p]; [reflexivity|]. cbn [app].
        replace (c =? 0) with false by (symmetry; apply N.eqb_neq; intros ->; apply H0; left; reflexivity).
        change (c :: p ++ [0]) with ((c :: p) ++ [0]). rewrite set_part_eq by auto. cbn [bind rd].
        rewrite Hnul. cbn [N.eqb]. change (Pos.eqb 2 2) with true. cbn [bind set_loop]. reflexivity.
      + rewrite app_assoc. destruct (p ++ j1) as [|c pj] eqn:Epj.
        * apply app_eq_nil in Epj. destruct Epj as [-> ->]. cbn [recap app] in *. destruct j1'; [|discriminate]. cbn [app].
          destruct (N.eqb_spec d 0) as [->|Hd0]; [reflexivity|]. cbn [set_part]. rewrite Hd. replace ((d =? 0) || true) with true by (rewrite orb_true_r; reflexivity).
          cbn [bind rd]. rewrite Hd. reflexivity.
        * cbn [app]. assert (Hc0 : c <> 0) by (intros ->; apply (nodelim_nonul _ Hpj); left; reflexivity).
          replace (c =? 0) with false by (symmetry; apply N.eqb_neq; exact Hc0).
          change (c :: pj ++ d :: j2) with ((c :: pj) ++ d :: j2). rewrite set_part_eq; [|assumption|apply nodelim_nonul; assumption|right; exact Hd].
          cbn [bind rd]. rewrite Hd. cbn [bind]. rewrite Ej, <- app_assoc. reflexivity.
    - intros p x w Hp Hx IH H0 sch j1 d j2 Hj Hd.
      destruct (IH (fun Hi => H0 (in_or_app p (x :: w) 0 (or_intror (or_intror Hi)))) (N.shiftr sch 2) j1 d j2 Hj Hd) as (w' & j1' & Hl & Hlj & E1 & E2).
      exists (recap cs (N.land sch 3) p ++ x :: w'), j1'. split; [rewrite !app_length, recap_length; cbn [length]; lia|]. split; [exact Hlj|].
      rewrite parts_app by assumption. cbn [length set_loop].
      assert (Hd0 : x <> 0) by (intros ->; apply H0, in_or_app; right; left; reflexivity).
      assert (Hp0 : ~ In 0 p) by (intros Hi; apply H0, in_or_app; left; assumption).
      assert (Hstep : forall tail out, set_loop cs (length (parts cs w)) (w ++ tail) (N.shiftr sch 2) = Ok out ->
        match (p ++ x :: w) ++ tail with
        | [] => Ub
        | c :: _ => if c =? 0 then Ok ((p ++ x :: w) ++ tail) else
            let! (done, rest) := set_part cs ((p ++ x :: w) ++ tail) (N.land sch 3) in
            let! (d0, rest') := rd rest in
            if ctype cs d0 =? 2 then let! out := set_loop cs (length (parts cs w)) rest' (N.shiftr sch 2) in Ok (done ++ d0 :: out)
            else let! out := set_loop cs (length (parts cs w)) rest (N.shiftr sch 2) in Ok (done ++ out)
        end = Ok ((recap cs (N.land sch 3) p ++ x :: out))).
      { intros tail out E. rewrite <- app_assoc. cbn [app].
        assert (Hne : exists c y, p ++ x :: w ++ tail = c :: y /\ c <> 0).
        { destruct p as [|c p]; cbn; do 2 eexists; (split; [reflexivity|]); [assumption|]. intros ->. apply Hp0. left; reflexivity. }
        destruct Hne as (c & y & Hxy & Hc). rewrite Hxy. replace (c =? 0) with false by (symmetry; apply N.eqb_neq; assumption).
        rewrite <- Hxy. rewrite set_part_eq; [|assumption|assumption|right; assumption].
        cbn [bind rd]. rewrite Hx. rewrite E. reflexivity. }
      split; (etransitivity; [apply Hstep; eassumption|rewrite <- app_assoc; reflexivity]).
  Qed.

  Lemma set_junk : casing_ok cs -> forall w j1 d j2 min, ~ In 0 w -> min <= 2 -> nodelim cs j1 -> (ctype cs d =? 2) = true ->
    exists j1', length j1' = length j1 /\ cap_set cs (w ++ j1 ++ d :: j2) (length w) min = Ok (respell cs min w ++ j1' ++ d :: j2).
  Proof.
    intros Hok w j1 d j2 min H0 Hm Hj Hd.
    destruct (set_loop_junk w H0 (set_scheme (length (parts cs w)) min) j1 d j2 Hj Hd) as (w' & j1' & Hl & Hlj & E1 & E2).
    exists j1'. split; [exact Hlj|]. pose proof (set_respell cs Hok w [] min H0 Hm) as Hs. unfold cap_set in *.
    rewrite firstn_app, firstn_all, Nat.sub_diag, app_nil_r in *. rewrite app_length in *.
    destruct (Nat.ltb_spec (length w + length [0]) (length w)); [lia|].
    destruct (Nat.ltb_spec (length w + length (j1 ++ d :: j2)) (length w)); [lia|].
    rewrite count_parts_length in *. rewrite E1 in Hs. injection Hs as Hs. apply app_inj_tail in Hs. destruct Hs as [<- _]. exact E2.
  Qed.

  (** nothing stops the loop: it runs out of the array *)
  Lemma set_part_off p : forall s, nodelim cs p -> set_part cs p s = Ub.
  Proof.
    induction p as [|c p IH]; intros s Hp; [reflexivity|]. inversion Hp as [|? ? Hc Hp']; subst. cbn [set_part].
    replace ((c =? 0) || (ctype cs c =? 2)) with false; [rewrite IH by assumption; reflexivity|].
    rewrite Hc. symmetry. rewrite orb_false_r. apply N.eqb_neq. intros ->. rewrite Hnul in Hc. discriminate.
  Qed.
  Lemma set_off w junk min : w <> [] -> nodelim cs w -> nodelim cs junk -> cap_set cs (w ++ junk) (length w) min = Ub.
  Proof.
    intros Hne Hw Hj. unfold cap_set. rewrite app_length. destruct (Nat.ltb_spec (length w + length junk) (length w)); [lia|].
    rewrite count_parts_length, firstn_app, firstn_all, Nat.sub_diag, app_nil_r, parts_nodelim by assumption. cbn [length set_loop].
    destruct w as [|c w]; [congruence|]. cbn [app].
    assert (c =? 0 = false) as -> by (apply N.eqb_neq; intros ->; apply (nodelim_nonul _ Hw); left; reflexivity).
    rewrite set_part_off; [reflexivity|]. change (c :: w ++ junk) with ((c :: w) ++ junk). apply Forall_app. split; assumption.
  Qed.
End Junk.

(** ** The working array keeps its stop *)
Lemma first_stop j : forall d, (ctype rus_casing d =? 2) = true -> exists j1 e j2, j ++ [d] = j1 ++ e :: j2 /\ nodelim rus_casing j1 /\ (ctype rus_casing e =? 2) = true.
Proof.
  induction j as [|c j IH]; intros d Hd.
  - exists [], d, []. split; [reflexivity|]. split; [constructor|exact Hd].
  - destruct (ctype rus_casing c =? 2) eqn:Ec.
    + exists [], c, (j ++ [d]). split; [reflexivity|]. split; [constructor|exact Ec].
    + destruct (IH d Hd) as (j1 & e & j2 & E & H1 & H2). exists (c :: j1), e, j2. cbn [app]. rewrite E. split; [reflexivity|].
      split; [constructor; assumption|exact H2].
Qed.

Lemma strncpy_eq s rest : ~ In 0 s -> strncpy (length s) (s ++ rest) = Ok s.
Proof.
  induction s as [|c s IH]; intros H0; [reflexivity|]. cbn [length strncpy app rd bind].
  destruct (N.eqb_spec c 0) as [->|]; [exfalso; apply H0; left; reflexivity|].
  rewrite IH; [reflexivity|]. intros Hi. apply H0. right. exact Hi.
Qed.

Lemma make_form_eq szform stem flex rest min : stopped szform -> (length stem + length flex <= 63)%nat -> ~ In 0 stem -> ~ In 0 flex -> min <= 2 ->
  exists szform', make_form szform stem (N.of_nat (length flex)) (flex ++ rest) min = Ok szform' /\ stopped szform' /\
    firstn (length stem + length flex) szform' = respell rus_casing min (stem ++ flex).
Proof.
  intros (pre & d & -> & Hl & Hd) Hlen H0 H1 Hm. unfold make_form. rewrite Nnat.Nat2N.id, strncpy_eq by assumption. cbn [bind]. cbv zeta.
  destruct (Nat.ltb_spec (length (pre ++ [d])) (length stem + length flex)) as [Hlt|_]; [rewrite app_length in Hlt; lia|].
  unfold overwrite. rewrite <- app_length. rewrite skipn_app, Hl.
  replace (length (stem ++ flex) - 63)%nat with 0%nat by (rewrite app_length; lia). rewrite skipn_O.
  assert (Hd' : (ctype rus_casing d =? 2) = true) by (rewrite Hd; reflexivity).
  destruct (first_stop (skipn (length (stem ++ flex)) pre) d Hd') as (j1 & e & j2 & Ej & Hj1 & He). rewrite Ej.
  assert (Hn : ~ In 0 (stem ++ flex)) by (intros Hi; apply in_app_or in Hi; tauto).
  destruct (set_junk rus_casing (ok_nul _ rus_ok) rus_ok (stem ++ flex) j1 e j2 min Hn Hm Hj1 He) as (j1' & Hlj & E). rewrite E.
  eexists. split; [reflexivity|]. split.
  - assert (Hlast : exists y, e :: j2 = y ++ [d]).
    { destruct (exists_last (l := e :: j2)) as (y & d' & Ey); [discriminate|]. rewrite Ey in Ej. rewrite app_assoc in Ej.
      apply app_inj_tail in Ej. destruct Ej as [_ <-]. exists y. exact Ey. }
    destruct Hlast as (y & Ey). rewrite Ey. exists (respell rus_casing min (stem ++ flex) ++ j1' ++ y), d.
    split; [rewrite <- !app_assoc; reflexivity|]. split; [|exact Hd].
    apply (f_equal (@length N)) in Ej. rewrite Ey in Ej. rewrite !app_length, skipn_length in Ej. rewrite !app_length, respell_length, Hlj.
    rewrite !app_length in *. cbn [length] in *. lia.
  - rewrite <- (respell_length rus_casing min (stem ++ flex)). rewrite firstn_app, firstn_all, Nat.sub_diag, firstn_O, app_nil_r. reflexivity.
Qed.

Lemma psp_min_cap_eq p : p < 64 -> psp_min_cap p = Ok (required_case p).
Proof.
  intros Hp. unfold psp_min_cap. rewrite <- required_eq. change 63 with (N.ones 6). rewrite N.land_ones, N.mod_small by exact Hp.
  assert (Hlt : (N.to_nat p < length rus_pspMinCapValue)%nat) by (change (length rus_pspMinCapValue) with 64%nat; lia).
  destruct (nth_error rus_pspMinCapValue (N.to_nat p)) as [m|] eqn:E.
  - rewrite (nth_error_nth _ _ 0 E). reflexivity.
  - apply nth_error_None in E. lia.
Qed.
Lemma required_le2 p : required_case p <= 2.
Proof. unfold required_case. cbv zeta. destruct (_ && _); [lia|]. destruct (_ =? _); lia. Qed.

(** ** The inflexions of a class *)
Definition flexes (l : list (N * bytes)) : bytes := flat_map (fun f => fst f :: N.of_nat (length (snd f)) :: snd f) l.
Definition flexes_ok (l : list (N * bytes)) : Prop := Forall (fun f => fst f < 256 /\ N.of_nat (length (snd f)) < 256 /\ ~ In 0 (snd f)) l.

Lemma skip_until_eq id l : by_form l -> forall rest, exists l2,
  skip_until (length l) id (flexes l ++ rest) = Ok (length l2, flexes l2 ++ rest) /\ by_form l2 /\ Forall (fun f => id <= fst f) l2 /\
  filter (fun f => fst f =? id) l2 = filter (fun f => fst f =? id) l /\ (exists l1, l = l1 ++ l2).
Proof.
  induction l as [|[i f] l IH]; intros Hb rest; [exists []; repeat split; try constructor; exists []; reflexivity|].
  cbn [length skip_until flexes flat_map fst snd app rd bind]. destruct Hb as [Hmin Hb]. cbn [fst] in Hmin. destruct (N.ltb_spec i id) as [Hlt|Hge].
  - fold (flexes l). rewrite <- app_assoc. rewrite advance_app by reflexivity. cbn [bind].
    destruct (IH Hb rest) as (l2 & -> & H1 & H2 & H3 & l1 & ->). exists l2. split; [reflexivity|]. split; [exact H1|]. split; [exact H2|]. split.
    + cbn [filter fst]. destruct (N.eqb_spec i id); [lia|exact H3].
    + exists ((i, f) :: l1). reflexivity.
  - exists ((i, f) :: l). split; [reflexivity|]. split; [split; assumption|]. split; [|split; [reflexivity|exists []; reflexivity]].
    constructor; [exact Hge|]. eapply Forall_impl; [|exact Hmin]. cbn. intros. lia.
Qed.

Lemma build_variants_eq id stem partSp : partSp < 64 -> ~ In 0 stem -> forall l szform done rest tail n,
  flexes_ok l -> by_form l -> Forall (fun f => id <= fst f) l ->
  Forall (fun f => fst f = id -> (length stem + length (snd f) <= 63)%nat) l -> stopped szform ->
  let fs := map (fun f => respell rus_casing (required_case partSp) (stem ++ snd f)) (filter (fun f => fst f =? id) l) in
  let r := build_variants (length l) id stem szform partSp (flexes l ++ tail) (Coder (done ++ rest) (length done)) n in
  (fit (length rest) fs -> r = Ok ((n + Z.of_nat (length fs))%Z, (done ++ joined fs) ++ after fs rest)) /\
  (~ fit (length rest) fs -> exists mem, r = Ok ((-1)%Z, mem) /\ length mem = length (done ++ rest)).
Proof.
  intros Hp Hst. induction l as [|[i f] l IH]; intros szform done rest tail n Hok Hb Hge Hlen Hstop.
  - cbn [filter map length build_variants]. cbn zeta. split; [|intros H; exfalso; apply H; left; reflexivity].
    intros _. cbn [joined flat_map after length cmem]. rewrite app_nil_r, Z.add_0_r. reflexivity.
  - inversion Hok as [|? ? (Hi & Hf & Hf0) Hok']; subst. inversion Hge as [|? ? Hgi Hge']; subst. inversion Hlen as [|? ? Hli Hlen']; subst.
    cbn [fst snd] in *. destruct Hb as [Hmin Hb]. cbn [fst] in Hmin.
    cbn [length build_variants flexes flat_map fst snd app rd bind]. fold (flexes l). cbn zeta. cbn [filter fst].
    destruct (N.eqb_spec i id) as [->|Hne].
    + specialize (Hli eq_refl). rewrite Nnat.Nat2N.id. destruct (Nat.ltb_spec 64 (length stem + length f)); [lia|].
      rewrite psp_min_cap_eq by assumption. cbn [bind].
      destruct (make_form_eq szform stem f (flexes l ++ tail) (required_case partSp) Hstop Hli Hst Hf0 (required_le2 _)) as (sz' & E & Hstop' & Efirst).
      rewrite <- app_assoc. rewrite E. cbn [bind]. rewrite advance_app by reflexivity. cbn [bind]. rewrite Efirst.
      cbn [map snd]. set (s := respell rus_casing (required_case partSp) (stem ++ f)). pose proof (put_eq done rest s) as Hput.
      set (fs := map (fun f0 : N * list N => respell rus_casing (required_case partSp) (stem ++ snd f0)) (filter (fun f0 => fst f0 =? id) l)).
      destruct (Nat.leb_spec (length s + 2) (length rest)) as [Hfits|Hfits].
      * rewrite Hput. cbn [bind].
        replace (0 :: skipn (length s + 2) rest) with (after [s] rest) by (cbn [after total fold_right]; do 2 f_equal; lia).
        specialize (IH sz' (done ++ s ++ [0]) (after [s] rest) tail (n + 1)%Z Hok' Hb Hge' Hlen' Hstop'). cbn zeta in IH. fold fs in IH. destruct IH as [IH1 IH2].
        split.
        -- intros Hfit. rewrite (fit_cons _ _ _ rest eq_refl) in Hfit. rewrite IH1 by apply Hfit. f_equal. f_equal.
           ++ cbn [length]. lia.
           ++ rewrite (after_app [s] fs rest : after (s :: fs) rest = _). rewrite (joined_app [s] fs : joined (s :: fs) = _). unfold joined at 2. cbn [flat_map app]. rewrite app_nil_r, <- !app_assoc. reflexivity.
        -- intros Hn. destruct IH2 as (mem & -> & Hl).
           { intros Hf'. apply Hn. rewrite (fit_cons _ _ _ rest eq_refl). split; assumption. }
           exists mem. split; [reflexivity|]. rewrite Hl, !app_length. cbn [length after total fold_right]. rewrite skipn_length. lia.
      * destruct Hput as (c & -> & Hl). cbn [bind]. split.
        -- intros Hfit. rewrite (fit_cons _ _ _ rest eq_refl) in Hfit. lia.
        -- intros _. exists (cmem c). split; [reflexivity|exact Hl].
    + assert (E : filter (fun f0 => fst f0 =? id) l = []).
      { clear - Hmin Hge' Hgi Hne. induction l as [|g l IH]; [reflexivity|]. inversion Hmin; subst. inversion Hge'; subst. cbn [filter].
        destruct (N.eqb_spec (fst g) id); [lia|]. apply IH; assumption. }
      rewrite E. cbn [map]. split; [|intros H; exfalso; apply H; left; reflexivity].
      intros _. cbn [joined flat_map after length cmem]. rewrite app_nil_r, Z.add_0_r. reflexivity.
Qed.

(** the first variant does not fit 64 characters *)
Lemma build_variants_long id stem partSp l szform c tail n f l' : l = (id, f) :: l' -> N.of_nat (length f) < 256 -> (64 < length stem + length f)%nat ->
  build_variants (length l) id stem szform partSp (flexes l ++ tail) c n = Ok ((-4)%Z, cmem c).
Proof.
  intros -> Hf Hlen. cbn [length build_variants flexes flat_map fst snd app rd bind]. rewrite N.eqb_refl, Nnat.Nat2N.id.
  destruct (Nat.ltb_spec 64 (length stem + length f)); [reflexivity|lia].
Qed.

(** ** Classes *)
Definition class_head (c : class_src) : bytes := [c_partsp c; if c_accent c then 1 else 0] ++ putserial (N.of_nat (length (c_inflex c))).
Definition class_models (c : class_src) : bytes :=
  putserial (N.of_nat (length (c_models c)))
  ++ flat_map (fun m => m_suffix m ++ putserial (m_weight m) ++ putserial (N.of_nat (length (m_sample m))) ++ m_sample m) (c_models c).

Lemma get_class F i c : has_class F i c -> exists rest,
  GetClass F i = Ok (Some ([c_partsp c; if c_accent c then 1 else 0] ++ putserial (N.of_nat (length (c_inflex c))) ++ flexes (c_inflex c) ++ class_models c ++ rest)).
Proof.
  intros (_ & pre & rest & E & Et). exists rest. unfold GetClass. rewrite E, Et, advance_app by reflexivity. cbn [bind].
  unfold class_bytes. fold (flexes (c_inflex c)). fold (class_models c). cbn [app]. rewrite <- !app_assoc. reflexivity.
Qed.

(** ** The word *)
Lemma fuzzy_canonic_given w psz cch : given w psz cch -> w <> [] -> fuzzy_canonic psz cch = cap_get rus_casing 256 w.
Proof.
  intros [w' after Hl|w' after H0] Hne; unfold fuzzy_canonic.
  - destruct (N.eqb_spec (N.of_nat (length w')) (2 ^ 64 - 1)); [lia|].
    rewrite app_length. destruct (N.ltb_spec (N.of_nat (length w' + length after)) (N.of_nat (length w'))); [lia|].
    rewrite Nnat.Nat2N.id, firstn_app, Nat.sub_diag, firstn_O, app_nil_r, firstn_all. cbn [bind]. destruct w'; [congruence|reflexivity].
  - rewrite N.eqb_refl, cstr_app by assumption. cbn [bind]. destruct w'; [congruence|reflexivity].
Qed.
Lemma fuzzy_canonic_empty psz cch : psz = None \/ given [] psz cch -> fuzzy_canonic psz cch = Ok (0, []).
Proof.
  intros [->|H]; [reflexivity|]. inversion H; subst; [|reflexivity].
  unfold fuzzy_canonic. cbn [app length N.of_nat]. destruct (N.eqb_spec 0 (2 ^ 64 - 1)); [lia|].
  destruct (N.ltb_spec (N.of_nat (length after)) 0); [lia|]. reflexivity.
Qed.
Lemma fuzzy_canonic_facts w : is_bytes w -> w <> [] -> (length w < 256)%nat -> (length (rparts w) <= 8)%nat ->
  exists v, cap_get rus_casing 256 w = Ok (v, rlow w ++ [0]) /\ N.shiftr v 16 = N.of_nat (length w) /\
    v <> 0 /\ v <> 2 ^ 32 - 1 /\
    (forall m, IsGoodSheme (N.land v 0xffff) m = true <-> suits w m) /\
    (N.land v 0xff = 0xff -> forall m, ~ suits w m).
Proof.
  intros Hb Hne Hlen Hp.
  destruct (cap_get_length rus_casing rus_dlm w 256 Hb Hlen ltac:(cbn; lia) Hp) as (v & E & Hv).
  assert (Hl : (0 < length w)%nat) by (destruct w; [congruence|cbn; lia]).
  assert (Hgood : forall m, IsGoodSheme (N.land v 0xffff) m = true <-> suits w m).
  { intros m. rewrite land_ffff. exact (good_exact rus_casing rus_dlm w 256 v _ m Hb Hlen ltac:(cbn; lia) ltac:(lia) E). }
  rewrite N.shiftr_div_pow2 in Hv.
  exists v. split; [exact E|]. split; [rewrite N.shiftr_div_pow2; exact Hv|].
  assert (65536 <= v < 256 * 65536) by (clear - Hv Hl Hlen; change (2 ^ 16) with 65536 in Hv; lia).
  split; [lia|]. split; [lia|]. split; [exact Hgood|].
  intros Hff m Hs. apply Hgood in Hs. apply good_small in Hs as (_ & Hs & _). apply Hs.
  rewrite land_ffff. rewrite land_ff in Hff. clear - Hff. lia.
Qed.

Lemma nonul_low w : is_bytes w -> ~ In 0 w -> ~ In 0 (rlow w).
Proof.
  intros Hb H0 Hi. apply in_map_iff in Hi. destruct Hi as (c & E & Hc). unfold is_bytes in Hb. rewrite Forall_forall in Hb. pose proof (Hb c Hc) as Hlt.
  assert (Hd : (ctype rus_casing c =? 2) = true).
  { rewrite <- lower_delim by exact Hlt. rewrite E. reflexivity. }
  apply N.eqb_eq in Hd. pose proof (proj1 (ok_delim _ rus_ok c Hlt Hd)) as El. apply H0. rewrite <- E, El. exact Hc.
Qed.


Lemma fuzzy_build_eq F lojunk junk mem w psz cch i c id : has_class F i c -> proper w -> given w psz cch -> mem <> [] ->
  fuzzy_build_form F lojunk junk (Some mem) psz cch i id =
    let! r := build_variants 0 0 [] [] 0 [] (Coder mem 0) 0%Z in
    let! (n, p) := (let! p := GetClass F i in match p with None => Ub | Some p =>
                      let! (_, p) := rd p in let! (_, p) := rd p in let! (n, p) := getserial p in skip_until (N.to_nat n) id p end) in
    let! (z, m) := build_variants n id (rlow w) junk (c_partsp c) p (Coder mem 0) 0%Z in Ok (z, Some m).
Proof.
  intros Hc (Hb & Hne & Hlen & Hp & H0) Hg Hm. unfold fuzzy_build_form. rewrite (fuzzy_canonic_given w psz cch Hg Hne).
  destruct (fuzzy_canonic_facts w Hb Hne Hlen Hp) as (v & -> & Hv & Hv0 & Hv1 & _). cbn [bind build_variants].
  destruct mem as [|m0 mem]; [congruence|]. pose proof Hc as (_ & pre & rest & E & _).
  assert (Hn : N.of_nat (length (class_offset F)) <=? i = false).
  { apply N.leb_gt. assert (nth_error (class_offset F) (N.to_nat i) <> None) by congruence. apply nth_error_Some in H. lia. }
  rewrite Hn. assert (Hpsz : (match psz with None => true | Some _ => false end) = false) by (inversion Hg; reflexivity). rewrite Hpsz, andb_false_r.
  destruct (N.eqb_spec v (2 ^ 32 - 1)); [contradiction|]. destruct (N.eqb_spec v 0); [contradiction|].
  rewrite Hv, Nnat.Nat2N.id. unfold overwrite. rewrite <- app_assoc. rewrite app_length, map_length.
  match goal with |- context [Nat.ltb (length w + ?k) (length w)] => destruct (Nat.ltb_spec (length w + k) (length w)); [lia|] end.
  replace (firstn (length w) (rlow w ++ [0] ++ skipn (length (rlow w ++ [0])) lojunk)) with (rlow w)
    by (rewrite <- (map_length (locase rus_casing) w) at 1; rewrite firstn_app, firstn_all, Nat.sub_diag, firstn_O, app_nil_r; reflexivity).
  unfold fuzzy_forms. destruct (get_class F i c Hc) as (rest' & ->). cbn [bind app rd].
  destruct (getserial _) as [[k p]|]; [|reflexivity]. cbn [bind]. destruct (skip_until (N.to_nat k) id p) as [[n2 p2]|]; [|reflexivity]. cbn [bind].
  destruct (build_variants n2 id (rlow w) junk (c_partsp c) p2 (Coder (m0 :: mem) 0) 0) as [[z mem']|]; reflexivity.
Qed.

Lemma fuzzy_build_exact F lojunk junk mem w psz cch i c id : has_class F i c -> by_form (c_inflex c) -> proper w -> given w psz cch -> mem <> [] -> stopped junk ->
  (forall f, In f (c_inflex c) -> fst f = id -> (length w + length (snd f) <= 63)%nat) ->
  delivered mem (variants c (rlow w) id) True (fuzzy_build_form F lojunk junk (Some mem) psz cch i id).
Proof.
  intros Hc Hby Hw Hg Hm Hs Hlen. rewrite (fuzzy_build_eq F lojunk junk mem w psz cch i c id Hc Hw Hg Hm). cbn [build_variants bind].
  destruct (get_class F i c Hc) as (rest & ->). cbn [bind app rd]. destruct Hc as (Hok & _).
  rewrite getserial_putserial by apply Hok. cbn [bind]. rewrite Nnat.Nat2N.id.
  destruct (skip_until_eq id (c_inflex c) Hby (class_models c ++ rest)) as (l2 & -> & Hby2 & Hge & Hfil & l1 & El). cbn [bind].
  assert (Hfx : flexes_ok l2) by (pose proof (co_flex _ Hok) as H; unfold flexes_ok; rewrite El in H; apply Forall_app in H; apply H).
  destruct Hw as (Hb & _ & _ & _ & H0).
  pose proof (build_variants_eq id (rlow w) (c_partsp c) (co_partsp _ Hok) (nonul_low w Hb H0) l2 junk [] mem (class_models c ++ rest) 0%Z Hfx Hby2 Hge) as H.
  cbn zeta in H. rewrite Hfil in H. fold (variants c (rlow w) id) in H. cbn [app length] in H.
  destruct H as [H1 H2].
  { rewrite Forall_forall. intros f Hf Ef. rewrite map_length. apply Hlen; [rewrite El; apply in_or_app; right; exact Hf|exact Ef]. }
  { exact Hs. }
  split.
  - intros [_ Hfit]. rewrite H1 by exact Hfit. cbn [bind]. reflexivity.
  - intros Hn. destruct H2 as (mem' & -> & Hl); [tauto|]. exists mem'. split; [exact Hl|reflexivity].
Qed.
