(** * StripProofs2: the stem of a headword.  PROOFS. *)
From Coq Require Import String.
From Verif Require Import Base Serial SerialProofs WordTree TreeSpec Stems StemSpec GramMap RusRuntime LevelSpec LevelProofs RusSpec RusProofs Compile CompileSpec CompileProofs CompileProofs2
  Resolve ResolveSpec ResolveProofs ResolveProofs2 Api Utf8 RusText StripSpec StripProofs.
Local Open Scope N_scope.
Local Open Scope list_scope.
Notation length := List.length.

(** ** Alternations *)
Lemma default_first mtable off mx count tail : mix_at mtable off mx -> default_str mtable off = Ok (count, tail) ->
  exists before mask alt behind rest, mx = before ++ (mask, alt) :: behind /\ Forall (fun ma => N.testbit (fst ma) 0 = false) before /\
    count = mask * 16 + N.of_nat (length alt) /\ tail = alt ++ rest /\ N.testbit mask 0 = true /\ (length alt < 16)%nat.
Proof.
  intros ((Hn & Hf & _) & pre & rest & E & Ep). unfold default_str. rewrite (advance_pre mtable pre (mix_ser mx ++ rest) off E Ep). cbn [bind].
  unfold mix_ser. cbn [app rd bind]. destruct (N.of_nat (length mx) <? 128); [|discriminate]. rewrite Nnat.Nat2N.id. clear E Ep Hn.
  induction Hf as [|[a s] mx [Ha Hs] Hf IH]; [discriminate|]. cbn [fst snd length flat_map] in *. rewrite <- app_assoc. cbn [app default_loop rd bind].
  assert (Eb : N.land (a * 16 + N.of_nat (length s)) 16 = if N.testbit a 0 then 16 else 0).
  { change 16 with (2 ^ 4) at 2. apply N.bits_inj. intros i. rewrite N.land_spec, N.pow2_bits_eqb. destruct (N.eqb_spec 4 i) as [<-|Hne].
    - rewrite andb_true_r. rewrite !N.testbit_eqb. change (2 ^ 4) with 16. change (2 ^ 0) with 1. rewrite N.div_1_r, (N.add_comm (a * 16)), N.div_add by discriminate. rewrite (N.div_small (N.of_nat (length s))) by lia.
      rewrite N.add_0_l. destruct (a mod 2 =? 1); reflexivity.
    - rewrite andb_false_r. destruct (N.testbit a 0); [|rewrite N.bits_0; reflexivity]. change 16 with (2 ^ 4). rewrite N.pow2_bits_false by congruence. reflexivity. }
  rewrite Eb. destruct (N.testbit a 0) eqn:Et; cbn [N.eqb negb].
  - change (16 =? 0) with false. cbn [negb]. intros K. injection K as <- <-. exists [], a, s, mx. eexists. split; [reflexivity|]. split; [constructor|]. split; [reflexivity|]. split; [reflexivity|]. split; [exact Et|exact Hs].
  - rewrite low_half by lia. rewrite advance_app by reflexivity. cbn [bind]. intros K. destruct (IH K) as (before & mask & alt & behind & r & K1 & K2 & K3). exists ((a, s) :: before), mask, alt, behind, r.
    split; [rewrite K1; reflexivity|]. split; [constructor; [exact Et|exact K2]|exact K3].
Qed.
Lemma first_unique mtable o alt alt' : first_string mtable o alt -> first_string mtable o alt' -> alt = alt'.
Proof.
  intros (b & m & h & T & Hb & Hf) (b' & m' & h' & T' & Hb' & Hf'). pose proof (mix_unique _ _ _ _ T T') as E. clear T T'.
  revert b' Hf' E. induction Hf as [|[x y] b Hx Hf IH]; intros [|[x' y'] b'] Hf' E; cbn [app] in E.
  - congruence.
  - injection E as -> -> _. apply Forall_inv in Hf'. cbn [fst] in *. congruence.
  - injection E as -> -> _. cbn [fst] in *. congruence.
  - injection E as <- <- E. apply (IH b' (Forall_inv_tail Hf') E).
Qed.

Lemma strcmp_eq a b : strcmp a b = Eq <-> a = b.
Proof.
  revert b. induction a as [|x a IH]; intros [|y b]; cbn [strcmp]; try (split; congruence).
  destruct (N.ltb_spec x y); [split; [discriminate|intros [= -> ->]; lia]|]. destruct (N.ltb_spec y x); [split; [discriminate|intros [= -> ->]; lia]|].
  rewrite IH. split; [intros ->; f_equal; lia|congruence].
Qed.
Lemma map_mix_in l cond id : map_mix_type l cond = Some id -> In (cond, id) l.
Proof.
  induction l as [|[s i] l IH]; cbn [map_mix_type]; [discriminate|]. destruct (strcmp cond s) eqn:E; [|discriminate|intros H; right; apply IH, H].
  intros [= <-]. apply strcmp_eq in E. subst. left. reflexivity.
Qed.

Lemma nth_behind (s : bytes) n k : (n <= length s)%nat -> nth (n + k) s 0 = nth k (skipn n s) 0.
Proof. intros H. rewrite <- (firstn_skipn n s) at 1. rewrite app_nth2; rewrite firstn_length; [f_equal; lia|lia]. Qed.
Lemma back_two s c : (2 <= length s)%nat -> nth (length s - 2) s 0 = c -> exists a d, s = a ++ [c; d].
Proof.
  intros Hl Hc. pose proof (firstn_skipn (length s - 2) s) as E. assert (L : length (skipn (length s - 2) s) = 2%nat) by (rewrite skipn_length; lia).
  pose proof (nth_behind s (length s - 2) 0 ltac:(lia)) as K. rewrite Nat.add_0_r, Hc in K. set (f := firstn (length s - 2) s) in *. clearbody f.
  destruct (skipn (length s - 2) s) as [|x [|y [|? ?]]]; try discriminate L. cbn [nth] in K. subst x. exists f, y. symmetry. exact E.
Qed.
Lemma back_three s c d : (3 <= length s)%nat -> nth (length s - 3) s 0 = c -> nth (length s - 2) s 0 = d -> exists a e, s = a ++ [c; d; e].
Proof.
  intros Hl Hc Hd. pose proof (firstn_skipn (length s - 3) s) as E. assert (L : length (skipn (length s - 3) s) = 3%nat) by (rewrite skipn_length; lia).
  pose proof (nth_behind s (length s - 3) 0 ltac:(lia)) as K0. rewrite Nat.add_0_r, Hc in K0. pose proof (nth_behind s (length s - 3) 1 ltac:(lia)) as K1.
  replace (length s - 3 + 1)%nat with (length s - 2)%nat in K1 by lia. rewrite Hd in K1. set (f := firstn (length s - 3) s) in *. clearbody f.
  destruct (skipn (length s - 3) s) as [|x [|y [|z [|? ?]]]]; try discriminate L. cbn [nth] in K0, K1. subst x y. exists f, z. symmetry. exact E.
Qed.
Lemma tail_two a (c d : N) : (2 <= length (a ++ [c; d]))%nat /\ nth (length (a ++ [c; d]) - 2) (a ++ [c; d]) 0 = c.
Proof. rewrite app_length. cbn [length]. split; [lia|]. replace (length a + 2 - 2)%nat with (length a) by lia. rewrite app_nth2, Nat.sub_diag by lia. reflexivity. Qed.
Lemma tail_three a (c d e : N) : (3 <= length (a ++ [c; d; e]))%nat /\ nth (length (a ++ [c; d; e]) - 3) (a ++ [c; d; e]) 0 = c /\ nth (length (a ++ [c; d; e]) - 2) (a ++ [c; d; e]) 0 = d.
Proof.
  rewrite app_length. cbn [length]. split; [lia|]. replace (length a + 3 - 3)%nat with (length a) by lia. replace (length a + 3 - 2)%nat with (length a + 1)%nat by lia.
  split; rewrite app_nth2 by lia; [rewrite Nat.sub_diag|replace (length a + 1 - length a)%nat with 1%nat by lia]; reflexivity.
Qed.

Lemma one_of_in c l : one_of c l = true <-> In c l.
Proof. unfold one_of. rewrite existsb_exists. split; [intros (x & H & E); apply N.eqb_eq in E; subst; exact H|intros H; exists c; split; [exact H|apply N.eqb_refl]]. Qed.

Lemma penult_iff s l letters : ~ In 0 s -> incl (cyr letters) l -> incl l (0 :: cyr letters) ->
  (2 <=? length s)%nat && one_of (nth (length s - 2) s 0) l = true <-> penult s letters.
Proof.
  intros Hz H1 H2. rewrite andb_true_iff, Nat.leb_le, one_of_in. split.
  - intros [Hl Hc]. destruct (back_two s _ Hl eq_refl) as (a & d & E). exists a, (nth (length s - 2) s 0), d. split; [exact E|]. destruct (H2 _ Hc) as [K|K]; [|exact K].
    exfalso. apply Hz. rewrite E. apply in_or_app. right. left. symmetry. exact K.
  - intros (a & c & d & -> & Hc). destruct (tail_two a c d) as [K1 K2]. split; [exact K1|]. rewrite K2. apply H1, Hc.
Qed.
Lemma antepenult_iff s l letters e : ~ In 0 s -> incl (cyr letters) l -> incl l (0 :: cyr letters) -> cyr "е" = [e] ->
  (3 <=? length s)%nat && one_of (nth (length s - 3) s 0) l && (nth (length s - 2) s 0 =? e) = true <-> antepenult s letters "е".
Proof.
  intros Hz H1 H2 He. rewrite !andb_true_iff, Nat.leb_le, one_of_in, N.eqb_eq. unfold antepenult. rewrite He. split.
  - intros [[Hl Hc] Hd]. destruct (back_three s _ e Hl eq_refl Hd) as (a & x & E). exists a, (nth (length s - 3) s 0), e, x. split; [exact E|]. split; [|left; reflexivity]. destruct (H2 _ Hc) as [K|K]; [|exact K].
    exfalso. apply Hz. rewrite E. apply in_or_app. right. left. symmetry. exact K.
  - intros (a & c & d & x & -> & Hc & [<-|[]]). destruct (tail_three a c e x) as (K1 & K2 & K3). rewrite K2, K3. split; [split; [exact K1|apply H1, Hc]|reflexivity].
Qed.

Lemma verb_of wd : (1 <=? N.land wd 63) && (N.land wd 63 <=? 6) = is_verb wd.
Proof. unfold is_verb. rewrite mod64. reflexivity. Qed.

Ltac cyrs := repeat match goal with |- context[cyr ?s] => let v := eval vm_compute in (cyr s) in change (cyr s) with v end.
Ltac inclb := cyrs; unfold vowels, hissing, kgh; intros ? ?; cbn [In] in *; tauto.
Lemma suits_iff wd cond stem rems : ~ In 0 stem -> suits_cond wd cond stem rems = true <-> condition_holds (is_verb wd) cond stem rems.
Proof.
  intros Hz. unfold suits_cond. rewrite verb_of. unfold condition_holds. destruct (is_verb wd).
  - rewrite orb_true_iff. cyrs. assert (K : forall b, match strcmp cond b with Eq => true | _ => false end = true <-> cond = b) by (intros b; rewrite <- strcmp_eq; destruct (strcmp cond b); split; congruence).
    rewrite !K. reflexivity.
  - assert (P : forall l letters, incl (cyr letters) l -> incl l (0 :: cyr letters) -> (2 <=? length stem)%nat && one_of (nth (length stem - 2) stem 0) l = true <-> penult stem letters) by (intros; apply penult_iff; assumption).
    assert (Q : forall l letters, incl (cyr letters) l -> incl l (0 :: cyr letters) -> (3 <=? length stem)%nat && one_of (nth (length stem - 3) stem 0) l && (nth (length stem - 2) stem 0 =? 229) = true <-> antepenult stem letters "е") by (intros; apply antepenult_iff; (assumption || reflexivity)).
    assert (S1 : forall x c, (c =? x) = one_of c [x]) by (intros; unfold one_of; cbn [existsb]; rewrite orb_false_r; reflexivity).
    destruct (map_mix_type mix_types cond) as [id|] eqn:Em.
    + pose proof (map_mix_in _ _ _ Em) as Hin. cbn [mix_types In] in Hin. clear Em.
      repeat destruct Hin as [Hin|Hin]; try contradiction; injection Hin as <- <-; cbn [andb].
      * rewrite (Q vowels "аеиоуыэюя"%string) by inclb. cyrs. split; [auto|]. intros H. repeat destruct H as [H|H]; try discriminate H; try (destruct H as [H _]; discriminate H); tauto.
      * rewrite (S1 233), (P [233] "й"%string) by inclb. cyrs. split; [intros; tauto|]. intros H. repeat destruct H as [H|H]; try discriminate H; try (destruct H as [H _]; discriminate H); tauto.
      * rewrite (P kgh "кгх"%string) by inclb. cyrs. split; [intros; tauto|]. intros H. repeat destruct H as [H|H]; try discriminate H; try (destruct H as [H _]; discriminate H); tauto.
      * rewrite (S1 235), (Q [235] "л"%string) by inclb. cyrs. split; [intros; tauto|]. intros H. repeat destruct H as [H|H]; try discriminate H; try (destruct H as [H _]; discriminate H); tauto.
      * cyrs. split; [intros; left; reflexivity|reflexivity].
      * rewrite (P hissing "жцчшщ"%string) by inclb. cyrs. split; [intros; tauto|]. intros H. repeat destruct H as [H|H]; try discriminate H; try (destruct H as [H _]; discriminate H); tauto.
      * rewrite (S1 252), (P [252] "ь"%string) by inclb. cyrs. split; [intros; tauto|]. intros H. repeat destruct H as [H|H]; try discriminate H; try (destruct H as [H _]; discriminate H); tauto.
    + split; [discriminate|]. intros H. exfalso. revert Em. cyrs.
      destruct H as [H|[[H _]|[[H _]|[[H _]|[[H _]|[[H _]|[H _]]]]]]]; subst cond; vm_compute; discriminate.
Qed.

Lemma find_alt_eq mtable wd stem rems : ~ In 0 stem -> forall alts off, (forall o cond, In (o, cond) alts -> o <> 0 /\ exists mx, mix_at mtable o mx) ->
  find_alt mtable alts wd stem rems = Ok off ->
  off = 0 /\ (forall oc alt, In oc alts -> ~ alternates mtable (is_verb wd) stem rems oc alt) \/
  off <> 0 /\ exists before cond behind alt count tail, alts = before ++ (off, cond) :: behind /\ (forall oc' alt', In oc' before -> ~ alternates mtable (is_verb wd) stem rems oc' alt') /\
    alternates mtable (is_verb wd) stem rems (off, cond) alt /\ default_str mtable off = Ok (count, tail) /\ N.land count 15 = N.of_nat (length alt).
Proof.
  intros Hz. induction alts as [|[o cond] alts IH]; intros off Ha E; cbn [find_alt] in E.
  - injection E as <-. left. split; [reflexivity|]. intros ? ? [].
  - assert (Ha' : forall o cond, In (o, cond) alts -> o <> 0 /\ exists mx, mix_at mtable o mx) by (intros; eapply Ha; right; eassumption).
    apply bind_ok_inv in E as ([count tail] & Ed & E). destruct (Ha o cond (or_introl eq_refl)) as (Ho & mx & Hm).
    destruct (default_first mtable o mx count tail Hm Ed) as (b & mask & alt & h & rest & Emx & Hb & Ec & Et & Hbit & Hlen).
    assert (Hfs : first_string mtable o alt) by (exists b, mask, h; rewrite <- Emx; auto).
    assert (L : N.land count 15 = N.of_nat (length alt)) by (rewrite Ec; apply low_half; lia).
    assert (Htail : has_tail stem count tail = true <-> ends_with stem alt).
    { unfold has_tail. rewrite L, Et, Nnat.Nat2N.id, firstn_app, Nat.sub_diag, firstn_all, app_nil_r. rewrite andb_true_iff, Nat.leb_le. split.
      - intros [K1 K2]. destruct (list_eq_dec _ _ _) as [K|]; [|discriminate]. exists (firstn (length stem - length alt) stem). rewrite <- K at 2. symmetry. apply firstn_skipn.
      - intros (a & ->). rewrite app_length. split; [lia|]. replace (length a + length alt - length alt)%nat with (length a) by lia. rewrite skipn_app, skipn_all, Nat.sub_diag. cbn [skipn app].
        destruct (list_eq_dec N.eq_dec alt alt); congruence. }
    assert (Hrest : ~ (ends_with stem alt /\ condition_holds (is_verb wd) cond stem rems) -> find_alt mtable alts wd stem rems = Ok off ->
      off = 0 /\ (forall oc alt0, In oc ((o, cond) :: alts) -> ~ alternates mtable (is_verb wd) stem rems oc alt0) \/
      off <> 0 /\ exists before cond0 behind alt0 count0 tail0, (o, cond) :: alts = before ++ (off, cond0) :: behind /\ (forall oc' alt', In oc' before -> ~ alternates mtable (is_verb wd) stem rems oc' alt') /\
        alternates mtable (is_verb wd) stem rems (off, cond0) alt0 /\ default_str mtable off = Ok (count0, tail0) /\ N.land count0 15 = N.of_nat (length alt0)).
    { intros Hno Ef. assert (Hno' : forall alt0, ~ alternates mtable (is_verb wd) stem rems (o, cond) alt0).
      { intros alt0 (K1 & K2 & K3). cbn [fst snd] in *. rewrite (first_unique _ _ _ _ K1 Hfs) in K2. auto. }
      destruct (IH off Ha' Ef) as [[K1 K2]|(K1 & before & cond0 & behind & alt0 & count0 & tail0 & K2 & K3 & K4)].
      - left. split; [exact K1|]. intros oc alt0 [<-|Hin]; [apply Hno'|apply K2, Hin].
      - right. split; [exact K1|]. exists ((o, cond) :: before), cond0, behind, alt0, count0, tail0. split; [rewrite K2; reflexivity|]. split; [|exact K4]. intros oc' alt' [<-|Hin]; [apply Hno'|apply K3, Hin]. }
    destruct (has_tail stem count tail) eqn:Eh; cbn [negb] in E.
    + pose proof (suits_iff wd cond stem rems Hz) as Hs. destruct (suits_cond wd cond stem rems).
      * injection E as <-. right. split; [exact Ho|]. exists [], cond, alts, alt, count, tail. split; [reflexivity|]. split; [intros ? ? []|]. split; [|split; assumption]. split; [exact Hfs|]. split; [apply Htail; reflexivity|apply Hs; reflexivity].
      * apply Hrest; [|exact E]. intros [_ K]. apply Hs in K. discriminate.
    + apply Hrest; [|exact E]. intros [K _]. apply Htail in K. discriminate.
Qed.

(** ** The normal form *)
Lemma normal_form_eq wd word : (is_verb wd = true -> N.testbit wd 6 = false) ->
  normal_form wd word = (if is_verb wd then (0x8001, verb_levels) else (normal_gramm wd word, noun_levels)).
Proof.
  intros Hp. unfold normal_form. rewrite verb_of. assert (E6 : (N.land wd 64 =? 0) = negb (N.testbit wd 6)).
  { change 64 with (2 ^ 6). destruct (N.testbit wd 6) eqn:Et; cbn [negb].
    - apply N.eqb_neq. intros K. assert (K' : N.testbit (N.land wd (2 ^ 6)) 6 = false) by (rewrite K; reflexivity). rewrite N.land_spec, Et in K'. discriminate.
    - apply N.eqb_eq. apply N.bits_inj. intros i. rewrite N.land_spec, N.pow2_bits_eqb, N.bits_0. destruct (N.eqb_spec 6 i) as [<-|]; [rewrite Et; reflexivity|apply andb_false_r]. }
  rewrite E6. destruct (is_verb wd) eqn:Ev; [rewrite (Hp eq_refl); reflexivity|]. unfold normal_gramm. rewrite mod64. fold (reflexive word). change (cyr "ся"%string) with [241; 255]. unfold reflexive.
  destruct (existsb (N.eqb (N.land wd 63)) [25; 26; 27; 28; 34; 36; 42; 52]); [destruct ((2 <? length word)%nat && _)|]; destruct (N.testbit wd 6); reflexivity.
Qed.

Lemma strip_prefix_in s stem done l : outcome l s done stem -> ~ In 0 s -> ~ In 0 stem.
Proof. destruct done; cbn [outcome]; [intros (d & b & h & _ & -> & _) H K; apply H, in_or_app; auto|intros [-> _] H; exact H]. Qed.

Theorem resolve_found depth ftable mtable alts base post rems wd off cases at_mark colon mixkind id l r :
  resolve depth ftable mtable alts (base ++ post) post rems wd off cases at_mark colon mixkind id = Ok r -> off <> 0 ->
  searchable ftable mtable alts wd off base rems -> normal_of_word ftable wd off base l ->
  match r with
  | None => unended base l at_mark colon None
  | Some x => exists stem mt, unended base l at_mark colon (Some stem) /\ alternation mtable alts (is_verb wd) rems stem (l_stem x) mt /\
      l_class x = Morphclass (if mt =? 0 then wd else N.lor wd (N.shiftl mixkind 11)) off mt /\ l_post x = post /\ l_id x = id
  end.
Proof.
  intros E Hoff [Hpl Htidy Hwhole Halts Hzero] Hnorm. unfold resolve in E. rewrite cut_app in E. cbn [bind] in E. destruct (N.eqb_spec off 0); [contradiction|]. rewrite (normal_form_eq wd base Hpl) in E.
  assert (Hstep : exists done s1, (match at_mark with Some n => Ok (true, firstn n base) | None => let '(nf, levels) := if is_verb wd then (0x8001, verb_levels) else (normal_gramm wd base, noun_levels) in strip_str depth levels ftable base nf off 0 end) = Ok (done, s1) /\
     ~ In 0 s1 /\ (if negb done && negb colon then unended base l at_mark colon None else unended base l at_mark colon (Some s1))).
  { destruct (match at_mark with Some n => Ok (true, firstn n base) | None => _ end) as [[done s1]|] eqn:Em; [|discriminate]. exists done, s1. split; [reflexivity|]. destruct at_mark as [k|].
    - injection Em as <- <-. split; [intros K; apply Hzero; revert K; rewrite <- (firstn_skipn k base) at 2; intros K; apply in_or_app; auto|]. cbn [negb andb]. apply ue_marked. reflexivity.
    - assert (Ho : outcome l base done s1).
      { apply (strip_eq ftable off base (is_verb wd) (if is_verb wd then 0x8001 else normal_gramm wd base) Htidy Hwhole) with (depth := depth) (off := off).
        - destruct (is_verb wd); [reflexivity|]. unfold normal_gramm. destruct (existsb _ _), (N.testbit wd 6); try destruct (Nat.ltb 2 _ && _); reflexivity.
        - intros ->. reflexivity.
        - apply linked_self.
        - exact Hnorm.
        - destruct (is_verb wd); exact Em. }
      split; [eapply strip_prefix_in; eassumption|]. destruct done; cbn [negb andb]; cbn [outcome] in Ho.
      + destruct Ho as (d & Ho). eapply ue_normal; [reflexivity|exact Ho].
      + destruct Ho as [-> Ho]. destruct colon; cbn [negb]; [apply ue_whole|apply ue_rejected]; auto. }
  destruct Hstep as (done & s1 & Em & Hz1 & Hu). rewrite Em in E. cbn [bind] in E. clear Em. destruct (negb done && negb colon).
  - injection E as <-. exact Hu.
  - apply bind_ok_inv in E as ([lo hi] & _ & E). apply bind_ok_inv in E as (mt & Ef & E). destruct (find_alt_eq mtable wd s1 rems Hz1 alts mt Halts Ef) as [[-> Hno]|(Hmt & before & cond & behind & alt & count & tail & Ea & Hb & Hal & Ed & Hlen)].
    + change (0 =? 0) with true in E. cbn beta iota in E. injection E as <-. exists s1, 0. split; [exact Hu|]. split; [apply alt_none; exact Hno|]. split; [reflexivity|]. split; reflexivity.
    + destruct (N.eqb_spec mt 0); [contradiction|]. apply bind_ok_inv in E as ([lo' hi'] & _ & E). rewrite Ed in E. cbn [bind] in E. rewrite Hlen in E. pose proof Hal as (_ & (a & Es1) & _). rewrite Es1, cut_app in E. cbn [bind] in E. injection E as <-.
      exists s1, mt. split; [exact Hu|]. cbn [l_stem l_class l_post l_id]. split; [apply (alt_found mtable alts (is_verb wd) rems s1 before (mt, cond) behind alt a); assumption|]. split; [|split; reflexivity]. destruct (N.eqb_spec mt 0); [contradiction|reflexivity].
Qed.
