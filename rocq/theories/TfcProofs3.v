(** * TfcProofs3: reading the text of the tables. *)
From Coq Require Import String.
From Verif Require Import Base Serial WordTree TreeSpec Stems StemSpec SerialProofs DictProofs GramMap RusRuntime LevelSpec RusSpec Compile CompileSpec CompileProofs Api EngCompile EngCompileSpec EngCompileProofs Utf8 RusText Tfc TfcSpec TfcProofs TfcProofs2.
Local Open Scope N_scope.
Local Open Scope list_scope.
Notation length := List.length.

(** ** Lines *)
Lemma space_iff c : is_space c = true <-> c <= 32.
Proof. unfold is_space. change 0x20 with 32. apply N.leb_le. Qed.
Lemma ink_iff c : is_space c = false <-> inked c.
Proof. unfold is_space, inked. change 0x20 with 32. rewrite N.leb_gt. reflexivity. Qed.
Lemma white_space s : white s -> Forall (fun c => is_space c = true) s.
Proof. apply Forall_impl. intros c. apply space_iff. Qed.
Lemma skip_white a s : white a -> skip_space (a ++ s) = skip_space s.
Proof. induction 1 as [|c a H Ha IH]; [reflexivity|]. cbn [app skip_space]. rewrite (proj2 (space_iff c) H). exact IH. Qed.
Lemma skip_inked c s : inked c -> skip_space (c :: s) = c :: s.
Proof. intros H. cbn [skip_space]. rewrite (proj2 (ink_iff c) H). reflexivity. Qed.
Lemma trim_white s w : white w -> trim_end (s ++ w) = trim_end s.
Proof.
  intros H. induction s as [|c s IH]; cbn [app trim_end]; [apply trim_all, white_space, H|]. rewrite IH. reflexivity.
Qed.
Lemma trim_inked t c : inked c -> trim_end (t ++ [c]) = t ++ [c].
Proof. intros H. apply (trim_end_app t c []); [apply ink_iff, H|constructor]. Qed.

Lemma slashes s : starts (text "//") s = true <-> exists r, s = 47 :: 47 :: r.
Proof. rewrite starts_iff. change (text "//") with [47; 47]. cbn [app]. reflexivity. Qed.
Lemma cut_body s0 rest : (rest = [] \/ exists c r, rest = c :: r /\ c <= 32) -> forall b,
  (forall a b', s0 = a ++ text "//" ++ b' -> a = [] /\ b = false \/ exists t c, a = t ++ [c] /\ inked c) ->
  cut_comment b (s0 ++ rest) = s0 ++ cut_comment (match s0 with [] => b | _ => is_space (last s0 0) end) rest.
Proof.
  intros Hr. induction s0 as [|c s0 IH]; intros b H; [reflexivity|]. cbn [app cut_comment].
  assert (E : b && starts (text "//") (c :: s0 ++ rest) = false).
  { destruct b; [|reflexivity]. cbn [andb]. destruct (starts (text "//") (c :: s0 ++ rest)) eqn:E; [|reflexivity]. apply slashes in E. destruct E as [r E]. injection E as -> E. destruct s0 as [|c' s0].
    - cbn [app] in E. destruct Hr as [-> |(c & r' & -> & Hc)]; [discriminate|]. injection E as -> _. lia.
    - injection E as -> E. destruct (H [] s0 eq_refl) as [[_ K]|(t & x & K & _)]; [discriminate|]. destruct t; discriminate. }
  rewrite E. f_equal. rewrite (IH (is_space c)).
  - f_equal. destruct s0; reflexivity.
  - intros a b' ->. destruct (H (c :: a) b' eq_refl) as [[K _]|(t & x & K & Hx)]; [discriminate|]. destruct t as [|y t].
    + injection K as -> K. left. split; [exact K|]. apply ink_iff, Hx.
    + injection K as -> K. right. exists t, x. auto.
Qed.
Lemma cut_white w b : white w -> cut_comment b w = w.
Proof.
  intros H. revert b. induction H as [|c w Hc Hw IH]; intros b; [reflexivity|]. cbn [cut_comment].
  assert (E : starts (text "//") (c :: w) = false). { destruct (starts (text "//") (c :: w)) eqn:E; [|reflexivity]. apply slashes in E. destruct E as [r E]. injection E as -> _. lia. }
  rewrite E, andb_false_r, IH. reflexivity.
Qed.
Lemma cut_remark w remark b : white w -> (w <> [] \/ b = true) -> cut_comment b (w ++ text "//" ++ remark) = w.
Proof.
  intros H. revert b. induction H as [|c w Hc Hw IH]; intros b Hb.
  - destruct Hb as [Hb|Hb]; [congruence|]. rewrite Hb. reflexivity.
  - cbn [app cut_comment].
    assert (E : starts (text "//") (c :: w ++ text "//" ++ remark) = false). { destruct (starts (text "//") (c :: w ++ text "//" ++ remark)) eqn:E; [|reflexivity]. apply slashes in E. destruct E as [r E]. injection E as -> _. lia. }
    rewrite E, andb_false_r. f_equal. apply IH. right. apply space_iff, Hc.
Qed.
Lemma clean_says conv line s : line_says conv line s -> clean_line conv line = s.
Proof.
  intros (sp & s0 & rest & -> & Hsp & -> & Hs0 & Hrest & Hno). unfold clean_line. f_equal. rewrite skip_white by exact Hsp. destruct Hs0 as [-> |[(c & t & E & Hc) (t' & c' & E' & Hc')]].
  - cbn [app]. destruct Hrest as [Hw|(sp' & remark & -> & Hw & _)].
    + rewrite skip_space_all by (apply white_space, Hw). reflexivity.
    + rewrite skip_white by exact Hw. change (text "//" ++ remark) with (47 :: 47 :: remark). rewrite skip_inked by (unfold inked; lia). reflexivity.
  - assert (Hsk : skip_space (s0 ++ rest) = s0 ++ rest) by (rewrite E; apply (skip_inked c (t ++ rest)), Hc). rewrite Hsk.
    assert (Hb : forall a b', s0 = a ++ text "//" ++ b' -> a = [] /\ true = false \/ exists t c, a = t ++ [c] /\ inked c) by (intros a b' K; right; apply (Hno a b' K)).
    destruct Hrest as [Hw|(sp' & remark & -> & Hw & Hor)].
    + rewrite (cut_body s0 rest) by first [exact Hb|destruct rest as [|x r]; [left; reflexivity|right; exists x, r; split; [reflexivity|inversion Hw; assumption]]].
      rewrite cut_white by exact Hw. rewrite trim_white by exact Hw. rewrite E'. apply trim_inked, Hc'.
    + destruct Hor as [Hne|K]; [|congruence].
      rewrite (cut_body s0 (sp' ++ text "//" ++ remark)) by first [exact Hb|destruct sp' as [|x r]; [congruence|right; exists x, (r ++ text "//" ++ remark); split; [reflexivity|inversion Hw; assumption]]].
      rewrite cut_remark by (try exact Hw; left; exact Hne). rewrite trim_white by exact Hw. rewrite E'. apply trim_inked, Hc'.
Qed.
Lemma fgets_more line : forall room acc file, ~ In 10 line -> (length line < room)%nat -> fgets_source room acc (line ++ 10 :: file) = (acc ++ line ++ [10]) :: fgets_source 0xfff [] file.
Proof.
  induction line as [|c line IH]; intros room acc file Hn Hl.
  - cbn [app fgets_source]. rewrite N.eqb_refl. reflexivity.
  - cbn [app fgets_source]. destruct (N.eqb_spec c 10) as [->|]; [exfalso; apply Hn; left; reflexivity|]. cbn [length] in Hl. destruct (Nat.leb_spec room 1) as [Hlt|Hlt]; [lia|]. cbn [orb].
    rewrite IH by (try lia; intros K; apply Hn; right; exact K). rewrite <- app_assoc. reflexivity.
Qed.
Lemma fgets_end line : forall room acc, ~ In 10 line -> (length line <= room)%nat -> acc ++ line <> [] -> fgets_source room acc line = [acc ++ line].
Proof.
  induction line as [|c line IH]; intros room acc Hn Hl Hne.
  - cbn [fgets_source]. rewrite app_nil_r in *. destruct acc; [congruence|reflexivity].
  - cbn [fgets_source]. destruct (N.eqb_spec c 10) as [->|]; [exfalso; apply Hn; left; reflexivity|]. cbn [length] in Hl. destruct (Nat.leb_spec room 1) as [Hlt|Hlt]; cbn [orb].
    + destruct line; [reflexivity|cbn [length] in Hl; lia].
    + rewrite IH by first [intros K; apply Hn; right; exact K|lia|destruct acc; discriminate]. rewrite <- app_assoc. reflexivity.
Qed.
Lemma source_says conv file ss : file_says conv file ss -> source_lines conv file = ss.
Proof.
  intros (lines & said & Hl & H2 & ->). unfold source_lines.
  assert (E : fgets_source 0xfff [] file = lines).
  { assert (Z : 0xfff%nat = 4095%nat) by reflexivity. clear - Hl Z. induction Hl as [|line H1 H2 H3|line file lines H1 H2 Hl IH].
    - reflexivity.
    - rewrite fgets_end by (rewrite ?Z; auto). reflexivity.
    - rewrite fgets_more by (rewrite ?Z; auto). rewrite IH. reflexivity. }
  rewrite E. clear E Hl. induction H2 as [|l s lines said H H2 IH]; [reflexivity|]. cbn [map filter]. rewrite (clean_says _ _ _ H), IH. destruct s; reflexivity.
Qed.

(** ** Grammar *)
Lemma value_bits x n : value x n = N.land (N.shiftr n (fst (place x))) (N.ones (snd (place x))).
Proof. unfold value. rewrite N.land_ones, N.shiftr_div_pow2. reflexivity. Qed.
Lemma value_apply x n m s : value x (N.lor (N.land n m) s) = N.lor (N.land (value x n) (value x m)) (value x s).
Proof.
  rewrite !value_bits. apply N.bits_inj. intros i. rewrite ?N.lor_spec, ?N.land_spec, ?N.shiftr_spec by lia. rewrite ?N.lor_spec, ?N.land_spec.
  destruct (N.testbit (N.ones (snd (place x))) i), (N.testbit n (i + fst (place x))), (N.testbit m (i + fst (place x))), (N.testbit s (i + fst (place x))); reflexivity.
Qed.
Lemma value_small x n : N.land (value x n) (N.ones (snd (place x))) = value x n.
Proof. rewrite value_bits, <- N.land_assoc, N.land_diag. reflexivity. Qed.
Definition feature_eqb (x y : feature) : bool :=
  match x, y with Tense, Tense | Person, Person | VerbForm, VerbForm | Comparative, Comparative | Short, Short | Gender, Gender | Plural, Plural | Case, Case | Reflexive, Reflexive => true | _, _ => false end.
Lemma feature_eqb_iff x y : feature_eqb x y = true <-> x = y.
Proof. destruct x, y; cbn; split; congruence. Qed.
Definition token_check (t : token) : bool :=
  match lookup (cyr (tk_name t)) gram_mapper with
  | None => false
  | Some d =>
      forallb (fun x =>
        match filter (fun p => feature_eqb (fst p) x) (tk_sets t) with
        | [] => if existsb (feature_eqb x) (tk_keeps t) then (value x (gd_grmask d) =? N.ones (snd (place x))) && (value x (gd_grinfo d) =? 0)
                else (value x (gd_grmask d) =? 0) && (value x (gd_grinfo d) =? 0)
        | [(_, v)] => (value x (gd_grinfo d) =? v) && ((value x (gd_grmask d) =? 0) || (v =? N.ones (snd (place x))))
        | _ => false
        end) features
      && (gd_mflags d =? tk_flags_kept t) && (gd_bflags d =? tk_flags_set t) && (gd_grmask d <? 2 ^ 16) && (gd_grinfo d <? 2 ^ 16)
  end.
Lemma tokens_checked : forallb token_check tokens = true.
Proof. vm_compute. reflexivity. Qed.
Lemma all_features x : In x features.
Proof. destruct x; cbn; tauto. Qed.
Lemma lor_ones_small x n : N.lor (N.land (value x n) (N.ones (snd (place x)))) (N.ones (snd (place x))) = N.ones (snd (place x)).
Proof. apply N.bits_inj. intros i. rewrite N.lor_spec, N.land_spec. destruct (N.testbit (N.ones (snd (place x))) i); [apply orb_true_r|rewrite andb_false_r; reflexivity]. Qed.

Lemma token_applied t : In t tokens -> exists d, lookup (cyr (tk_name t)) gram_mapper = Some d /\ forall cg, applied t cg (apply_token d cg).
Proof.
  intros Hin. pose proof tokens_checked as H. rewrite forallb_forall in H. specialize (H t Hin). unfold token_check in H. destruct (lookup (cyr (tk_name t)) gram_mapper) as [d|]; [|discriminate].
  do 4 (apply andb_true_iff in H; let K := fresh "K" in destruct H as [H K]). apply N.eqb_eq in K1, K2. apply N.ltb_lt in K, K0. rewrite forallb_forall in H. exists d. split; [reflexivity|]. intros cg.
  unfold apply_token, applied. cbn [gi_info gi_flags]. split; [|split; [|rewrite K2, K1; reflexivity]].
  - assert (L : forall a, a < 2 ^ 16 -> forall i, 16 <= i -> N.testbit a i = false).
    { intros a Ha i Hi. destruct (N.eq_dec a 0) as [->|Hz]; [apply N.bits_0|]. apply N.bits_above_log2. apply N.log2_lt_pow2; [lia|]. eapply N.lt_le_trans; [exact Ha|]. apply N.pow_le_mono_r; lia. }
    set (v := N.lor (N.land (gi_info cg) (gd_grmask d)) (gd_grinfo d)). destruct (N.eq_dec v 0) as [E|Hz]; [rewrite E; reflexivity|]. apply N.log2_lt_pow2; [lia|].
    destruct (N.lt_ge_cases (N.log2 v) 16) as [Hlt|Hge]; [exact Hlt|]. exfalso. pose proof (N.bit_log2 v Hz) as Hb. unfold v in Hb at 1. rewrite N.lor_spec, N.land_spec, (L _ K0 _ Hge), (L _ K _ Hge), andb_false_r in Hb. discriminate.
  - intros x. specialize (H x (all_features x)). rewrite value_apply. unfold becomes. destruct (filter (fun p => feature_eqb (fst p) x) (tk_sets t)) as [|[y v] [|? ?]] eqn:Ef; [| |discriminate].
    + right. split.
      { intros v' Hv. assert (K' : In (x, v') (filter (fun p => feature_eqb (fst p) x) (tk_sets t))) by (apply filter_In; split; [exact Hv|apply feature_eqb_iff; reflexivity]). rewrite Ef in K'. destruct K'. }
      destruct (existsb (feature_eqb x) (tk_keeps t)) eqn:Ek; apply andb_true_iff in H; destruct H as [H1 H2]; apply N.eqb_eq in H1, H2; rewrite H1, H2.
      * left. split; [apply existsb_exists in Ek; destruct Ek as (y & Hy & Ey); apply feature_eqb_iff in Ey; subst; exact Hy|]. rewrite N.lor_0_r. apply value_small.
      * right. split; [|rewrite N.land_0_r; reflexivity]. intros Hk. assert (existsb (feature_eqb x) (tk_keeps t) = true) by (apply existsb_exists; exists x; split; [exact Hk|apply feature_eqb_iff; reflexivity]). congruence.
    + left. assert (Hi : In (y, v) (filter (fun p => feature_eqb (fst p) x) (tk_sets t))) by (rewrite Ef; left; reflexivity). apply filter_In in Hi. destruct Hi as [Hi Ey]. cbn [fst] in Ey. apply feature_eqb_iff in Ey. subst y.
      apply andb_true_iff in H. destruct H as [H1 H2]. apply N.eqb_eq in H1. rewrite H1. apply orb_true_iff in H2. destruct H2 as [H2|H2]; apply N.eqb_eq in H2.
      * rewrite H2, N.land_0_r. exact Hi.
      * assert (Em : N.lor (N.land (value x (gi_info cg)) (value x (gd_grmask d))) v = v); [|rewrite Em; exact Hi]. rewrite H2. apply N.bits_inj. intros i. rewrite N.lor_spec, N.land_spec.
        destruct (N.testbit (N.ones (snd (place x))) i) eqn:Eo; [apply orb_true_r|]. rewrite orb_false_r. rewrite <- (value_small x (gi_info cg)), N.land_spec, Eo, andb_false_r. reflexivity.
Qed.
Lemma becomes_unique t info x v v' : In t tokens -> becomes t info x v -> becomes t info x v' -> v = v'.
Proof.
  intros Hin. pose proof tokens_checked as H. rewrite forallb_forall in H. specialize (H t Hin). unfold token_check in H. destruct (lookup (cyr (tk_name t)) gram_mapper) as [d|]; [|discriminate].
  do 4 (apply andb_true_iff in H; let K := fresh "K" in destruct H as [H K]). rewrite forallb_forall in H. specialize (H x (all_features x)).
  assert (Hset : forall a b, In (x, a) (tk_sets t) -> In (x, b) (tk_sets t) -> a = b).
  { intros a b Ha Hb. assert (Ha' : In (x, a) (filter (fun p => feature_eqb (fst p) x) (tk_sets t))) by (apply filter_In; split; [exact Ha|apply feature_eqb_iff; reflexivity]).
    assert (Hb' : In (x, b) (filter (fun p => feature_eqb (fst p) x) (tk_sets t))) by (apply filter_In; split; [exact Hb|apply feature_eqb_iff; reflexivity]).
    destruct (filter (fun p => feature_eqb (fst p) x) (tk_sets t)) as [|p [|? ?]]; [destruct Ha'| |destruct p; discriminate]. destruct Ha' as [->|[]], Hb' as [E|[]]. congruence. }
  intros [A|[A [[A1 ->]|[A1 ->]]]] [B|[B [[B1 ->]|[B1 ->]]]]; try reflexivity; try contradiction; try (exfalso; eapply A; eassumption); try (exfalso; eapply B; eassumption). apply Hset; assumption.
Qed.
Lemma mod_step n m a k : n mod 2 ^ a = m mod 2 ^ a -> n / 2 ^ a mod 2 ^ k = m / 2 ^ a mod 2 ^ k -> n mod 2 ^ (a + k) = m mod 2 ^ (a + k).
Proof. intros H1 H2. rewrite N.pow_add_r. rewrite !N.mod_mul_r by (apply N.pow_nonzero; discriminate). rewrite H1, H2. reflexivity. Qed.
Lemma value_ext n m : n < 2 ^ 16 -> m < 2 ^ 16 -> (forall x, value x n = value x m) -> n = m.
Proof.
  intros Hn Hm H. rewrite <- (N.mod_small n (2 ^ 16) Hn), <- (N.mod_small m (2 ^ 16) Hm). change (2 ^ 16) with (2 ^ (0 + 3 + 2 + 2 + 1 + 1 + 2 + 1 + 3 + 1)).
  repeat apply mod_step; [rewrite !N.mod_1_r; reflexivity|exact (H Tense)|exact (H Person)|exact (H VerbForm)|exact (H Comparative)|exact (H Short)|exact (H Gender)|exact (H Plural)|exact (H Case)|exact (H Reflexive)].
Qed.
Lemma applied_unique t cg a b : In t tokens -> applied t cg a -> applied t cg b -> a = b.
Proof.
  intros Hin (A1 & A2 & A3) (B1 & B2 & B3). destruct a as [ai af], b as [bi bf]. cbn [gi_info gi_flags] in *. f_equal; [|congruence]. apply value_ext; [assumption|assumption|]. intros x. eapply becomes_unique; [exact Hin|apply A2|apply B2].
Qed.
Definition no_bar (s : bytes) : bool := forallb (fun c => negb (c =? 124)) s.
Lemma mapper_checked : forallb (fun p => no_bar (fst p) && match fst p with [] => false | _ => true end && existsb (fun t => if list_eq_dec N.eq_dec (cyr (tk_name t)) (fst p) then true else false) tokens) gram_mapper = true.
Proof. vm_compute. reflexivity. Qed.
Lemma mapper_token s d : lookup s gram_mapper = Some d -> exists t, In t tokens /\ s = cyr (tk_name t) /\ Forall (fun c => (c =? 124) = false) s /\ s <> [].
Proof.
  intros H. apply lookup_in in H. pose proof mapper_checked as K. rewrite forallb_forall in K. specialize (K _ H). cbn [fst] in K. apply andb_true_iff in K. destruct K as [K K3]. apply andb_true_iff in K. destruct K as [K1 K2].
  apply existsb_exists in K3. destruct K3 as (t & Ht & E). destruct (list_eq_dec N.eq_dec (cyr (tk_name t)) s) as [<-|]; [|discriminate]. exists t. split; [exact Ht|]. split; [reflexivity|]. split.
  - apply Forall_forall. intros c Hc. unfold no_bar in K1. rewrite forallb_forall in K1. specialize (K1 c Hc). apply negb_true_iff, K1.
  - intros E'. rewrite E' in K2. discriminate.
Qed.
Lemma gram_nil cg cg' : gram_says [] cg cg' -> cg' = cg.
Proof.
  intros H. remember [] as s eqn:E. destruct H as [cg|t cg cg' Ht Ha|t r cg cg' cg'' Ht Ha Hr]; [reflexivity| |].
  - exfalso. destruct (token_applied t Ht) as (d & Hd & _). destruct (mapper_token _ _ Hd) as (_ & _ & _ & _ & K). congruence.
  - destruct (cyr (tk_name t)); discriminate.
Qed.
Lemma map_info_says fuel : forall s cg cg', (length s <= fuel)%nat -> (map_info fuel s cg = Some cg' <-> gram_says s cg cg').
Proof.
  induction fuel as [|fuel IH]; intros s cg cg' Hf.
  - destruct s; [|cbn in Hf; lia]. cbn. split; [intros H; injection H as ->; constructor|]. intros H. inversion H as [|t ? ? Ht Ha E|t r ? ? ? Ht Ha Hr E]; [reflexivity| |].
    + exfalso. destruct (token_applied t Ht) as (d & Hd & _). destruct (mapper_token _ _ Hd) as (_ & _ & _ & _ & K). congruence.
    + destruct (cyr (tk_name t)); discriminate.
  - destruct s as [|c s].
    + cbn. split; [intros H; injection H as ->; constructor|]. intros H. inversion H as [|t ? ? Ht Ha E|t r ? ? ? Ht Ha Hr E]; [reflexivity| |].
      * exfalso. destruct (token_applied t Ht) as (d & Hd & _). destruct (mapper_token _ _ Hd) as (_ & _ & _ & _ & K). congruence.
      * destruct (cyr (tk_name t)); discriminate.
    + cbn [map_info]. split.
      * destruct (take_until (fun c => c =? 124) (c :: s)) as [tok rest] eqn:Et. destruct (lookup tok gram_mapper) as [d|] eqn:Ed; [|discriminate]. intros H.
        destruct (mapper_token _ _ Ed) as (t & Ht & -> & Hb & Hne). destruct (token_applied t Ht) as (d' & Hd' & Ha). rewrite Ed in Hd'. injection Hd' as <-.
        assert (Hs : c :: s = cyr (tk_name t) ++ rest /\ (rest = [] \/ exists r, rest = 124 :: r)).
        { revert Et. generalize (cyr (tk_name t)) as tok. generalize (c :: s) as l. clear. induction l as [|x l IHl]; intros tok; cbn [take_until]; [intros H; injection H as <- <-; auto|].
          destruct (N.eqb_spec x 124) as [->|]; [intros H; injection H as <- <-; split; [reflexivity|right; eauto]|]. destruct (take_until (fun c => c =? 124) l) as [a b]. intros H. injection H as <- <-. destruct (IHl a eq_refl) as [-> K]. auto. }
        destruct Hs as [Es [-> |(r & ->)]].
        -- rewrite app_nil_r in Es. rewrite Es. apply IH in H; [|cbn in Hf |- *; lia]. apply gram_nil in H. subst cg'. apply gs_last; auto.
        -- rewrite Es. eapply gs_more; [exact Ht|apply Ha|]. apply IH; [|exact H]. apply (f_equal (@length N)) in Es. rewrite app_length in Es. cbn in Es, Hf. lia.
      * intros H. inversion H as [|t ? ? Ht Ha E|t r ? cg1 ? Ht Ha Hr E]; subst.
        -- destruct (token_applied t Ht) as (d & Hd & Hda). destruct (mapper_token _ _ Hd) as (_ & _ & _ & Hb & _). rewrite take_until_all by exact Hb. rewrite Hd.
           rewrite (applied_unique t cg _ _ Ht Ha (Hda cg)). destruct fuel; reflexivity.
        -- destruct (token_applied t Ht) as (d & Hd & Hda). destruct (mapper_token _ _ Hd) as (_ & _ & _ & Hb & _). rewrite (take_until_app _ (cyr (tk_name t)) 124 r Hb) by reflexivity. rewrite Hd.
           apply IH; [apply (f_equal (@length N)) in E; rewrite app_length in E; cbn in E, Hf; lia|]. rewrite <- (applied_unique t cg _ _ Ht Ha (Hda cg)). exact Hr.
Qed.
Lemma map_gram_says s cg cg' : map_gram s cg = Some cg' <-> gram_says s cg cg'.
Proof. apply map_info_says. lia. Qed.
