(** * MakeichProofs: lines and sets of strings. *)
From Coq Require Import String.
From Verif Require Import Base Serial WordTree TreeSpec Stems StemSpec SerialProofs DictProofs GramMap RusRuntime LevelSpec RusSpec Compile CompileSpec CompileProofs Api EngCompile EngCompileSpec EngCompileProofs EngCompileProofs3 Utf8 RusText Tfc TfcSpec TfcProofs TfcProofs2 TfcProofs3 TfcProofs4 TfcProofs5 Makeich MakeichSpec.
Local Open Scope N_scope.
Local Open Scope list_scope.
Notation length := List.length.

(** ** Lines *)
Fixpoint kept (fs : list bytes) : list bytes := match fs with [] => [] | [[]] => [] | f :: fs' => f :: kept fs' end.
Lemma kept_one f : f <> [] -> kept [f] = [f]. Proof. destruct f; [congruence|reflexivity]. Qed.
Lemma kept_more f g fs : kept (f :: g :: fs) = f :: kept (g :: fs). Proof. destruct f; reflexivity. Qed.
Lemma kept_snoc fs : kept (fs ++ [[]]) = fs.
Proof. induction fs as [|f fs IH]; [reflexivity|]. cbn [app]. revert IH. destruct (fs ++ [[]]) as [|g l] eqn:E; intros IH; [destruct fs; discriminate|]. rewrite kept_more. f_equal. exact IH. Qed.
Lemma kept_all fs : fs <> [] -> last fs [] <> [] -> kept fs = fs.
Proof.
  induction fs as [|f fs IH]; [congruence|]. intros _ Hl. destruct fs as [|g fs]; [apply kept_one; exact Hl|]. rewrite kept_more. f_equal. apply IH; [discriminate|exact Hl].
Qed.
Lemma kept_cases fs : fs <> [] -> last fs [] <> [] /\ kept fs = fs \/ fs = kept fs ++ [[]].
Proof.
  intros Hn. destruct (@exists_last _ fs Hn) as (l & x & ->). destruct x as [|c x]; [right; rewrite kept_snoc; reflexivity|left]. rewrite last_last. split; [discriminate|]. apply kept_all; [destruct l; discriminate|rewrite last_last; discriminate].
Qed.
Lemma fields_nonempty s fs : fields s fs -> fs <> []. Proof. intros []; discriminate. Qed.
Lemma fields_empty s fs : fields s fs -> skip_space s = [] <-> fs = [[]].
Proof.
  intros H. assert (K : forall x r, (skip_space (x ++ r) = []) -> field_text x -> x = []). { intros x r E Hx. destruct x as [|c x]; [reflexivity|]. inversion Hx as [|? ? [Hc _] _]. cbn [app] in E. rewrite skip_inked in E by exact Hc. discriminate. }
  destruct H as [f sp Hf Hw|f sp sp' s fs Hf Hw Hw' Hs|f sp g s fs Hf Hfn Hw Hn Hg Hs]; split.
  - intros E. rewrite (K _ _ E Hf). reflexivity.
  - intros E. injection E as ->. cbn [app]. apply skip_space_all, white_space, Hw.
  - intros E. pose proof (K _ _ E Hf). subst f. cbn [app] in E. rewrite skip_white in E by exact Hw. rewrite skip_inked in E by (unfold inked; lia). discriminate.
  - intros E. injection E as _ ->. inversion Hs.
  - intros E. pose proof (K _ _ E Hf). contradiction.
  - discriminate.
Qed.
Lemma load_fields s fs : fields s fs -> exists s', load (skip_space s) = (nth 0 fs [], skip_space s') /\ fields s' (rest_fields fs).
Proof. intros H. destruct (fields_step _ _ H) as (r & s' & E1 & E2 & H'). exists s'. split; [|exact H']. unfold load. rewrite E1, E2. reflexivity. Qed.
Lemma kept_length s fs : fields s fs -> (length (kept fs) <= length (skip_space s))%nat.
Proof.
  induction 1 as [f sp Hf Hw|f sp sp' s fs Hf Hw Hw' Hs IH|f sp g s fs Hf Hfn Hw Hn Hg Hs IH].
  - destruct f as [|c f]; [cbn; lia|]. inversion Hf as [|? ? [Hc _] _]. cbn [app]. rewrite skip_inked by exact Hc. cbn [kept length]. lia.
  - assert (L : (length (kept (f :: fs)) <= S (length (kept fs)))%nat). { destruct fs; [inversion Hs|]. rewrite kept_more. cbn. lia. }
    pose proof (skip_length s). destruct f as [|c f].
    + cbn [app]. rewrite skip_white by exact Hw. rewrite skip_inked by (unfold inked; lia). cbn [length]. rewrite app_length. lia.
    + inversion Hf as [|? ? [Hc _] _]. cbn [app]. rewrite skip_inked by exact Hc. cbn [length]. rewrite !app_length. cbn [length]. rewrite app_length. lia.
  - pose proof (skip_length s). rewrite kept_more. destruct f as [|c f]; [congruence|]. inversion Hf as [|? ? [Hc _] _]. cbn [app]. rewrite skip_inked by exact Hc. cbn [length]. rewrite !app_length. unfold bytes in *. lia.
Qed.
Fixpoint add_all (step : nat) (l : list bytes) (x : list (bytes * N)) : list (bytes * N) :=
  match l with [] => x | s :: l' => add_all (S step) l' (addstep s step x) end.
Definition inter_of (strings : list bytes) : list (bytes * N) := add_all 0 strings [].
Lemma fragment_unquoted s : fragment_text s = unquoted s. Proof. reflexivity. Qed.
Lemma more_reads fuel : forall step s fs x, fields s fs -> (length (kept fs) <= fuel)%nat -> more_steps fuel step (skip_space s) x = add_all step (map unquoted (kept fs)) x.
Proof.
  induction fuel as [|fuel IH]; intros step s fs x H Hf.
  - cbn [more_steps]. destruct (kept fs); [reflexivity|cbn in Hf; lia].
  - cbn [more_steps]. destruct (skip_space s) as [|c t] eqn:Es.
    + apply (proj1 (fields_empty _ _ H)) in Es. subst fs. reflexivity.
    + rewrite <- Es. destruct (load_fields _ _ H) as (s' & E & H'). rewrite E.
      assert (Hne : fs <> [[]]) by (intros E0; apply (proj2 (fields_empty _ _ H)) in E0; congruence).
      assert (Ek : kept fs = nth 0 fs [] :: kept (rest_fields fs)).
      { pose proof (fields_nonempty _ _ H). unfold rest_fields. destruct fs as [|f [|g fs]]; [congruence| |].
        - cbn [tl nth]. destruct f; [exfalso; apply Hne; reflexivity|reflexivity].
        - cbn [tl nth]. apply kept_more. }
      rewrite Ek in *. cbn [map add_all length] in *. exact (IH (S step) s' _ (addstep (fragment_text (nth 0 fs [])) step x) H' (le_S_n _ _ Hf)).
Qed.
Lemma mix_line_fields s fs : fields s fs -> mix_line (skip_space s) =
  if nonempty (nth 0 fs []) && nonempty (nth 1 fs []) && nonempty (nth 2 fs []) then Some (nth 0 fs [], inter_of (map unquoted (tl (kept fs)))) else None.
Proof.
  intros H. unfold mix_line. destruct (load_fields _ _ H) as (s1 & E1 & H1). rewrite E1. destruct (load_fields _ _ H1) as (s2 & E2 & H2). rewrite E2. destruct (load_fields _ _ H2) as (s3 & E3 & H3). rewrite E3. rewrite !nth_rest.
  destruct (nonempty (nth 0 fs [])) eqn:N0; [|reflexivity]. cbn [negb andb]. destruct (nonempty (nth 1 fs [])) eqn:N1; [|reflexivity]. cbn [negb andb]. destruct (nonempty (nth 2 fs [])) eqn:N2; [|reflexivity]. cbn [negb]. f_equal. f_equal.
  rewrite (more_reads _ _ _ _ _ H3) by apply (kept_length _ _ H3). destruct fs as [|a [|b [|c fs]]]; try discriminate. cbn [nth] in *. rewrite !kept_more. cbn [tl map]. unfold inter_of.
  assert (Ek : kept (c :: fs) = c :: kept (rest_fields (rest_fields (rest_fields (a :: b :: c :: fs))))).
  { unfold rest_fields. cbn [tl]. destruct fs as [|d fs]; [cbn; destruct c; [discriminate|reflexivity]|]. cbn [tl]. apply kept_more. }
  rewrite Ek. reflexivity.
Qed.
Lemma nonempty_iff (s : bytes) : nonempty s = true <-> s <> []. Proof. destruct s; cbn; split; congruence. Qed.
Lemma mix_line_says s x : mix_says s x -> mix_line (skip_space s) = Some (ml_cond x, inter_of (ml_strings x)).
Proof.
  intros (fs & one & two & more & Hf & Hfs & Hc & H1 & H2 & Hs). rewrite (mix_line_fields _ _ Hf).
  assert (E : kept fs = ml_cond x :: one :: two :: more /\ nth 0 fs [] = ml_cond x /\ nth 1 fs [] = one /\ nth 2 fs [] = two).
  { destruct Hfs as [[-> Hl]| ->]; [split; [apply kept_all; [discriminate|exact Hl]|auto]|split; [apply kept_snoc|cbn; auto]]. }
  destruct E as (Ek & -> & -> & ->). rewrite !(proj2 (nonempty_iff _)) by assumption. cbn [andb]. rewrite Ek, Hs. reflexivity.
Qed.
Lemma mix_line_total s fs x inter : fields s fs -> mix_line (skip_space s) = Some (x, inter) -> exists strings, mix_says s (MixLine x strings) /\ inter = inter_of strings.
Proof.
  intros Hf H. rewrite (mix_line_fields _ _ Hf) in H. destruct (nonempty (nth 0 fs []) && nonempty (nth 1 fs []) && nonempty (nth 2 fs [])) eqn:E; [|discriminate]. apply some_inj in H. injection H as <- <-.
  apply andb_true_iff in E. destruct E as [E E2]. apply andb_true_iff in E. destruct E as [E0 E1]. apply nonempty_iff in E0, E1, E2. exists (map unquoted (tl (kept fs))). split; [|reflexivity].
  destruct fs as [|a [|b [|c fs]]]; cbn [nth] in *; try congruence. destruct (kept_cases (a :: b :: c :: fs)) as [[Hl Ek]|Ek]; [discriminate| |].
  - rewrite Ek. exists (a :: b :: c :: fs), b, c, fs. repeat match goal with |- _ /\ _ => split end; cbn [ml_cond ml_strings]; auto.
  - destruct (kept (a :: b :: c :: fs)) as [|a' [|b' [|c' l]]] eqn:K; cbn [app] in Ek; [discriminate|injection Ek; intros; congruence|injection Ek; intros; congruence|]. injection Ek as <- <- <- E.
    exists (a :: b :: c :: fs), b, c, l. repeat match goal with |- _ /\ _ => split end; cbn [ml_cond ml_strings tl]; auto. right. rewrite E. reflexivity.
Qed.
Lemma says_ink s x : mix_says s x -> Forall (fun t => Forall inked t) (ml_strings x).
Proof.
  intros (fs & one & two & more & Hf & Hfs & _ & _ & _ & ->).
  assert (A : Forall (fun t => Forall inked t) fs). { clear Hfs. induction Hf as [f sp H Hw|f sp sp' s fs H Hw Hw' Hs IH|f sp g s fs H Hfn Hw Hn Hg Hs IH]; constructor; try exact IH; try constructor; revert H; apply Forall_impl; intros c [Hc _]; exact Hc. }
  assert (B : incl (one :: two :: more) fs). { destruct Hfs as [[-> _]| ->]; intros t Ht; [right; exact Ht|apply in_or_app; left; right; exact Ht]. }
  apply Forall_forall. intros t Ht. apply in_map_iff in Ht. destruct Ht as (t0 & <- & Ht). rewrite Forall_forall in A. unfold unquoted. destruct (list_eq_dec N.eq_dec t0 (text "''")); [constructor|apply A, B, Ht].
Qed.

(** ** Sets of strings *)
Definition key_lt (p q : bytes * N) : Prop := strcmp (fst p) (fst q) = Lt.
Fixpoint sorted (l : list (bytes * N)) : Prop := match l with [] => True | p :: l' => Forall (key_lt p) l' /\ sorted l' end.
Lemma addstep_keys mix step l p : In p (map fst (addstep mix step l)) <-> p = mix \/ In p (map fst l).
Proof.
  induction l as [|[s f] l IH]; cbn [addstep]; [cbn; intuition|]. destruct (strcmp s mix) eqn:E.
  - apply strcmp_eq in E. subst s. cbn [map fst]. split; [intros [H|H]; [left; congruence|right; right; exact H]|]. intros [H|H]; [left; congruence|exact H].
  - cbn [map fst In]. rewrite IH. tauto.
  - cbn [map fst In]. intuition.
Qed.
Lemma addstep_sorted mix step l : sorted l -> sorted (addstep mix step l).
Proof.
  induction l as [|[s f] l IH]; intros Hs; cbn [addstep]; [cbn; auto|]. destruct Hs as [Ha Hs]. destruct (strcmp s mix) eqn:E.
  - split; [exact Ha|exact Hs].
  - split; [|apply IH, Hs]. apply Forall_forall. intros [t g] Hin. assert (K : In t (map fst (addstep mix step l))) by (apply in_map_iff; exists (t, g); auto). apply addstep_keys in K. unfold key_lt. cbn [fst]. destruct K as [->|K]; [exact E|].
    apply in_map_iff in K. destruct K as ([t' g'] & K1 & K2). cbn in K1. subst t'. rewrite Forall_forall in Ha. apply (Ha _ K2).
  - assert (K : strcmp mix s = Lt) by (rewrite strcmp_antisym, E; reflexivity). split; [|split; assumption]. constructor; [exact K|]. revert Ha. apply Forall_impl. intros q Hq. unfold key_lt in *. cbn [fst] in *. eapply strcmp_trans; eauto.
Qed.
Lemma addstep_in mix step l s f : sorted l -> In (s, f) (addstep mix step l) ->
  s <> mix /\ In (s, f) l \/ s = mix /\ ((exists f0, In (mix, f0) l /\ f = N.lor f0 (2 ^ N.of_nat step) mod 256) \/ ~ In mix (map fst l) /\ f = 2 ^ N.of_nat step mod 256).
Proof.
  induction l as [|[t g] l IH]; intros Hs; cbn [addstep].
  - intros [E|[]]. injection E as <- <-. right. split; [reflexivity|]. right. split; [intros []|reflexivity].
  - destruct Hs as [Ha Hs]. destruct (strcmp t mix) eqn:E.
    + pose proof (strcmp_eq _ _ E). subst t. intros [K|K].
      * injection K as <- <-. right. split; [reflexivity|]. left. exists g. split; [left; reflexivity|reflexivity].
      * left. split; [|right; exact K]. intros ->. rewrite Forall_forall in Ha. specialize (Ha _ K). unfold key_lt in Ha. cbn [fst] in Ha. rewrite strcmp_refl in Ha. discriminate.
    + intros [K|K].
      * injection K as <- <-. left. split; [intros ->; rewrite strcmp_refl in E; discriminate|left; reflexivity].
      * destruct (IH Hs K) as [[H1 H2]|[H1 H2]]; [left; split; [exact H1|right; exact H2]|right; split; [exact H1|]]. destruct H2 as [(f0 & H2 & H3)|[H2 H3]]; [left; exists f0; split; [right; exact H2|exact H3]|right; split; [|exact H3]].
        cbn [map fst]. intros [K'|K']; [|contradiction]. subst t. rewrite strcmp_refl in E. discriminate.
    + intros [K|K].
      * injection K as <- <-. right. split; [reflexivity|]. right. split; [|reflexivity]. cbn [map fst]. intros [K'|K']; [subst t; rewrite strcmp_refl in E; discriminate|].
        apply in_map_iff in K'. destruct K' as ([t' g'] & K1 & K2). cbn in K1. subst t'. rewrite Forall_forall in Ha. specialize (Ha _ K2). unfold key_lt in Ha. cbn [fst] in Ha. congruence.
      * left. split; [|exact K]. intros ->. destruct K as [K|K]; [injection K as -> ->; rewrite strcmp_refl in E; discriminate|]. rewrite Forall_forall in Ha. specialize (Ha _ K). unfold key_lt in Ha. cbn [fst] in Ha. congruence.
Qed.
Definition set_of (done : list bytes) (x : list (bytes * N)) : Prop :=
  sorted x /\ (forall s, In s (map fst x) <-> In s done) /\ forall s f k, In (s, f) x -> (N.testbit f (N.of_nat k) = true <-> (k < 8)%nat /\ nth_error done k = Some s).
Lemma mod256_testbit f k : N.testbit (f mod 256) (N.of_nat k) = N.testbit f (N.of_nat k) && (k <? 8)%nat.
Proof.
  change 256 with (2 ^ 8). destruct (Nat.ltb_spec k 8); [rewrite N.mod_pow2_bits_low by lia; rewrite andb_true_r; reflexivity|rewrite N.mod_pow2_bits_high by lia; rewrite andb_false_r; reflexivity].
Qed.
Lemma set_of_step done x mix : set_of done x -> set_of (done ++ [mix]) (addstep mix (length done) x).
Proof.
  intros (H1 & H2 & H3). split; [apply addstep_sorted, H1|]. split.
  - intros s. rewrite addstep_keys, in_app_iff, H2. cbn [In]. intuition.
  - intros s f k Hin. assert (Hn : nth_error (done ++ [mix]) k = Some s <-> nth_error done k = Some s \/ k = length done /\ s = mix).
    { destruct (Nat.lt_ge_cases k (length done)) as [Hk|Hk].
      - rewrite nth_error_app1 by exact Hk. split; [auto|intros [K|[K _]]; [exact K|lia]].
      - rewrite nth_error_app2 by exact Hk. rewrite (proj2 (nth_error_None done k)) by exact Hk. destruct (k - length done)%nat as [|m] eqn:Em; cbn [nth_error].
        + split; [intros K; injection K as ->; right; split; [lia|reflexivity]|intros [K|[_ ->]]; [discriminate|reflexivity]].
        + split; [destruct m; discriminate|intros [K|[K _]]; [discriminate|lia]]. }
    rewrite Hn. destruct (addstep_in _ _ _ _ _ H1 Hin) as [[K1 K2]|[-> [(f0 & K1 & ->)|[K1 ->]]]].
    + rewrite (H3 _ _ k K2). split; [intros [? ?]; auto|intros [? [?|[_ ?]]]; [auto|contradiction]].
    + rewrite mod256_testbit, N.lor_spec, N.pow2_bits_eqb, andb_true_iff, orb_true_iff, Nat.ltb_lt, N.eqb_eq, (H3 _ _ k K1). split.
      * intros [[[_ K]|K] K']; [auto|]. split; [exact K'|]. right. split; [lia|reflexivity].
      * intros [K [K'|[K' _]]]; (split; [|exact K]); [left; auto|right; lia].
    + rewrite mod256_testbit, N.pow2_bits_eqb, andb_true_iff, Nat.ltb_lt, N.eqb_eq. split.
      * intros [K K']. split; [exact K'|]. right. split; [lia|reflexivity].
      * intros [K [K'|[K' _]]]; (split; [|exact K]); [|lia]. exfalso. apply K1, H2. eapply nth_error_In, K'.
Qed.
Lemma inter_set strings : set_of strings (inter_of strings).
Proof.
  unfold inter_of. assert (L : forall l done x, set_of done x -> set_of (done ++ l) (add_all (length done) l x)).
  { induction l as [|s l IH]; intros done x H; cbn [add_all]; [rewrite app_nil_r; exact H|]. specialize (IH (done ++ [s]) (addstep s (length done) x) (set_of_step _ _ s H)). rewrite app_length, Nat.add_1_r, <- app_assoc in IH. exact IH. }
  apply (L strings [] []). split; [exact I|]. split; [reflexivity|intros s f k []].
Qed.
