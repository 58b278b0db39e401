(** * MakeichProofs4: the bytes and the index; files. *)
From Coq Require Import String.
From Verif Require Import Base Serial WordTree TreeSpec Stems StemSpec SerialProofs DictProofs GramMap RusRuntime LevelSpec RusSpec Compile CompileSpec CompileProofs Api EngCompile EngCompileSpec EngCompileProofs Utf8 RusText Tfc TfcSpec TfcProofs TfcProofs2 TfcProofs3 TfcProofs4 TfcProofs5 TfcProofs6 Makeich MakeichSpec MakeichProofs MakeichProofs2 MakeichProofs3.
Local Open Scope N_scope.
Local Open Scope list_scope.
Notation length := List.length.

(** ** Layout *)
Definition sizes (l : list (list (bytes * N))) : N := fold_right (fun x n => ser_size x + n) 0 l.
Lemma ser_size_pos x : 1 <= ser_size x. Proof. unfold ser_size. lia. Qed.
Lemma offsets_at l : forall off pre k x, off + sizes l <= 2 ^ 16 -> N.of_nat (length pre) = off -> nth_error l k = Some x ->
  exists pre' rest, pre ++ flat_map inter_ser l = pre' ++ inter_ser x ++ rest /\ N.of_nat (length pre') = nth k (inter_offsets off l) 0 /\ off <= nth k (inter_offsets off l) 0 < 2 ^ 16.
Proof.
  induction l as [|y l IH]; intros off pre k x Hs Hp Hk; [destruct k; discriminate|]. unfold sizes in Hs. cbn [fold_right] in Hs. fold (sizes l) in Hs. pose proof (ser_size_pos y) as Hy. destruct k as [|k]; cbn [nth_error inter_offsets nth flat_map] in *.
  - apply some_inj in Hk. subst y. exists pre, (flat_map inter_ser l). split; [reflexivity|]. split; [exact Hp|lia].
  - assert (Hpos : 1 <= sizes l). { destruct l as [|z l]; [destruct k; discriminate|]. unfold sizes. cbn [fold_right]. pose proof (ser_size_pos z). lia. }
    rewrite inter_len_size by lia. rewrite N.mod_small by lia. destruct (IH (off + ser_size y) (pre ++ inter_ser y) k x) as (pre' & rest & E & K1 & K2); [lia|rewrite app_length, Nat2N.inj_add, inter_ser_length; lia|exact Hk|].
    exists pre', rest. split; [rewrite <- E, <- app_assoc; reflexivity|]. split; [exact K1|lia].
Qed.
Lemma flat_bytes {X} (f : X -> bytes) l : Forall (fun x => is_bytes (f x)) l -> is_bytes (flat_map f l).
Proof. induction 1; cbn [flat_map]; [constructor|]. apply Forall_app. auto. Qed.
Definition steps_fit (sts : list mstep) : Prop := Forall (fun st => fits_line (ml_strings (snd st))) sts /\ 6 + fold_right (fun st n => mix_size (snd st) + n) 0 sts <= 2 ^ 16.
Lemma store_bytes sts co : inv sts co -> steps_fit sts -> is_bytes (fst (mix_store co)).
Proof.
  intros Hi [Hf _]. cbn [mix_store fst]. apply Forall_app. split; [apply Forall_forall; intros c Hc; assert (K : forallb (fun c => c <? 256) (text "interc") = true) by reflexivity; rewrite forallb_forall in K; apply N.ltb_lt, K, Hc|].
  apply flat_bytes. destruct (iv_sets _ _ Hi) as [Hz _]. revert Hz. apply Forall_impl. intros x (st & Hst & ->). apply inter_bytes. rewrite Forall_forall in Hf. apply Hf, Hst.
Qed.
Lemma stands_refers sts co cps sts' : inv sts co -> steps_fit sts -> incl sts' sts -> Forall2 (stands (co_inter co)) cps sts' ->
  Forall2 (refers (fst (mix_store co))) (cond_refs (inter_offsets 6 (co_inter co)) cps) (map snd sts').
Proof.
  intros Hi [Hf Hs] Hin H. unfold cond_refs. induction H as [|cp st cps sts' [H1 H2] H IH]; cbn [map]; [constructor|]. constructor; [|apply IH; intros x Hx; apply Hin; right; exact Hx].
  destruct (iv_sets _ _ Hi) as [_ Hz]. destruct (offsets_at (co_inter co) 6 (text "interc") (snd cp) (inter_st st)) as (pre & rest & E & K1 & K2); [unfold sizes; lia|reflexivity|exact H2|]. unfold refers. cbn [fst snd]. split; [lia|]. split; [exact H1|].
  assert (Hfit : fits_line (ml_strings (snd st))) by (rewrite Forall_forall in Hf; apply Hf, Hin; left; reflexivity).
  exists (mx_of (length (ml_strings (snd st))) (inter_st st)). split; [|apply mx_tells, Hfit]. split; [apply mx_ok, Hfit|]. exists pre, rest. split; [|exact K1]. unfold inter_st. rewrite <- (inter_ser_mix _ Hfit). exact E.
Qed.
Lemma lookup_map {X Y} (f : X -> Y) n l : lookup n (map (fun p => (fst p, f (snd p))) l) = option_map f (lookup n l).
Proof. induction l as [|[a b] l IH]; cbn [map lookup fst snd]; [reflexivity|]. destruct (list_eq_dec N.eq_dec n a); [reflexivity|exact IH]. Qed.
Lemma store_lookup co n : lookup n (snd (mix_store co)) = option_map (fun i => cond_refs (inter_offsets 6 (co_inter co)) (nth i (co_condi co) [])) (lookup n (co_index co)).
Proof. apply (lookup_map (fun i => cond_refs (inter_offsets 6 (co_inter co)) (nth i (co_condi co) []))). Qed.

(** ** Names *)
Lemma step_in ds st : In st (steps_of ds) <-> exists d x, In d ds /\ In x (md_lines d) /\ st = (md_names d, x).
Proof.
  unfold steps_of. rewrite in_flat_map. split; [intros (d & Hd & H); apply in_map_iff in H; destruct H as (x & <- & Hx); eauto|intros (d & x & Hd & Hx & ->); exists d; split; [exact Hd|]; apply in_map_iff; eauto].
Qed.
Lemma lines_step d : md_lines d <> [] -> exists x, In x (md_lines d). Proof. destruct (md_lines d) as [|x l]; [congruence|]. exists x. left. reflexivity. Qed.
Lemma related_srel ds a b : related ds a b <-> srel (steps_of ds) a b.
Proof.
  split.
  - induction 1 as [|n m k d Hd Hl Hn Hm H IH]; [constructor|]. destruct (lines_step d Hl) as [x Hx]. apply srel_step with m (md_names d, x); [apply step_in; eauto|exact Hn|exact Hm|exact IH].
  - induction 1 as [|n m k st Hst Hn Hm H IH]; [constructor|]. apply step_in in Hst. destruct Hst as (d & x & Hd & Hx & ->). apply rel_step with m d; [exact Hd|intros E; rewrite E in Hx; destruct Hx|exact Hn|exact Hm|exact IH].
Qed.
Lemma mixes_none ds n : mixes_of ds n = [] <-> forall st, In st (steps_of ds) -> ~ In n (fst st).
Proof.
  unfold mixes_of. split.
  - intros E st Hst Hn. apply step_in in Hst. destruct Hst as (d & x & Hd & Hx & ->). cbn [fst] in Hn. assert (K : In x []); [|destruct K]. rewrite <- E. apply in_flat_map. exists d. split; [exact Hd|]. destruct (name_in n (md_names d)); [exact Hx|contradiction].
  - intros H. induction ds as [|d ds IH]; [reflexivity|]. cbn [flat_map]. rewrite IH by (intros st Hst; apply H; apply step_in in Hst; destruct Hst as (d' & x & Hd & Hx & ->); apply step_in; exists d', x; split; [right; exact Hd|auto]). rewrite app_nil_r.
    destruct (name_in n (md_names d)) as [Hn|]; [|reflexivity]. destruct (md_lines d) as [|x l] eqn:E; [reflexivity|]. exfalso. apply (H (md_names d, x)); [|exact Hn]. apply step_in. exists d, x. split; [left; reflexivity|]. split; [rewrite E; left; reflexivity|reflexivity].
Qed.
Lemma srel_lookup sts co a b : inv sts co -> srel sts a b -> forall i, lookup a (co_index co) = Some i -> lookup b (co_index co) = Some i.
Proof.
  intros Hi. induction 1 as [|n m k st Hst Hn Hm H IH]; intros i E; [exact E|]. apply IH. destruct (iv_share _ _ Hi st Hst) as (_ & j & Hj). rewrite (Hj m Hm). rewrite (Hj n Hn) in E. exact E.
Qed.
Lemma some_like (co : collector) i l : (exists n, In n l /\ lookup n (co_index co) = Some i) \/ (forall n, In n l -> lookup n (co_index co) <> Some i).
Proof.
  induction l as [|n l [(m & H1 & H2)|IH]]; [right; intros n []|left; exists m; split; [right; exact H1|exact H2]|]. destruct (lookup n (co_index co)) as [j|] eqn:E.
  - destruct (Nat.eq_dec j i) as [->|Hn]; [left; exists n; split; [left; reflexivity|exact E]|]. right. intros m [<-|Hm]; [congruence|apply IH, Hm].
  - right. intros m [<-|Hm]; [congruence|apply IH, Hm].
Qed.
Lemma filter_all {X} (p : X -> bool) l : (forall x, In x l -> p x = true) -> filter p l = l.
Proof. induction l as [|x l IH]; intros H; [reflexivity|]. cbn [filter]. rewrite (H x (or_introl eq_refl)), IH by (intros y Hy; apply H; right; exact Hy). reflexivity. Qed.
Lemma group_filter ds co name i : inv (steps_of ds) co -> lookup name (co_index co) = Some i -> forall ds', incl ds' ds ->
  group (related ds name) ds' (map snd (filter (at_index (co_index co) i) (steps_of ds'))).
Proof.
  intros Hi Hn. induction ds' as [|d ds' IH]; intros Hin; [constructor|]. assert (IH' := IH (fun x Hx => Hin x (or_intror Hx))). assert (Hd : In d ds) by (apply Hin; left; reflexivity). unfold steps_of. cbn [flat_map]. fold (steps_of ds'). rewrite filter_app, map_app.
  destruct (some_like co i (md_names d)) as [(n & K1 & K2)|K].
  - rewrite filter_all.
    + rewrite map_map. cbn [snd]. rewrite map_id. apply gr_in with n; [exact K1| |exact IH']. apply related_srel. eapply iv_rel; eauto.
    + intros st Hst. assert (Hst' : In st (steps_of ds)) by (apply in_map_iff in Hst; destruct Hst as (x & <- & Hx); apply step_in; eauto). destruct (iv_share _ _ Hi _ Hst') as (Hne & j & Hj). apply in_map_iff in Hst. destruct Hst as (x & <- & Hx). cbn [fst] in *. unfold at_index. cbn [fst].
      destruct (md_names d) as [|m l] eqn:Em; [congruence|]. rewrite (Hj m (or_introl eq_refl)). rewrite (Hj n K1) in K2. apply some_inj in K2. subst j. apply Nat.eqb_refl.
  - rewrite filter_none.
    + cbn [map app]. apply gr_out; [|exact IH']. intros n Hin' R. apply (K n Hin'). apply related_srel in R. eapply srel_lookup; eauto.
    + intros st Hst. apply in_map_iff in Hst. destruct Hst as (x & <- & Hx). unfold at_index. cbn [fst]. destruct (md_names d) as [|m l] eqn:Em; [reflexivity|]. specialize (K m (or_introl eq_refl)). destruct (lookup m (co_index co)) as [j|]; [|reflexivity]. apply Nat.eqb_neq. congruence.
Qed.
Lemma grouped ds co : inv (steps_of ds) co -> steps_fit (steps_of ds) -> mixes_grouped ds (fst (mix_store co)) (snd (mix_store co)).
Proof.
  intros Hi Hf. split; [eapply store_bytes; eauto|]. split.
  - intros name. rewrite store_lookup, mixes_none, <- (iv_none _ _ Hi). destruct (lookup name (co_index co)); cbn; split; congruence.
  - intros name refs E. rewrite store_lookup in E. destruct (lookup name (co_index co)) as [i|] eqn:En; [|discriminate]. cbn [option_map] in E. apply some_inj in E. subst refs. exists (map snd (filter (at_index (co_index co) i) (steps_of ds))). split; [apply (group_filter ds co name i Hi En), incl_refl|].
    apply stands_refers with (steps_of ds); [exact Hi|exact Hf|apply incl_filter|]. apply (iv_refs _ _ Hi). eapply iv_bound; eauto.
Qed.
Lemma related_same ds a b : consistent ds -> related ds a b -> forall d, In d ds -> md_lines d <> [] -> (In a (md_names d) <-> In b (md_names d)).
Proof.
  intros [_ Hc]. induction 1 as [|n m k d' Hd' Hl Hn Hm H IH]; intros d Hd Hld; [reflexivity|]. rewrite <- (IH d Hd Hld). destruct (Hc d d' Hd Hd' Hld Hl) as [S|D]; [rewrite !S; tauto|]. split; intros K; exfalso; apply (D _ K); assumption.
Qed.
Lemma group_own ds name : consistent ds -> forall ds' xs, incl ds' ds -> group (related ds name) ds' xs -> xs = mixes_of ds' name.
Proof.
  intros Hc ds' xs Hin H. induction H as [|d ds' xs n Hn R H IH|d ds' xs Hn H IH]; [reflexivity| |]; unfold mixes_of; cbn [flat_map]; fold (mixes_of ds' name); rewrite <- IH by (intros x Hx; apply Hin; right; exact Hx).
  - destruct (name_in name (md_names d)) as [|K]; [reflexivity|]. destruct (md_lines d) as [|x l] eqn:E; [reflexivity|]. exfalso. apply K. apply (related_same ds name n Hc R d); [apply Hin; left; reflexivity|congruence|exact Hn].
  - destruct (name_in name (md_names d)) as [K|]; [|reflexivity]. exfalso. apply (Hn name K). constructor.
Qed.
Lemma grouped_mean ds b ix : consistent ds -> mixes_grouped ds b ix -> mixes_mean ds b ix.
Proof. intros Hc (H1 & H2 & H3). split; [exact H1|]. split; [exact H2|]. intros name refs E. destruct (H3 _ _ E) as (xs & Hg & Hr). rewrite <- (group_own ds name Hc ds xs (incl_refl _) Hg). exact Hr. Qed.
Lemma consistent_agree ds : consistent ds -> steps_agree (steps_of ds).
Proof.
  intros [H1 H2]. split.
  - intros st Hst. apply step_in in Hst. destruct Hst as (d & x & Hd & Hx & ->). apply (H1 d Hd). intros E. rewrite E in Hx. destruct Hx.
  - intros st st' Hst Hst'. apply step_in in Hst, Hst'. destruct Hst as (d & x & Hd & Hx & ->). destruct Hst' as (d' & x' & Hd' & Hx' & ->). apply (H2 d d' Hd Hd'); intros E; [rewrite E in Hx; destruct Hx|rewrite E in Hx'; destruct Hx'].
Qed.

(** ** Files *)
Lemma fields_start s fs : fields s fs -> nth 0 fs [] <> [] -> skip_space s = s.
Proof.
  intros H Hn. destruct H as [f sp Hf Hw|f sp sp' s fs Hf Hw Hw' Hs|f sp g s fs Hf Hfn Hw Hn' Hg Hs]; cbn [nth] in Hn; (destruct f as [|c f]; [congruence|]); inversion Hf as [|? ? [Hc _] _]; cbn [app]; apply skip_inked, Hc.
Qed.
Lemma line_says_mix s x : mix_says s x -> mix_line s = Some (ml_cond x, inter_of (ml_strings x)).
Proof.
  intros H. pose proof (mix_line_says _ _ H) as K. destruct H as (fs & one & two & more & Hf & Hfs & Hc & _). rewrite (fields_start s fs Hf) in K; [exact K|]. destruct Hfs as [[-> _]| ->]; exact Hc.
Qed.
Lemma add_interchange_one h x co : add_interchange h (ml_cond x) (inter_of (ml_strings x)) co = add_one (names_in h, x) co.
Proof. unfold add_interchange, add_one, put_set, inter_st. cbn [fst snd]. reflexivity. Qed.
Lemma mix_body_reads h body xs ss : Forall (fun s => s <> [125]) body -> Forall2 mix_says body xs -> forall co,
  mix_body h co (body ++ [125] :: ss) = match add_steps (map (fun x => (names_in h, x)) xs) co with None => None | Some co => Some (co, ss) end.
Proof.
  intros Hn H. induction H as [|s x body xs Hs H IH]; intros co; cbn [app mix_body map add_steps]; [reflexivity|]. inversion Hn as [|? ? Hs' Hn']. subst. destruct (list_eq_dec N.eq_dec s [125]); [contradiction|].
  rewrite (line_says_mix _ _ Hs), add_interchange_one. destruct (add_one (names_in h, x) co) as [co1|]; [apply IH, Hn'|reflexivity].
Qed.
Lemma mix_words : mix_commands = map cyr [".таблица"; ".table"]%string. Proof. vm_compute. reflexivity. Qed.
Lemma mix_words_ok : Forall no_space mix_commands. Proof. apply no_space_ok. vm_compute. reflexivity. Qed.
Lemma commanded_mix s rest : commanded [".таблица"; ".table"]%string s rest -> first_command mix_commands s = Some rest.
Proof. intros (cmd & c & Hin & Hc & ->). eapply (first_command_found _ _ rest (cyr cmd) c); [exact mix_words_ok| |apply space_iff, Hc|reflexivity]. rewrite mix_words. apply in_map, Hin. Qed.
Lemma mix_apart s rest : commanded [".таблица"; ".table"]%string s rest -> first_command include_commands s = None.
Proof. intros (cmd & c & Hin & H). apply (commanded_apart s rest). exists cmd, c. split; [|exact H]. cbn [In] in *. tauto. Qed.
Lemma mix_commanded s rest : first_command mix_commands s = Some rest -> commanded [".таблица"; ".table"]%string s rest.
Proof.
  intros H. destruct (first_command_some _ _ _ H) as (cmd & c & Hin & Hc & ->). rewrite mix_words in Hin. apply in_map_iff in Hin. destruct Hin as (k & <- & Hk). exists k, c. split; [exact Hk|]. split; [apply space_iff, Hc|reflexivity].
Qed.
Lemma steps_of_app a b : steps_of (a ++ b) = steps_of a ++ steps_of b. Proof. apply flat_map_app. Qed.
Lemma mix_tab_reads header names body xs ss co : mix_declares header names -> Forall (fun s => s <> [125]) body -> Forall2 mix_says body xs ->
  mix_tab co (header :: [123] :: body ++ [125] :: ss) = match add_steps (map (fun x => (names, x)) xs) co with None => None | Some co => Some (co, ss) end.
Proof.
  intros (rest & Hc & Hw & Hn) Hb Hs. unfold mix_tab. rewrite (commanded_mix _ _ Hc). rewrite (trim_some _ Hw). cbn [negb]. destruct (list_eq_dec N.eq_dec [123] [123]); [|congruence]. rewrite (mix_body_reads _ _ _ _ Hb Hs), (split_names_in _ _ Hn). reflexivity.
Qed.
Scheme md_ind := Minimality for mixes_defined Sort Prop
  with mll_ind := Minimality for mixes_listed Sort Prop.
Combined Scheme mixes_ind from md_ind, mll_ind.
Lemma mixes_read fs conv :
  (forall depth name ds, mixes_defined fs conv depth name ds -> forall co, mix_file fs conv depth name co = add_steps (steps_of ds) co) /\
  (forall depth name ss ds, mixes_listed fs conv depth name ss ds -> forall steps co, (length ss <= steps)%nat -> mix_lines (mix_file fs conv depth) steps name ss co = add_steps (steps_of ds) co).
Proof.
  apply (mixes_ind fs conv (fun depth name ds => forall co, mix_file fs conv depth name co = add_steps (steps_of ds) co)
    (fun depth name ss ds => forall steps co, (length ss <= steps)%nat -> mix_lines (mix_file fs conv depth) steps name ss co = add_steps (steps_of ds) co)).
  - intros depth name file ss ds Hf Hs Hd IH co. cbn [mix_file]. rewrite Hf. rewrite (source_says _ _ _ Hs). apply IH. reflexivity.
  - intros depth name steps co H. destruct steps; reflexivity.
  - intros depth name s sub path ss ds ds' (sp & sp' & Hc & Hsp & Hsp' & Hn1 & Hn2) Hb Hf IH Hl IH' steps co H. destruct steps as [|steps]; [cbn in H; lia|]. cbn [mix_lines].
    rewrite (commanded_include _ _ Hc). rewrite (trim_name _ _ _ Hsp Hsp' Hn1 Hn2). assert (E : nonempty sub = true) by (destruct Hn1 as (c & t & -> & _); reflexivity). rewrite E. rewrite (beside_opens _ _ _ Hb), IH, steps_of_app, add_steps_app.
    destruct (add_steps (steps_of ds) co); [|reflexivity]. apply IH'. cbn in H. lia.
  - intros depth name header names body xs ss ds Hh Hb Hs Hl IH steps co H. destruct steps as [|steps]; [cbn in H; lia|]. cbn [mix_lines].
    assert (Ea : first_command include_commands header = None) by (destruct Hh as (rest & Hc & _); apply (mix_apart _ _ Hc)). rewrite Ea, (mix_tab_reads _ _ _ _ ss co Hh Hb Hs). unfold steps_of. cbn [flat_map md_names md_lines]. fold (steps_of ds). rewrite add_steps_app.
    destruct (add_steps (map (fun x => (names, x)) xs) co); [|reflexivity]. apply IH. cbn [length] in H. rewrite app_length in H. cbn [length] in H. unfold bytes in *. lia.
Qed.
Lemma mix_body_total h lines : forall co co' rest, Forall inked_line lines -> mix_body h co lines = Some (co', rest) ->
  exists body xs, lines = body ++ [125] :: rest /\ Forall (fun s => s <> [125]) body /\ Forall2 mix_says body xs /\ add_steps (map (fun x => (names_in h, x)) xs) co = Some co'.
Proof.
  induction lines as [|s lines IH]; intros co co' rest Hi; cbn [mix_body]; [discriminate|]. inversion Hi as [|? ? Hs Hl]. subst. destruct (list_eq_dec N.eq_dec s [125]) as [->|Hne].
  - intros H. injection H as <- <-. exists [], []. repeat split; constructor.
  - destruct (mix_line s) as [[cond inter]|] eqn:El; [|discriminate]. destruct (add_interchange h cond inter co) as [co1|] eqn:Ea; [|discriminate]. intros H. destruct (IH _ _ _ Hl H) as (body & xs & -> & Hb & Hx & Ha).
    assert (Es : skip_space s = s) by (destruct Hs as (c & t & -> & Hc); apply skip_inked, Hc). destruct (fields_total (length s) s) as [fs Hfs]; [reflexivity|right; exact Hs|]. rewrite <- Es in El. destruct (mix_line_total _ _ _ _ Hfs El) as (strings & Hm & ->).
    exists (s :: body), (MixLine cond strings :: xs). split; [reflexivity|]. split; [constructor; assumption|]. split; [constructor; assumption|]. cbn [map add_steps]. rewrite <- add_interchange_one. cbn [ml_cond ml_strings]. rewrite Ea. exact Ha.
Qed.
Lemma mix_tab_total lines co co' rest : Forall inked_line lines -> mix_tab co lines = Some (co', rest) ->
  exists header names body xs, lines = header :: [123] :: body ++ [125] :: rest /\ mix_declares header names /\ Forall (fun s => s <> [125]) body /\ Forall2 mix_says body xs /\ add_steps (map (fun x => (names, x)) xs) co = Some co'.
Proof.
  intros Hi. unfold mix_tab. destruct lines as [|header [|brace lines]]; [discriminate|discriminate|]. destruct (first_command mix_commands header) as [r|] eqn:Ec; [|discriminate].
  destruct (nonempty (trim r)) eqn:En; [|discriminate]. cbn [negb]. destruct (list_eq_dec N.eq_dec brace [123]) as [->|]; [|discriminate]. intros H. inversion Hi as [|? ? _ Hi']. inversion Hi' as [|? ? _ Hl]. subst. destruct (mix_body_total _ _ _ _ _ Hl H) as (body & xs & -> & Hb & Hx & Ha).
  destruct (names_total (length r) r) as [ns Hns]; [reflexivity|]. exists header, ns, body, xs. split; [reflexivity|]. split; [|split; [exact Hb|split; [exact Hx|rewrite <- (split_names_in _ _ Hns); exact Ha]]].
  exists r. split; [apply mix_commanded, Ec|]. split; [|exact Hns]. intros Hw. unfold trim in En. rewrite trim_all in En by (apply white_space, Hw). discriminate.
Qed.
Lemma mixes_total fs conv : conv_white conv -> readable fs ->
  forall depth name co co', mix_file fs conv depth name co = Some co' -> exists ds, mixes_defined fs conv depth name ds /\ add_steps (steps_of ds) co = Some co'.
Proof.
  intros Hc Hf. induction depth as [|depth IHd]; intros name co co'; cbn [mix_file]; [discriminate|]. destruct (fs name) as [file|] eqn:Ef; [|discriminate].
  destruct (Hf _ _ Ef) as [lines Hlines]. pose proof (source_total conv _ _ Hlines) as Hsays. pose proof (source_inked conv file Hc) as Hink. intros H. cbv zeta in H.
  assert (L : forall steps ss co co', Forall inked_line ss -> (length ss <= steps)%nat -> mix_lines (mix_file fs conv depth) steps name ss co = Some co' -> exists ds, mixes_listed fs conv depth name ss ds /\ add_steps (steps_of ds) co = Some co').
  { clear H Hsays Hink. induction steps as [|steps IH]; intros ss f f' Hi Hl H.
    - destruct ss; [|cbn in Hl; lia]. cbn in H. injection H as <-. exists []. split; [constructor|reflexivity].
    - destruct ss as [|s ss]; [cbn in H; injection H as <-; exists []; split; [constructor|reflexivity]|]. cbn [mix_lines] in H. destruct (first_command include_commands s) as [h|] eqn:Ei.
      + destruct (nonempty (trim h)) eqn:En; [|discriminate]. destruct (mix_file fs conv depth (open_name name (trim h)) f) as [f1|] eqn:E1; [|discriminate]. destruct (IHd _ _ _ E1) as (ds & Hds & Ha). inversion Hi as [|? ? _ Hi']. subst.
        assert (Hlen : (length ss <= steps)%nat) by (cbn in Hl; lia). destruct (IH ss _ _ Hi' Hlen H) as (ds' & Hds' & Ha'). exists (ds ++ ds'). split; [|rewrite steps_of_app, add_steps_app, Ha; exact Ha']. apply mll_include with (trim h) (open_name name (trim h)); [|apply beside_total|exact Hds|exact Hds'].
        destruct (trim_named h En) as (sp & sp' & E & K1 & K2 & K3 & K4). exists sp, sp'. split; [rewrite <- E; apply include_commanded, Ei|auto].
      + destruct (mix_tab f (s :: ss)) as [[f1 rest]|] eqn:Em; [|discriminate]. destruct (mix_tab_total _ _ _ _ Hi Em) as (header & names & body & xs & E & Hh & Hb & Hx & Ha). rewrite E in *.
        assert (Hi' : Forall inked_line rest) by (inversion Hi as [|? ? _ Hj]; inversion Hj as [|? ? _ Hk]; subst; apply Forall_app in Hk; destruct Hk as [_ Hk]; inversion Hk; assumption).
        assert (Hlen : (length rest <= steps)%nat). { cbn [length] in Hl; rewrite app_length in Hl; cbn [length] in Hl. unfold bytes in *. lia. }
        destruct (IH rest _ _ Hi' Hlen H) as (ds & Hds & Ha'). exists (MixDef names xs :: ds). split; [apply mll_table; assumption|]. unfold steps_of. cbn [flat_map md_names md_lines]. fold (steps_of ds). rewrite add_steps_app, Ha. exact Ha'. }
  destruct (L _ _ _ _ Hink (le_n _) H) as (ds & Hds & Ha). exists ds. split; [|exact Ha]. econstructor; eauto.
Qed.
