(** * TfcProofs5: files. *)
From Coq Require Import String.
From Verif Require Import Base Serial WordTree TreeSpec Stems StemSpec SerialProofs DictProofs GramMap RusRuntime LevelSpec RusSpec Compile CompileSpec CompileProofs Api EngCompile EngCompileSpec EngCompileProofs Utf8 RusText Tfc TfcSpec TfcProofs TfcProofs2 TfcProofs3 TfcProofs4.
Local Open Scope N_scope.
Local Open Scope list_scope.
Notation length := List.length.

(** ** Commands *)
Definition no_space (s : bytes) : Prop := Forall (fun c => is_space c = false) s.
Lemma word_unique a : forall b c d r r', no_space a -> no_space b -> is_space c = true -> is_space d = true -> a ++ c :: r = b ++ d :: r' -> a = b /\ r = r'.
Proof.
  induction a as [|x a IH]; intros [|y b] c d r r' Ha Hb Hc Hd E; cbn [app] in E; injection E as E1 E2.
  - subst. auto.
  - subst. inversion Hb. congruence.
  - subst. inversion Ha. congruence.
  - subst y. inversion Ha. inversion Hb. subst. destruct (IH b c d r r' ltac:(assumption) ltac:(assumption) Hc Hd E2) as [-> ->]. auto.
Qed.
Lemma command_iff cmd s rest : command cmd s = Some rest <-> exists c, is_space c = true /\ s = cmd ++ c :: rest.
Proof.
  unfold command. split.
  - destruct (starts cmd s) eqn:E; [|discriminate]. apply starts_iff in E. destruct E as [r ->]. rewrite skipn_app, skipn_all, Nat.sub_diag. cbn [app skipn]. destruct r as [|c r]; [discriminate|]. destruct (is_space c) eqn:Ec; [|discriminate].
    intros H. injection H as ->. eauto.
  - intros (c & Hc & ->). rewrite (proj2 (starts_iff cmd (cmd ++ c :: rest))) by eauto. rewrite skipn_app, skipn_all, Nat.sub_diag. cbn [app skipn]. rewrite Hc. reflexivity.
Qed.
Lemma first_command_some cmds s rest : first_command cmds s = Some rest -> exists cmd c, In cmd cmds /\ is_space c = true /\ s = cmd ++ c :: rest.
Proof.
  induction cmds as [|cmd cmds IH]; cbn [first_command]; [discriminate|]. destruct (command cmd s) as [r|] eqn:E.
  - intros H. injection H as ->. apply command_iff in E. destruct E as (c & Hc & E). exists cmd, c. split; [left; reflexivity|auto].
  - intros H. destruct (IH H) as (cmd' & c & K1 & K2). exists cmd', c. split; [right; exact K1|exact K2].
Qed.
Lemma first_command_found cmds s rest cmd c : Forall no_space cmds -> In cmd cmds -> is_space c = true -> s = cmd ++ c :: rest -> first_command cmds s = Some rest.
Proof.
  intros Hns Hin Hc E. assert (Hs : exists r, first_command cmds s = Some r).
  { clear Hns. induction cmds as [|cmd' cmds IH]; [destruct Hin|]. cbn [first_command]. destruct (command cmd' s) as [r|] eqn:Ec; [eauto|]. destruct Hin as [->|Hin]; [|exact (IH Hin)]. rewrite (proj2 (command_iff cmd s rest)) in Ec by eauto. discriminate. }
  destruct Hs as [r Hr]. rewrite Hr. destruct (first_command_some _ _ _ Hr) as (cmd' & c' & K1 & K2 & K3). rewrite Forall_forall in Hns. rewrite E in K3.
  destruct (word_unique _ _ _ _ _ _ (Hns _ Hin) (Hns _ K1) Hc K2 K3) as [_ ->]. reflexivity.
Qed.
Lemma no_space_ok l : forallb (forallb (fun c => negb (is_space c))) l = true -> Forall no_space l.
Proof. intros H. rewrite forallb_forall in H. apply Forall_forall. intros x Hx. specialize (H x Hx). rewrite forallb_forall in H. apply Forall_forall. intros c Hc. apply negb_true_iff, H, Hc. Qed.
Lemma table_words : Forall no_space table_commands. Proof. apply no_space_ok. vm_compute. reflexivity. Qed.
Lemma include_words : Forall no_space include_commands. Proof. apply no_space_ok. vm_compute. reflexivity. Qed.
Lemma table_list : table_commands = map cyr [".таблица"; ".table"; ".тип"; ".type"]%string. Proof. vm_compute. reflexivity. Qed.
Lemma include_list : include_commands = map cyr [".включить"; ".include"]%string. Proof. vm_compute. reflexivity. Qed.
Lemma commanded_table s rest : commanded [".таблица"; ".table"; ".тип"; ".type"]%string s rest -> first_command table_commands s = Some rest.
Proof.
  intros (cmd & c & Hin & Hc & ->). eapply (first_command_found _ _ rest (cyr cmd) c); [exact table_words| |apply space_iff, Hc|reflexivity]. rewrite table_list. apply in_map, Hin.
Qed.
Lemma commanded_include s rest : commanded [".включить"; ".include"]%string s rest -> first_command include_commands s = Some rest.
Proof.
  intros (cmd & c & Hin & Hc & ->). eapply (first_command_found _ _ rest (cyr cmd) c); [exact include_words| |apply space_iff, Hc|reflexivity]. rewrite include_list. apply in_map, Hin.
Qed.
Lemma words_apart : forallb (fun a => forallb (fun b => if list_eq_dec N.eq_dec a b then false else true) include_commands) table_commands = true.
Proof. vm_compute. reflexivity. Qed.
Lemma commanded_apart s rest : commanded [".таблица"; ".table"; ".тип"; ".type"]%string s rest -> first_command include_commands s = None.
Proof.
  intros (cmd & c & Hin & Hc & ->). destruct (first_command include_commands (cyr cmd ++ c :: rest)) as [r|] eqn:E; [|reflexivity]. exfalso. destruct (first_command_some _ _ _ E) as (cmd' & c' & K1 & K2 & K3).
  assert (Ht : In (cyr cmd) table_commands) by (rewrite table_list; apply in_map, Hin). pose proof table_words as T. pose proof include_words as I. rewrite Forall_forall in T, I.
  destruct (word_unique _ _ _ _ _ _ (T _ Ht) (I _ K1) (proj2 (space_iff c) Hc) K2 K3) as [Eq _]. pose proof words_apart as W. rewrite forallb_forall in W. specialize (W _ Ht). rewrite forallb_forall in W. specialize (W _ K1). rewrite Eq in W.
  destruct (list_eq_dec N.eq_dec cmd' cmd'); congruence.
Qed.

(** ** Paths *)
Lemma folder_none base : ~ In 47 base -> ~ In 92 base -> folder_of base = [].
Proof.
  induction base as [|c base IH]; intros H1 H2; [reflexivity|]. cbn [folder_of]. rewrite IH by (intros K; first [apply H1; right; exact K|apply H2; right; exact K]).
  destruct (N.eqb_spec c 47) as [->|]; [exfalso; apply H1; left; reflexivity|]. destruct (N.eqb_spec c 92) as [->|]; [exfalso; apply H2; left; reflexivity|]. reflexivity.
Qed.
Lemma folder_slash t c base : ~ In 47 base -> ~ In 92 base -> c = 47 \/ c = 92 -> folder_of (t ++ c :: base) = t ++ [c].
Proof.
  intros H1 H2 Hc. induction t as [|x t IH]; cbn [app folder_of].
  - rewrite folder_none by assumption. destruct Hc as [-> | ->]; reflexivity.
  - rewrite IH. destruct t; reflexivity.
Qed.
Lemma beside_opens from name path : beside from name path -> open_name from name = path.
Proof.
  intros (folder & base & -> & -> & H1 & H2 & [->|(t & c & -> & Hc)]); unfold open_name.
  - cbn [app]. rewrite folder_none by assumption. reflexivity.
  - rewrite <- app_assoc. cbn [app]. rewrite folder_slash by assumption. reflexivity.
Qed.
Lemma trim_name sp name sp' : white sp -> white sp' -> (exists c t, name = c :: t /\ inked c) -> (exists t c, name = t ++ [c] /\ inked c) -> trim (sp ++ name ++ sp') = name.
Proof.
  intros H H' (c & t & E & Hc) (t' & c' & E' & Hc'). unfold trim. rewrite app_assoc, trim_white by exact H'. rewrite E', app_assoc, trim_inked by exact Hc'. rewrite <- app_assoc, skip_white by exact H. rewrite <- E', E. apply skip_inked, Hc.
Qed.
Lemma trim_some rest : ~ white rest -> nonempty (trim rest) = true.
Proof.
  intros H. destruct (trim rest) eqn:E; [|reflexivity]. exfalso. apply H. unfold trim in E. clear H.
  assert (K : Forall (fun c => is_space c = true) (trim_end rest)). { revert E. induction (trim_end rest) as [|c l IH]; [constructor|]. cbn [skip_space]. destruct (is_space c) eqn:Ec; [|discriminate]. intros H. constructor; [exact Ec|exact (IH H)]. }
  clear E. induction rest as [|c l IH]; [constructor|]. cbn [trim_end] in K.
  destruct (trim_end l) as [|y m] eqn:El.
  - destruct (is_space c) eqn:Ec; [|inversion K; congruence]. constructor; [apply space_iff, Ec|apply IH; constructor].
  - inversion K as [|? ? K1 K2]. subst. constructor; [apply space_iff, K1|apply IH, K2].
Qed.

(** ** Files *)
Scheme fd_ind := Minimality for file_defines Sort Prop
  with ld_ind := Minimality for lines_define Sort Prop.
Combined Scheme defines_ind from fd_ind, ld_ind.
Lemma collect_app ds ds' fl : collect (ds ++ ds') fl = collect ds' (collect ds fl).
Proof. apply fold_left_app. Qed.
Lemma make_tab_reads header names body its ss : declares header names -> body_says (GramInfo 0 3) body its -> its <> [] ->
  exists h, make_tab (header :: [123] :: body ++ [125] :: ss) = Some (h, norm its, ss) /\ names_in h = names.
Proof.
  intros (rest & Hc & Hw & Hn) Hb Hne. exists (trim rest). split; [|apply split_names_in, Hn]. unfold make_tab. rewrite (commanded_table _ _ Hc). rewrite (trim_some _ Hw). cbn [negb]. destruct (list_eq_dec N.eq_dec [123] [123]); [|congruence].
  rewrite (body_reads _ _ [] ss _ Hb). fold (norm its). destruct (norm its) as [|x t] eqn:E; [|reflexivity]. exfalso. destruct its as [|y its]; [congruence|]. assert (K : In y (norm (y :: its))) by (apply norm_in; left; reflexivity). rewrite E in K. destruct K.
Qed.
Lemma files_read fs conv :
  (forall depth name ds, file_defines fs conv depth name ds -> forall fl, tfc_file fs conv depth name fl = Some (collect ds fl)) /\
  (forall depth name ss ds, lines_define fs conv depth name ss ds -> forall steps fl, (length ss <= steps)%nat -> tfc_lines (tfc_file fs conv depth) steps name ss fl = Some (collect ds fl)).
Proof.
  apply (defines_ind fs conv (fun depth name ds => forall fl, tfc_file fs conv depth name fl = Some (collect ds fl))
    (fun depth name ss ds => forall steps fl, (length ss <= steps)%nat -> tfc_lines (tfc_file fs conv depth) steps name ss fl = Some (collect ds fl))).
  - intros depth name file ss ds Hf Hs Hd IH fl. cbn [tfc_file]. rewrite Hf. rewrite (source_says _ _ _ Hs). apply IH. reflexivity.
  - intros depth name steps fl H. destruct steps; reflexivity.
  - intros depth name s sub path ss ds ds' (sp & sp' & Hc & Hsp & Hsp' & Hn1 & Hn2) Hb Hf IH Hl IH' steps fl H. destruct steps as [|steps]; [cbn in H; lia|]. cbn [tfc_lines].
    rewrite (commanded_include _ _ Hc). cbv zeta. rewrite (trim_name _ _ _ Hsp Hsp' Hn1 Hn2). assert (E : nonempty sub = true) by (destruct Hn1 as (c & t & -> & _); reflexivity). rewrite E. rewrite (beside_opens _ _ _ Hb), IH.
    rewrite collect_app. apply IH'. cbn in H. lia.
  - intros depth name header names body its ss ds Hh Hb Hne Hl IH steps fl H. destruct steps as [|steps]; [cbn in H; lia|]. cbn [tfc_lines].
    destruct Hh as (rest & Hc & Hh). rewrite (commanded_apart _ _ Hc). destruct (make_tab_reads header names body its ss) as (h & -> & En); [exists rest; auto|exact Hb|exact Hne|].
    cbn [collect fold_left]. fold (collect ds). rewrite IH.
    + f_equal. unfold collect. f_equal. cbn [d_names d_lines]. rewrite <- En. reflexivity.
    + cbn [length] in H. rewrite app_length in H. cbn [length] in H. lia.
Qed.
(** ** Bounds *)
Lemma land_small n m k : n < 2 ^ k -> N.land n m < 2 ^ k.
Proof.
  intros H. rewrite <- (N.mod_small n (2 ^ k) H), <- N.land_ones. rewrite <- N.land_assoc, (N.land_comm (N.ones k)), N.land_assoc, N.land_ones. apply N.mod_lt, N.pow_nonzero. discriminate.
Qed.
Lemma gram_bounded s cg cg' : gram_says s cg cg' -> gi_info cg < 2 ^ 16 /\ gi_flags cg < 16 -> gi_info cg' < 2 ^ 16 /\ gi_flags cg' < 16.
Proof.
  assert (A : forall t cg cg', In t tokens -> applied t cg cg' -> gi_info cg < 2 ^ 16 /\ gi_flags cg < 16 -> gi_info cg' < 2 ^ 16 /\ gi_flags cg' < 16).
  { intros t a b Ht (H1 & _ & H3) [_ Hf]. split; [exact H1|]. rewrite H3. assert (Hs : tk_flags_set t < 16).
    { assert (K : forallb (fun t => tk_flags_set t <? 16) tokens = true) by (vm_compute; reflexivity). rewrite forallb_forall in K. apply N.ltb_lt, K, Ht. }
    change 16 with (2 ^ 4) in *. assert (L : forall n m, n < 2 ^ 4 -> m < 2 ^ 4 -> N.lor n m < 2 ^ 4). { intros n m Hn Hm. destruct (N.eq_dec n 0) as [->|?]; [exact Hm|]. destruct (N.eq_dec m 0) as [->|?]; [rewrite N.lor_0_r; exact Hn|].
      apply N.log2_lt_pow2; [destruct (N.lor n m) eqn:E; [apply N.lor_eq_0_iff in E; lia|lia]|]. rewrite N.log2_lor. apply N.max_lub_lt; apply N.log2_lt_pow2; lia. }
    apply L; [|exact Hs]. apply land_small, Hf. }
  intros H. induction H as [cg|t cg cg' Ht Ha|t s cg cg' cg'' Ht Ha Hs IH]; intros Hb; [exact Hb|eapply A; eauto|apply IH; eapply A; eauto].
Qed.
Lemma body_bounded cg body its : body_says cg body its -> gi_info cg < 2 ^ 16 /\ gi_flags cg < 16 -> Forall (fun it => fx_info it < 2 ^ 16 /\ fx_flags it < 256) its.
Proof.
  induction 1 as [cg|s cg cg' ss its Hg Hb IH|s it cg ss its H1 H2 He Hb IH]; intros Hc; [constructor|apply IH; eapply gram_bounded; eauto|]. constructor; [|apply IH, Hc].
  destruct He as (fs & cg' & _ & Hg & _ & Hi & Hn). destruct (gram_bounded _ _ _ Hg Hc) as [K1 K2]. split; [rewrite Hi; exact K1|].
  assert (L : forall n m, n < 16 -> m < 256 -> N.lor n m < 256). { intros n m Hn' Hm. change 256 with (2 ^ 8) in *. destruct (N.eq_dec n 0) as [->|?]; [exact Hm|]. destruct (N.eq_dec m 0) as [->|?]; [rewrite N.lor_0_r; lia|].
    apply N.log2_lt_pow2; [destruct (N.lor n m) eqn:E; [apply N.lor_eq_0_iff in E; lia|lia]|]. rewrite N.log2_lor. apply N.max_lub_lt; apply N.log2_lt_pow2; lia. }
  destruct (nth 2 fs []) as [|? ?]; [destruct (nth 3 fs []) as [|? ?]|]; destruct Hn as [-> _]; [lia|apply L; [exact K2|lia]|apply L; [exact K2|lia]].
Qed.
Lemma defined_bounded fs conv :
  (forall depth name ds, file_defines fs conv depth name ds -> Forall bounded ds) /\ (forall depth name ss ds, lines_define fs conv depth name ss ds -> Forall bounded ds).
Proof.
  apply (defines_ind fs conv (fun depth name ds => Forall bounded ds) (fun depth name ss ds => Forall bounded ds)); intros.
  - assumption.
  - constructor.
  - apply Forall_app. auto.
  - constructor; [|assumption]. unfold bounded. cbn [d_lines]. eapply body_bounded; [eassumption|]. cbn. lia.
Qed.
