(** * TfcProofs6: what is accepted is well-formed. *)
From Coq Require Import String.
From Verif Require Import Base Serial WordTree TreeSpec Stems StemSpec SerialProofs DictProofs GramMap RusRuntime LevelSpec RusSpec Compile CompileSpec CompileProofs Api EngCompile EngCompileSpec EngCompileProofs EngCompileProofs4 Utf8 RusText Tfc TfcSpec TfcProofs TfcProofs2 TfcProofs3 TfcProofs4 TfcProofs5.
Local Open Scope N_scope.
Local Open Scope list_scope.
Notation length := List.length.

(** ** Lines *)
Lemma skip_split s : exists sp, s = sp ++ skip_space s /\ white sp /\ (skip_space s = [] \/ exists c t, skip_space s = c :: t /\ inked c).
Proof.
  induction s as [|c s (sp & E & Hw & Hs)]; [exists []; repeat split; [constructor|left; reflexivity]|]. cbn [skip_space]. destruct (is_space c) eqn:Ec.
  - exists (c :: sp). split; [cbn [app]; congruence|]. split; [constructor; [apply space_iff, Ec|exact Hw]|exact Hs].
  - exists []. split; [reflexivity|]. split; [constructor|]. right. exists c, s. split; [reflexivity|apply ink_iff, Ec].
Qed.
Lemma trim_split s : exists w, s = trim_end s ++ w /\ white w /\ (trim_end s = [] \/ exists t c, trim_end s = t ++ [c] /\ inked c).
Proof.
  induction s as [|c s (w & E & Hw & Hs)]; [exists []; repeat split; [constructor|left; reflexivity]|]. cbn [trim_end]. destruct (trim_end s) as [|y m].
  - destruct (is_space c) eqn:Ec.
    + exists (c :: s). split; [reflexivity|]. split; [constructor; [apply space_iff, Ec|]|left; reflexivity]. rewrite E. exact Hw.
    + exists s. split; [reflexivity|]. split; [rewrite E; exact Hw|]. right. exists [], c. split; [reflexivity|apply ink_iff, Ec].
  - exists w. split; [cbn [app] in *; congruence|]. split; [exact Hw|]. right. destruct Hs as [K|(t & c' & K & Hc)]; [discriminate|]. exists (c :: t), c'. split; [rewrite K; reflexivity|exact Hc].
Qed.
Lemma cut_split s : forall b, exists r, s = cut_comment b s ++ r /\
  (r = [] \/ (exists r', r = 47 :: 47 :: r') /\ match cut_comment b s with [] => b = true | t => is_space (last t 0) = true end) /\
  (forall a b', cut_comment b s = a ++ text "//" ++ b' -> a = [] /\ b = false \/ exists t c, a = t ++ [c] /\ inked c).
Proof.
  induction s as [|c s IH]; intros b; cbn [cut_comment].
  - exists []. split; [reflexivity|]. split; [left; reflexivity|]. intros [|? ?] b' E; discriminate.
  - destruct (b && starts (text "//") (c :: s)) eqn:Eb.
    + apply andb_true_iff in Eb. destruct Eb as [-> Es]. exists (c :: s). split; [reflexivity|]. split; [|intros [|? ?] b' E; discriminate]. right. split; [apply slashes, Es|reflexivity].
    + destruct (IH (is_space c)) as (r & E & Hr & Hn). exists r. split; [cbn [app]; congruence|]. split.
      * destruct Hr as [->|[Hr Hl]]; [left; reflexivity|]. right. split; [exact Hr|]. destruct (cut_comment (is_space c) s) as [|y m]; [exact Hl|exact Hl].
      * intros a b' Ea. destruct a as [|x a]; cbn [app] in Ea.
        -- left. split; [reflexivity|]. destruct b; [|reflexivity]. exfalso. cbn [andb] in Eb. change (text "//" ++ b') with (47 :: 47 :: b') in Ea. injection Ea as -> Ea.
           assert (K : starts (text "//") (47 :: s) = true); [|congruence]. apply slashes. rewrite E, Ea. exists (b' ++ r). reflexivity.
        -- injection Ea as -> Ea. right. destruct (Hn a b' Ea) as [[-> K]|(t & c' & -> & K)]; [exists [], x; split; [reflexivity|apply ink_iff, K]|exists (x :: t), c'; auto].
Qed.
Lemma clean_total conv line : line_says conv line (clean_line conv line).
Proof.
  unfold clean_line. destruct (skip_split line) as (sp & E1 & Hsp & H1). set (l1 := skip_space line) in *. clearbody l1. destruct (cut_split l1 true) as (r & E2 & Hr & Hno). set (l2 := cut_comment true l1) in *. clearbody l2.
  destruct (trim_split l2) as (w & E3 & Hw & H3). set (l3 := trim_end l2) in *. clearbody l3. exists sp, l3, (w ++ r). split; [rewrite E1, E2, E3, <- !app_assoc; reflexivity|]. split; [exact Hsp|]. split; [reflexivity|]. split; [|split].
  - destruct H3 as [->|H3]; [left; reflexivity|]. right. split; [|exact H3]. destruct H3 as (t & c & -> & _). destruct H1 as [->|(c1 & t1 & -> & Hc1)].
    + exfalso. rewrite E3 in E2. destruct t; discriminate.
    + rewrite E3 in E2. destruct t as [|x t]; cbn [app] in E2; injection E2 as <- E2; eexists _, _; (split; [reflexivity|exact Hc1]).
  - destruct Hr as [->|[(r' & ->) Hl]]; [left; rewrite app_nil_r; exact Hw|]. right. exists w, r'. split; [reflexivity|]. split; [exact Hw|]. destruct w as [|x w]; [right|left; discriminate]. rewrite app_nil_r in E3. subst l3.
    destruct H3 as [H3|(t & c & H3 & Hc)]; [exact H3|]. exfalso. rewrite H3 in Hl. assert (K : is_space (last (t ++ [c]) 0) = true) by (destruct (t ++ [c]) eqn:E; [destruct t; discriminate|exact Hl]). rewrite last_last in K. apply space_iff in K. unfold inked in Hc. lia.
  - intros a b E. destruct (Hno a (b ++ w)) as [[_ K]|K]; [rewrite E3, E, <- !app_assoc; reflexivity|discriminate|exact K].
Qed.
Lemma source_total conv file lines : text_lines file lines -> file_says conv file (source_lines conv file).
Proof.
  intros H. exists lines, (map (clean_line conv) lines). split; [exact H|]. assert (K : Forall2 (line_says conv) lines (map (clean_line conv) lines)) by (clear; induction lines; constructor; [apply clean_total|assumption]). split; [exact K|].
  apply source_says. exists lines, (map (clean_line conv) lines). auto.
Qed.
Definition inked_line (s : bytes) : Prop := exists c t, s = c :: t /\ inked c.
Lemma source_inked conv file : conv_white conv -> Forall inked_line (source_lines conv file).
Proof.
  intros Hc. unfold source_lines. apply Forall_forall. intros s Hs. apply filter_In in Hs. destruct Hs as [Hs Hn]. apply in_map_iff in Hs. destruct Hs as (line & <- & _). destruct (clean_total conv line) as (sp & s0 & rest & _ & _ & E & H & _).
  rewrite E in *. destruct H as [->|[(c & t & -> & Hi) _]]; [discriminate|]. exists (conv c), (map conv t). split; [reflexivity|]. unfold inked in *. destruct (N.le_gt_cases (conv c) 32) as [K|K]; [apply (proj1 (Hc c)) in K; lia|exact K].
Qed.

(** ** Elements *)
Lemma take_split stop s : exists a r, take_until stop s = (a, r) /\ s = a ++ r /\ Forall (fun c => stop c = false) a /\ (r = [] \/ exists c t, r = c :: t /\ stop c = true).
Proof.
  induction s as [|c s (a & r & E & Es & Ha & Hr)]; cbn [take_until]; [exists [], []; repeat split; auto|]. destruct (stop c) eqn:Ec.
  - exists [], (c :: s). repeat split; [constructor|right; eauto].
  - rewrite E. exists (c :: a), r. split; [reflexivity|]. split; [cbn; congruence|]. split; [constructor; assumption|exact Hr].
Qed.
Lemma fields_total : forall n s, (length s <= n)%nat -> (s = [] \/ inked_line s) -> exists fs, fields s fs.
Proof.
  induction n as [|n IH]; intros s Hl Hs.
  - destruct s; [|cbn in Hl; lia]. exists [[]]. apply (fs_last [] []); constructor.
  - destruct (take_split (fun c => (c =? 44) || is_space c) s) as (f & r & _ & E & Hf & Hr). assert (Hf' : field_text f) by (revert Hf; apply Forall_impl; intros c; apply field_stop).
    destruct (skip_split r) as (sp & Er & Hsp & Hr'). destruct Hr' as [En|(c & t & En & Hc)].
    + exists [f]. rewrite E, Er, En, app_nil_r. apply fs_last; assumption.
    + rewrite En in Er. destruct (N.eq_dec c 44) as [->|Hc44].
      * destruct (skip_split t) as (sp' & Et & Hsp' & Ht). destruct (IH (skip_space t)) as [fs' Hfs]; [rewrite E, Er, Et in Hl; rewrite !app_length in Hl; cbn [length] in Hl; rewrite app_length in Hl; lia| |].
        { destruct Ht as [->|(c & t' & -> & Hc')]; [left; reflexivity|right; exists c, t'; auto]. }
        exists (f :: fs'). rewrite E, Er, Et. apply fs_comma; assumption.
      * assert (Hsp0 : sp <> []). { intros ->. cbn [app] in Er. destruct Hr as [->|(c' & t' & -> & Hst)]; [discriminate|]. injection Er as -> ->. assert (((c =? 44) || is_space c) = false) by (apply field_stop; auto). congruence. }
        assert (Hf0 : f <> []). { intros ->. cbn [app] in E. subst s. rewrite Er in Hs. destruct Hs as [K|(x & y & K & Hx)]; [destruct sp; discriminate|]. destruct sp as [|z sp]; [congruence|]. injection K as -> _. inversion Hsp. unfold inked in Hx. lia. }
        destruct (IH (c :: t)) as [fs' Hfs]; [rewrite E, Er in Hl; rewrite !app_length in Hl; destruct f; [congruence|]; cbn [length] in *; lia|right; exists c, t; auto|].
        destruct fs' as [|g fs']; [inversion Hfs|]. exists (f :: g :: fs'). rewrite E, Er. apply fs_white; auto. intros ->.
        inversion Hfs as [f' sp' K1 K2 K3 K4|f' sp' sp'' s' fs'' K1 K2 K3 K4 K5 K6|f' sp' g' s' fs'' K1 K1' K2 K3 K4 K5 K6 K7]; subst.
        -- cbn [app] in K3. subst sp'. inversion K2. unfold inked in Hc. lia.
        -- cbn [app] in K5. destruct sp' as [|x sp']; cbn [app] in K5; injection K5 as K5 _; [congruence|]. inversion K2. unfold inked in Hc. lia.
        -- congruence.
Qed.
Lemma map_line_total s cg it : inked_line s -> map_line s cg = Some it -> element cg s it.
Proof.
  intros Hs H. destruct (fields_total (length s) s) as [fs Hfs]; [reflexivity|right; exact Hs|]. rewrite (map_line_fields _ _ _ Hfs) in H. destruct (map_gram (nth 1 fs []) cg) as [cg'|] eqn:Eg; [|discriminate]. apply map_gram_says in Eg.
  cbv zeta in H. apply some_inj in H. exists fs, cg'. split; [exact Hfs|]. split; [exact Eg|]. change (text "''") with [39; 39].
  destruct (nth 2 fs []) as [|? ?]; cbn [nonempty] in H; [destruct (nth 3 fs []) as [|? ?]; cbn [nonempty] in H|]; subst it; cbn [fx_tail fx_info fx_flags fx_next]; auto.
Qed.
Lemma table_body_total lines : forall cg t t' rest, Forall inked_line lines -> table_body cg t lines = Some (t', rest) ->
  exists body its, lines = body ++ [125] :: rest /\ body_says cg body its /\ t' = fold_left (fun t x => ftable_insert x t) its t.
Proof.
  induction lines as [|s lines IH]; intros cg t t' rest Hi; cbn [table_body]; [discriminate|]. inversion Hi as [|? ? Hs Hl]. subst. destruct (list_eq_dec N.eq_dec s [125]) as [->|Hne].
  - intros H. injection H as <- <-. exists [], []. repeat split. constructor.
  - destruct (N.eq_dec (hd 0 s) 46) as [Hd|Hd].
    + destruct s as [|c s]; [discriminate|]. cbn [hd] in Hd. subst c. destruct (map_gram s cg) as [cg'|] eqn:Eg; [|discriminate]. intros H. destruct (IH _ _ _ _ Hl H) as (body & its & -> & Hb & Ht). exists ((46 :: s) :: body), its.
      split; [reflexivity|]. split; [|exact Ht]. apply bs_gram with cg'; [apply map_gram_says, Eg|exact Hb].
    + assert (E : forall x y, match s with 46 :: s' => x s' | _ => y end = y :> option (list fxitem * list bytes)) by (intros x y; clear - Hd; destruct s as [|c s]; [reflexivity|]; cbn [hd] in Hd; destruct c as [|p]; [reflexivity|]; do 6 (destruct p; try reflexivity); congruence).
      rewrite E. destruct (map_line s cg) as [fx|] eqn:Em; [|discriminate]. intros H. destruct (IH _ _ _ _ Hl H) as (body & its & -> & Hb & Ht). exists (s :: body), (fx :: its).
      split; [reflexivity|]. split; [|exact Ht]. apply bs_element; [exact Hne|exact Hd|apply map_line_total; assumption|exact Hb].
Qed.

(** ** Names *)
Lemma names_total : forall n s, (length s <= n)%nat -> exists ns, names_written s ns.
Proof.
  induction n as [|n IH]; intros s Hl; [destruct s; [|cbn in Hl; lia]; exists []; apply nw_end; constructor|].
  destruct (take_split (fun c => c =? 44) s) as (a & r & _ & E & Ha & Hr). destruct (skip_split a) as (sp & Ea & Hsp & Hs). destruct (trim_split (skip_space a)) as (w & Et & Hw & Hte).
  assert (Hno : ~ In 44 a) by (intros K; rewrite Forall_forall in Ha; specialize (Ha _ K); discriminate).
  assert (Hcase : trim_end (skip_space a) = [] /\ white a \/ name_text (trim_end (skip_space a))).
  { destruct Hte as [K|K]; [left; split; [exact K|]; rewrite K in Et; cbn [app] in Et; rewrite Ea, Et; apply Forall_app; auto|]. right. split; [|split; [|exact K]].
    - intros K'. apply Hno. rewrite Ea, Et. apply in_or_app. right. apply in_or_app. left. exact K'.
    - destruct K as (t & c & K & _). destruct Hs as [Hs|(c1 & t1 & Hs & Hc1)]; [rewrite Hs in K; cbn in K; destruct t; discriminate|]. rewrite K in Et |- *. rewrite Hs in Et. destruct t as [|x t]; cbn [app] in Et; injection Et as <- Et; eexists _, _; (split; [reflexivity|exact Hc1]). }
  assert (Eaa : a = sp ++ trim_end (skip_space a) ++ w) by congruence. set (nm := trim_end (skip_space a)) in *. clearbody nm. clear Et Ea Hs Hte.
  destruct Hr as [->|(c & t & -> & Hc)].
  - rewrite app_nil_r in E. subst s. destruct Hcase as [[_ Hwa]|Hn]; [exists []; apply nw_end, Hwa|exists [nm]; rewrite Eaa; apply nw_last; assumption].
  - apply N.eqb_eq in Hc. subst c. destruct (IH t) as [ns Hns]; [rewrite E, app_length in Hl; cbn [length] in Hl; lia|]. destruct Hcase as [[_ Hwa]|Hn].
    + exists ns. rewrite E. apply nw_empty; assumption.
    + exists (nm :: ns). rewrite E, Eaa, <- !app_assoc. apply nw_more; assumption.
Qed.

(** ** Files *)
Lemma table_commanded s rest : first_command table_commands s = Some rest -> commanded [".таблица"; ".table"; ".тип"; ".type"]%string s rest.
Proof.
  intros H. destruct (first_command_some _ _ _ H) as (cmd & c & Hin & Hc & ->). rewrite table_list in Hin. apply in_map_iff in Hin. destruct Hin as (k & <- & Hk). exists k, c. split; [exact Hk|]. split; [apply space_iff, Hc|reflexivity].
Qed.
Lemma include_commanded s rest : first_command include_commands s = Some rest -> commanded [".включить"; ".include"]%string s rest.
Proof.
  intros H. destruct (first_command_some _ _ _ H) as (cmd & c & Hin & Hc & ->). rewrite include_list in Hin. apply in_map_iff in Hin. destruct Hin as (k & <- & Hk). exists k, c. split; [exact Hk|]. split; [apply space_iff, Hc|reflexivity].
Qed.
Lemma trim_named rest : nonempty (trim rest) = true -> exists sp sp', rest = sp ++ trim rest ++ sp' /\ white sp /\ white sp' /\ inked_line (trim rest) /\ (exists t c, trim rest = t ++ [c] /\ inked c).
Proof.
  intros Hn. unfold trim in *. destruct (trim_split rest) as (w & E & Hw & Ht). destruct (skip_split (trim_end rest)) as (sp & E' & Hsp & Hs). exists sp, w. split; [rewrite E at 1; rewrite E' at 1; rewrite <- app_assoc; reflexivity|]. split; [exact Hsp|]. split; [exact Hw|].
  destruct Hs as [K|Hs]; [rewrite K in Hn; discriminate|]. split; [exact Hs|]. destruct Ht as [K|(t & c & K & Hc)]; [rewrite K in Hn; discriminate|]. destruct Hs as (x & l & Hs & _). rewrite Hs in *. rewrite K in E'. clear - E' Hc.
  destruct (@exists_last _ (x :: l)) as (t' & c' & E); [discriminate|]. rewrite E in *. rewrite app_assoc in E'. apply app_inj_tail in E'. destruct E' as [_ <-]. eauto.
Qed.
Lemma beside_total from name : beside from name (open_name from name).
Proof.
  unfold open_name, beside. assert (H : exists base, from = folder_of from ++ base /\ ~ In 47 base /\ ~ In 92 base /\ (folder_of from = [] \/ exists t c, folder_of from = t ++ [c] /\ (c = 47 \/ c = 92))).
  { induction from as [|c s (base & E & H1 & H2 & H3)]; [exists []; repeat split; auto|]. cbn [folder_of]. destruct (folder_of s) as [|y m].
    - destruct (N.eqb_spec c 47) as [->|N1]; [exists s; cbn [orb app] in *; subst s; repeat split; auto; right; exists [], 47; auto|]. destruct (N.eqb_spec c 92) as [->|N2]; [exists s; cbn [orb app] in *; subst s; repeat split; auto; right; exists [], 92; auto|].
      cbn [orb app] in *. subst s. exists (c :: base). split; [reflexivity|]. split; [intros [K|K]; [congruence|contradiction]|]. split; [intros [K|K]; [congruence|contradiction]|left; reflexivity].
    - exists base. split; [cbn [app] in *; congruence|]. split; [exact H1|]. split; [exact H2|]. right. destruct H3 as [K|(t & c' & K & Hc)]; [discriminate|]. exists (c :: t), c'. split; [rewrite K; reflexivity|exact Hc]. }
  destruct H as (base & E & H1 & H2 & H3). exists (folder_of from), base. auto.
Qed.
Lemma make_tab_total lines h t rest : Forall inked_line lines -> make_tab lines = Some (h, t, rest) ->
  exists header names body its, lines = header :: [123] :: body ++ [125] :: rest /\ declares header names /\ body_says (GramInfo 0 3) body its /\ its <> [] /\ t = norm its /\ names_in h = names.
Proof.
  intros Hi. unfold make_tab. destruct lines as [|header [|brace lines]]; [discriminate|discriminate|]. destruct (first_command table_commands header) as [r|] eqn:Ec; [|discriminate]. cbv zeta.
  destruct (nonempty (trim r)) eqn:En; [|discriminate]. cbn [negb]. destruct (list_eq_dec N.eq_dec brace [123]) as [->|]; [|discriminate]. destruct (table_body (GramInfo 0 3) [] lines) as [[t' rest']|] eqn:Eb; [|discriminate].
  destruct t' as [|x t']; [discriminate|]. intros H. injection H as <- <- <-. inversion Hi as [|? ? _ Hi']. inversion Hi' as [|? ? _ Hl]. subst. destruct (table_body_total _ _ _ _ _ Hl Eb) as (body & its & -> & Hb & Ht).
  destruct (names_total (length r) r) as [ns Hns]; [reflexivity|]. exists header, ns, body, its. split; [reflexivity|]. split; [|split; [exact Hb|split; [|split; [exact Ht|apply split_names_in, Hns]]]].
  - exists r. split; [apply table_commanded, Ec|]. split; [|exact Hns]. intros Hw. unfold trim in En. rewrite trim_all in En by (apply white_space, Hw). discriminate.
  - intros ->. discriminate.
Qed.
Lemma files_total fs conv : conv_white conv -> (forall n f, fs n = Some f -> exists lines, text_lines f lines) ->
  forall depth name fl fl', tfc_file fs conv depth name fl = Some fl' -> exists ds, file_defines fs conv depth name ds /\ fl' = collect ds fl.
Proof.
  intros Hc Hf. induction depth as [|depth IHd]; intros name fl fl'; cbn [tfc_file]; [discriminate|]. destruct (fs name) as [file|] eqn:Ef; [|discriminate].
  destruct (Hf _ _ Ef) as [lines Hlines]. pose proof (source_total conv _ _ Hlines) as Hsays. pose proof (source_inked conv file Hc) as Hink. intros H.
  assert (L : forall steps ss fl fl', Forall inked_line ss -> (length ss <= steps)%nat -> tfc_lines (tfc_file fs conv depth) steps name ss fl = Some fl' -> exists ds, lines_define fs conv depth name ss ds /\ fl' = collect ds fl).
  { clear H Hsays Hink. induction steps as [|steps IH]; intros ss f f' Hi Hl H.
    - destruct ss; [|cbn in Hl; lia]. cbn in H. injection H as <-. exists []. split; [constructor|reflexivity].
    - destruct ss as [|s ss]; [cbn in H; injection H as <-; exists []; split; [constructor|reflexivity]|]. cbn [tfc_lines] in H. destruct (first_command include_commands s) as [h|] eqn:Ei.
      + destruct (nonempty (trim h)) eqn:En; [|discriminate]. destruct (tfc_file fs conv depth (open_name name (trim h)) f) as [f1|] eqn:E1; [|discriminate]. destruct (IHd _ _ _ E1) as (ds & Hds & ->). inversion Hi as [|? ? _ Hi']. subst.
        assert (Hlen : (length ss <= steps)%nat) by (cbn in Hl; lia). destruct (IH ss _ _ Hi' Hlen H) as (ds' & Hds' & ->). exists (ds ++ ds'). split; [|symmetry; apply collect_app]. apply ld_include with (trim h) (open_name name (trim h)); [|apply beside_total|exact Hds|exact Hds'].
        destruct (trim_named h En) as (sp & sp' & E & K1 & K2 & K3 & K4). exists sp, sp'. split; [rewrite <- E; apply include_commanded, Ei|auto].
      + destruct (make_tab (s :: ss)) as [[[h t] rest]|] eqn:Em; [|discriminate]. destruct (make_tab_total _ _ _ _ Hi Em) as (header & names & body & its & E & Hh & Hb & Hne & -> & Hn). rewrite E in *.
        assert (Hi' : Forall inked_line rest) by (inversion Hi as [|? ? _ Hj]; inversion Hj as [|? ? _ Hk]; subst; apply Forall_app in Hk; destruct Hk as [_ Hk]; inversion Hk; assumption).
        assert (Hlen : (length rest <= steps)%nat). { cbn [length] in Hl; rewrite app_length in Hl; cbn [length] in Hl. unfold bytes in *. lia. }
        destruct (IH rest _ _ Hi' Hlen H) as (ds & Hds & ->). exists (Definition_ names its :: ds). split; [apply ld_table; assumption|]. cbn [collect fold_left]. fold (collect ds). unfold collect. f_equal. cbn [d_names d_lines]. rewrite <- Hn. reflexivity. }
  destruct (L _ _ _ _ Hink (le_n _) H) as (ds & Hds & ->). exists ds. split; [|reflexivity]. econstructor; eauto.
Qed.
