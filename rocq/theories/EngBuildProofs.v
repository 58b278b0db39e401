(** * EngBuildProofs: building English forms.  PROOFS. *)
From Verif Require Import Base Serial SerialProofs WordTree TreeSpec WordTreeProofs FlatScan FlatScanProofs LidsProofs TrackProofs
  TreeWalk Stems StemSpec StemsProofs DictProofs CharTables CapScheme CapSpec CapProofs CapProofs2 CapProofs3 PropCaseLemmas PropTreesLemmas
  GramMap RusRuntime RusBuild RusSpec RusProofs RusProofs2 RusProofs3 RusBuildSpec RusBuildProofs RusBuildProofs2 RusBuildProofs3 RusReadings
  EngRuntime EngSpec EngProofs EngProofs2 EngFormsSpec.
Local Open Scope N_scope.

(** ** Tables *)
Lemma eflex_loop_eq pre post id t : forall rest room out n,
  let fs := map (fun k => pre ++ k ++ post) (map snd (filter (fun ie : N * bytes => fst ie =? id) t)) in
  exists c' z, eflex_loop pre post id (length t) (items t ++ rest) (Collector room out) n = Ok (c', z) /\
    ((total fs <= room)%nat /\ c' = Collector (room - total fs) (out ++ joined fs) /\ z = (n + Z.of_nat (length fs))%Z \/
     (room < total fs)%nat /\ z = (-1)%Z).
Proof.
  induction t as [|[i e] t IH]; intros rest room out n; cbn [length eflex_loop filter map fst snd].
  - do 2 eexists. split; [reflexivity|]. left. cbn. rewrite Nat.sub_0_r, app_nil_r. repeat split; lia.
  - unfold items. cbn [flat_map fst snd app rd bind]. rewrite <- ?app_assoc. cbn [app rd bind]. rewrite <- ?app_assoc. fold (items t).
    rewrite fbytes_eq. cbn [bind]. rewrite (advance_app e _ (N.of_nat (length e)) eq_refl). cbn [bind].
    destruct (i =? id); cbn [negb]; [|apply IH].
    rewrite col_appends_eq. cbn [concat map snd]. rewrite app_nil_r.
    assert (Hl : length (pre ++ e ++ post ++ [0]) = (length (pre ++ e ++ post) + 1)%nat) by (rewrite !app_length; cbn; lia).
    assert (Hj : pre ++ e ++ post ++ [0] = (pre ++ e ++ post) ++ [0]) by (rewrite <- !app_assoc; reflexivity).
    rewrite Hl, Hj. cbn [total fold_right joined flat_map].
    set (fs := map (fun k => pre ++ k ++ post) _) in *. fold (total fs). fold (joined fs).
    destruct (Nat.leb_spec (length (pre ++ e ++ post) + 1) room) as [Hle|Hgt].
    + destruct (IH rest (room - (length (pre ++ e ++ post) + 1))%nat (out ++ (pre ++ e ++ post) ++ [0]) (n + 1)%Z) as (c' & z & E & H).
      do 2 eexists. split; [exact E|]. fold fs in H. destruct H as [(H1 & H2 & H3)|(H1 & H2)]; [left|right].
      * split; [lia|]. split; [|cbn [length]; lia]. rewrite H2. f_equal; [lia|]. rewrite <- app_assoc. reflexivity.
      * split; [lia|assumption].
    + do 2 eexists. split; [reflexivity|]. right. split; [lia|reflexivity].
Qed.

(** [st] describes class [c] in the arrays, or is what the search hands on for a fixed word *)
Definition estands_for (A : earrays) (st : estem) (c : eclass) : Prop :=
  eclass_repr A st c \/ (k_ends c = None /\ st = EStem (k_word c) 0).

Lemma estands_word A st c : estands_for A st c -> e_wdinfo st = k_word c.
Proof. intros [(H & _)|(_ & ->)]; [exact H|reflexivity]. Qed.
Lemma estands_cap A st c : estands_for A st c -> emincap st = ecase c.
Proof. intros H. unfold emincap, ecase. rewrite (estands_word A st c H), N.shiftr_div_pow2. change 3 with (N.ones 2). rewrite N.land_ones. reflexivity. Qed.
Lemma estands_fixed A st c : estands_for A st c -> k_ends c = None -> eflex_table A st = Ok None /\ e_tfoffs st = 0.
Proof. intros [H|(_ & ->)] E; [apply (no_etable A st c H E)|split; reflexivity]. Qed.
Lemma estands_table A st c t : estands_for A st c -> k_ends c = Some t ->
  (exists rest, eflex_table A st = Ok (Some (table_ser t ++ rest)) /\ etable_ok t) /\ e_tfoffs st <> 0.
Proof.
  intros [H|(H & _)] E; [|congruence]. split; [apply (etable A st c t H E)|]. destruct H as (_ & _ & H). rewrite E in H. apply H.
Qed.

Lemma eword_forms_eq A col st c id pre x suffix post :
  estands_for A st c -> fbytes suffix = Ok post -> (k_ends c = None -> post = []) ->
  collected col (eraw_forms c pre post id) (eget_word_forms A col (Frag (pre ++ x) (N.of_nat (length pre))) suffix st id).
Proof.
  intros Hst Hs Hfix. unfold eget_word_forms, eraw_forms, etails. destruct (k_ends c) as [t|] eqn:Ek.
  - destruct (estands_table A st c t Hst Ek) as ((rest & -> & Hok) & _). cbn [bind]. unfold eget_flex_forms.
    rewrite fbytes_eq, Hs. cbn [bind]. unfold table_ser. cbn [app rd bind]. rewrite Nnat.Nat2N.id.
    destruct col as [room out]. destruct (eflex_loop_eq pre post id t rest room out 0%Z) as (c' & z & E & H).
    unfold items in E. rewrite E. exists c', z. split; [reflexivity|]. cbn [croom cout]. rewrite Z.add_0_l in H. exact H.
  - destruct (estands_fixed A st c Hst Ek) as [-> _]. cbn [bind]. rewrite fbytes_eq. cbn [bind]. rewrite (Hfix eq_refl).
    destruct col as [room out]. rewrite col_appends_eq. cbn [concat map app]. rewrite ?app_nil_r.
    unfold collected. cbn [croom cout].
    assert (Hl : length (pre ++ [0]) = total [pre]) by (cbn [total fold_right]; rewrite app_length; cbn; lia).
    assert (Hj : pre ++ [0] = joined [pre]) by (cbn [joined flat_map]; rewrite app_nil_r; reflexivity).
    rewrite Hl, Hj.
    destruct (Nat.leb_spec (total [pre]) room); do 2 eexists; (split; [reflexivity|]); [left|right]; repeat split; assumption.
Qed.

Lemma eput_forms_eq st m : emincap st = m -> m <= 2 -> forall fs done rest n y, Forall (fun f => ~ In 0 f) fs ->
  returned done rest n (map (respell eng_casing m) fs)
    (eput_forms st (length fs) (joined fs ++ y) (Coder (done ++ rest) (length done), n)).
Proof.
  intros Hst Hm2. induction fs as [|f fs IH]; intros done rest n y Hz; cbn [length eput_forms map].
  - split; [|intros H; exfalso; apply H; left; reflexivity]. intros _. cbn. rewrite app_nil_r, Z.add_0_r. reflexivity.
  - pose proof (Forall_inv Hz) as Hf. pose proof (Forall_inv_tail Hz) as Hz'. cbn beta in Hf. cbn [joined flat_map]. fold (joined fs). rewrite <- !app_assoc. cbn [app].
    rewrite cstr_app by assumption. cbn [bind]. rewrite Hst, (set_respell eng_casing eng_okay f (joined fs ++ y) m Hf Hm2). cbn [bind fst snd].
    set (f' := respell eng_casing m f).
    assert (Hl : length f' = length f) by apply respell_length.
    assert (E1 : firstn (length f) (f' ++ 0 :: joined fs ++ y) = f') by (rewrite <- Hl, firstn_app, firstn_all, Nat.sub_diag, firstn_O; apply app_nil_r).
    assert (E2 : skipn (S (length f)) (f' ++ 0 :: joined fs ++ y) = joined fs ++ y).
    { rewrite <- Hl, skipn_app, skipn_all2 by lia. replace (S (length f') - length f')%nat with 1%nat by lia. reflexivity. }
    rewrite E1. pose proof (put_eq done rest f') as P. destruct (Nat.leb_spec (length f' + 2) (length rest)) as [Hle|Hgt].
    + rewrite P. cbn [bind]. rewrite E2.
      specialize (IH (done ++ f' ++ [0]) (0 :: skipn (length f' + 2) rest) (n + 1)%Z y Hz').
      assert (Ha : 0 :: skipn (length f' + 2) rest = after [f'] rest).
      { unfold after. cbn [total fold_right]. do 2 f_equal. lia. }
      rewrite Ha in *. destruct IH as [IH1 IH2]. split.
      * intros Hfit. rewrite (fit_cons _ f' _ rest eq_refl) in Hfit. rewrite (IH1 (proj2 Hfit)).
        change (f' :: map (respell eng_casing m) fs) with ([f'] ++ map (respell eng_casing m) fs).
        rewrite joined_app, after_app. cbn [joined flat_map]. rewrite app_nil_r. rewrite <- !app_assoc. cbn [app].
        do 3 f_equal. cbn [length]. lia.
      * intros Hfit. destruct IH2 as (c1 & z & E & Hlen).
        { intros H. apply Hfit. rewrite (fit_cons _ f' _ rest eq_refl). split; assumption. }
        exists c1, z. split; [exact E|]. rewrite Hlen, <- Ha, !app_length. cbn [length]. rewrite skipn_length. lia.
    + destruct P as (c1 & -> & Hlen). cbn [bind]. split.
      * intros Hfit. rewrite (fit_cons _ f' _ rest eq_refl) in Hfit. lia.
      * intros _. exists c1, n. split; [reflexivity|exact Hlen].
Qed.

(** ** FormBuild *)
Definition eid_forms (c : eclass) (key post : bytes) (id : N) : list bytes :=
  if etakes c id then eraw_forms c key post id else [].
Lemma erequested_eq c key post id : erequested c key post id = map (respell eng_casing (ecase c)) (eid_forms c key post id).
Proof. unfold erequested, eid_forms. destruct (etakes c id); reflexivity. Qed.

Lemma etotal_respell cs min fs : total (map (respell cs min) fs) = total fs.
Proof. induction fs as [|f fs IH]; [reflexivity|]. cbn [map total fold_right]. fold (total fs). rewrite <- IH, respell_length. reflexivity. Qed.

Definition eno_nul (c : eclass) : Prop := forall t id part, k_ends c = Some t -> In (id, part) t -> ~ In 0 part.

Lemma eraw_no_nul c key post id : eno_nul c -> ~ In 0 key -> ~ In 0 post -> Forall (fun f => ~ In 0 f) (eraw_forms c key post id).
Proof.
  intros Hc Hk Hp. unfold eraw_forms. rewrite Forall_map. apply Forall_forall. intros t Ht H.
  apply in_app_iff in H as [H|H]; [tauto|]. apply in_app_iff in H as [H|H]; [|tauto]. unfold etails in Ht.
  destruct (k_ends c) as [tb|] eqn:E.
  - apply in_map_iff in Ht as ([i e] & <- & Ht). apply filter_In in Ht as [Ht _]. exact (Hc tb i e E Ht H).
  - destruct Ht as [<-|[]]. destruct H.
Qed.

Lemma eform_build_eq A st c key post x suffix lid gr id done rest n :
  estands_for A st c -> eno_nul c -> ecase c <= 2 -> ~ In 0 key -> ~ In 0 post -> (k_ends c = None -> post = []) ->
  fbytes suffix = Ok post -> forall inf, fstr inf = x ->
  built done rest n (erequested c key post id) (eid_forms c key post id)
    (eform_build A (key ++ x) id (Coder (done ++ rest) (length done), n) lid st inf suffix gr).
Proof.
  intros Hst Hnn Hcap Hk Hp Hfix Hs inf Hinf. rewrite erequested_eq. unfold eform_build, eid_forms.
  assert (Hskip : built done rest n (map (respell eng_casing (ecase c)) []) [] (Ok ((Coder (done ++ rest) (length done), n), 0%Z))).
  { split; [|cbn; lia]. intros _. split; [|intros H; exfalso; apply H; left; reflexivity]. intros _. cbn. rewrite app_nil_r, Z.add_0_r. reflexivity. }
  assert (Htk : etakes c id = Bool.eqb (negb (e_tfoffs st =? 0)) (negb (id =? 255))).
  { unfold etakes. destruct (k_ends c) as [t|] eqn:Ek.
    - destruct (estands_table A st c t Hst Ek) as (_ & Hnz). destruct (N.eqb_spec (e_tfoffs st) 0); [contradiction|]. destruct (id =? 255); reflexivity.
    - destruct (estands_fixed A st c Hst Ek) as (_ & ->). destruct (id =? 255); reflexivity. }
  rewrite <- Htk. destruct (etakes c id); cbn [negb]; [|exact Hskip].
  rewrite Hinf, app_length. replace (length key + length x - length x)%nat with (length key) by lia.
  destruct (eword_forms_eq A fmbuff st c id key x suffix post Hst Hs Hfix) as (c' & z & E & H). rewrite E. cbn [bind].
  cbn [croom cout fmbuff app] in H. destruct H as [(H1 & -> & ->)|(H1 & ->)].
  2:{ cbn [Z.leb Z.compare]. split; [lia|]. intros _. do 2 eexists. split; reflexivity. }
  cbn [cout]. split; [intros _|lia].
  destruct (eraw_forms c key post id) as [|f fs] eqn:Er.
  { cbn [length Z.of_nat Z.leb map]. split; [|intros H; exfalso; apply H; left; reflexivity].
    intros _. cbn. rewrite app_nil_r, Z.add_0_r. reflexivity. }
  destruct (Z.leb_spec (Z.of_nat (length (f :: fs))) 0) as [Hz|_]; [cbn [length] in Hz; lia|].
  rewrite Nat2Z.id, <- (app_nil_r (joined (f :: fs))). apply eput_forms_eq; [apply (estands_cap A st c Hst)|exact Hcap|].
  rewrite <- Er. apply eraw_no_nul; assumption.
Qed.

(** ** Only the bytes of the postfix matter *)
Section ESuffix.
  Variables s1 s2 : frag.
  Hypothesis Hs : fbytes s1 = fbytes s2.

  Lemma eword_forms_suffix A c st id pre : eget_word_forms A c pre s1 st id = eget_word_forms A c pre s2 st id.
  Proof. unfold eget_word_forms, eget_flex_forms. rewrite Hs. reflexivity. Qed.
  Lemma edict_forms_suffix A st pre n : forall c id, eget_dict_forms A c pre s1 st n id = eget_dict_forms A c pre s2 st n id.
  Proof.
    induction n as [|n IH]; intros c id; cbn [eget_dict_forms]; [reflexivity|]. rewrite eword_forms_suffix.
    destruct (eget_word_forms A c pre s2 st id) as [[c' z]|]; cbn [bind]; [|reflexivity]. rewrite IH. reflexivity.
  Qed.
  Lemma eform_build_suffix A sz id s lid st fr gr : eform_build A sz id s lid st fr s1 gr = eform_build A sz id s lid st fr s2 gr.
  Proof. unfold eform_build. rewrite eword_forms_suffix. reflexivity. Qed.
  Lemma elemmatizer_suffix A sz s lid st fr gr : elemmatizer A sz s lid st fr s1 gr = elemmatizer A sz s lid st fr s2 gr.
  Proof.
    unfold elemmatizer. destruct (l_built s <? 0)%Z; [reflexivity|].
    destruct (start_lemm s lid) as [[[s' m]|]|]; cbn [bind]; [|reflexivity|reflexivity].
    destruct (l_forms s') as [c|]; [|reflexivity]. destruct m; [reflexivity|].
    unfold eput_lemma. rewrite edict_forms_suffix. reflexivity.
  Qed.
End ESuffix.

Section EBuild.
  Variables (A : earrays) (L : elexicon).
  Hypothesis HL : eholds A L.
  Hypothesis HB : ebuildable L.

  Lemma erecord_facts key e : has_record (ewords L) key e ->
    exists st c, eclass_of L (oclass e) = Some (st, c) /\ estem_at A (oclass e) = Ok st /\ eclass_repr A st c /\ eno_nul c /\ ecase c <= 2 /\
      ~ In 0 key /\ ~ In 0 (stpost e) /\ (length key <= 48)%nat /\ (k_ends c = None -> stpost e = []).
  Proof.
    intros Hr. destruct (eh_classes A L HL key e Hr) as (st & c & Ec & Hat & Hrep). exists st, c. destruct Hr as (l & Hl & Hin) eqn:EHr.
    pose proof (proj1 (eh_lists A L HL key l Hl)) as [Hok _]. rewrite Forall_forall in Hok. specialize (Hok e Hin).
    assert (Hr' : has_record (ewords L) key e) by (exists l; split; assumption).
    repeat match goal with |- _ /\ _ => split end; try assumption.
    - apply eload_class with c; try assumption. apply Hok.
    - intros t id part Et Hi. eapply eb_ends; eassumption.
    - eapply eb_case; eassumption.
    - eapply lookup_nonzero; [apply (eh_nonzero A L HL)|exact Hl].
    - eapply eb_post; eassumption.
    - eapply within_lookup; [|exact Hl]. apply (eb_stems L HB).
    - eapply eb_fixed; eassumption.
  Qed.

  Hypothesis HI : eindexed A L.

  Lemma ebuild_form_eq junk mem id idform : mem <> [] -> id < 2 ^ 32 -> (length (lexkeylen id ++ junk) = 16)%nat ->
    (ebuild_form A junk (Some mem) id idform = Ok (0%Z, Some mem) /\ forall key e, has_record (ewords L) key e -> nlexid e <> id) \/
    (exists key e st c n mem', has_record (ewords L) key e /\ nlexid e = id /\ eclass_of L (oclass e) = Some (st, c) /\
       ebuild_form A junk (Some mem) id idform = Ok (n, Some mem') /\ answered mem (erequested c key (stpost e) idform) n mem').
  Proof.
    intros Hne Hid Hj. unfold ebuild_form. destruct mem as [|b mem0]; [contradiction|]. set (mem := b :: mem0) in *.
    destruct (efind_record A L HL HI id junk Hid Hj) as [(-> & Hn)|(p & p' & off & key & e & -> & Hp & Hra & He & Hrec)];
      [left; split; [reflexivity|exact Hn]|].
    right. destruct (erecord_facts key e Hrec) as (st & c & Ec & Hat & Hrep & Hnn & Hcap & Hk & Hpost & Hlen & Hfix).
    cbn [bind]. rewrite Hp. cbn [bind].
    destruct (eh_stems A L HL) as (rest & Est). rewrite Est. unfold stemtree_bytes.
    destruct (rec_at_bytes _ _ _ _ _ Hra (eholds_all_lists A L HL) rest) as (pre & aft & Hb & Hpre & _ & Hok).
    assert (Eadv : advance off (serialize C8 stems_ser stems_len (ewords L) ++ rest) = Ok (entry_ser e ++ aft))
      by (rewrite Hb; apply advance_app; lia).
    rewrite Eadv. cbn [bind].
    set (d := length (entry_ser e ++ aft)).
    set (out' := fun s lid cl (fr suf : frag) => ebuild_class A (eform_build A (fstr fr) idform) s lid cl fr suf).
    set (out := fun s lid cl (tr post : bytes) => out' s lid cl (whole tr) (whole post)).
    assert (Hout : forall s lid cl tr e after, out' s lid cl (Frag tr (N.of_nat (length tr))) (post_frag e after) = out s lid cl tr (stpost e)).
    { intros s lid cl tr e0 after. unfold out, out', ebuild_class. destruct (estem_at A cl) as [st0|]; cbn [bind]; [|reflexivity].
      cbn [whole flen fstr]. destruct (advance _ tr) as [x|]; cbn [bind]; [|reflexivity]. apply eform_build_suffix, fbytes_post_whole. }
    rewrite (get_track_ext C8 _ (fun s p tr => select_view out' d s p tr)).
    2:{ intros s q tr. apply select_view_ext. intros. reflexivity. }
    rewrite (track_found out' out Hout _ _ _ _ _ Hra 48 49 rest [] _ d);
      [|apply (eb_stems L HB)|lia|apply (eholds_all_lists A L HL)|apply (eh_dump A L HL)|].
    2:{ rewrite Hb, app_length. unfold d. lia. }
    cbn [app]. unfold out, out', ebuild_class. rewrite Hat. cbn [bind]. cbn [whole flen fstr].
    assert (Eadv' : advance (N.of_nat (length key)) key = Ok []).
    { rewrite <- (app_nil_r key) at 2. apply advance_app. reflexivity. }
    rewrite Eadv'. cbn [bind]. fold (whole (stpost e)).
    pose proof (eform_build_eq A st c key (stpost e) [] (whole (stpost e)) (nlexid e) [] idform [] mem 0%Z
                  (or_introl Hrep) Hnn Hcap Hk Hpost Hfix (fbytes_whole _) (Frag [] 0) eq_refl) as Hfb.
    rewrite app_nil_r in Hfb. cbn [app length] in Hfb.
    assert (Htot : total (eid_forms c key (stpost e) idform) = total (erequested c key (stpost e) idform))
      by (rewrite erequested_eq; symmetry; apply etotal_respell).
    unfold built in Hfb. rewrite Htot in Hfb. destruct Hfb as [H1 H2].
    set (fs := erequested c key (stpost e) idform) in *.
    exists key, e, st, c. destruct (le_dec (total fs) 256) as [Hle|Hgt].
    - destruct (H1 Hle) as [H3 H4]. destruct (fit_dec (length mem) fs) as [Hfit|Hnf].
      + rewrite (H3 Hfit). cbn [bind fst snd cmem]. cbn [Z.ltb Z.compare]. eexists _, _.
        repeat match goal with |- _ /\ _ => split end; try eassumption; [reflexivity|]. left.
        repeat match goal with |- _ /\ _ => split end; try assumption; reflexivity.
      + destruct (H4 Hnf) as (c1 & z & -> & Hl). cbn [bind fst snd cmem]. cbn [Z.ltb Z.compare]. eexists _, _.
        repeat match goal with |- _ /\ _ => split end; try eassumption; [reflexivity|]. right.
        repeat match goal with |- _ /\ _ => split end; [tauto|reflexivity|exact Hl].
    - destruct (H2 ltac:(lia)) as (c1 & z & -> & Hl). cbn [bind fst snd cmem]. cbn [Z.ltb Z.compare]. eexists _, _.
      repeat match goal with |- _ /\ _ => split end; try eassumption; [reflexivity|]. right.
      repeat match goal with |- _ /\ _ => split end; [tauto|reflexivity|exact Hl].
  Qed.
End EBuild.
