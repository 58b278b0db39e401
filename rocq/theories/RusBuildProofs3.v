(** * RusBuildProofs3: BuildForm and FindForms.  PROOFS. *)
From Verif Require Import Base Serial SerialProofs WordTree TreeSpec WordTreeProofs FlatScan FlatScanProofs LidsProofs TrackProofs
  TreeWalk Stems StemSpec StemsProofs DictProofs CharTables CapScheme CapSpec CapProofs CapProofs2 PropCaseLemmas GramMap RusRuntime LevelSpec LevelProofs RusSpec
  RusProofs RusProofs2 RusProofs3 RusBuild RusBuildSpec RusBuildProofs RusBuildProofs2.
Local Open Scope N_scope.

(** ** Only the bytes of the postfix matter *)
Lemma get_track_ext {St} w (v v' : St -> bytes -> bytes -> res (St * Z)) d : (forall s p tr, v s p tr = v' s p tr) ->
  forall depth p tr s, get_track w v depth d p tr s = get_track w v' depth d p tr s.
Proof.
  intros Hv. induction depth as [|n IH]; intros p tr s; cbn [get_track]; [reflexivity|].
  destruct (getcounter w p) as [[u q]|]; cbn [bind]; [|reflexivity].
  generalize (getlower w u) as k. intros k. revert q s. induction k as [|k IHk]; intros q s; cbn [track_level].
  - rewrite Hv. reflexivity.
  - destruct (getchild q) as [[[ch sub] q']|]; cbn [bind]; [|reflexivity].
    rewrite IH. destruct (match d with None => true | Some d => Nat.leb d (length sub) && Nat.leb (length q') d end); [|apply IHk].
    destruct (get_track w v' n d sub (tr ++ [ch]) s) as [[s' r]|]; cbn [bind]; [|reflexivity].
    destruct (Z.eqb r 0); [apply IHk|reflexivity].
Qed.

Definition whole (p : bytes) : frag := Frag p (N.of_nat (length p)).
Lemma fbytes_whole p : fbytes (whole p) = Ok p.
Proof. unfold whole. rewrite <- (app_nil_r p) at 1. apply fbytes_eq. Qed.

Section Suffix.
  Variables s1 s2 : frag.
  Hypothesis Hs : fbytes s1 = fbytes s2.

  Lemma flex_forms_suffix c p fx pre : get_flex_forms c p fx pre s1 = get_flex_forms c p fx pre s2.
  Proof.
    unfold get_flex_forms. erewrite get_track_ext; [reflexivity|]. intros s q tr. unfold flex_visit. rewrite Hs. reflexivity.
  Qed.
  Lemma plain_form_suffix c pre : plain_form c pre s1 = plain_form c pre s2.
  Proof. unfold plain_form. rewrite Hs. reflexivity. Qed.

  Lemma word_forms_suffix A c st fx pre : get_word_forms A c st fx pre s1 = get_word_forms A c st fx pre s2.
  Proof.
    unfold get_word_forms. destruct (GetFlexTable A st) as [[p|]|]; cbn [bind]; [|apply plain_form_suffix|reflexivity].
    destruct (negb (mtoffs st =? 0)); [|apply flex_forms_suffix].
    destruct (level_mix A st fx) as [[m|]|]; cbn [bind]; [|reflexivity|reflexivity].
    destruct (rd m) as [[h m']|]; cbn [bind]; [|reflexivity].
    destruct (flen pre + N.land 0x0f h <? 0x40); [|reflexivity].
    destruct (fbytes pre) as [a|]; cbn [bind]; [|reflexivity].
    destruct (fbytes (Frag m' (flen pre + N.land 0x0f h - flen pre))) as [b|]; cbn [bind]; [|reflexivity]. apply flex_forms_suffix.
  Qed.

  Lemma first_form_suffix A c st pre : get_first_form A c st pre s1 = get_first_form A c st pre s2.
  Proof.
    unfold get_first_form. destruct (GetFlexTable A st) as [[p|]|]; cbn [bind]; [|apply plain_form_suffix|reflexivity].
    destruct (get_first_flex p) as [[[len fx]|]|]; cbn [bind]; [|reflexivity|reflexivity].
    rewrite Hs. reflexivity.
  Qed.

  Lemma dict_forms_suffix A c dwsets st fx pre : get_dict_forms A c dwsets st fx pre s1 = get_dict_forms A c dwsets st fx pre s2.
  Proof.
    unfold get_dict_forms. rewrite word_forms_suffix.
    destruct (get_word_forms A c st (FindDictForm st fx dwsets) pre s2) as [[c' n]|]; cbn [bind]; [|reflexivity].
    destruct (negb (Z.eqb n 0)); [reflexivity|].
    destruct (negb (bit 15 (gramm (FindDictForm st fx dwsets))) && (IsVerb (wdinfo st) || IsAdjective (wdinfo st))).
    - rewrite word_forms_suffix.
      match goal with |- bind ?m _ = bind ?m _ => destruct m as [[c'' n']|] end; cbn [bind]; [|reflexivity].
      destruct (negb (Z.eqb n' 0)); [reflexivity|apply first_form_suffix].
    - cbn [bind Z.eqb negb]. apply first_form_suffix.
  Qed.

  Lemma form_build_suffix A sz id s lid st fr gr : form_build A sz id s lid st fr s1 gr = form_build A sz id s lid st fr s2 gr.
  Proof. unfold form_build. rewrite word_forms_suffix. reflexivity. Qed.

  Lemma lemmatizer_suffix A sz dwsets s lid st fr gr : lemmatizer A sz dwsets s lid st fr s1 gr = lemmatizer A sz dwsets s lid st fr s2 gr.
  Proof.
    unfold lemmatizer. destruct (l_built s <? 0)%Z; [reflexivity|].
    destruct (start_lemm s lid) as [[[s' m]|]|]; cbn [bind]; try reflexivity.
    destruct (l_forms s') as [c|]; [|reflexivity]. destruct m; [reflexivity|].
    unfold put_lemma. destruct gr as [|g gr]; [reflexivity|]. rewrite dict_forms_suffix. reflexivity.
  Qed.
End Suffix.

Lemma fbytes_post_whole e aft : fbytes (post_frag e aft) = fbytes (whole (stpost e)).
Proof. rewrite fbytes_post, fbytes_whole. reflexivity. Qed.

(** ** BuildForm *)
Lemma select_view_ext {St} (o o' : St -> N -> N -> frag -> frag -> res (St * Z)) d s p tr :
  (forall s lid cl suf, o s lid cl (whole tr) suf = o' s lid cl (whole tr) suf) ->
  select_view o d s p tr = select_view o' d s p tr.
Proof.
  intros Ho. unfold select_view. destruct (getserial p) as [[u q]|]; cbn [bind]; [|reflexivity].
  generalize (N.to_nat u) as k. intros k. revert q. induction k as [|k IH]; intros q; cbn [select_loop]; [reflexivity|].
  destruct (advance 2 q) as [q1|]; cbn [bind]; [|reflexivity]. destruct (getserial q1) as [[lid q2]|]; cbn [bind]; [|reflexivity].
  destruct (getword16 q2) as [[ocl q3]|]; cbn [bind]; [|reflexivity]. destruct (getpostfix ocl q3) as [[suf q4]|]; cbn [bind]; [|reflexivity].
  destruct (Nat.eqb (length q) d); [apply Ho|apply IH].
Qed.

Lemma within_lookup {X} key : forall n (t : wtree X) a, within n t -> lookup key t = Some a -> (length key <= n)%nat.
Proof.
  induction key as [|c key IH]; intros n t a Hw Hl; [cbn; lia|]. cbn [lookup] in Hl.
  destruct (assoc c (nested t)) as [t'|] eqn:E; [|discriminate]. apply assoc_in in E. destruct n as [|n]; cbn [within] in Hw.
  - rewrite Hw in E. destruct E.
  - specialize (IH n t' a (Hw _ _ E) Hl). cbn [length]. lia.
Qed.

Section Build.
  Variables (A : arrays) (L : lexicon).
  Hypothesis HL : holds A L.
  Hypothesis HB : buildable L.

  Lemma record_facts key e : has_record (words L) key e ->
    exists st c, class_of L (oclass e) = Some (st, c) /\ steminfo_at A (oclass e) = Ok st /\ class_repr A st c /\ no_nul c /\ ~ In 0 key /\
      ~ In 0 (stpost e) /\ (length key <= 48)%nat /\ (forall ft, c_flex c = Some ft -> within 64 ft).
  Proof.
    intros Hr. destruct (holds_classes A L HL key e Hr) as (st & c & Ec & Hat & Hrep). exists st, c. destruct Hr as (l & Hl & Hin) eqn:EHr.
    pose proof (proj1 (holds_lists A L HL key l Hl)) as [Hok _]. rewrite Forall_forall in Hok. specialize (Hok e Hin).
    assert (Hr' : has_record (words L) key e) by (exists l; split; assumption).
    repeat match goal with |- _ /\ _ => split end; try assumption.
    - apply load_class with c; try assumption. apply Hok.
    - split.
      + intros ft Eft. destruct Hrep as (_ & _ & _ & Hf & _). rewrite Eft in Hf. destruct Hf as (_ & _ & (Hd & Hz & _) & _). split; [exact Hz|].
        eapply dumpable_ordered, Hd.
      + intros mx Em. eapply b_mix; eassumption.
    - eapply lookup_nonzero; [apply (holds_nonzero A L HL)|exact Hl].
    - eapply b_post; eassumption.
    - eapply within_lookup; [|exact Hl]. apply (b_stems L HB).
    - intros ft Eft. eapply b_flex; eassumption.
  Qed.

  Lemma id_forms_requested st c key post id : class_repr A st c ->
    map (respell rus_casing (min_case c)) (id_forms c st key post id) = requested c key post id.
  Proof.
    intros (_ & _ & _ & Hf & _). unfold id_forms, requested, takes_id, forms_of. destruct (c_flex c) as [ft|].
    - destruct Hf as (Ht & _). destruct (N.eqb_spec (tfoffs st) 0); [contradiction|].
      destruct (negb (id =? 255) && negb (flexinfo_eq (GetGramInfo (c_word c) id) noflex)); reflexivity.
    - destruct Hf as (_ & ->). destruct (tfoffs st =? 0).
      + destruct (id =? 255); reflexivity.
      + destruct (negb (id =? 255) && negb (flexinfo_eq (GetGramInfo (c_word c) id) noflex)); reflexivity.
  Qed.

  Lemma total_respell min fs : total (map (respell rus_casing min) fs) = total fs.
  Proof. induction fs as [|f fs IH]; [reflexivity|]. cbn [map total fold_right]. fold (total fs). rewrite <- IH, respell_length. reflexivity. Qed.

  (** what a sequence of forms leaves in the caller's array *)
  Definition answered (mem : bytes) (fs : list bytes) (n : Z) (mem' : bytes) : Prop :=
    ((total fs <= 256)%nat /\ fit (length mem) fs /\ n = Z.of_nat (length fs) /\ mem' = filled fs mem) \/
    (~ ((total fs <= 256)%nat /\ fit (length mem) fs) /\ n = (-1)%Z /\ length mem' = length mem).

  Hypothesis HI : indexed A L.

  Lemma build_form_eq junk mem id idform : mem <> [] -> id < 2 ^ 32 -> (length (lexkeylen id ++ junk) = 16)%nat ->
    (build_form A junk (Some mem) id idform = Ok (0%Z, Some mem) /\ forall key e, has_record (words L) key e -> nlexid e <> id) \/
    (exists key e st c n mem', has_record (words L) key e /\ nlexid e = id /\ class_of L (oclass e) = Some (st, c) /\
       build_form A junk (Some mem) id idform = Ok (n, Some mem') /\ answered mem (requested c key (stpost e) idform) n mem').
  Proof.
    intros Hne Hid Hj. unfold build_form. destruct mem as [|b mem0]; [contradiction|]. set (mem := b :: mem0) in *.
    destruct (find_record A L HL HI id junk Hid Hj) as [(-> & Hn)|(p & p' & off & key & e & -> & Hp & Hra & He & Hrec)];
      [left; split; [reflexivity|exact Hn]|].
    right. destruct (record_facts key e Hrec) as (st & c & Ec & Hat & Hrep & Hnn & Hk & Hpost & Hlen & Hwi).
    cbn [bind]. rewrite Hp. cbn [bind].
    destruct (holds_stems A L HL) as (rest & Est). rewrite Est. unfold stemtree_bytes.
    destruct (rec_at_bytes _ _ _ _ _ Hra (holds_all_lists A L HL) rest) as (pre & aft & Hb & Hpre & _ & Hok).
    assert (Eadv : advance off (serialize C8 stems_ser stems_len (words L) ++ rest) = Ok (entry_ser e ++ aft))
      by (rewrite Hb; apply advance_app; lia).
    rewrite Eadv. cbn [bind].
    set (d := length (entry_ser e ++ aft)).
    set (out' := fun s lid cl (fr suf : frag) => build_class A (form_build A (fstr fr) idform) s lid cl fr suf).
    set (out := fun s lid cl (tr post : bytes) => out' s lid cl (whole tr) (whole post)).
    assert (Hout : forall s lid cl tr e after, out' s lid cl (Frag tr (N.of_nat (length tr))) (post_frag e after) = out s lid cl tr (stpost e)).
    { intros s lid cl tr e0 after. unfold out, out', build_class. destruct (steminfo_at A cl) as [st0|]; cbn [bind]; [|reflexivity].
      cbn [whole flen fstr]. destruct (advance _ tr) as [x|]; cbn [bind]; [|reflexivity]. apply form_build_suffix, fbytes_post_whole. }
    rewrite (get_track_ext C8 _ (fun s p tr => select_view out' d s p tr)).
    2:{ intros s q tr. apply select_view_ext. intros. reflexivity. }
    rewrite (track_found out' out Hout _ _ _ _ _ Hra 48 49 rest [] _ d);
      [|apply (b_stems L HB)|lia|apply (holds_all_lists A L HL)|apply (holds_dump A L HL)|].
    2:{ rewrite Hb, app_length. unfold d. lia. }
    cbn [app]. unfold out, out', build_class. rewrite Hat. cbn [bind]. cbn [whole flen fstr].
    assert (Eadv' : advance (N.of_nat (length key)) key = Ok []).
    { rewrite <- (app_nil_r key) at 2. apply advance_app. reflexivity. }
    rewrite Eadv'. cbn [bind]. fold (whole (stpost e)).
    pose proof (form_build_eq A st c key (stpost e) [] (whole (stpost e)) (nlexid e) [] idform [] mem 0%Z
                  (or_introl Hrep) Hnn Hk Hpost Hlen Hwi (fbytes_whole _) (Frag [] 0) eq_refl) as Hfb.
    rewrite app_nil_r in Hfb. cbn [app length] in Hfb.
    rewrite (id_forms_requested st c key (stpost e) idform Hrep) in Hfb.
    assert (Htot : total (id_forms c st key (stpost e) idform) = total (requested c key (stpost e) idform))
      by (rewrite <- (id_forms_requested st c key (stpost e) idform Hrep); symmetry; apply total_respell).
    unfold built in Hfb. rewrite Htot in Hfb. destruct Hfb as [H1 H2].
    set (fs := requested c key (stpost e) idform) in *.
    exists key, e, st, c. destruct (le_dec (total fs) 256) as [Hle|Hgt].
    - destruct (H1 Hle) as [H3 H4]. destruct (fit_dec (length mem) fs) as [Hfit|Hnf].
      + rewrite (H3 Hfit). cbn [bind fst snd cmem]. cbn [Z.ltb Z.compare]. eexists _, _.
        repeat match goal with |- _ /\ _ => split end; try eassumption; [reflexivity|]. left.
        repeat match goal with |- _ /\ _ => split end; try assumption; reflexivity.
      + destruct (H4 Hnf) as (c1 & z & -> & Hl). cbn [bind fst snd cmem]. cbn [Z.ltb Z.compare]. eexists _, _.
        repeat match goal with |- _ /\ _ => split end; try eassumption; [reflexivity|]. right.
        repeat match goal with |- _ /\ _ => split end; [tauto|reflexivity|exact Hl].
    - destruct (H2 ltac:(lia)) as (c1 & z & -> & Hl). cbn [bind fst snd cmem]. cbn [Z.ltb Z.compare]. eexists _, _.
      repeat match goal with |- _ /\ _ => split end; try eassumption; [reflexivity|]. right.
      repeat match goal with |- _ /\ _ => split end; [tauto|reflexivity|exact Hl].
  Qed.

  (** ** FindForms *)
  Definition an_class (a : analysis) : aclass :=
    match class_of L (oclass (an_entry a)) with Some (_, c) => c | None => AClass 0 0 None None end.
  Definition an_forms (id : N) (a : analysis) : list bytes := found_forms (an_class a) (an_key a) (stpost (an_entry a)) id.

  Definition tgt_of {St} (target : St -> N -> steminfo -> frag -> frag -> list gram -> res (St * Z))
    (s : St) (lid : N) (st : steminfo) (fr : frag) (post : bytes) (gr : list gram) := target s lid st fr (whole post) gr.

  Lemma found_forms_eq st st0 c key post id : class_repr A st0 c -> st = (match c_flex c with None => Steminfo (wdinfo st0) 0 0 | Some _ => st0 end) ->
    map (respell rus_casing (min_case c)) (id_forms c st key post id) = found_forms c key post id /\ stands_for A st c.
  Proof.
    intros Hrep ->. pose proof Hrep as (Hw & _ & _ & Hf & _). unfold id_forms, found_forms, takes_id, forms_of. destruct (c_flex c) as [ft|] eqn:Ec.
    - destruct Hf as (Ht & _). destruct (N.eqb_spec (tfoffs st0) 0); [contradiction|]. split; [|left; assumption].
      destruct (negb (id =? 255) && negb (flexinfo_eq (GetGramInfo (c_word c) id) noflex)); reflexivity.
    - cbn [tfoffs]. rewrite N.eqb_refl. split; [|right; split; [assumption|congruence]]. destruct (id =? 255); reflexivity.
  Qed.

  Definition all_forms (id : N) (l : list analysis) : list bytes := flat_map (an_forms id) l.

  Lemma find_steps scheme dwsets w tail id : forall l done rest n, (forall a, In a l -> In a (analyses L scheme dwsets w)) ->
    let r := until_nonzero (visit (tgt_of (form_build A (w ++ tail) id)) tail) l (Coder (done ++ rest) (length done), n) in
    (Forall (fun a => small (an_forms id a)) l /\ fit (length rest) (all_forms id l) ->
       r = Ok ((Coder ((done ++ joined (all_forms id l)) ++ after (all_forms id l) rest) (length (done ++ joined (all_forms id l))),
               (n + Z.of_nat (length (all_forms id l)))%Z), 0%Z)) /\
    (~ (Forall (fun a => small (an_forms id a)) l /\ fit (length rest) (all_forms id l)) ->
       exists c z, r = Ok ((c, z), (-1)%Z) /\ length (cmem c) = length (done ++ rest)).
  Proof.
    induction l as [|a l IH]; intros done rest n Hin; cbn [until_nonzero all_forms flat_map].
    - split; [|intros H; exfalso; apply H; split; [constructor|left; reflexivity]]. intros _. cbn. rewrite app_nil_r, Z.add_0_r. reflexivity.
    - destruct (analyses_sound L scheme dwsets w a (Hin a (or_introl eq_refl))) as (Hw & Hrec & _ & st0 & c & Ec & _ & _ & Hst).
      destruct (record_facts _ _ Hrec) as (st0' & c' & Ec' & Hat & Hrep & Hnn & Hk & Hpost & Hlen & Hwi).
      rewrite Ec in Ec'. injection Ec' as <- <-.
      destruct (found_forms_eq (an_stem a) st0 c (an_key a) (stpost (an_entry a)) id Hrep Hst) as [Hff Hstands].
      assert (Hc : an_class a = c) by (unfold an_class; rewrite Ec; reflexivity).
      assert (Haf : found_forms c (an_key a) (stpost (an_entry a)) id = an_forms id a) by (unfold an_forms; rewrite Hc; reflexivity).
      rewrite Haf in Hff.
      change (visit (tgt_of (form_build A (w ++ tail) id)) tail (Coder (done ++ rest) (length done), n) a) with
        (form_build A (w ++ tail) id (Coder (done ++ rest) (length done), n) (nlexid (an_entry a)) (an_stem a)
           (Frag (an_part a ++ stpost (an_entry a) ++ tail) (N.of_nat (length (an_part a)))) (whole (stpost (an_entry a))) (an_grams a)).
      pose proof (form_build_eq A (an_stem a) c (an_key a) (stpost (an_entry a)) (an_part a ++ stpost (an_entry a) ++ tail) (whole (stpost (an_entry a)))
                    (nlexid (an_entry a)) (an_grams a) id done rest n Hstands Hnn Hk Hpost Hlen Hwi (fbytes_whole _)
                    (Frag (an_part a ++ stpost (an_entry a) ++ tail) (N.of_nat (length (an_part a)))) eq_refl) as Hfb.
      replace (an_key a ++ an_part a ++ stpost (an_entry a) ++ tail) with (w ++ tail) in Hfb by (rewrite Hw, <- !app_assoc; reflexivity).
      assert (Htot : total (id_forms c (an_stem a) (an_key a) (stpost (an_entry a)) id) = total (an_forms id a))
        by (rewrite <- Hff; symmetry; apply total_respell).
      unfold built in Hfb. rewrite Htot, Hff in Hfb. destruct Hfb as [H1 H2]. fold (all_forms id l).
      destruct (le_dec (total (an_forms id a)) 256) as [Hle|Hgt].
      + destruct (H1 Hle) as [H3 H4]. destruct (fit_dec (length rest) (an_forms id a)) as [Hfit|Hnf].
        * rewrite (H3 Hfit). cbn [bind]. cbn [Z.eqb].
          specialize (IH (done ++ joined (an_forms id a)) (after (an_forms id a) rest) (n + Z.of_nat (length (an_forms id a)))%Z (fun b Hb => Hin b (or_intror Hb))).
          cbn zeta in IH. destruct IH as [IH1 IH2]. split.
          -- intros [Hs Hf]. inversion Hs as [|? ? _ Hs']; subst. rewrite (fit_app _ _ _ rest eq_refl) in Hf. rewrite IH1 by (split; [assumption|apply Hf]).
             rewrite joined_app, after_app, <- !app_assoc, !app_length, Nat2Z.inj_add. do 3 f_equal. lia.
          -- intros Hn. destruct IH2 as (c1 & z & E & Hl).
             { intros [Hs Hf]. apply Hn. split; [constructor; assumption|]. rewrite (fit_app _ _ _ rest eq_refl). split; assumption. }
             exists c1, z. split; [exact E|]. rewrite Hl, !app_length. pose proof (after_length _ _ Hfit). lia.
        * destruct (H4 Hnf) as (c1 & z & -> & Hl). cbn [bind]. cbn [Z.eqb]. split.
          -- intros [_ Hf]. rewrite (fit_app _ _ _ rest eq_refl) in Hf. tauto.
          -- intros _. exists c1, z. split; [reflexivity|exact Hl].
      + destruct (H2 ltac:(lia)) as (c1 & z & -> & Hl). cbn [bind]. cbn [Z.eqb]. split.
        * intros [Hs _]. inversion Hs; subst. contradiction.
        * intros _. exists c1, z. split; [reflexivity|exact Hl].
  Qed.

  Lemma find_forms_eq junk mem w psz cch idform dwsets :
    mem <> [] -> given w psz cch -> is_bytes w -> w <> [] -> (length w < 48)%nat -> (length (rparts w) <= 8)%nat ->
    exists scheme, (forall m, IsGoodSheme scheme m = true <-> suits w m) /\
      let l := analyses L scheme dwsets (rlow w) in
      (Forall (fun a => small (an_forms idform a)) l /\ fit (length mem) (all_forms idform l) /\
        find_forms A junk (Some mem) psz cch idform dwsets =
          Ok (Z.of_nat (length (all_forms idform l)), Some (filled (all_forms idform l) mem))) \/
      (~ (Forall (fun a => small (an_forms idform a)) l /\ fit (length mem) (all_forms idform l)) /\ exists mem', length mem' = length mem /\
        find_forms A junk (Some mem) psz cch idform dwsets = Ok ((-1)%Z, Some mem')).
  Proof.
    intros Hne Hg Hb Hw Hlen Hp. unfold find_forms. destruct mem as [|b mem0]; [contradiction|]. set (mem := b :: mem0) in *.
    rewrite (to_canonic_given w psz cch Hg Hw).
    destruct (canonic_facts w Hb Hw Hlen Hp) as (v & Ev & _). rewrite Ev. cbn [bind].
    match goal with |- context [prologue psz cch dwsets junk ?f ?g] => set (fl := f); set (go := g) end.
    destruct (prologue_word w psz cch dwsets junk fl go Hg Hb Hw Hlen Hp) as (scheme & tail & Hs & E & Hff & Ht).
    exists scheme. split; [exact Hs|]. cbn zeta. rewrite E.
    destruct ((scheme mod 256 =? 255) && negb (bit 1 dwsets)) eqn:Eb.
    - apply andb_true_iff in Eb as [E1 E2]. apply N.eqb_eq in E1. apply negb_true_iff in E2.
      assert (Hnil : analyses L scheme dwsets (rlow w) = []).
      { destruct (analyses L scheme dwsets (rlow w)) as [|a l] eqn:Ea; [reflexivity|].
        destruct (analyses_sound L scheme dwsets (rlow w) a) as (_ & _ & _ & st & c & _ & Hcap & _); [rewrite Ea; left; reflexivity|].
        apply (cap_ok_suits scheme dwsets w c Hs) in Hcap as [H|H]; [congruence|]. destruct (Hff E1 _ H). }
      rewrite Hnil. left. split; [constructor|]. split; [left; reflexivity|]. reflexivity.
    - unfold go. replace (length w) with (length (rlow w)) by apply map_length.
      rewrite (scan_words_eq A L (form_build A (rlow w ++ tail) idform) (tgt_of (form_build A (rlow w ++ tail) idform)));
        [|intros; unfold tgt_of; apply form_build_suffix, fbytes_post_whole|exact HL|replace (length (rlow w)) with (length w) by (symmetry; apply map_length); lia].
      pose proof (find_steps scheme dwsets (rlow w) tail idform (analyses L scheme dwsets (rlow w)) [] mem 0%Z (fun a H => H)) as Hst.
      cbn zeta in Hst. cbn [app length] in Hst. destruct Hst as [H1 H2].
      assert (Hdec : {Forall (fun a => small (an_forms idform a)) (analyses L scheme dwsets (rlow w))} +
                     {~ Forall (fun a => small (an_forms idform a)) (analyses L scheme dwsets (rlow w))})
        by (apply Forall_dec; intros a; apply le_dec).
      destruct Hdec as [Ha|Ha].
      + destruct (fit_dec (length mem) (all_forms idform (analyses L scheme dwsets (rlow w)))) as [Hf|Hf].
        * left. split; [exact Ha|]. split; [exact Hf|]. rewrite (H1 (conj Ha Hf)). reflexivity.
        * right. split; [tauto|]. destruct H2 as (c1 & z & -> & Hl); [tauto|]. exists (cmem c1). split; [exact Hl|reflexivity].
      + right. split; [tauto|]. destruct H2 as (c1 & z & -> & Hl); [tauto|]. exists (cmem c1). split; [exact Hl|reflexivity].
  Qed.
End Build.
