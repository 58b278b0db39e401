(** * CodepageProofs3: BuildForm and FindForms in the caller's code page, the answers.  PROOFS. *)
From Verif Require Import Base Serial SerialProofs WordTree TreeSpec WordTreeProofs FlatScan FlatScanProofs LidsProofs TrackProofs
  TreeWalk Stems StemSpec StemsProofs DictProofs CharTables CapScheme CapSpec CapProofs CapProofs2 PropCaseLemmas GramMap RusRuntime LevelSpec LevelProofs RusSpec
  RusProofs RusProofs2 RusProofs3 RusBuild RusBuildSpec RusBuildProofs RusBuildProofs2 RusBuildProofs3 RusReadings RusReadingsProofs RusLemmaSpec
  PropBuildLemmas CxxApi CxxProofs CxxProofs2 Codepage CodepageSpec CodepageProofs CodepageProofs2.
Local Open Scope N_scope.

Lemma form_build_with_suffix s1 s2 (put : coder -> bytes -> res (coder * bool)) A sz id s lid st fr gr : fbytes s1 = fbytes s2 ->
  form_build_with put A sz id s lid st fr s1 gr = form_build_with put A sz id s lid st fr s2 gr.
Proof. intros Hs. unfold form_build_with. rewrite (word_forms_suffix s1 s2 Hs). reflexivity. Qed.

Lemma form_build_1251 A sz id s lid st fr suf gr : form_build_with coder_put A sz id s lid st fr suf gr = form_build A sz id s lid st fr suf gr.
Proof. reflexivity. Qed.

Section Build.
  Variables (A : arrays) (L : lexicon).
  Hypothesis HL : holds A L.
  Hypothesis HB : buildable L.

  (** the search for the lexeme does not depend on the output *)
  Lemma build_form_run junk id idform : indexed A L -> id < 2 ^ 32 -> (length (lexkeylen id ++ junk) = 16)%nat ->
    ((forall put mem, mem <> [] -> build_form_with put A junk (Some mem) id idform = Ok (0%Z, Some mem)) /\
       forall key e, has_record (words L) key e -> nlexid e <> id) \/
    (exists key e st c, has_record (words L) key e /\ nlexid e = id /\ class_of L (oclass e) = Some (st, c) /\
       forall put mem, mem <> [] -> build_form_with put A junk (Some mem) id idform =
         (let! (s, nerror) := form_build_with put A key idform (Coder mem 0, 0%Z) (nlexid e) st (Frag [] 0) (whole (stpost e)) [] in
          Ok (if (nerror <? 0)%Z then nerror else snd s, Some (cmem (fst s))))).
  Proof.
    intros HI Hid Hj.
    destruct (find_record A L HL HI id junk Hid Hj) as [(Ef & Hn)|(p & p' & off & key & e & Ef & Hp & Hra & He & Hrec)].
    - left. split; [|exact Hn]. intros put mem Hne. unfold build_form_with. destruct mem; [contradiction|]. rewrite Ef. reflexivity.
    - right. destruct (record_facts A L HL HB key e Hrec) as (st & c & Ec & Hat & Hrep & Hnn & Hk & Hpost & Hlen & Hwi).
      exists key, e, st, c. split; [exact Hrec|]. split; [exact He|]. split; [exact Ec|]. intros put mem Hne.
      unfold build_form_with. destruct mem as [|b mem0]; [contradiction|]. set (mem := b :: mem0) in *. rewrite Ef.
      cbn [bind]. rewrite Hp. cbn [bind].
      destruct (holds_stems A L HL) as (rest & Est). rewrite Est. unfold stemtree_bytes.
      destruct (rec_at_bytes _ _ _ _ _ Hra (holds_all_lists A L HL) rest) as (pre & aft & Hb & Hpre & _ & Hok).
      assert (Eadv : advance off (serialize C8 stems_ser stems_len (words L) ++ rest) = Ok (entry_ser e ++ aft))
        by (rewrite Hb; apply advance_app; lia).
      rewrite Eadv. cbn [bind].
      set (d := length (entry_ser e ++ aft)).
      set (out' := fun s lid cl (fr suf : frag) => build_class A (form_build_with put A (fstr fr) idform) s lid cl fr suf).
      set (out := fun s lid cl (tr post : bytes) => out' s lid cl (whole tr) (whole post)).
      assert (Hout : forall s lid cl tr e after, out' s lid cl (Frag tr (N.of_nat (length tr))) (post_frag e after) = out s lid cl tr (stpost e)).
      { intros s lid cl tr e0 after. unfold out, out', build_class. destruct (steminfo_at A cl) as [st0|]; cbn [bind]; [|reflexivity].
        cbn [whole flen fstr]. destruct (advance _ tr) as [x|]; cbn [bind]; [|reflexivity]. apply form_build_with_suffix, fbytes_post_whole. }
      rewrite (get_track_ext C8 _ (fun s p tr => select_view out' d s p tr)).
      2:{ intros s q tr. apply select_view_ext. intros. reflexivity. }
      rewrite (track_found out' out Hout _ _ _ _ _ Hra 48 49 rest [] _ d);
        [|apply (b_stems L HB)|lia|apply (holds_all_lists A L HL)|apply (holds_dump A L HL)|].
      2:{ rewrite Hb, app_length. unfold d. lia. }
      cbn [app]. unfold out, out', build_class. rewrite Hat. cbn [bind]. cbn [whole flen fstr].
      assert (Eadv' : advance (N.of_nat (length key)) key = Ok []).
      { rewrite <- (app_nil_r key) at 2. apply advance_app. reflexivity. }
      rewrite Eadv'. cbn [bind]. reflexivity.
  Qed.

  Variable E : encoding.
  Hypothesis Hnul : enc E 0 = [0].
  Hypothesis Hwide : forall c, enc E c <> [].

  Lemma start_related mem : f_related E mem (S (length mem)) [] (Coder (repeat 0 (S (length mem))) 0, 0%Z) (Coder mem 0, 0%Z).
  Proof using.
    clear. split; [|split; reflexivity]. split; [|split; [reflexivity|left; reflexivity]]. split; [constructor|].
    exists (repeat 0 (S (length mem))). split; [reflexivity|]. apply repeat_length.
  Qed.

  Lemma found_delivered mem fs (limits : Prop) r : found_result E mem fs limits r ->
    delivered_in E mem fs limits (let! (s, nerror) := r in Ok (if (nerror <? 0)%Z then nerror else snd s, Some (cmem (fst s)))).
  Proof using.
    clear. intros [H1 H2]. split; intros H.
    - destruct (H1 H) as (c & -> & Ec). cbn [bind fst snd]. cbn [Z.ltb Z.compare]. rewrite Ec. reflexivity.
    - destruct (H2 H) as (c & z & -> & Hl). cbn [bind fst snd]. cbn [Z.ltb Z.compare]. exists (cmem c). split; [exact Hl|reflexivity].
  Qed.

  Lemma cp_build_some : indexed A L -> forall junk id idform, id < 2 ^ 32 -> (length (lexkeylen id ++ junk) = 16)%nat ->
    (exists key e, has_record (words L) key e /\ nlexid e = id) ->
    exists key e st c, has_record (words L) key e /\ nlexid e = id /\ class_of L (oclass e) = Some (st, c) /\
      forall mem, mem <> [] -> let fs := requested c key (stpost e) idform in delivered_in E mem fs (small fs) (cp_build_form E A junk (Some mem) id idform).
  Proof.
    intros HI junk id idform Hid Hj (key0 & e0 & Hr0 & He0).
    destruct (build_form_run junk id idform HI Hid Hj) as [(_ & H)|(key & e & st & c & Hr & He & Ec & Hrun)]; [exfalso; exact (H key0 e0 Hr0 He0)|].
    exists key, e, st, c. split; [exact Hr|]. split; [exact He|]. split; [exact Ec|]. intros mem Hne. cbv zeta. unfold cp_build_form. rewrite (Hrun _ _ Hne).
    set (fs := requested c key (stpost e) idform).
    apply found_delivered.
    destruct (record_facts A L HL HB key e Hr) as (st' & c' & Ec' & Hat & Hrep & Hnn & Hk & Hpost & Hlen & Hwi).
    rewrite Ec in Ec'. injection Ec' as <- <-.
    pose proof (form_build_eq A st c key (stpost e) [] (whole (stpost e)) (nlexid e) [] idform [] (repeat 0 (S (length mem))) 0%Z
                  (or_introl Hrep) Hnn Hk Hpost Hlen Hwi (fbytes_whole _) (Frag [] 0) eq_refl) as Hfb.
    rewrite app_nil_r in Hfb. cbn [app length] in Hfb. rewrite (id_forms_requested A st c key (stpost e) idform Hrep) in Hfb.
    assert (Htot : total (id_forms c st key (stpost e) idform) = total fs)
      by (unfold fs; rewrite <- (id_forms_requested A st c key (stpost e) idform Hrep); symmetry; apply total_respell).
    fold fs in Hfb. unfold built in Hfb. rewrite Htot in Hfb. destruct Hfb as [H1 H2]. unfold returned in H1. rewrite repeat_length in H1.
    eapply (second_run E Hwide mem (S (length mem)) (le_n _) fs (small fs)).
    - unfold fs, requested. destruct (takes_id c idform); [|constructor]. eapply forms_no_nul; eassumption.
    - apply (form_build_side E Hnul Hwide mem (S (length mem)) (le_n _)). apply start_related.
    - intros [Hs Hf]. destruct (H1 Hs) as [H3 _]. rewrite form_build_1251, (H3 Hf). cbn [app]. eexists _, _. reflexivity.
    - intros Hno. rewrite form_build_1251. destruct (le_dec (total fs) 256) as [Hle|Hgt].
      + destruct (H1 Hle) as [_ H4]. destruct H4 as (c1 & z & -> & _); [intros Hf; apply Hno; split; assumption|]. eexists. reflexivity.
      + destruct (H2 ltac:(lia)) as (c1 & z & -> & _). eexists. reflexivity.
    - unfold small. destruct (le_dec (total fs) 256); [left|right]; assumption.
  Qed.

  Lemma cp_build_unknown : indexed A L -> forall junk mem id idform,
    mem <> [] -> id < 2 ^ 32 -> (length (lexkeylen id ++ junk) = 16)%nat ->
    (forall key e, has_record (words L) key e -> nlexid e <> id) ->
    cp_build_form E A junk (Some mem) id idform = Ok (0%Z, Some mem).
  Proof using HL HB.
    intros HI junk mem id idform Hm Hid Hj Hn.
    destruct (build_form_run junk id idform HI Hid Hj) as [(H & _)|(key & e & st & c & Hr & He & _)]; [apply H, Hm|].
    exfalso. exact (Hn key e Hr He).
  Qed.

  (** ** FindForms *)
  Lemma prologue_with_word {X} w psz cch dwsets junk (failed : Z -> X) go :
    given w psz cch -> is_bytes w -> w <> [] -> (length w < 48)%nat -> (length (rparts w) <= 8)%nat ->
    exists scheme tail,
      (forall m, IsGoodSheme scheme m = true <-> suits w m) /\
      prologue_with (to_canonic psz cch) dwsets junk failed go =
        (if (scheme mod 256 =? 255) && negb (bit 1 dwsets) then Ok (failed 0%Z)
         else go (rlow w ++ tail) (N.of_nat (length w)) scheme) /\
      (scheme mod 256 = 255 -> forall m, ~ suits w m) /\
      tail = 0 :: skipn (S (length w)) junk.
  Proof using. apply prologue_word. Qed.

  Lemma cp_find_found t dwsets : is_bytes t -> t <> [] -> (length t < 48)%nat -> (length (rparts t) <= 8)%nat -> (length t + slack E <= 48)%nat ->
    exists hs, found L (bit 1 dwsets) t hs /\
      forall w psz cch mem idform junk, given w psz cch -> w <> [] -> dec E w = t -> mem <> [] ->
        delivered_in E mem (flat_map (reading_forms idform) hs) (Forall (fun r => small (reading_forms idform r)) hs)
          (cp_find_forms E A junk (Some mem) psz cch idform dwsets).
  Proof.
    intros Hb Ht Hlen Hp Hsl. destruct (scheme_exists t Hb Ht Hlen Hp) as (scheme & Hs).
    exists (hits L scheme dwsets (rlow t)). split; [apply hits_found with A; assumption|].
    intros w psz cch mem idform junk Hg Hw Ed Hm. unfold cp_find_forms, find_forms_with.
    assert (Hgt : given t (Some (t ++ [])) (N.of_nat (length t))) by (constructor; lia).
    rewrite (cp_canonic_text E w psz cch (Some (t ++ [])) (N.of_nat (length t))) by (rewrite ?Ed; assumption).
    destruct mem as [|b mem0]; [contradiction|]. set (mem := b :: mem0) in *.
    rewrite (to_canonic_given t _ _ Hgt Ht). destruct (canonic_facts t Hb Ht Hlen Hp) as (v & Ev & _). rewrite Ev. cbn [bind]. rewrite <- Ev, <- (to_canonic_given t _ _ Hgt Ht).
    match goal with |- context [prologue_with _ dwsets junk ?f ?g] => set (fl := f); set (go := g) end.
    destruct (prologue_with_word t _ _ dwsets junk fl go Hgt Hb Ht Hlen Hp) as (scheme' & tail & Hs' & Ep & Hff & Htl). rewrite Ep.
    set (hs := hits L scheme dwsets (rlow t)).
    assert (Eh : analyses L scheme' dwsets (rlow t) = map (to_analysis L) hs).
    { rewrite analyses_hits. f_equal. apply hits_scheme. intros m. rewrite Hs, Hs'. reflexivity. }
    destruct ((scheme' mod 256 =? 255) && negb (bit 1 dwsets)) eqn:Eb.
    - apply andb_true_iff in Eb as [E1 E2]. apply N.eqb_eq in E1. apply negb_true_iff in E2.
      assert (Hnil : hs = []).
      { destruct (analyses L scheme' dwsets (rlow t)) as [|a l] eqn:Ea; [destruct hs; [reflexivity|discriminate]|]. exfalso.
        destruct (analyses_sound L scheme' dwsets (rlow t) a) as (_ & _ & _ & st & c & _ & Hcap & _); [rewrite Ea; left; reflexivity|].
        apply (cap_ok_suits scheme' dwsets t c Hs') in Hcap as [H|H]; [congruence|]. exact (Hff E1 _ H). }
      rewrite Hnil. split; [reflexivity|]. intros H. exfalso. apply H. split; [constructor|left; reflexivity].
    - unfold go. replace (length t) with (length (rlow t)) by apply map_length.
      set (T := fun put => form_build_with put A (rlow t ++ tail) idform).
      assert (Hscan : forall put s, scan_words A (T put) scheme' dwsets (rlow t ++ tail) (N.of_nat (length (rlow t))) s =
                                    until_nonzero (visit (tgt_of (T put)) tail) (map (to_analysis L) hs) s).
      { intros put s. rewrite (scan_words_eq A L (T put) (tgt_of (T put)));
          [rewrite Eh; reflexivity|intros; unfold tgt_of; apply form_build_with_suffix, fbytes_post_whole|exact HL|].
        replace (length (rlow t)) with (length t) by (symmetry; apply map_length). lia. }
      fold (T (cp_put E)). rewrite Hscan. apply found_delivered.
      pose proof (find_steps A L HL HB scheme' dwsets (rlow t) tail idform (map (to_analysis L) hs) [] (repeat 0 (S (length mem))) 0%Z
                    ltac:(intros a Ha; rewrite Eh; exact Ha)) as Hst.
      cbn zeta in Hst. cbn [app length] in Hst. rewrite repeat_length in Hst.
      assert (E1 : all_forms L idform (map (to_analysis L) hs) = flat_map (reading_forms idform) hs).
      { unfold all_forms. rewrite flat_map_concat_map, map_map, <- flat_map_concat_map. apply flat_map_ext_in. intros r Hr. eapply an_forms_reading, Hr. }
      assert (E2 : Forall (fun a => small (an_forms L idform a)) (map (to_analysis L) hs) <-> Forall (fun r => small (reading_forms idform r)) hs).
      { rewrite Forall_map, !Forall_forall. split; intros H0 r Hr; specialize (H0 r Hr); rewrite (an_forms_reading L idform scheme dwsets (rlow t) r Hr) in *; exact H0. }
      rewrite E1, E2 in Hst. destruct Hst as [H1 H2].
      eapply (second_run E Hwide mem (S (length mem)) (le_n _)).
      + eapply reading_forms_no_nul; [exact HL|exact HB|]. apply hits_found with (A := A) (scheme := scheme) (dwsets := dwsets) (w := t); assumption.
      + apply until_side with (l := map (to_analysis L) hs) (f := visit (tgt_of (T coder_put)) tail) (g := visit (tgt_of (T (cp_put E))) tail);
          [apply f_related_large|apply fit_in_prefix| | |apply start_related].
        * intros a fs s1 _ Hl. apply (form_build_grows E Hwide mem (S (length mem)) (le_n _)). exact Hl.
        * intros a fs s1 s2 _ Hr. apply form_build_side; [exact Hnul|exact Hwide|lia|exact Hr].
      + intros H. change (T coder_put) with (form_build A (rlow t ++ tail) idform). rewrite (H1 H). eexists _, _. reflexivity.
      + intros H. change (T coder_put) with (form_build A (rlow t ++ tail) idform). destruct (H2 H) as (c & z & -> & _). eexists. reflexivity.
      + assert (Hdec : {Forall (fun r => small (reading_forms idform r)) hs} + {~ Forall (fun r => small (reading_forms idform r)) hs})
          by (apply Forall_dec; intros r; apply le_dec). destruct Hdec; [left|right]; assumption.
  Qed.
End Build.
