(** * EngProofs2: CheckWord and GetWdInfo of the English analyser.  PROOFS. *)
From Verif Require Import Base Serial SerialProofs WordTree TreeSpec WordTreeProofs FlatScan FlatScanProofs LidsProofs TrackProofs
  TreeWalk Stems StemSpec StemsProofs DictProofs CharTables CapScheme CapSpec CapProofs CapProofs2 CapProofs3 PropCaseLemmas PropTreesLemmas
  GramMap RusRuntime RusBuild RusSpec RusProofs RusProofs2 RusProofs3 RusBuildSpec EngRuntime EngSpec EngProofs.
Local Open Scope N_scope.

Notation eparts := (parts eng_casing).
Notation elow := (map (locase eng_casing)).

Lemma eng_okay : casing_ok eng_casing.
Proof. apply PropCaseLemmas.tables_consistent. Qed.
Lemma eng_dlm : forall d, d < 256 -> is_delim eng_casing d -> locase eng_casing d = d.
Proof. intros d Hd H. apply (ok_delim eng_casing eng_okay d Hd H). Qed.

Lemma ecanonic_facts w : is_bytes w -> w <> [] -> (length w < 48)%nat -> (length (eparts w) <= 8)%nat ->
  exists v, cap_get eng_casing 48 w = Ok (v, elow w ++ [0]) /\ N.shiftr v 16 = N.of_nat (length w) /\
    v <> 0 /\ v <> 2 ^ 32 - 1 /\
    (forall m, IsGoodSheme (N.land v 0xffff) m = true <-> esuits w m) /\
    (N.land v 0xff = 0xff -> forall m, ~ esuits w m).
Proof.
  intros Hb Hne Hlen Hp.
  destruct (cap_get_length eng_casing eng_dlm w 48 Hb Hlen ltac:(cbn; lia) Hp) as (v & E & Hv).
  assert (Hl : (0 < length w)%nat) by (destruct w; [congruence|cbn; lia]).
  assert (Hgood : forall m, IsGoodSheme (N.land v 0xffff) m = true <-> esuits w m).
  { intros m. rewrite land_ffff. exact (good_exact eng_casing eng_dlm w 48 v _ m Hb Hlen ltac:(cbn; lia) ltac:(lia) E). }
  rewrite N.shiftr_div_pow2 in Hv.
  exists v. split; [exact E|]. split; [rewrite N.shiftr_div_pow2; exact Hv|].
  assert (65536 <= v < 48 * 65536) by (clear - Hv Hl Hlen; change (2 ^ 16) with 65536 in Hv; lia).
  split; [lia|]. split; [lia|]. split; [exact Hgood|].
  intros Hff m Hs. apply Hgood in Hs. apply good_small in Hs as (_ & Hs & _). apply Hs.
  rewrite land_ffff. rewrite land_ff in Hff. clear - Hff. lia.
Qed.

Lemma eto_canonic_given w psz cch : given w psz cch -> w <> [] -> eto_canonic psz cch = cap_get eng_casing 48 w.
Proof.
  intros [w' after Hl|w' after H0] Hne; unfold eto_canonic.
  - destruct (N.eqb_spec (N.of_nat (length w')) (2 ^ 64 - 1)); [lia|].
    rewrite app_length. destruct (N.ltb_spec (N.of_nat (length w' + length after)) (N.of_nat (length w'))); [lia|].
    rewrite Nnat.Nat2N.id, firstn_app, Nat.sub_diag, firstn_O, app_nil_r, firstn_all. cbn [bind]. destruct w'; [congruence|reflexivity].
  - rewrite N.eqb_refl, cstr_app by assumption. cbn [bind]. destruct w'; [congruence|reflexivity].
Qed.

Lemma eto_canonic_empty psz cch : psz = None \/ given [] psz cch -> eto_canonic psz cch = Ok (0, []).
Proof.
  intros [->|H]; [reflexivity|]. inversion H; subst; [|reflexivity].
  unfold eto_canonic. cbn [app length N.of_nat]. destruct (N.eqb_spec 0 (2 ^ 64 - 1)); [lia|].
  destruct (N.ltb_spec (N.of_nat (length after)) 0); [lia|]. reflexivity.
Qed.

Lemma eprologue_word {B} w psz cch dwsets junk (failed : Z -> B) go :
  given w psz cch -> is_bytes w -> w <> [] -> (length w < 48)%nat -> (length (eparts w) <= 8)%nat ->
  exists scheme tail,
    (forall m, IsGoodSheme scheme m = true <-> esuits w m) /\
    eprologue psz cch dwsets junk failed go =
      (if (scheme mod 256 =? 255) && negb (bit 1 dwsets) then Ok (failed 0%Z)
       else go (elow w ++ tail) (N.of_nat (length w)) scheme) /\
    (scheme mod 256 = 255 -> forall m, ~ esuits w m) /\
    tail = 0 :: skipn (S (length w)) junk.
Proof.
  intros Hgiven Hb Hne Hlen Hp. destruct (ecanonic_facts w Hb Hne Hlen Hp) as (v & E & Hv & H0 & H1 & Hg & Hff).
  exists (N.land v 0xffff), (0 :: skipn (S (length w)) junk). split; [exact Hg|].
  unfold eprologue. rewrite (eto_canonic_given w psz cch Hgiven Hne), E. cbn [bind].
  destruct (N.eqb_spec v (2 ^ 32 - 1)); [contradiction|]. destruct (N.eqb_spec v 0); [contradiction|].
  assert (Em : N.land v 0xffff mod 256 = N.land v 0xff) by (rewrite land_ffff, land_ff; clear; lia).
  rewrite Em. rewrite Hv. unfold overwrite. rewrite app_length, map_length. cbn [length].
  replace (length w + 1)%nat with (S (length w)) by lia. rewrite <- app_assoc. cbn [app]. repeat split. exact Hff.
Qed.

Lemma ecap_ok_suits scheme dwsets w c : (forall m, IsGoodSheme scheme m = true <-> esuits w m) ->
  ecap_ok scheme dwsets c = true <-> bit 1 dwsets = true \/ esuits w (ecase c).
Proof. intros H. unfold ecap_ok. rewrite orb_true_iff, H. reflexivity. Qed.

Section ECheck.
  Variables (A : earrays) (L : elexicon).
  Hypothesis HL : eholds A L.

  (** without any acceptable capitalisation there are no analyses *)
  Lemma no_eanalyses scheme dwsets w : (forall m, IsGoodSheme scheme m = true <-> esuits w m) ->
    (forall m, ~ esuits w m) -> bit 1 dwsets = false -> eanalyses L scheme dwsets (elow w) = [].
  Proof.
    intros Hg Hno Eb. destruct (eanalyses L scheme dwsets (elow w)) as [|a l] eqn:Ea; [reflexivity|]. exfalso.
    destruct (eanalyses_sound L scheme dwsets (elow w) a) as (_ & _ & st & c & _ & Hc & _); [rewrite Ea; left; reflexivity|].
    apply (ecap_ok_suits _ _ w _ Hg) in Hc as [Hc|Hc]; [congruence|]. eapply Hno; eassumption.
  Qed.

  Lemma echeck_word_eq w psz cch dwsets junk :
    given w psz cch -> is_bytes w -> w <> [] -> (length w < 48)%nat -> (length (eparts w) <= 8)%nat ->
    exists scheme, (forall m, IsGoodSheme scheme m = true <-> esuits w m) /\
      echeck_word A junk psz cch dwsets = Ok (match eanalyses L scheme dwsets (elow w) with [] => 0%Z | _ => 1%Z end).
  Proof.
    intros Hgiven Hb Hne Hlen Hp. unfold echeck_word.
    destruct (eprologue_word w psz cch dwsets junk (fun r : Z => r)
      (fun locase len scheme => let! (_, r) := escan_words A eanyway_ok scheme dwsets locase len tt in Ok r)
      Hgiven Hb Hne Hlen Hp) as (scheme & tail & Hg & -> & Hff & Et).
    exists scheme. split; [exact Hg|].
    assert (Hs : escan_words A eanyway_ok scheme dwsets (elow w ++ tail) (N.of_nat (length w)) tt =
                 Ok (tt, match eanalyses L scheme dwsets (elow w) with [] => 0%Z | _ => 1%Z end)).
    { replace (N.of_nat (length w)) with (N.of_nat (length (elow w))) by (rewrite map_length; reflexivity).
      rewrite (escan_words_eq A L eanyway_ok (fun s _ _ _ _ _ => Ok (s, 1%Z)) ltac:(reflexivity) HL) by (rewrite map_length; lia).
      destruct (eanalyses L scheme dwsets (elow w)) as [|a l]; reflexivity. }
    destruct (N.eqb_spec (scheme mod 256) 255) as [E255|_]; cbn [andb].
    - destruct (bit 1 dwsets) eqn:Eb; cbn [negb]; [rewrite Hs; reflexivity|].
      rewrite (no_eanalyses scheme dwsets w Hg (Hff E255) Eb). reflexivity.
    - rewrite Hs. reflexivity.
  Qed.

  Lemma echeck_word_sound w psz cch dwsets junk :
    given w psz cch -> is_bytes w -> w <> [] -> (length w < 48)%nat -> (length (eparts w) <= 8)%nat ->
    exists r, echeck_word A junk psz cch dwsets = Ok r /\ (r = 0%Z \/ r = 1%Z) /\
      (r = 1%Z -> exists key e part id, eword_of L (bit 1 dwsets) w key e part id).
  Proof.
    intros Hgiven Hb Hne Hlen Hp. destruct (echeck_word_eq w psz cch dwsets junk Hgiven Hb Hne Hlen Hp) as (scheme & Hg & ->).
    destruct (eanalyses L scheme dwsets (elow w)) as [|a l] eqn:Ea.
    - exists 0%Z. split; [reflexivity|]. split; [left; reflexivity|]. discriminate.
    - exists 1%Z. split; [reflexivity|]. split; [right; reflexivity|]. intros _.
      assert (Ha : In a (eanalyses L scheme dwsets (elow w))) by (rewrite Ea; left; reflexivity).
      destruct (eanalyses_sound L scheme dwsets (elow w) a Ha) as (Hw & Hr & st & c & Ec & Hc & _).
      destruct (eanal_form L scheme dwsets (elow w) a Ha st c Ec) as (id & Hf).
      exists (ea_key a), (ea_entry a), (ea_part a), id. split.
      + split; [exact Hw|]. split; [exact Hr|]. exists st, c. split; assumption.
      + intros Eb. exists st, c. split; [exact Ec|]. apply (ecap_ok_suits _ _ w _ Hg) in Hc as [Hc|Hc]; [congruence|exact Hc].
  Qed.

  Lemma echeck_word_complete w psz cch dwsets junk key e part id :
    given w psz cch -> is_bytes w -> w <> [] -> (length w < 48)%nat -> (length (eparts w) <= 8)%nat ->
    ebounds_ok L -> eword_of L (bit 1 dwsets) w key e part id -> reachable e part ->
    echeck_word A junk psz cch dwsets = Ok 1%Z.
  Proof.
    intros Hgiven Hb Hne Hlen Hp Hbo [[Hw [Hr (st & c & Ec & Hf)]] Hcap] Hside.
    destruct (echeck_word_eq w psz cch dwsets junk Hgiven Hb Hne Hlen Hp) as (scheme & Hg & ->).
    assert (Hc : ecap_ok scheme dwsets c = true).
    { apply (ecap_ok_suits _ _ w _ Hg). destruct (bit 1 dwsets) eqn:Eb; [left; reflexivity|right].
      destruct (Hcap eq_refl) as (st' & c' & Ec' & Hs). rewrite Ec in Ec'. injection Ec' as <- <-. exact Hs. }
    destruct (eanalyses_complete L scheme dwsets (elow w) key e part st c id) as (a & Ha & _); try assumption.
    - intros l Hl. apply (eh_lists A L HL key l Hl).
    - eapply Hbo; eassumption.
    - destruct (eanalyses L scheme dwsets (elow w)); [destruct Ha|reflexivity].
  Qed.

  Lemma echeck_word_empty psz cch dwsets junk : psz = None \/ given [] psz cch -> echeck_word A junk psz cch dwsets = Ok 0%Z.
  Proof. intros H. unfold echeck_word, eprologue. rewrite eto_canonic_empty by assumption. reflexivity. Qed.
End ECheck.

Lemma eprologue_long {B} w psz cch dwsets junk (failed : Z -> B) go :
  given w psz cch -> (48 <= length w)%nat -> (length (eparts w) <= 16)%nat ->
  eprologue psz cch dwsets junk failed go = Ok (failed (-4)%Z).
Proof.
  intros Hg Hl Hp. assert (Hne : w <> []) by (destruct w; [cbn in Hl; lia|discriminate]).
  unfold eprologue. rewrite (eto_canonic_given w psz cch Hg Hne). unfold cap_get.
  destruct (get_loop_nofit' eng_casing w (S (length w)) 48 0 0 true []) as (out & ->); [lia|lia|lia|]. reflexivity.
Qed.

Lemma echeck_word_long A w psz cch dwsets junk :
  given w psz cch -> (48 <= length w)%nat -> (length (parts eng_casing w) <= 16)%nat -> echeck_word A junk psz cch dwsets = Ok (-4)%Z.
Proof. intros. unfold echeck_word. eapply eprologue_long; eassumption. Qed.

Lemma echeck_exact A L w psz cch dwsets junk :
  eholds A L -> ebounds_ok L -> given w psz cch -> is_bytes w -> w <> [] -> (length w < 48)%nat -> (length (parts eng_casing w) <= 8)%nat ->
  (forall key e part id, eword_of L (bit 1 dwsets) w key e part id -> reachable e part) ->
  echeck_word A junk psz cch dwsets = Ok 1%Z /\ (exists key e part id, eword_of L (bit 1 dwsets) w key e part id) \/
  echeck_word A junk psz cch dwsets = Ok 0%Z /\ ~ (exists key e part id, eword_of L (bit 1 dwsets) w key e part id).
Proof.
  intros HL Hbo Hg Hb Hne Hlen Hp Hside.
  destruct (echeck_word_sound A L HL w psz cch dwsets junk Hg Hb Hne Hlen Hp) as (r & E & [-> | ->] & Hs).
  - right. split; [exact E|]. intros (key & e & part & id & Hw).
    pose proof (Hside _ _ _ _ Hw) as Hc.
    rewrite (echeck_word_complete A L HL w psz cch dwsets junk key e part id Hg Hb Hne Hlen Hp Hbo Hw Hc) in E. discriminate.
  - left. split; [exact E|apply Hs; reflexivity].
Qed.

(** ** Lexemes by id *)
Section EById.
  Variables (A : earrays) (L : elexicon).
  Hypothesis HL : eholds A L.
  Hypothesis HI : eindexed A L.

  Lemma eholds_ordered : ordered (ewords L).
  Proof. eapply dumpable_ordered, (eh_dump A L HL). Qed.
  Lemma eholds_all_lists : all_lists_ok (ewords L).
  Proof. apply all_lists_ok_of_lists_ok; [apply eholds_ordered|]. intros key l H. apply (eh_lists A L HL key l H). Qed.

  Lemma efind_record id junk : id < 2 ^ 32 -> (length (lexkeylen id ++ junk) = 16)%nat ->
    (find_lid (e_lids A) junk id = Ok None /\ forall key e, has_record (ewords L) key e -> nlexid e <> id) \/
    (exists p p' off key e, find_lid (e_lids A) junk id = Ok (Some p) /\ getserial p = Ok (off, p') /\
       rec_at (ewords L) 0 key e off /\ nlexid e = id /\ has_record (ewords L) key e).
  Proof.
    intros Hid Hj. destruct HI as [(rest & ->) Hf Hs Hids].
    destruct (positions (ewords L) eholds_ordered eholds_all_lists) as (P1 & P2 & P3).
    rewrite create_lids_recs in *.
    destruct (file_lid_facts (all_recs (ewords L)) wempty id) as (F1 & F2 & F3 & F4); auto.
    - apply ordered_wempty.
    - apply within_wempty.
    - rewrite Forall_forall. intros [e off] Hin. apply P3 in Hin as (key & Hr). apply P2 in Hr as (Hr & _). cbn [fst]. eapply Hids, Hr.
    - intros k off. rewrite lookup_wempty. discriminate.
    - destruct (find_lid_lookup _ junk id F1 F2 Hf F3 Hj rest) as (r & Hr & Hm). rewrite F4, lookup_wempty in Hm.
      destruct (last_offset id (all_recs (ewords L))) as [o|] eqn:El.
      + right. destruct Hm as (p & -> & p' & Hp). apply last_offset_in in El as (e & off & Hin & He & ->).
        apply P3 in Hin as (key & Hra). destruct (P2 _ _ _ Hra) as (Hrec & pre & post & Hb & Hpre).
        exists p, p', off, key, e. rewrite N.mod_small in Hp.
        * repeat split; assumption.
        * pose proof (tree_len (ewords L) eholds_all_lists) as Ht. unfold stemtree_bytes in Hb. rewrite Hb, !app_length in Ht. lia.
      + left. subst r. split; [exact Hr|]. intros key e Hrec. destruct (P1 _ _ Hrec) as (off & Hra).
        eapply last_offset_none; [exact El|]. apply P3. exists key. exact Hra.
  Qed.

  Lemma erecord_bytes key e off : rec_at (ewords L) 0 key e off ->
    exists pre post, e_stems A = pre ++ entry_ser e ++ post /\ N.of_nat (length pre) = off /\ entry_ok e.
  Proof.
    intros H. destruct (eh_stems A L HL) as (rest & ->).
    destruct (rec_at_bytes _ _ _ _ _ H eholds_all_lists rest) as (pre & post & Hb & Hp & _ & He).
    exists pre, post. unfold stemtree_bytes. split; [exact Hb|]. split; [lia|exact He].
  Qed.

  Lemma eget_wd_info_eq id junk : id < 2 ^ 32 -> (length (lexkeylen id ++ junk) = 16)%nat ->
    (eget_wd_info A junk id = Ok (0%Z, None) /\ forall key e, has_record (ewords L) key e -> nlexid e <> id) \/
    (exists key e st c, has_record (ewords L) key e /\ nlexid e = id /\ eclass_of L (oclass e) = Some (st, c) /\
       eget_wd_info A junk id = Ok (1%Z, Some (k_word c mod 64))).
  Proof.
    intros Hid Hj. unfold eget_wd_info.
    destruct (efind_record id junk Hid Hj) as [(-> & Hn)|(p & p' & off & key & e & -> & Hp & Hra & He & Hrec)]; [left; split; [reflexivity|exact Hn]|].
    right. destruct (erecord_bytes key e off Hra) as (pre & post & Hb & Hpre & Hok).
    destruct (eh_classes A L HL key e Hrec) as (st & c & Ec & Hat & Hrep).
    exists key, e, st, c. repeat split; try assumption. cbn [bind]. rewrite Hp. cbn [bind].
    destruct (entry_read e post Hok) as (q & Eq & _ & _ & Hcl & Hw). rewrite Hb, Eq.
    replace (pre ++ chrmin e :: chrmax e :: putserial (nlexid e) ++ putword16 (wstore e) ++ q)
      with ((pre ++ [chrmin e; chrmax e]) ++ putserial (nlexid e) ++ putword16 (wstore e) ++ q)
      by (rewrite <- app_assoc; reflexivity).
    rewrite advance_app by (rewrite app_length; cbn [length]; lia). cbn [bind].
    rewrite getserial_putserial by apply Hok. cbn [bind]. rewrite getword16_put by assumption. cbn [bind].
    rewrite He, N.eqb_refl. cbn [negb]. rewrite Hcl.
    assert (Hoff : oclass e < 2 ^ 15) by apply Hok.
    pose proof (eload_class A (oclass e) st c Hat Hrep Hoff) as Hload. unfold estem_at in Hload.
    destruct (N.eqb_spec (oclass e) 0xffff); [lia|].
    destruct (advance (oclass e) (e_class A)) as [p1|]; cbn [bind] in Hload |- *; [|discriminate].
    rewrite Hload. cbn [bind]. destruct Hrep as (-> & _).
    change 0x3f with (N.ones 6). rewrite N.land_ones. reflexivity.
  Qed.
End EById.

Lemma ewd_info_found A L key e st c junk :
  eholds A L -> eindexed A L -> has_record (ewords L) key e -> eclass_of L (oclass e) = Some (st, c) ->
  (forall key' e' st' c', has_record (ewords L) key' e' -> nlexid e' = nlexid e -> eclass_of L (oclass e') = Some (st', c') ->
     k_word c' mod 64 = k_word c mod 64) ->
  (length (lexkeylen (nlexid e) ++ junk) = 16)%nat ->
  eget_wd_info A junk (nlexid e) = Ok (1%Z, Some (k_word c mod 64)).
Proof.
  intros HL HI Hr Ec Hone Hj. assert (Hid : nlexid e < 2 ^ 32) by (pose proof (ei_ids A L HI key e Hr); lia).
  destruct (eget_wd_info_eq A L HL HI (nlexid e) junk Hid Hj) as [(_ & Hn)|(key' & e' & st' & c' & Hr' & He' & Ec' & ->)].
  - exfalso. apply (Hn key e Hr). reflexivity.
  - rewrite (Hone key' e' st' c' Hr' He' Ec'). reflexivity.
Qed.

Lemma ewd_info_none A L id junk :
  eholds A L -> eindexed A L -> id < 2 ^ 32 -> (forall key e, has_record (ewords L) key e -> nlexid e <> id) ->
  (length (lexkeylen id ++ junk) = 16)%nat -> eget_wd_info A junk id = Ok (0%Z, None).
Proof.
  intros HL HI Hid Hn Hj.
  destruct (eget_wd_info_eq A L HL HI id junk Hid Hj) as [(E & _)|(key & e & st & c & Hr & He & _)]; [exact E|].
  exfalso. eapply Hn; eassumption.
Qed.

(** ** Case-blindness *)
Lemma elower_delim c : c < 256 -> (ctype eng_casing (locase eng_casing c) =? 2) = (ctype eng_casing c =? 2).
Proof.
  intros Hc. pose proof (ok_range _ eng_okay c Hc) as (Ht & _).
  assert (Hcases : ctype eng_casing c = 0 \/ ctype eng_casing c = 1 \/ ctype eng_casing c = 2 \/ ctype eng_casing c = 3) by lia.
  destruct Hcases as [E|[E|[E|E]]]; rewrite E.
  - pose proof (ok_capital _ eng_okay c Hc E) as H. unfold is_regular in H. rewrite H. reflexivity.
  - pose proof (ok_regular _ eng_okay c Hc E) as H. unfold is_regular in H. rewrite H. reflexivity.
  - rewrite (eng_dlm c Hc E), E. reflexivity.
  - rewrite (ok_invalid _ eng_okay c Hc E). reflexivity.
Qed.

Lemma elower_parts w : is_bytes w -> length (eparts (elow w)) = length (eparts w).
Proof.
  rewrite <- !(count_parts_length eng_casing). induction 1 as [|c w Hc Hw IH]; [reflexivity|].
  cbn [map count_parts]. rewrite elower_delim by assumption. destruct (_ =? 2); [f_equal|]; exact IH.
Qed.

Lemma echeck_case_blind A L w w' psz cch psz' cch' dwsets junk junk' :
  eholds A L -> given w psz cch -> given w' psz' cch' -> is_bytes w -> is_bytes w' ->
  map (locase eng_casing) w = map (locase eng_casing) w' -> bit 1 dwsets = true -> (length (parts eng_casing w) <= 8)%nat ->
  echeck_word A junk psz cch dwsets = echeck_word A junk' psz' cch' dwsets.
Proof.
  intros HL Hg Hg' Hb Hb' E Hi Hp.
  assert (El : length w = length w') by (rewrite <- (map_length (locase eng_casing) w), E; apply map_length).
  assert (Ep : length (eparts w) = length (eparts w')) by (rewrite <- (elower_parts w Hb), E; apply elower_parts, Hb').
  destruct w as [|c w].
  - destruct w' as [|c' w']; [|discriminate].
    rewrite !(echeck_word_empty A) by (right; assumption). reflexivity.
  - destruct w' as [|c' w']; [discriminate|].
    destruct (Nat.lt_ge_cases (length (c :: w)) 48) as [Hlt|Hge].
    + destruct (echeck_word_eq A L HL (c :: w) psz cch dwsets junk Hg Hb ltac:(discriminate) Hlt Hp) as (s & _ & ->).
      destruct (echeck_word_eq A L HL (c' :: w') psz' cch' dwsets junk' Hg' Hb' ltac:(discriminate) ltac:(lia) ltac:(lia)) as (s' & _ & ->).
      rewrite E, (eanalyses_blind L s s' dwsets _ Hi). reflexivity.
    + unfold echeck_word. rewrite (eprologue_long (c :: w)), (eprologue_long (c' :: w')) by (assumption || lia). reflexivity.
Qed.
