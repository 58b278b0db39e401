(** * RusProofs3: capitalisation of analysed words, CheckWord, GetWdInfo.  PROOFS. *)
From Verif Require Import Base Serial SerialProofs WordTree TreeSpec WordTreeProofs FlatScan FlatScanProofs LidsProofs TrackProofs
  TreeWalk Stems StemSpec StemsProofs DictProofs CharTables CapScheme CapSpec CapProofs CapProofs2 CapProofs3 PropCaseLemmas PropTreesLemmas
  GramMap RusRuntime LevelSpec LevelProofs RusSpec RusProofs RusProofs2.
Local Open Scope N_scope.

Notation rparts := (parts rus_casing).
Notation rlow := (map (locase rus_casing)).

Lemma rus_dlm : forall d, d < 256 -> is_delim rus_casing d -> locase rus_casing d = d.
Proof. intros d Hd H. apply (ok_delim rus_casing rus_ok d Hd H). Qed.

Lemma land_ffff v : N.land v 0xffff = v mod 2 ^ 16.
Proof. change 0xffff with (N.ones 16). apply N.land_ones. Qed.
Lemma land_ff v : N.land v 0xff = v mod 2 ^ 8.
Proof. change 0xff with (N.ones 8). apply N.land_ones. Qed.

Lemma canonic_facts w : is_bytes w -> w <> [] -> (length w < 48)%nat -> (length (rparts w) <= 8)%nat ->
  exists v, cap_get rus_casing 48 w = Ok (v, rlow w ++ [0]) /\ N.shiftr v 16 = N.of_nat (length w) /\
    v <> 0 /\ v <> 2 ^ 32 - 1 /\
    (forall m, IsGoodSheme (N.land v 0xffff) m = true <-> suits w m) /\
    (N.land v 0xff = 0xff -> forall m, ~ suits w m).
Proof.
  intros Hb Hne Hlen Hp.
  destruct (cap_get_length rus_casing rus_dlm w 48 Hb Hlen ltac:(cbn; lia) Hp) as (v & E & Hv).
  assert (Hl : (0 < length w)%nat) by (destruct w; [congruence|cbn; lia]).
  assert (Hgood : forall m, IsGoodSheme (N.land v 0xffff) m = true <-> suits w m).
  { intros m. rewrite land_ffff. exact (good_exact rus_casing rus_dlm w 48 v _ m Hb Hlen ltac:(cbn; lia) ltac:(lia) E). }
  rewrite N.shiftr_div_pow2 in Hv.
  exists v. split; [exact E|]. split; [rewrite N.shiftr_div_pow2; exact Hv|].
  assert (65536 <= v < 48 * 65536) by (clear - Hv Hl Hlen; change (2 ^ 16) with 65536 in Hv; lia).
  split; [lia|]. split; [lia|]. split; [exact Hgood|].
  intros Hff m Hs. apply Hgood in Hs. apply good_small in Hs as (_ & Hs & _). apply Hs.
  rewrite land_ffff. rewrite land_ff in Hff. clear - Hff. lia.
Qed.

Lemma cstr_app w after : ~ In 0 w -> cstr (w ++ 0 :: after) = Ok w.
Proof.
  induction w as [|c w IH]; intros H; cbn [app cstr]; [reflexivity|].
  destruct (N.eqb_spec c 0) as [->|]; [exfalso; apply H; left; reflexivity|].
  rewrite IH; [reflexivity|]. intros Hin. apply H. right. exact Hin.
Qed.

Lemma to_canonic_given w psz cch : given w psz cch -> w <> [] -> to_canonic psz cch = cap_get rus_casing 48 w.
Proof.
  intros [w' after Hl|w' after H0] Hne; unfold to_canonic.
  - destruct (N.eqb_spec (N.of_nat (length w')) (2 ^ 64 - 1)); [lia|].
    rewrite app_length. destruct (N.ltb_spec (N.of_nat (length w' + length after)) (N.of_nat (length w'))); [lia|].
    rewrite Nnat.Nat2N.id, firstn_app, Nat.sub_diag, firstn_O, app_nil_r, firstn_all. cbn [bind]. destruct w'; [congruence|reflexivity].
  - rewrite N.eqb_refl, cstr_app by assumption. cbn [bind]. destruct w'; [congruence|reflexivity].
Qed.

Lemma to_canonic_empty psz cch : psz = None \/ given [] psz cch -> to_canonic psz cch = Ok (0, []).
Proof.
  intros [->|H]; [reflexivity|]. inversion H; subst; [|reflexivity].
  unfold to_canonic. cbn [app length N.of_nat]. destruct (N.eqb_spec 0 (2 ^ 64 - 1)); [lia|].
  destruct (N.ltb_spec (N.of_nat (length after)) 0); [lia|]. reflexivity.
Qed.

(** what [prologue] does with a proper word *)
Lemma prologue_word {B} w psz cch dwsets junk (failed : Z -> B) go :
  given w psz cch -> is_bytes w -> w <> [] -> (length w < 48)%nat -> (length (rparts w) <= 8)%nat ->
  exists scheme tail,
    (forall m, IsGoodSheme scheme m = true <-> suits w m) /\
    prologue psz cch dwsets junk failed go =
      (if (scheme mod 256 =? 255) && negb (bit 1 dwsets) then Ok (failed 0%Z)
       else go (rlow w ++ tail) (N.of_nat (length w)) scheme) /\
    (scheme mod 256 = 255 -> forall m, ~ suits w m) /\
    tail = 0 :: skipn (S (length w)) junk.
Proof.
  intros Hgiven Hb Hne Hlen Hp. destruct (canonic_facts w Hb Hne Hlen Hp) as (v & E & Hv & H0 & H1 & Hg & Hff).
  exists (N.land v 0xffff), (0 :: skipn (S (length w)) junk). split; [exact Hg|].
  unfold prologue. rewrite (to_canonic_given w psz cch Hgiven Hne), E. cbn [bind].
  destruct (N.eqb_spec v (2 ^ 32 - 1)); [contradiction|]. destruct (N.eqb_spec v 0); [contradiction|].
  assert (Em : N.land v 0xffff mod 256 = N.land v 0xff) by (rewrite land_ffff, land_ff; clear; lia).
  rewrite Em. rewrite Hv. unfold overwrite. rewrite app_length, map_length. cbn [length].
  replace (length w + 1)%nat with (S (length w)) by lia. rewrite <- app_assoc. cbn [app]. repeat split. exact Hff.
Qed.

Lemma cap_ok_suits scheme dwsets w c : (forall m, IsGoodSheme scheme m = true <-> suits w m) ->
  cap_ok scheme dwsets c = true <-> bit 1 dwsets = true \/ suits w (min_case c).
Proof. intros H. unfold cap_ok. rewrite orb_true_iff, H. reflexivity. Qed.

Section Check.
  Variables (A : arrays) (L : lexicon).
  Hypothesis HL : holds A L.

  (** the analyses of [w], however its capitalisation is encoded *)
  Lemma check_word_eq w psz cch dwsets junk :
    given w psz cch -> is_bytes w -> w <> [] -> (length w < 48)%nat -> (length (rparts w) <= 8)%nat ->
    exists scheme, (forall m, IsGoodSheme scheme m = true <-> suits w m) /\
      check_word A junk psz cch dwsets = Ok (match analyses L scheme dwsets (rlow w) with [] => 0%Z | _ => 1%Z end).
  Proof.
    intros Hgiven Hb Hne Hlen Hp. unfold check_word.
    destruct (prologue_word w psz cch dwsets junk (fun r : Z => r)
      (fun locase len scheme => let! (_, r) := scan_words A anyway_ok scheme dwsets locase len tt in Ok r)
      Hgiven Hb Hne Hlen Hp) as (scheme & tail & Hg & -> & Hff & Et).
    exists scheme. split; [exact Hg|].
    assert (Hs : scan_words A anyway_ok scheme dwsets (rlow w ++ tail) (N.of_nat (length w)) tt =
                 Ok (tt, match analyses L scheme dwsets (rlow w) with [] => 0%Z | _ => 1%Z end)).
    { replace (N.of_nat (length w)) with (N.of_nat (length (rlow w))) by (rewrite map_length; reflexivity).
      rewrite (scan_words_eq A L anyway_ok (fun s _ _ _ _ _ => Ok (s, 1%Z)) ltac:(reflexivity) HL) by (rewrite map_length; lia).
      destruct (analyses L scheme dwsets (rlow w)) as [|a l]; reflexivity. }
    destruct (N.eqb_spec (scheme mod 256) 255) as [E255|_]; cbn [andb].
    - destruct (bit 1 dwsets) eqn:Eb; cbn [negb]; [rewrite Hs; reflexivity|].
      destruct (analyses L scheme dwsets (rlow w)) as [|a l] eqn:Ea; [reflexivity|]. exfalso.
      destruct (analyses_sound L scheme dwsets (rlow w) a) as (_ & _ & _ & st & c & _ & Hc & _); [rewrite Ea; left; reflexivity|].
      apply (cap_ok_suits _ _ w _ Hg) in Hc as [Hc|Hc]; [congruence|]. eapply Hff; eassumption.
    - rewrite Hs. reflexivity.
  Qed.

  Lemma check_word_sound w psz cch dwsets junk :
    given w psz cch -> is_bytes w -> w <> [] -> (length w < 48)%nat -> (length (rparts w) <= 8)%nat ->
    exists r, check_word A junk psz cch dwsets = Ok r /\ (r = 0%Z \/ r = 1%Z) /\
      (r = 1%Z -> exists key e part g f, word_of L (bit 1 dwsets) w key e part g f).
  Proof.
    intros Hgiven Hb Hne Hlen Hp. destruct (check_word_eq w psz cch dwsets junk Hgiven Hb Hne Hlen Hp) as (scheme & Hg & ->).
    destruct (analyses L scheme dwsets (rlow w)) as [|a l] eqn:Ea.
    - exists 0%Z. split; [reflexivity|]. split; [left; reflexivity|]. discriminate.
    - exists 1%Z. split; [reflexivity|]. split; [right; reflexivity|]. intros _.
      destruct (analyses_sound L scheme dwsets (rlow w) a) as (Hw & Hr & Hne' & st & c & Ec & Hc & Hgr & _); [rewrite Ea; left; reflexivity|].
      destruct (an_grams a) as [|g0 gs]; [congruence|]. destruct (Hgr g0 (or_introl eq_refl)) as (g & f & _ & Hf).
      exists (an_key a), (an_entry a), (an_part a), g, f. split.
      + split; [exact Hw|]. split; [exact Hr|]. exists st, c. split; assumption.
      + intros Eb. exists st, c. split; [exact Ec|]. apply (cap_ok_suits _ _ w _ Hg) in Hc as [Hc|Hc]; [congruence|exact Hc].
  Qed.

  Lemma check_word_complete w psz cch dwsets junk key e part g f :
    given w psz cch -> is_bytes w -> w <> [] -> (length w < 48)%nat -> (length (rparts w) <= 8)%nat ->
    bounds_ok L -> word_of L (bit 1 dwsets) w key e part g f -> reachable e part ->
    check_word A junk psz cch dwsets = Ok 1%Z.
  Proof.
    intros Hgiven Hb Hne Hlen Hp Hbo [[Hw [Hr (st & c & Ec & Hf)]] Hcap] Hside.
    destruct (check_word_eq w psz cch dwsets junk Hgiven Hb Hne Hlen Hp) as (scheme & Hg & ->).
    assert (Hc : cap_ok scheme dwsets c = true).
    { apply (cap_ok_suits _ _ w _ Hg). destruct (bit 1 dwsets) eqn:Eb; [left; reflexivity|right].
      destruct (Hcap eq_refl) as (st' & c' & Ec' & Hs). rewrite Ec in Ec'. injection Ec' as <- <-. exact Hs. }
    destruct (analyses_complete L scheme dwsets (rlow w) key e part st c g f) as (a & Ha & _); try assumption.
    - intros l Hl. apply (holds_lists A L HL key l Hl).
    - eapply Hbo; eassumption.
    - destruct (analyses L scheme dwsets (rlow w)); [destruct Ha|reflexivity].
  Qed.

  Lemma check_word_empty psz cch dwsets junk : psz = None \/ given [] psz cch -> check_word A junk psz cch dwsets = Ok 0%Z.
  Proof. intros H. unfold check_word, prologue. rewrite to_canonic_empty by assumption. reflexivity. Qed.
End Check.

(** ** Too long words *)
Lemma get_loop_nofit' cs w : forall fuel room cdefis scheme bvalid out,
    (length w < fuel)%nat -> (room <= length w)%nat -> cdefis + N.of_nat (length (parts cs w)) <= 16 ->
    exists out', get_loop cs fuel w room cdefis scheme bvalid out = Ok (bad_cap, out').
Proof.
  pattern w. apply (parts_ind cs); clear w.
  - intros p Hp fuel room cdefis scheme bvalid out Hf Hr Hc. destruct fuel as [|fuel]; [lia|]. cbn [get_loop].
    destruct p as [|c p]; [destruct room; [eauto|cbn in Hr; lia]|].
    destruct room as [|room]; [eauto|].
    destruct (get_part_full cs (c :: p) [] (S room) 0 Hp Hr) as (s' & r & E). rewrite app_nil_r in E. rewrite E. eauto.
  - intros p d w Hp Hd IH fuel room cdefis scheme bvalid out Hf Hr Hc.
    rewrite (parts_app cs p d w Hp Hd) in Hc. cbn [length] in Hc.
    rewrite app_length in *. cbn [length] in *. destruct fuel as [|fuel]; [lia|]. cbn [get_loop].
    assert (Hne : exists x y, p ++ d :: w = x :: y) by (destruct p; cbn; eauto).
    destruct Hne as (x & y & Hxy). rewrite Hxy.
    destruct room as [|room]; [eauto|]. rewrite <- Hxy.
    destruct (Nat.le_gt_cases (S room) (length p)) as [Hle|Hgt].
    + destruct (get_part_full cs p (d :: w) (S room) 0 Hp Hle) as (s' & r & E). rewrite E. eauto.
    + rewrite (get_part_stop cs p d w) by (auto; lia).
      destruct (S room - length p)%nat as [|room'] eqn:Er; [lia|].
      destruct (N.leb_spec 32 (2 * cdefis)); [lia|]. rewrite Hd. apply IH; lia.
Qed.

Lemma prologue_long {B} w psz cch dwsets junk (failed : Z -> B) go :
  given w psz cch -> (48 <= length w)%nat -> (length (rparts w) <= 16)%nat ->
  prologue psz cch dwsets junk failed go = Ok (failed (-4)%Z).
Proof.
  intros Hg Hl Hp. assert (Hne : w <> []) by (destruct w; [cbn in Hl; lia|discriminate]).
  unfold prologue. rewrite (to_canonic_given w psz cch Hg Hne). unfold cap_get.
  destruct (get_loop_nofit' rus_casing w (S (length w)) 48 0 0 true []) as (out & ->); [lia|lia|lia|]. reflexivity.
Qed.

(** ** Case-blindness *)
Lemma lower_delim c : c < 256 -> (ctype rus_casing (locase rus_casing c) =? 2) = (ctype rus_casing c =? 2).
Proof.
  intros Hc. pose proof (ok_range _ rus_ok c Hc) as (Ht & _).
  assert (Hcases : ctype rus_casing c = 0 \/ ctype rus_casing c = 1 \/ ctype rus_casing c = 2 \/ ctype rus_casing c = 3) by lia.
  destruct Hcases as [E|[E|[E|E]]]; rewrite E.
  - pose proof (ok_capital _ rus_ok c Hc E) as H. unfold is_regular in H. rewrite H. reflexivity.
  - pose proof (ok_regular _ rus_ok c Hc E) as H. unfold is_regular in H. rewrite H. reflexivity.
  - rewrite (rus_dlm c Hc E), E. reflexivity.
  - rewrite (ok_invalid _ rus_ok c Hc E). reflexivity.
Qed.

Lemma lower_parts w : is_bytes w -> length (rparts (rlow w)) = length (rparts w).
Proof.
  rewrite <- !(count_parts_length rus_casing). induction 1 as [|c w Hc Hw IH]; [reflexivity|].
  cbn [map count_parts]. rewrite lower_delim by assumption. destruct (_ =? 2); [f_equal|]; exact IH.
Qed.

Lemma analyses_blind L s s' dwsets w : bit 1 dwsets = true -> analyses L s dwsets w = analyses L s' dwsets w.
Proof.
  intros Hb. unfold analyses. apply flat_map_ext. intros lr. apply flat_map_ext. intros ei.
  unfold entry_analyses. destruct (class_of L _) as [[st c]|]; [|reflexivity]. unfold cap_ok. rewrite Hb. reflexivity.
Qed.

(** ** Lexemes by id *)
Section ById.
  Variables (A : arrays) (L : lexicon).
  Hypothesis HL : holds A L.
  Hypothesis HI : indexed A L.

  Lemma holds_ordered : ordered (words L).
  Proof. eapply dumpable_ordered, (holds_dump A L HL). Qed.
  Lemma holds_all_lists : all_lists_ok (words L).
  Proof. apply all_lists_ok_of_lists_ok; [apply holds_ordered|]. intros key l H. apply (holds_lists A L HL key l H). Qed.

  Lemma find_record id junk : id < 2 ^ 32 -> (length (lexkeylen id ++ junk) = 16)%nat ->
    (find_lid (lidstree A) junk id = Ok None /\ forall key e, has_record (words L) key e -> nlexid e <> id) \/
    (exists p p' off key e, find_lid (lidstree A) junk id = Ok (Some p) /\ getserial p = Ok (off, p') /\
       rec_at (words L) 0 key e off /\ nlexid e = id /\ has_record (words L) key e).
  Proof.
    intros Hid Hj. destruct HI as [(rest & ->) Hf Hs Hids].
    destruct (positions (words L) holds_ordered holds_all_lists) as (P1 & P2 & P3).
    rewrite create_lids_recs in *.
    destruct (file_lid_facts (all_recs (words L)) wempty id) as (F1 & F2 & F3 & F4); auto.
    - apply ordered_wempty.
    - apply within_wempty.
    - rewrite Forall_forall. intros [e off] Hin. apply P3 in Hin as (key & Hr). apply P2 in Hr as (Hr & _). cbn [fst]. eapply Hids, Hr.
    - intros k off. rewrite lookup_wempty. discriminate.
    - destruct (find_lid_lookup _ junk id F1 F2 Hf F3 Hj rest) as (r & Hr & Hm). rewrite F4, lookup_wempty in Hm.
      destruct (last_offset id (all_recs (words L))) as [o|] eqn:El.
      + right. destruct Hm as (p & -> & p' & Hp). apply last_offset_in in El as (e & off & Hin & He & ->).
        apply P3 in Hin as (key & Hra). destruct (P2 _ _ _ Hra) as (Hrec & pre & post & Hb & Hpre).
        exists p, p', off, key, e. rewrite N.mod_small in Hp.
        * repeat split; assumption.
        * pose proof (tree_len (words L) holds_all_lists) as Ht. unfold stemtree_bytes in Hb. rewrite Hb, !app_length in Ht. lia.
      + left. subst r. split; [exact Hr|]. intros key e Hrec. destruct (P1 _ _ Hrec) as (off & Hra).
        eapply last_offset_none; [exact El|]. apply P3. exists key. exact Hra.
  Qed.

  Lemma record_bytes key e off : rec_at (words L) 0 key e off ->
    exists pre post, stemtree A = pre ++ entry_ser e ++ post /\ N.of_nat (length pre) = off /\ entry_ok e.
  Proof.
    intros H. destruct (holds_stems A L HL) as (rest & ->).
    destruct (rec_at_bytes _ _ _ _ _ H holds_all_lists rest) as (pre & post & Hb & Hp & _ & He).
    exists pre, post. unfold stemtree_bytes. split; [exact Hb|]. split; [lia|exact He].
  Qed.

  Lemma get_wd_info_eq id junk : id < 2 ^ 32 -> (length (lexkeylen id ++ junk) = 16)%nat ->
    (get_wd_info A junk id = Ok (0%Z, None) /\ forall key e, has_record (words L) key e -> nlexid e <> id) \/
    (exists key e st c, has_record (words L) key e /\ nlexid e = id /\ class_of L (oclass e) = Some (st, c) /\
       get_wd_info A junk id = Ok (1%Z, Some (N.land (c_word c) 63))).
  Proof.
    intros Hid Hj. unfold get_wd_info.
    destruct (find_record id junk Hid Hj) as [(-> & Hn)|(p & p' & off & key & e & -> & Hp & Hra & He & Hrec)]; [left; split; [reflexivity|exact Hn]|].
    right. destruct (record_bytes key e off Hra) as (pre & post & Hb & Hpre & Hok).
    destruct (holds_classes A L HL key e Hrec) as (st & c & Ec & Hat & Hrep).
    exists key, e, st, c. repeat split; try assumption. cbn [bind]. rewrite Hp. cbn [bind].
    destruct (entry_read e post Hok) as (q & Eq & _ & _ & Hcl & Hw). rewrite Hb, Eq.
    replace (pre ++ chrmin e :: chrmax e :: putserial (nlexid e) ++ putword16 (wstore e) ++ q)
      with ((pre ++ [chrmin e; chrmax e]) ++ putserial (nlexid e) ++ putword16 (wstore e) ++ q)
      by (rewrite <- app_assoc; reflexivity).
    rewrite advance_app by (rewrite app_length; cbn [length]; lia). cbn [bind].
    rewrite getserial_putserial by apply Hok. cbn [bind]. rewrite getword16_put by assumption. cbn [bind].
    rewrite He, N.eqb_refl. cbn [negb]. rewrite Hcl.
    assert (Hoff : oclass e < 2 ^ 15) by apply Hok.
    pose proof (load_class A (oclass e) st c Hat Hrep Hoff) as Hload. unfold steminfo_at in Hload.
    destruct (N.eqb_spec (oclass e) 0xffff); [lia|].
    destruct (advance (oclass e) (classmap A)) as [p1|]; cbn [bind] in Hload |- *; [|discriminate].
    rewrite Hload. cbn [bind]. destruct Hrep as (-> & _). reflexivity.
  Qed.
End ById.
