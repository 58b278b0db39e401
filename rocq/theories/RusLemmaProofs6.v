(** * RusLemmaProofs6: Lemmatize does not depend on what lies behind the word in its buffer. *)
From Verif Require Import Base Serial SerialProofs WordTree TreeSpec WordTreeProofs FlatScan FlatScanProofs LidsProofs TrackProofs TreeWalk Stems StemSpec StemsProofs
  DictProofs CharTables CapScheme CapSpec CapProofs CapProofs2 PropCaseLemmas PropTreesLemmas GramMap RusRuntime RusSpec RusProofs RusProofs2 RusProofs3
  RusBuild RusBuildSpec RusBuildProofs RusBuildProofs2 RusBuildProofs3 RusReadings RusReadingsProofs RusLemmaSpec RusLemmaProofs RusLemmaProofs2 RusLemmaProofs3
  RusLemmaProofs4 RusLemmaProofs5.
Local Open Scope N_scope.

Section Prefix.
  Variables p1 p2 : frag.
  Hypothesis Hs : fbytes p1 = fbytes p2.
  Hypothesis Hn : flen p1 = flen p2.

  Lemma flex_forms_prefix c p fx suf : get_flex_forms c p fx p1 suf = get_flex_forms c p fx p2 suf.
  Proof.
    unfold get_flex_forms. erewrite get_track_ext; [reflexivity|]. intros s q tr. unfold flex_visit. rewrite Hs. reflexivity.
  Qed.
  Lemma plain_form_prefix c suf : plain_form c p1 suf = plain_form c p2 suf.
  Proof. unfold plain_form. rewrite Hs. reflexivity. Qed.
  Lemma word_forms_prefix A c st fx suf : get_word_forms A c st fx p1 suf = get_word_forms A c st fx p2 suf.
  Proof.
    unfold get_word_forms. destruct (GetFlexTable A st) as [[p|]|]; cbn [bind]; [|apply plain_form_prefix|reflexivity].
    destruct (negb (mtoffs st =? 0)); [|apply flex_forms_prefix]. rewrite Hs, Hn. reflexivity.
  Qed.
  Lemma first_form_prefix A c st suf : get_first_form A c st p1 suf = get_first_form A c st p2 suf.
  Proof.
    unfold get_first_form. destruct (GetFlexTable A st) as [[p|]|]; cbn [bind]; [|apply plain_form_prefix|reflexivity].
    destruct (get_first_flex p) as [[[len fx]|]|]; cbn [bind]; [|reflexivity|reflexivity]. rewrite Hs. reflexivity.
  Qed.
  Lemma dict_forms_prefix A c dwsets st fx suf : get_dict_forms A c dwsets st fx p1 suf = get_dict_forms A c dwsets st fx p2 suf.
  Proof.
    unfold get_dict_forms. rewrite word_forms_prefix.
    destruct (get_word_forms A c st (FindDictForm st fx dwsets) p2 suf) as [[c' n]|]; cbn [bind]; [|reflexivity].
    destruct (negb (Z.eqb n 0)); [reflexivity|].
    destruct (negb (bit 15 (gramm (FindDictForm st fx dwsets))) && (IsVerb (wdinfo st) || IsAdjective (wdinfo st))).
    - rewrite word_forms_prefix.
      match goal with |- bind ?m _ = bind ?m _ => destruct m as [[c'' n']|] end; cbn [bind]; [|reflexivity].
      destruct (negb (Z.eqb n' 0)); [reflexivity|apply first_form_prefix].
    - cbn [bind Z.eqb negb]. apply first_form_prefix.
  Qed.
End Prefix.

Lemma fbytes_front w tail n : (n <= length w)%nat -> fbytes (Frag (w ++ tail) (N.of_nat n)) = Ok (firstn n w).
Proof.
  intros H. unfold fbytes. cbn [fstr flen]. rewrite app_length. destruct (N.ltb_spec (N.of_nat (length w + length tail)) (N.of_nat n)); [lia|].
  rewrite Nat2N.id, firstn_app. replace (n - length w)%nat with 0%nat by lia. cbn. rewrite app_nil_r. reflexivity.
Qed.

Lemma put_lemma_tail A w r dwsets c st n1 n2 suf grs t1 t2 : (length r <= length w)%nat ->
  put_lemma A (w ++ t1) dwsets c st (Frag (r ++ t1) n1) suf grs = put_lemma A (w ++ t2) dwsets c st (Frag (r ++ t2) n2) suf grs.
Proof.
  intros Hr. unfold put_lemma. destruct grs as [|g grs]; [reflexivity|]. cbn [fstr].
  replace (length (w ++ t1) - length (r ++ t1))%nat with (length w - length r)%nat by (rewrite !app_length; lia).
  replace (length (w ++ t2) - length (r ++ t2))%nat with (length w - length r)%nat by (rewrite !app_length; lia).
  rewrite (dict_forms_prefix (Frag (w ++ t1) (N.of_nat (length w - length r))) (Frag (w ++ t2) (N.of_nat (length w - length r)))); [reflexivity| |reflexivity].
  rewrite !fbytes_front by lia. reflexivity.
Qed.

Lemma until_ext_in {S X} (f g : S -> X -> res (S * Z)) l : (forall s x, In x l -> f s x = g s x) -> forall s, until_nonzero f l s = until_nonzero g l s.
Proof.
  intros H. induction l as [|x l IH]; intros s; [reflexivity|]. cbn. rewrite (H s x) by (left; reflexivity).
  destruct (g s x) as [[s' r]|]; cbn; [|reflexivity]. destruct (r =? 0)%Z; [|reflexivity]. apply IH. intros. apply H. right. assumption.
Qed.

Lemma lemmatizer_tail A w r dwsets s lid st n suf grs t1 t2 : (length r <= length w)%nat ->
  lemmatizer A (w ++ t1) dwsets s lid st (Frag (r ++ t1) n) suf grs = lemmatizer A (w ++ t2) dwsets s lid st (Frag (r ++ t2) n) suf grs.
Proof.
  intros Hr. unfold lemmatizer. destruct (l_built s <? 0)%Z; [reflexivity|].
  destruct (start_lemm s lid) as [[[s' m]|]|]; cbn [bind]; try reflexivity.
  destruct (l_forms s') as [c|]; [|reflexivity]. destruct m; [reflexivity|].
  rewrite (put_lemma_tail A w r dwsets c st n n suf grs t1 t2 Hr). reflexivity.
Qed.

Lemma call_tail A L w t1 t2 dwsets s r : rd_ok L w r -> call A L w t1 dwsets s r = call A L w t2 dwsets s r.
Proof.
  intros Hok. unfold call, visit, tgt_of, to_analysis. cbn [an_entry an_stem an_part an_grams]. rewrite !app_assoc.
  apply lemmatizer_tail. destruct Hok as [Hw _ _ _]. rewrite Hw. rewrite !app_length. lia.
Qed.

(** The answer is a function of the letters in lower case and of the acceptable readings. *)
Lemma lemmatize_same A L (HL : holds A L) w psz cch w' psz' cch' dwsets junk junk' plemma pforms pgrams :
  given w psz cch -> given w' psz' cch' -> is_bytes w -> is_bytes w' -> w <> [] -> (length w < 48)%nat -> (length (rparts w) <= 8)%nat ->
  rlow w = rlow w' -> (bit 1 dwsets = true \/ forall m, suits w m <-> suits w' m) ->
  lemmatize A junk psz cch plemma pforms pgrams dwsets = lemmatize A junk' psz' cch' plemma pforms pgrams dwsets.
Proof.
  intros Hg Hg' Hb Hb' Hw Hlen Hp El Hs.
  assert (Hl : length w' = length w) by (rewrite <- (map_length (locase rus_casing) w), El, map_length; reflexivity).
  assert (Hw' : w' <> []) by (intros ->; destruct w; [contradiction|discriminate]).
  assert (Hp' : (length (rparts w') <= 8)%nat) by (rewrite <- lower_parts by assumption; rewrite <- El, lower_parts by assumption; exact Hp).
  destruct (lemmatize_eq A L HL w psz cch plemma pforms pgrams dwsets junk Hg Hb Hw Hlen Hp) as (sc & t & Hsc & ->).
  destruct (lemmatize_eq A L HL w' psz' cch' plemma pforms pgrams dwsets junk' Hg' Hb' Hw' ltac:(lia) Hp') as (sc' & t' & Hsc' & ->).
  rewrite <- El.
  assert (Eh : hits L sc' dwsets (rlow w) = hits L sc dwsets (rlow w)).
  { destruct Hs as [Hbit|Hs].
    - unfold hits. apply flat_map_ext. intros lr. apply flat_map_ext. intros ei. unfold entry_hits.
      destruct (class_of L _) as [[st c]|]; [|reflexivity]. unfold cap_ok. rewrite Hbit. reflexivity.
    - apply hits_scheme. intros m. rewrite Hsc, Hsc', Hs. reflexivity. }
  rewrite Eh.
  rewrite (until_ext_in (call A L (rlow w) t dwsets) (call A L (rlow w) t' dwsets)); [reflexivity|].
  intros s r Hr. apply call_tail. eapply hits_ok; eassumption.
Qed.
