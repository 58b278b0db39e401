(** * EngLemmaProofs6: the English Lemmatize does not depend on what lies behind the word in its buffer.  PROOFS. *)
From Verif Require Import Base Serial SerialProofs WordTree TreeSpec WordTreeProofs FlatScan FlatScanProofs LidsProofs TrackProofs
  TreeWalk Stems StemSpec StemsProofs DictProofs CharTables CapScheme CapSpec CapProofs CapProofs2 CapProofs3 PropCaseLemmas PropTreesLemmas
  GramMap RusRuntime RusBuild RusSpec RusProofs RusProofs2 RusProofs3 RusBuildSpec RusBuildProofs RusBuildProofs2 RusBuildProofs3 RusReadings
  RusReadingsProofs RusLemmaSpec RusLemmaProofs RusLemmaProofs2 RusLemmaProofs3 RusLemmaProofs4 RusLemmaProofs5 RusLemmaProofs6
  EngRuntime EngSpec EngProofs EngProofs2 EngFormsSpec EngBuildProofs EngReadingsProofs EngLemmaSpec EngLemmaProofs EngLemmaProofs2 EngLemmaProofs3
  EngLemmaProofs4 EngLemmaProofs5.
Local Open Scope N_scope.

Section EPrefix.
  Variables p1 p2 : frag.
  Hypothesis Hs : fbytes p1 = fbytes p2.

  Lemma eword_forms_prefix A c st id suf : eget_word_forms A c p1 suf st id = eget_word_forms A c p2 suf st id.
  Proof. unfold eget_word_forms, eget_flex_forms. rewrite Hs. reflexivity. Qed.
  Lemma edict_forms_prefix A suf st : forall n c k, eget_dict_forms A c p1 suf st n k = eget_dict_forms A c p2 suf st n k.
  Proof.
    induction n as [|n IH]; intros c k; [reflexivity|]. cbn [eget_dict_forms]. rewrite eword_forms_prefix.
    match goal with |- bind ?m _ = bind ?m _ => destruct m as [[c' z]|] end; cbn [bind]; [|reflexivity]. destruct (z =? 0)%Z; [apply IH|reflexivity].
  Qed.
End EPrefix.

Lemma eput_lemma_tail A w r c st n1 n2 suf t1 t2 : (length r <= length w)%nat ->
  eput_lemma A (w ++ t1) c st (Frag (r ++ t1) n1) suf = eput_lemma A (w ++ t2) c st (Frag (r ++ t2) n2) suf.
Proof.
  intros Hr. unfold eput_lemma. cbn [fstr].
  replace (length (w ++ t1) - length (r ++ t1))%nat with (length w - length r)%nat by (rewrite !app_length; lia).
  replace (length (w ++ t2) - length (r ++ t2))%nat with (length w - length r)%nat by (rewrite !app_length; lia).
  rewrite (edict_forms_prefix (Frag (w ++ t1) (N.of_nat (length w - length r))) (Frag (w ++ t2) (N.of_nat (length w - length r)))); [reflexivity|].
  rewrite !fbytes_front by lia. reflexivity.
Qed.

Lemma elemmatizer_tail A w r s lid st n suf grs t1 t2 : (length r <= length w)%nat ->
  elemmatizer A (w ++ t1) s lid st (Frag (r ++ t1) n) suf grs = elemmatizer A (w ++ t2) s lid st (Frag (r ++ t2) n) suf grs.
Proof.
  intros Hr. unfold elemmatizer. destruct (l_built s <? 0)%Z; [reflexivity|].
  destruct (start_lemm s lid) as [[[s' m]|]|]; cbn [bind]; [|reflexivity|reflexivity].
  destruct (l_forms s') as [c|]; [|reflexivity]. destruct m; [reflexivity|].
  rewrite (eput_lemma_tail A w r c st n n suf t1 t2 Hr). reflexivity.
Qed.

Lemma ecall_tail A L w t1 t2 s r : er_ok L w r -> ecall A L w t1 s r = ecall A L w t2 s r.
Proof.
  intros Hok. unfold ecall, evisit, etgt_of, to_eanal. cbn [ea_entry ea_stem ea_part ea_grams]. rewrite !app_assoc.
  apply elemmatizer_tail. destruct Hok as [Hw _ _ _]. rewrite Hw. rewrite !app_length. lia.
Qed.

(** The eanswer is a function of the letters in lower case and of the acceptable readings. *)
Lemma elemmatize_same A L (HL : eholds A L) w psz cch w' psz' cch' dwsets junk junk' plemma pforms pgrams :
  given w psz cch -> given w' psz' cch' -> is_bytes w -> is_bytes w' -> w <> [] -> (length w < 48)%nat -> (length (eparts w) <= 8)%nat ->
  elow w = elow w' -> (bit 1 dwsets = true \/ forall m, esuits w m <-> esuits w' m) ->
  elemmatize A junk psz cch plemma pforms pgrams dwsets = elemmatize A junk' psz' cch' plemma pforms pgrams dwsets.
Proof.
  intros Hg Hg' Hb Hb' Hw Hlen Hp El Hs.
  assert (Hl : length w' = length w) by (rewrite <- (map_length (locase eng_casing) w), El, map_length; reflexivity).
  assert (Hw' : w' <> []) by (intros ->; destruct w; [contradiction|discriminate]).
  assert (Hp' : (length (eparts w') <= 8)%nat) by (rewrite <- elower_parts by assumption; rewrite <- El, elower_parts by assumption; exact Hp).
  destruct (elemmatize_eq A L HL w psz cch plemma pforms pgrams dwsets junk Hg Hb Hw Hlen Hp) as (sc & t & Hsc & ->).
  destruct (elemmatize_eq A L HL w' psz' cch' plemma pforms pgrams dwsets junk' Hg' Hb' Hw' ltac:(lia) Hp') as (sc' & t' & Hsc' & ->).
  rewrite <- El.
  assert (Eh : eng_hits L sc' dwsets (elow w) = eng_hits L sc dwsets (elow w)).
  { destruct Hs as [Hbit|Hs].
    - unfold eng_hits. apply flat_map_ext. intros lr. apply flat_map_ext. intros ei. unfold eentry_hits.
      destruct (eclass_of L _) as [[st c]|]; [|reflexivity]. unfold ecap_ok. rewrite Hbit. reflexivity.
    - apply ehits_scheme. intros m. rewrite Hsc, Hsc', Hs. reflexivity. }
  rewrite Eh.
  rewrite (until_ext_in (ecall A L (elow w) t) (ecall A L (elow w) t')); [reflexivity|].
  intros s r Hr. apply ecall_tail. eapply ehits_ok; eassumption.
Qed.
