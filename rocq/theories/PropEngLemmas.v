(** * Lemmas behind Prop_Eng.  PROOFS. *)
From Verif Require Import Base Serial SerialProofs WordTree TreeSpec WordTreeProofs FlatScan FlatScanProofs LidsProofs TrackProofs
  TreeWalk Stems StemSpec StemsProofs DictProofs CharTables CapScheme CapSpec CapProofs CapProofs2 CapProofs3 PropCaseLemmas PropTreesLemmas
  GramMap RusRuntime RusBuild RusSpec RusProofs RusProofs2 RusProofs3 RusDemo RusDemo2 RusBuildSpec RusBuildProofs RusBuildProofs2 RusBuildProofs3 RusReadings
  RusReadingsProofs PropBuildLemmas EngRuntime EngSpec EngProofs EngProofs2 EngFormsSpec EngBuildProofs EngReadingsProofs EngDemo EngRecognised.
Local Open Scope N_scope.

(** ** C34 *)
Lemma escan_exact wd t infl tail rest : etable_ok t ->
  escan_tables wd (table_ser t ++ rest) (Frag (infl ++ tail) (N.of_nat (length infl))) =
  Ok (map (fun id => Gram (N.land wd 0x7f) id 0 0) (ids_of t infl)).
Proof. apply escan_tables_eq. Qed.

Lemma escan_unsorted : exists t infl, (length t < 256)%nat /\ Forall (fun ie => fst ie < 256 /\ (length (snd ie) < 256)%nat) t /\
  ids_of t infl = [5] /\ forall wd, escan_tables wd (table_ser t) (Frag infl (N.of_nat (length infl))) = Ok [].
Proof. exists [(1, [115]); (5, [97])], [97]. split; [cbn; lia|]. split; [repeat constructor; cbn; lia|]. split; [reflexivity|]. intros wd. reflexivity. Qed.

Lemma escan_many : exists t infl, (length t < 256)%nat /\ Forall (fun ie => fst ie < 256 /\ (length (snd ie) < 256)%nat) t /\ ascending (map snd t) /\
  forall wd, escan_tables wd (table_ser t) (Frag infl (N.of_nat (length infl))) = Ub.
Proof.
  exists (repeat (0, [115]) 65), [115]. split; [cbn; lia|]. split; [apply Forall_forall; intros x Hx; apply repeat_spec in Hx; subst; cbn; lia|]. split.
  - assert (Hr : forall n, Forall (fun b => lex_lt [115] b \/ [115] = b) (map snd (repeat (0, [115]) n))).
    { intros n. apply Forall_forall. intros b Hb. apply in_map_iff in Hb as (x & <- & Hx). apply repeat_spec in Hx. subst. right. reflexivity. }
    generalize 65%nat as n. induction n as [|n IH]; [exact I|]. cbn [repeat map snd ascending]. split; [apply Hr|exact IH].
  - intros wd. reflexivity.
Qed.

(** ** Forms of a lexeme *)
Lemma ebuild_some A L : eholds A L -> ebuildable L -> eindexed A L -> forall junk mem id idform,
  mem <> [] -> id < 2 ^ 32 -> (length (lexkeylen id ++ junk) = 16)%nat ->
  (exists key e, has_record (ewords L) key e /\ nlexid e = id) ->
  exists key e st c, has_record (ewords L) key e /\ nlexid e = id /\ eclass_of L (oclass e) = Some (st, c) /\
    let fs := erequested c key (stpost e) idform in delivered mem fs (small fs) (ebuild_form A junk (Some mem) id idform).
Proof.
  intros HL HB HI junk mem id idform Hm Hid Hj (key0 & e0 & Hr0 & He0).
  destruct (ebuild_form_eq A L HL HB HI junk mem id idform Hm Hid Hj) as [(_ & H)|(key & e & st & c & n & mem' & Hr & He & Ec & E & Ha)].
  - exfalso. exact (H key0 e0 Hr0 He0).
  - exists key, e, st, c. repeat match goal with |- _ /\ _ => split end; try assumption. eapply answered_delivered; eassumption.
Qed.

Lemma ebuild_exact A L : eholds A L -> ebuildable L -> eindexed A L -> forall junk mem key e st c idform,
  mem <> [] -> has_record (ewords L) key e -> eclass_of L (oclass e) = Some (st, c) ->
  (forall key' e', has_record (ewords L) key' e' -> nlexid e' = nlexid e -> key' = key /\ e' = e) ->
  (length (lexkeylen (nlexid e) ++ junk) = 16)%nat ->
  let fs := erequested c key (stpost e) idform in delivered mem fs (small fs) (ebuild_form A junk (Some mem) (nlexid e) idform).
Proof.
  intros HL HB HI junk mem key e st c idform Hm Hr Ec Hu Hj.
  assert (Hid : nlexid e < 2 ^ 32) by (pose proof (ei_ids A L HI key e Hr); lia).
  destruct (ebuild_some A L HL HB HI junk mem (nlexid e) idform Hm Hid Hj) as (key' & e' & st' & c' & Hr' & He' & Ec' & Hd); [exists key, e; split; [assumption|reflexivity]|].
  destruct (Hu key' e' Hr' He') as [-> ->]. rewrite Ec in Ec'. injection Ec' as <- <-. exact Hd.
Qed.

Lemma ebuild_unknown A L : eholds A L -> ebuildable L -> eindexed A L -> forall junk mem id idform,
  mem <> [] -> id < 2 ^ 32 -> (length (lexkeylen id ++ junk) = 16)%nat ->
  (forall key e, has_record (ewords L) key e -> nlexid e <> id) ->
  ebuild_form A junk (Some mem) id idform = Ok (0%Z, Some mem).
Proof.
  intros HL HB HI junk mem id idform Hm Hid Hj Hn.
  destruct (ebuild_form_eq A L HL HB HI junk mem id idform Hm Hid Hj) as [(E & _)|(key & e & st & c & n & mem' & Hr & He & _)]; [exact E|].
  exfalso. exact (Hn key e Hr He).
Qed.

Lemma ebuild_nowhere A junk id idform :
  ebuild_form A junk None id idform = Ok ((-5)%Z, None) /\ ebuild_form A junk (Some []) id idform = Ok ((-5)%Z, Some []).
Proof. split; reflexivity. Qed.

(** ** Forms by a word *)
Lemma eng_hits_class L scheme dwsets w r : In r (eng_hits L scheme dwsets w) -> exists st, eclass_of L (oclass (er_entry r)) = Some (st, er_class r).
Proof.
  unfold eng_hits. intros H. apply in_flat_map in H as (n & _ & H). apply in_flat_map in H as (ei & _ & H).
  unfold eentry_hits in H. destruct (eclass_of L (oclass (fst ei))) as [[st c]|] eqn:Ec; [|destruct H]. destruct (ecap_ok scheme dwsets c); [|destruct H].
  apply in_map_iff in H as (ds & <- & _). exists st. exact Ec.
Qed.
Lemma ea_forms_reading L id scheme dwsets w r : In r (eng_hits L scheme dwsets w) -> ea_forms L id (to_eanal L r) = ereading_forms id r.
Proof.
  intros H. destruct (eng_hits_class _ _ _ _ _ H) as (st & Ec). unfold ea_forms, ereading_forms, ea_class, to_eanal. cbn [ea_entry ea_key]. rewrite Ec. reflexivity.
Qed.

Lemma efind_found A L : eholds A L -> ebuildable L -> forall w dwsets,
  is_bytes w -> w <> [] -> (length w < 48)%nat -> (length (eparts w) <= 8)%nat ->
  exists hs, efound L (bit 1 dwsets) w hs /\
    forall psz cch mem idform junk, given w psz cch -> mem <> [] ->
      delivered mem (flat_map (ereading_forms idform) hs) (Forall (fun r => small (ereading_forms idform r)) hs)
        (efind_forms A junk (Some mem) psz cch idform dwsets).
Proof.
  intros HL HB w dwsets Hb Hw Hlen Hp. destruct (escheme_exists w Hb Hw Hlen Hp) as (scheme & Hs).
  exists (eng_hits L scheme dwsets (elow w)). split; [apply ehits_found with A; assumption|].
  intros psz cch mem idform junk Hg Hm.
  destruct (efind_forms_eq A L HL HB junk mem w psz cch idform dwsets Hm Hg Hb Hw Hlen Hp) as (scheme' & Hs' & H).
  cbn zeta in H. rewrite eanalyses_hits in H. rewrite (ehits_scheme L scheme' scheme) in H by (intros m; rewrite Hs, Hs'; reflexivity).
  set (hs := eng_hits L scheme dwsets (elow w)) in *.
  assert (E1 : eall_forms L idform (map (to_eanal L) hs) = flat_map (ereading_forms idform) hs).
  { unfold eall_forms. rewrite flat_map_concat_map, map_map, <- flat_map_concat_map. apply flat_map_ext_in. intros r Hr. eapply ea_forms_reading, Hr. }
  assert (E2 : Forall (fun a => small (ea_forms L idform a)) (map (to_eanal L) hs) <-> Forall (fun r => small (ereading_forms idform r)) hs).
  { rewrite Forall_map, !Forall_forall. split; intros H0 r Hr; specialize (H0 r Hr); rewrite (ea_forms_reading L idform scheme dwsets (elow w) r Hr) in *; exact H0. }
  rewrite E1, E2 in H. destruct H as [(H1 & H2 & H3)|(H1 & mem' & H2 & H3)]; split.
  - intros _. exact H3.
  - intros H. exfalso. apply H. split; assumption.
  - intros H. contradiction.
  - intros _. exists mem'. split; assumption.
Qed.

(** ** Refutations *)
Lemma echeck_postfix_lost : exists A L w key e id,
  eholds A L /\ ebounds_ok L /\ eword_of L true w key e [] id /\ eword_of L false w key e [] id /\ is_bytes w /\ (length w < 48)%nat /\
  length (parts eng_casing w) = 2%nat /\
  forall junk dwsets, echeck_word A junk (Some w) (N.of_nat (length w)) dwsets = Ok 0%Z.
Proof.
  exists eodd_arrays, eodd_lexicon, [97; 115; 45; 105; 115], [97; 115], (Entry 0 0 4 12 [45; 105; 115]), 255.
  assert (Han : eanalysis eodd_lexicon [97; 115; 45; 105; 115] [97; 115] (Entry 0 0 4 12 [45; 105; 115]) [] 255).
  { split; [reflexivity|]. split.
    - eexists. split; [vm_compute; reflexivity|]. right. left. reflexivity.
    - exists est_fixed, ecl_fixed. split; [reflexivity|]. apply (eform_fixed ecl_fixed). reflexivity. }
  assert (Hsuits : esuits [97; 115; 45; 105; 115] (ecase ecl_fixed)).
  { exists [0; 0]. split; [|right; left; reflexivity].
    cbn. apply parts_more; [|apply parts_last]; apply part_small; try discriminate; repeat constructor. }
  assert (Hgood : Forall (fun b => b < 256) [97; 115; 45; 105; 115]) by (repeat constructor).
  repeat match goal with |- _ /\ _ => split end; try reflexivity; try assumption; try discriminate.
  - apply eodd_holds.
  - apply eodd_bounds.
  - split; [exact Han|discriminate].
  - split; [exact Han|]. intros _. exists est_fixed, ecl_fixed. split; [reflexivity|exact Hsuits].
  - cbn. lia.
Qed.

Lemma echeck_many_parts : exists w, is_bytes w /\ (length w < 48)%nat /\ forall A junk dwsets,
  echeck_word A junk (Some w) (N.of_nat (length w)) dwsets = Ub.
Proof.
  exists (flat_map (fun _ => [97; 45]) (seq 0 16) ++ [97]). split; [|split].
  - repeat constructor.
  - cbn. lia.
  - intros A junk dwsets. reflexivity.
Qed.

Lemma ebuild_fixed_postfix : exists A L key e c st, eholds A L /\ eindexed A L /\ ebounds_ok L /\
  has_record (ewords L) key e /\ eclass_of L (oclass e) = Some (st, c) /\ stpost e = [45; 105; 116] /\ etakes c 255 = true /\
  (forall key' e', has_record (ewords L) key' e' -> nlexid e' = nlexid e -> key' = key /\ e' = e) /\
  (* the spelling check knows at-it and the builders say at *)
  echeck_word A (repeat 7 48) (Some (key ++ stpost e)) 5 0 = Ok 1%Z /\
  ebuild_form A (repeat 9 15) (Some (repeat 1 20)) (nlexid e) 255 = Ok (1%Z, Some (filled [key] (repeat 1 20))) /\
  efind_forms A (repeat 7 48) (Some (repeat 1 20)) (Some (key ++ stpost e)) 5 255 0 = Ok (1%Z, Some (filled [key] (repeat 1 20))).
Proof.
  exists eodd_arrays, eodd_lexicon, [97; 116], (Entry 0 0 7 12 [45; 105; 116]), ecl_fixed, est_fixed.
  split; [apply eodd_holds|]. split; [apply eodd_indexed|]. split; [apply eodd_bounds|].
  split; [eexists; split; [vm_compute; reflexivity|left; reflexivity]|]. split; [reflexivity|]. split; [reflexivity|]. split; [reflexivity|]. split.
  - intros key' e' (l & Hl & Hin) He.
    assert (H : keysb (fun k => match lookup k eodd_words with
       | Some l => forallb (fun e => negb (nlexid e =? 7) || ((if list_eq_dec N.eq_dec k [97; 116] then true else false) && (chrmin e =? 0) && (chrmax e =? 0) && (oclass e =? 12) &&
           (if list_eq_dec N.eq_dec (stpost e) [45; 105; 116] then true else false))) l
       | None => true end) 9 [] eodd_words = true) by (vm_compute; reflexivity).
    pose proof (keysb_ok _ _ _ _ H key' l Hl) as H1. cbn beta in H1. rewrite app_nil_l in H1. change (ewords eodd_lexicon) with eodd_words in Hl. rewrite Hl in H1. rewrite forallb_forall in H1.
    specialize (H1 e' Hin). cbn [nlexid] in He. rewrite He in H1. cbn [N.eqb Pos.eqb negb orb] in H1.
    rewrite !andb_true_iff, !N.eqb_eq in H1. destruct H1 as ((((H1 & H2) & H3) & H4) & H5).
    destruct (list_eq_dec N.eq_dec key' [97; 116]) as [->|]; [|discriminate]. split; [reflexivity|].
    destruct e' as [a b i o p]. cbn [chrmin chrmax nlexid oclass stpost] in *. destruct (list_eq_dec N.eq_dec p [45; 105; 116]) as [->|]; [|discriminate]. subst. reflexivity.
  - split; [vm_compute; reflexivity|]. split; vm_compute; reflexivity.
Qed.

(** ** Recognition of built forms *)
Definition eplainc (c : N) : bool :=
  (c <? 256) && negb (c =? 0) && ((ctype eng_casing c =? 2) || (ctype eng_casing c =? 1) && (locase eng_casing c =? c)).
Lemma eplainc_ok w : forallb eplainc w = true -> Forall eplain w.
Proof.
  rewrite forallb_forall, Forall_forall. intros H c Hc. specialize (H c Hc). unfold eplainc in H.
  rewrite !andb_true_iff, orb_true_iff, andb_true_iff, negb_true_iff, N.ltb_lt, N.eqb_neq, !N.eqb_eq in H.
  destruct H as ((H1 & H2) & H3). split; [exact H1|]. split; [exact H2|exact H3].
Qed.

Lemma edemo_recognisable : erecognisable edemo_lexicon.
Proof.
  assert (Hrec : forall key e, has_record edemo_words key e -> forallb eplainc key = true /\ forallb eplainc (stpost e) = true /\
             match stpost e with [] => True | c :: _ => c <= chrmax e end).
  { assert (H : keysb (fun k => match lookup k edemo_words with
        | Some l => forallb eplainc k && forallb (fun e => forallb eplainc (stpost e) && match stpost e with [] => true | c :: _ => c <=? chrmax e end) l
        | None => true end) 9 [] edemo_words = true) by (vm_compute; reflexivity).
    intros key e (l & Hl & Hin). pose proof (keysb_ok _ _ _ _ H key l Hl) as H1. cbn beta in H1. rewrite app_nil_l in H1. rewrite Hl in H1.
    apply andb_true_iff in H1 as [H1 H2]. rewrite forallb_forall in H2. specialize (H2 e Hin). apply andb_true_iff in H2 as [H2 H3].
    split; [exact H1|]. split; [exact H2|]. destruct (stpost e); [exact I|apply N.leb_le, H3]. }
  constructor.
  - apply edemo_bounds.
  - intros key e st c id Hr Hc. apply Forall_forall. intros t Ht. right. apply (Hrec key e Hr).
  - intros key e st c id Hr Hc. destruct (Hrec key e Hr) as (H1 & H2 & _). apply Forall_forall. intros w Hw. unfold eraw_forms in Hw.
    apply in_map_iff in Hw as (t & <- & Ht). apply eplainc_ok. rewrite !forallb_app, H1, H2, andb_true_r. cbn [andb].
    unfold etails in Ht. destruct (eclass_cases edemo_items _ _ _ Hc) as [[Eo ->]|[[Eo ->]|[[Eo ->]|[[Eo ->]|[Eo ->]]]]]; cbn [k_ends ecl_noun ecl_name ecl_abbr ecl_fixed ecl_far] in Ht.
    1, 2, 3, 5: apply in_map_iff in Ht as ([i t'] & <- & Ht); apply filter_In in Ht as [Ht _]; cbn in Ht;
      repeat (destruct Ht as [[= <- <-]|Ht]; [reflexivity|]); destruct Ht.
    destruct Ht as [<-|[]]. reflexivity.
Qed.

Lemma epossessive : exists A L id idform form, eholds A L /\ ebuildable L /\ eindexed A L /\ erecognisable L /\ is_bytes form /\ (length form < 48)%nat /\
  ebuild_form A (repeat 9 14) (Some (repeat 1 20)) id idform = Ok (1%Z, Some (filled [form] (repeat 1 20))) /\
  echeck_word A (repeat 7 48) (Some form) (N.of_nat (length form)) 0 = Ok 0%Z.
Proof.
  exists edemo_arrays, edemo_lexicon, 300, 2, [85; 83; 65; 39; 83].
  split; [apply edemo_holds|]. split; [apply edemo_buildable|]. split; [apply edemo_indexed|]. split; [apply edemo_recognisable|].
  split; [repeat constructor|]. split; [cbn; lia|]. split; vm_compute; reflexivity.
Qed.
