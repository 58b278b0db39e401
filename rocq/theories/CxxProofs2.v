(** * CxxProofs2: the vectors of strings. *)
From Verif Require Import Base Serial WordTree TreeSpec FlatScan Stems StemSpec CharTables CapScheme CapSpec CapProofs GramMap RusRuntime LevelSpec RusSpec RusProofs
  RusProofs3 PropRusLemmas RusBuild RusBuildSpec RusBuildProofs RusBuildProofs2 RusBuildProofs3 RusReadings RusReadingsProofs RusLemmaSpec RusLemmaProofs
  PropBuildLemmas RusLemmaProofs5 EngRuntime EngSpec EngFormsSpec EngBuildProofs EngReadingsProofs EngLemmaSpec EngLemmaProofs PropEngLemmas
  Fuzzy FuzzySpec FuzzyProofs2 FuzzyProofs5 FuzzyProofs6 CxxApi CxxSpec CxxProofs.
Local Open Scope N_scope.

(** ** No NUL in what is returned *)
Lemma tab_upper (l : list N) : forallb (fun k => Nat.eqb k 0 || negb (nth k l 3 =? 0)) (seq 0 256) = true -> length l = 256%nat ->
  forall c, c <> 0 -> tab l c <> 0.
Proof.
  intros H Hl c Hc E. unfold tab in E. destruct (Nat.lt_ge_cases (N.to_nat c) 256) as [Hlt|Hge].
  - rewrite forallb_forall in H. specialize (H (N.to_nat c)). rewrite E in H. cbn [N.eqb negb] in H. rewrite orb_false_r in H.
    assert (Hs : In (N.to_nat c) (seq 0 256)) by (apply in_seq; lia). apply H in Hs. apply Nat.eqb_eq in Hs. lia.
  - rewrite nth_overflow in E by lia. discriminate.
Qed.
Lemma rus_upper c : c <> 0 -> upcase rus_casing c <> 0.
Proof. apply tab_upper; vm_compute; reflexivity. Qed.
Lemma eng_upper c : c <> 0 -> upcase eng_casing c <> 0.
Proof. apply tab_upper; vm_compute; reflexivity. Qed.

Lemma respell_no_nul cs min : (forall c, c <> 0 -> upcase cs c <> 0) -> forall w, ~ In 0 w -> ~ In 0 (respell cs min w).
Proof.
  intros Hu w. unfold respell. generalize (pattern (length (parts cs w)) min), true.
  induction w as [|c w IH]; intros pat b Hw; [intros []|]. cbn [respell_by]. assert (Hc : c <> 0) by (intros ->; apply Hw; left; reflexivity).
  assert (Hw' : ~ In 0 w) by (intros H; apply Hw; right; exact H). destruct (ctype cs c =? 2); intros [H|H].
  - congruence.
  - eapply IH; eassumption.
  - pose proof (Hu c Hc). destruct (hd 0 pat) as [|[| |]]; try destruct b; congruence.
  - eapply IH; eassumption.
Qed.
Lemma respelled cs min fs : (forall c, c <> 0 -> upcase cs c <> 0) -> Forall (fun f => ~ In 0 f) fs -> Forall (fun f => ~ In 0 f) (map (respell cs min) fs).
Proof. intros Hu H. rewrite Forall_map. eapply Forall_impl; [|exact H]. intros f Hf. apply respell_no_nul; assumption. Qed.

Section Rus.
  Variables (A : arrays) (L : lexicon).
  Hypotheses (HL : holds A L) (HB : buildable L).

  Lemma forms_no_nul key e st c fx : has_record (words L) key e -> class_of L (oclass e) = Some (st, c) ->
    Forall (fun f => ~ In 0 f) (forms_of c key (stpost e) fx).
  Proof using HL HB.
    intros Hr Ec. destruct (record_facts A L HL HB key e Hr) as (st' & c' & Ec' & _ & _ & Hn & Hk & Hp & _).
    rewrite Ec in Ec'. injection Ec' as <- <-. apply respelled; [exact rus_upper|]. apply raw_no_nul; assumption.
  Qed.

  Lemma found_reading ig w hs r : found L ig w hs -> In r hs ->
    has_record (words L) (rd_key r) (rd_entry r) /\ exists st, class_of L (oclass (rd_entry r)) = Some (st, rd_class r).
  Proof.
    intros [(suitable & _ & Hsub & _)] Hin. eapply sublist_in in Hin; [|exact Hsub]. apply filter_In in Hin as [Hin _].
    apply readings_in in Hin as (rest & _ & Hrec & Hin). apply record_readings_in in Hin as (st & c & Ec & Hr & _).
    split; [exact Hrec|]. exists st. rewrite Ec. do 2 f_equal. rewrite Hr. reflexivity.
  Qed.

  Lemma reading_forms_no_nul ig w hs id : found L ig w hs -> Forall (fun f => ~ In 0 f) (flat_map (reading_forms id) hs).
  Proof using HL HB.
    intros Hf. apply Forall_forall. intros f Hin. apply in_flat_map in Hin as (r & Hr & Hin).
    destruct (found_reading ig w hs r Hf Hr) as (Hrec & st & Ec). unfold reading_forms, found_forms in Hin.
    destruct (match c_flex (rd_class r) with None => _ | Some _ => _ end); [|destruct Hin].
    pose proof (forms_no_nul _ _ st _ (GetGramInfo (c_word (rd_class r)) id) Hrec Ec) as H. rewrite Forall_forall in H. apply H, Hin.
  Qed.

  Lemma cxx_build_some : indexed A L -> forall junk buffer id idform, length buffer = 256%nat -> id < 2 ^ 32 ->
    (length (lexkeylen id ++ junk) = 16)%nat -> (exists key e, has_record (words L) key e /\ nlexid e = id) ->
    exists key e st c, has_record (words L) key e /\ nlexid e = id /\ class_of L (oclass e) = Some (st, c) /\
      let fs := requested c key (stpost e) idform in all_or_none 256 fs (small fs) (cxx_build_form A junk buffer id idform).
  Proof using HL HB.
    intros HI junk buffer id idform Hl Hid Hj Hex.
    destruct (build_some A L HL HB HI junk buffer id idform) as (key & e & st & c & Hr & He & Ec & Hd); try assumption; [destruct buffer; discriminate|].
    exists key, e, st, c. repeat match goal with |- _ /\ _ => split end; try assumption. cbv zeta in *.
    apply strings_delivered; [exact Hl| |exact Hd]. unfold requested. destruct (takes_id c idform); [|constructor].
    eapply forms_no_nul; eassumption.
  Qed.

  Lemma cxx_build_unknown : indexed A L -> forall junk buffer id idform, length buffer = 256%nat -> id < 2 ^ 32 ->
    (length (lexkeylen id ++ junk) = 16)%nat -> (forall key e, has_record (words L) key e -> nlexid e <> id) ->
    cxx_build_form A junk buffer id idform = Ok [].
  Proof using HL HB.
    intros HI junk buffer id idform Hl Hid Hj Hn. unfold cxx_build_form, strings_from. cbv beta.
    pose proof (build_unknown A L HL HB HI junk buffer id idform) as E. unfold bytes in *. rewrite E; try assumption; [reflexivity|destruct buffer; discriminate].
  Qed.

  Lemma cxx_find_found w dwsets : is_bytes w -> w <> [] -> (length w < 48)%nat -> (length (parts rus_casing w) <= 8)%nat ->
    exists hs, found L (bit 1 dwsets) w hs /\
      forall psz cch buffer idform junk, given w psz cch -> length buffer = 256%nat ->
        all_or_none 256 (flat_map (reading_forms idform) hs) (Forall (fun r => small (reading_forms idform r)) hs)
          (cxx_find_forms A junk buffer psz cch idform dwsets).
  Proof using HL HB.
    intros Hb Hw Hlen Hp. destruct (find_found A L HL HB w dwsets Hb Hw Hlen Hp) as (hs & Hf & H). exists hs. split; [exact Hf|].
    intros psz cch buffer idform junk Hg Hl. apply strings_delivered; [exact Hl|eapply reading_forms_no_nul, Hf|].
    apply H; [exact Hg|destruct buffer; discriminate].
  Qed.
End Rus.

Section Eng.
  Variables (A : earrays) (L : elexicon).
  Hypotheses (HL : eholds A L) (HB : ebuildable L).

  Lemma erequested_no_nul key e st c id : has_record (ewords L) key e -> eclass_of L (oclass e) = Some (st, c) ->
    Forall (fun f => ~ In 0 f) (erequested c key (stpost e) id).
  Proof using HL HB.
    intros Hr Ec. destruct (erecord_facts A L HL HB key e Hr) as (st' & c' & Ec' & _ & _ & Hn & _ & Hk & Hp & _).
    rewrite Ec in Ec'. injection Ec' as <- <-. rewrite erequested_eq. apply respelled; [exact eng_upper|]. unfold eid_forms.
    destruct (etakes c id); [|constructor]. apply eraw_no_nul; assumption.
  Qed.

  Lemma efound_reading ig w hs r : efound L ig w hs -> In r hs ->
    has_record (ewords L) (er_key r) (er_entry r) /\ exists st, eclass_of L (oclass (er_entry r)) = Some (st, er_class r).
  Proof.
    intros [(suitable & _ & Hsub & _)] Hin. eapply sublist_in in Hin; [|exact Hsub]. apply filter_In in Hin as [Hin _].
    apply ereadings_in in Hin as (rest & _ & Hrec & Hin). apply erecord_readings_in in Hin as (st & c & Ec & Hr & _).
    split; [exact Hrec|]. exists st. rewrite Ec. do 2 f_equal. rewrite Hr. reflexivity.
  Qed.

  Lemma cxx_ebuild_some : eindexed A L -> forall junk buffer id idform, length buffer = 256%nat -> id < 2 ^ 32 ->
    (length (lexkeylen id ++ junk) = 16)%nat -> (exists key e, has_record (ewords L) key e /\ nlexid e = id) ->
    exists key e st c, has_record (ewords L) key e /\ nlexid e = id /\ eclass_of L (oclass e) = Some (st, c) /\
      let fs := erequested c key (stpost e) idform in all_or_none 256 fs (small fs) (cxx_ebuild_form A junk buffer id idform).
  Proof using HL HB.
    intros HI junk buffer id idform Hl Hid Hj Hex.
    destruct (ebuild_some A L HL HB HI junk buffer id idform) as (key & e & st & c & Hr & He & Ec & Hd); try assumption; [destruct buffer; discriminate|].
    exists key, e, st, c. repeat match goal with |- _ /\ _ => split end; try assumption. cbv zeta in *.
    apply strings_delivered; [exact Hl| |exact Hd]. eapply erequested_no_nul; eassumption.
  Qed.

  Lemma cxx_ebuild_unknown : eindexed A L -> forall junk buffer id idform, length buffer = 256%nat -> id < 2 ^ 32 ->
    (length (lexkeylen id ++ junk) = 16)%nat -> (forall key e, has_record (ewords L) key e -> nlexid e <> id) ->
    cxx_ebuild_form A junk buffer id idform = Ok [].
  Proof using HL HB.
    intros HI junk buffer id idform Hl Hid Hj Hn. unfold cxx_ebuild_form, strings_from. cbv beta.
    pose proof (ebuild_unknown A L HL HB HI junk buffer id idform) as E. unfold bytes in *. rewrite E; try assumption; [reflexivity|destruct buffer; discriminate].
  Qed.

  Lemma cxx_efind_found w dwsets : is_bytes w -> w <> [] -> (length w < 48)%nat -> (length (parts eng_casing w) <= 8)%nat ->
    exists hs, efound L (bit 1 dwsets) w hs /\
      forall psz cch buffer idform junk, given w psz cch -> length buffer = 256%nat ->
        all_or_none 256 (flat_map (ereading_forms idform) hs) (Forall (fun r => small (ereading_forms idform r)) hs)
          (cxx_efind_forms A junk buffer psz cch idform dwsets).
  Proof using HL HB.
    intros Hb Hw Hlen Hp. destruct (efind_found A L HL HB w dwsets Hb Hw Hlen Hp) as (hs & Hf & H). exists hs. split; [exact Hf|].
    intros psz cch buffer idform junk Hg Hl. apply strings_delivered; [exact Hl| |].
    - apply Forall_forall. intros f Hin. apply in_flat_map in Hin as (r & Hr & Hin). destruct (efound_reading _ w hs r Hf Hr) as (Hrec & st & Ec).
      pose proof (erequested_no_nul _ _ st _ idform Hrec Ec) as Hz. rewrite Forall_forall in Hz. apply Hz, Hin.
    - apply H; [exact Hg|destruct buffer; discriminate].
  Qed.
End Eng.

(** ** The guesser *)
Lemma cxx_fuzzy_build F lojunk junk buffer w psz cch i c id : has_class F i c -> by_form (c_inflex c) -> proper w -> given w psz cch ->
  length buffer = 256%nat -> stopped junk -> (forall f, In f (c_inflex c) -> fst f = id -> (length w + length (snd f) <= 63)%nat) ->
  all_or_none 256 (variants c (map (locase rus_casing) w) id) True (cxx_fuzzy_build_form F lojunk junk buffer psz cch i id).
Proof.
  intros Hc Hby Hw Hg Hl Hs Hlen. apply strings_delivered; [exact Hl| |].
  - unfold variants. rewrite Forall_map. apply Forall_forall. intros f Hf. apply filter_In in Hf as [Hf _]. apply respell_no_nul; [exact rus_upper|].
    destruct Hc as (Hok & _). pose proof (co_flex _ Hok) as Hx. rewrite Forall_forall in Hx. destruct (Hx f Hf) as (_ & _ & Hz).
    destruct Hw as (Hb & _ & _ & _ & H0). intros Hin. apply in_app_iff in Hin as [Hin|Hin]; [|exact (Hz Hin)]. exact (nonul_low w Hb H0 Hin).
  - apply fuzzy_build_exact; try assumption. destruct buffer; discriminate.
Qed.

Lemma fitting_no_nul : forall l room, Forall (fun f : bytes => ~ In 0 f) l -> Forall (fun f : bytes => ~ In 0 f) (fitting room l).
Proof. induction l as [|s l IH]; intros room H; [constructor|]. cbn [fitting]. destruct (Nat.ltb _ _); [|constructor]. inversion H; subst. constructor; auto. Qed.

Lemma models_strings (samples : list bytes) mem : Forall (fun f => ~ In 0 f) samples ->
  (let (mcount, out) := models_answer samples mem in
   if (0 <? mcount)%Z then match out with None => Ub | Some mem => take_strings (Z.to_nat mcount) mem end else Ok []) =
  Ok (fitting (length mem) samples).
Proof.
  intros Hz. unfold models_answer. pose proof (fitting_no_nul samples (length mem) Hz) as Hf. destruct samples as [|s l]; [reflexivity|].
  destruct (fitting (length mem) (s :: l)) as [|f fs]; [reflexivity|].
  destruct (Z.ltb_spec 0 (Z.of_nat (length (f :: fs)))) as [|Hn]; [|cbn [length] in Hn; lia].
  rewrite Nat2Z.id. apply take_strings_ok. exact Hf.
Qed.

Lemma cxx_models_eq F i c (models : bytes) : has_class F i c -> length models = 1024%nat -> Forall (fun m => ~ In 0 (m_sample m)) (c_models c) ->
  cxx_models F models i = Ok (fitting 1024 (map m_sample (c_models c))).
Proof.
  intros Hc Hl Hz. unfold cxx_models. assert (Hm : models <> []) by (destruct models; discriminate).
  pose proof (fuzzy_models_exact F i c models Hc Hm) as E. unfold bytes in *. rewrite E. cbn [bind].
  rewrite <- Hl. apply models_strings. rewrite Forall_map. exact Hz.
Qed.

Lemma cxx_models_unknown F i models : N.of_nat (length (class_offset F)) <= i -> cxx_models F models i = Ok [].
Proof.
  intros H. unfold cxx_models, fuzzy_models. destruct models as [|m ms]; [reflexivity|]. rewrite (no_class F i H). reflexivity.
Qed.
