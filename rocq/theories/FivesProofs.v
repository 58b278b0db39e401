(** * FivesProofs: the wide search is exact for patterns of letters and question marks. *)
From Verif Require Import Base Serial WordTree TreeSpec FlatScan Stems StemSpec CharTables CapScheme CapSpec RusRuntime RusSpec Wild WildSpec PropWildLemmas
  WideApi WideSpec Letters LettersSpec LettersProofs Tasks TasksSpec TasksProofs FivesSpec Prop_Wide.
Local Open Scope N_scope.

Lemma parts_short cs : forall w, (length (parts cs w) <= S (length w))%nat.
Proof.
  induction w as [|c w IH]; cbn [parts]; [cbn [length]; lia|]. destruct (ctype cs c =? 2); [cbn [length]; lia|]. destruct (parts cs w); cbn [length] in *; lia.
Qed.
Lemma in_runs : forall evs lid str id, (exists ms, In (lid, ms) (WildSpec.runs evs) /\ In (str, id) ms) <-> In (lid, str, id) evs.
Proof.
  induction evs as [|[[l s] i] evs IH]; intros lid str id; cbn [WildSpec.runs].
  - split; [intros (ms & [] & _)|intros []].
  - cbn [In]. rewrite <- IH. destruct (WildSpec.runs evs) as [|[l' ms'] rest].
    + split.
      * intros (ms & [E|[]] & H). injection E as <- <-. destruct H as [H|[]]. injection H as <- <-. left. reflexivity.
      * intros [E|(ms & [] & _)]. injection E as <- <- <-. exists [(s, i)]. split; left; reflexivity.
    + destruct (N.eqb_spec l l') as [<-|Hn]; split.
      * intros (ms & [E|Hi] & H); [|right; exists ms; split; [right; exact Hi|exact H]]. injection E as <- <-. destruct H as [H|H]; [injection H as <- <-; left; reflexivity|].
        right. exists ms'. split; [left; reflexivity|exact H].
      * intros [E|(ms & [E|Hi] & H)].
        -- injection E as <- <- <-. exists ((s, i) :: ms'). split; left; reflexivity.
        -- injection E as <- <-. exists ((s, i) :: ms'). split; [left; reflexivity|right; exact H].
        -- exists ms. split; [right; exact Hi|exact H].
      * intros (ms & [E|Hi] & H); [|right; exists ms; split; assumption]. injection E as <- <-. destruct H as [H|[]]. injection H as <- <-. left. reflexivity.
      * intros [E|(ms & Hi & H)]; [|exists ms; split; [right; exact Hi|exact H]]. injection E as <- <- <-. exists [(s, i)]. split; left; reflexivity.
Qed.
Definition wide_call (W : wide) (call : N * list (bytes * N)) : N * list (list N * N) := (fst call, map (fun m => (widened W (fst m), snd m)) (snd call)).
Lemma deliver_note W : forall calls u, fst (deliver (wide_calls W note) calls u) = u ++ map (wide_call W) calls.
Proof.
  induction calls as [|[l ms] calls IH]; intros u; [cbn; rewrite app_nil_r; reflexivity|]. cbn [deliver map]. destruct calls as [|c calls]; [reflexivity|].
  rewrite IH. unfold wide_calls, note. cbn [fst]. rewrite <- app_assoc. reflexivity.
Qed.
Lemma call_fits_dec call : {call_fits call} + {~ call_fits call}.
Proof.
  unfold call_fits. destruct (le_dec (length (snd call)) 512) as [H|H]; [|right; tauto].
  destruct (fold_right (fun m n => N.of_nat (length (fst m)) + 1 + n) 0 (snd call) <=? 24576) eqn:K; [left; split; [assumption|apply N.leb_le; exact K]|right; intros [_ K']; apply N.leb_le in K'; congruence].
Qed.

Lemma glob_letter c p s : c <> 42 -> c <> 63 -> glob (c :: p) s -> exists s', s = c :: s' /\ glob p s'.
Proof. intros H1 H2 H. inversion H; subst; try (exfalso; congruence). eexists. split; [reflexivity|assumption]. Qed.
Lemma glob_any p s : glob (63 :: p) s -> exists c s', s = c :: s' /\ glob p s'.
Proof. intros H. inversion H; subst; [congruence|]. do 2 eexists. split; [reflexivity|assumption]. Qed.

Section Fives.
  Variable W : wide.
  Hypothesis Hw : wide_ok W.
  Hypothesis Hk : knows_letters W.

  Lemma glob_fits : forall p str, Forall (fun q => q = 63 \/ is_letter q) p -> is_bytes str ->
    (glob (map (locase rus_casing) (narrowed W p)) str <-> fits p (widened W str)).
  Proof.
    destruct Hk as [Hq Hl]. induction p as [|q p IH]; intros str Hp Hs; cbn [narrowed map].
    - split; intros H; [inversion H; constructor|]. destruct str; [constructor|inversion H].
    - inversion Hp as [|? ? Hq' Hp']; subst. destruct str as [|b str].
      + split; intros H; [|inversion H]. exfalso. destruct Hq' as [->|Hq']; [rewrite Hq in H; apply glob_any in H as (? & ? & ? & _); discriminate|]. destruct (Hl q Hq') as (_ & E2 & E3 & E4). rewrite E2 in H. apply glob_letter in H as (? & ? & _); [discriminate|exact E3|exact E4].
      + assert (Hb : b < 256 /\ is_bytes str) by (unfold is_bytes in *; inversion Hs; split; assumption). destruct Hb as [Hb Hs'].
        specialize (IH str Hp' Hs'). unfold widened. cbn [map]. split; intros H.
        * destruct Hq' as [->|Hq'].
          -- rewrite Hq in H. constructor; [left; reflexivity|]. apply IH. apply glob_any in H as (c0 & s0 & E & H). injection E as <- <-. exact H.
          -- destruct (Hl q Hq') as (E1 & E2 & E3 & E4). rewrite E2 in H. apply glob_letter in H as (s0 & E & H); [|exact E3|exact E4]. injection E as -> <-. constructor; [right; symmetry; exact E1|]. apply IH. exact H.
        * inversion H as [|? ? ? ? Hqb Hf]; subst. apply IH in Hf. destruct Hq' as [->|Hq'].
          -- rewrite Hq. apply glob_one. exact Hf.
          -- destruct (Hl q Hq') as (E1 & E2 & E3 & E4). rewrite E2. destruct Hqb as [Hqb|Hqb]; [unfold is_letter in Hq'; lia|].
             assert (E : of_wide W q = b) by (rewrite Hqb; apply (wd_back W Hw); exact Hb). rewrite E in *. apply glob_same; [exact E3|exact E4|exact Hf].
  Qed.

  Theorem wide_find_pattern A L rest junk buf szword : holds A L -> fixed_plain L -> strings_within 47 L ->
    stemtree A = stemtree_bytes (words L) ++ rest -> rest <> [] \/ lookup [] (words L) <> None ->
    (forall key e, has_record (words L) key e -> nlexid e <> 0) -> bounds_ok L -> forms_plain L ->
    length junk = 48%nat -> length buf = 48%nat ->
    forall p, pattern_ok p -> wc_find_match W note A junk buf szword (Some p) (N.of_nat (length p)) [] <> Ub ->
    forall lex w id, (exists ms, In (lex, ms) (wide_find W A junk buf szword p) /\ In (w, id) ms) <-> forms_of W L lex w id /\ fits p w.
  Proof.
    intros H1 H2 H3 H4 H5 H6 Hbo Hpl Hj Hb p [Hp5 Hp] Hub lex w id. pose proof Hp5 as Hlen. unfold five in Hlen.
    destruct (C65_find_match_partial W A L p rest Hw H1 H2 H3 H4 H5 H6) as (evs & K1 & K2 & K3).
    - intros ->. discriminate.
    - lia.
    - pose proof (parts_short rus_casing (narrowed W p)) as Hs. unfold narrowed in *. rewrite map_length in Hs. lia.
    - assert (Hg : given p (Some p) (N.of_nat (length p))).
      { pose proof (given_counted p []) as G. rewrite app_nil_r in G. apply G. rewrite Hlen. reflexivity. }
      destruct (K1 p _ Hg _ note junk buf szword [] Hj Hb) as [Kok Kub].
      assert (Hfit : Forall call_fits (WildSpec.runs evs)).
      { destruct (Forall_dec call_fits call_fits_dec (WildSpec.runs evs)) as [F|F]; [exact F|]. exfalso. apply Hub. exact (Kub F). }
      assert (Ef : wide_find W A junk buf szword p = map (wide_call W) (WildSpec.runs evs)).
      { pose proof (Kok Hfit) as E1. unfold wide_find. match goal with |- match ?x with _ => _ end = _ => replace x with (Ok (deliver (wide_calls W note) (WildSpec.runs evs) [])) by (symmetry; exact E1) end. pose proof (deliver_note W (WildSpec.runs evs) []) as E. destruct (deliver (wide_calls W note) (WildSpec.runs evs) []) as [u z]. exact E. }
      rewrite Ef. split.
      + intros (ms & Hi & Hm). apply in_map_iff in Hi as ([l ms0] & E & Hi). injection E as <- <-. apply in_map_iff in Hm as ([str i] & E & Hm). injection E as <- <-.
        assert (Hev : In (l, str, i) evs) by (apply in_runs; exists ms0; split; assumption). destruct (K2 _ _ _ Hev) as (key & e & part & Hf & Hlid & Hgl). split.
        * exists key, e, part, str. split; [exact Hf|]. split; [exact Hlid|reflexivity].
        * apply glob_fits; [exact Hp|apply (Hpl _ _ _ _ _ Hf)|exact Hgl].
      + intros [(key & e & part & str & Hf & Hlid & ->) Hfits]. destruct (Hpl _ _ _ _ _ Hf) as (Hsb & H42 & Hpost).
        apply glob_fits in Hfits; [|exact Hp|exact Hsb]. pose proof (K3 Hbo key e part str id Hf Hfits H42 Hpost) as Hev. rewrite Hlid in Hev.
        apply in_runs in Hev as (ms & Hi & Hm). exists (map (fun m => (widened W (fst m), snd m)) ms). split.
        * apply in_map_iff. exists (lex, ms). split; [reflexivity|exact Hi].
        * apply in_map_iff. exists (str, id). split; [reflexivity|exact Hm].
  Qed.
End Fives.

Lemma fits_length p w : fits p w -> length p = length w.
Proof. intros H. induction H; cbn [length]; congruence. Qed.
Lemma nouns_dictionary find wd (d : forms) nouns : (forall pattern, pattern_ok pattern -> forall lex w id, (exists ms, In (lex, ms) (find pattern) /\ In (w, id) ms) <-> d lex w id /\ fits pattern w) ->
  (forall w, In w nouns <-> five w /\ exists lex id, d lex w id /\ 7 <= wd lex <= 23 /\ (id = 0 \/ id = 255)) -> dictionary_of find wd nouns.
Proof.
  intros Hex Hn pattern Hp w. rewrite Hn. unfold noun_found. split.
  - intros (lex & ms & id & Hi & Hw & Hm & Hid). destruct (proj1 (Hex pattern Hp lex w id) (ex_intro _ ms (conj Hi Hm))) as [Hd Hf]. split; [|exact Hf]. split.
    + destruct Hp as [H5 _]. unfold five in *. rewrite <- H5. symmetry. exact (fits_length _ _ Hf).
    + exists lex, id. split; [exact Hd|]. split; [exact Hw|exact Hid].
  - intros [(H5 & lex & id & Hd & Hw & Hid) Hf]. destruct (proj2 (Hex pattern Hp lex w id) (conj Hd Hf)) as (ms & Hi & Hm). exists lex, ms, id. split; [exact Hi|]. split; [exact Hw|]. split; assumption.
Qed.
