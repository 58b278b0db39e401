(** * EngRecognised: built English forms are recognised.  PROOFS. *)
From Verif Require Import Base Serial SerialProofs WordTree TreeSpec WordTreeProofs FlatScan FlatScanProofs LidsProofs TrackProofs
  TreeWalk Stems StemSpec StemsProofs DictProofs CharTables CapScheme CapSpec CapProofs CapProofs2 CapProofs3 PropCaseLemmas PropTreesLemmas
  GramMap RusRuntime RusBuild RusSpec RusProofs RusProofs2 RusProofs3 RusBuildSpec RusBuildProofs RusBuildProofs2 RusBuildProofs3 RusReadings
  RusReadingsProofs PropBuildLemmas EngRuntime EngSpec EngProofs EngProofs2 EngFormsSpec EngBuildProofs EngReadingsProofs.
Local Open Scope N_scope.

Notation ecs := eng_casing.

(** ** Respelling, part by part *)
Definition spell_part (k : N) (p : bytes) : bytes :=
  match k with 0 => p | 1 => match p with [] => [] | c :: r => upcase ecs c :: r end | _ => map (upcase ecs) p end.

Lemma respell_tail pat p rest : nodelim ecs p ->
  respell_by ecs pat false (p ++ rest) = (match hd 0 pat with 0 | 1 => p | _ => map (upcase ecs) p end) ++ respell_by ecs pat false rest.
Proof.
  induction 1 as [|c p Hc Hp IH]; cbn [app].
  - destruct (hd 0 pat) as [|[q|q|]]; reflexivity.
  - cbn [respell_by]. rewrite Hc, IH. destruct (hd 0 pat) as [|[q|q|]]; reflexivity.
Qed.
Lemma respell_one pat p : nodelim ecs p -> respell_by ecs pat true p = spell_part (hd 0 pat) p.
Proof.
  intros Hp. destruct Hp as [|c p Hc Hp]; cbn [respell_by]; [destruct (hd 0 pat) as [|[q|q|]]; reflexivity|]. rewrite Hc.
  pose proof (respell_tail pat p [] Hp) as E. rewrite !app_nil_r in E. rewrite E. destruct (hd 0 pat) as [|[q|q|]]; reflexivity.
Qed.
Lemma respell_more pat p d w : nodelim ecs p -> (ctype ecs d =? 2) = true ->
  respell_by ecs pat true (p ++ d :: w) = spell_part (hd 0 pat) p ++ d :: respell_by ecs (tl pat) true w.
Proof.
  intros Hp Hd. destruct Hp as [|c p Hc Hp]; cbn [app respell_by].
  - rewrite Hd. destruct (hd 0 pat) as [|[q|q|]]; reflexivity.
  - rewrite Hc. rewrite (respell_tail pat p (d :: w) Hp). cbn [respell_by]. rewrite Hd.
    destruct (hd 0 pat) as [|[q|q|]]; cbn [app spell_part map]; reflexivity.
Qed.

Lemma up_plain c : eplain c -> (ctype ecs c =? 2) = false ->
  upcase ecs c < 256 /\ locase ecs (upcase ecs c) = c /\ (ctype ecs (upcase ecs c) =? 2) = false.
Proof.
  intros (H1 & H2 & [H|[Hr Hl]]) Hd; [apply N.eqb_neq in Hd; contradiction|].
  split; [apply (ok_range ecs eng_okay c H1)|]. pose proof (ok_up ecs eng_okay c H1 Hr Hl) as E. split; [exact E|].
  apply N.eqb_neq. intros Hu. assert (Hb : upcase ecs c < 256) by apply (ok_range ecs eng_okay c H1).
  rewrite (eng_dlm _ Hb Hu) in E. rewrite E in Hu. apply N.eqb_neq in Hd. contradiction.
Qed.

Lemma spell_part_facts k p : nodelim ecs p -> Forall eplain p ->
  nodelim ecs (spell_part k p) /\ map (locase ecs) (spell_part k p) = p /\ is_bytes (spell_part k p) /\ length (spell_part k p) = length p.
Proof.
  intros Hd Hp.
  assert (Hsame : nodelim ecs p /\ map (locase ecs) p = p /\ is_bytes p /\ length p = length p).
  { split; [exact Hd|]. split; [|split; [|reflexivity]].
    - clear Hd. induction Hp as [|c p (H1 & H2 & H) Hp IH]; [reflexivity|]. cbn [map]. rewrite IH. f_equal. destruct H as [H|[_ H]]; [apply eng_dlm; assumption|exact H].
    - clear Hd. induction Hp as [|c p (H1 & _) Hp IH]; constructor; assumption. }
  assert (Hall : nodelim ecs (map (upcase ecs) p) /\ map (locase ecs) (map (upcase ecs) p) = p /\ is_bytes (map (upcase ecs) p) /\ length (map (upcase ecs) p) = length p).
  { clear Hsame. induction Hd as [|c p Hc Hd IH]; [repeat split; constructor|]. pose proof (Forall_inv Hp) as Hc'.
    destruct (IH (Forall_inv_tail Hp)) as (I1 & I2 & I3 & I4). destruct (up_plain c Hc' Hc) as (U1 & U2 & U3). cbn [map].
    split; [constructor; assumption|]. split; [rewrite I2, U2; reflexivity|]. split; [constructor; assumption|]. cbn [length]. rewrite I4. reflexivity. }
  destruct k as [|[q|q|]]; cbn [spell_part]; try exact Hsame; try exact Hall.
  destruct p as [|c p]; [exact Hsame|]. destruct Hsame as (S1 & S2 & S3 & S4).
  destruct (up_plain c (Forall_inv Hp) (Forall_inv Hd)) as (U1 & U2 & U3).
  split; [constructor; [exact U3|exact (Forall_inv_tail Hd)]|]. apply (f_equal (@tl N)) in S2. cbn [map tl] in S2.
  split; [cbn [map]; rewrite S2, U2; reflexivity|]. split; [constructor; [exact U1|exact (Forall_inv_tail S3)]|reflexivity].
Qed.

(** the parts of the respelled word *)
Fixpoint spell_parts (pat : list N) (ps : list bytes) : list bytes :=
  match ps with [] => [] | p :: ps' => spell_part (hd 0 pat) p :: spell_parts (tl pat) ps' end.

Lemma respell_by_facts : forall w pat, Forall eplain w ->
  parts ecs (respell_by ecs pat true w) = spell_parts pat (parts ecs w) /\ map (locase ecs) (respell_by ecs pat true w) = w /\
  is_bytes (respell_by ecs pat true w).
Proof.
  intros w. pattern w. apply (parts_ind ecs); clear w.
  - intros p Hp pat Hg. rewrite respell_one, (parts_nodelim ecs p Hp) by assumption.
    destruct (spell_part_facts (hd 0 pat) p Hp Hg) as (F1 & F2 & F3 & _). rewrite (parts_nodelim ecs _ F1). cbn [spell_parts]. auto.
  - intros p d w Hp Hd IH pat Hg. rewrite (respell_more pat p d w Hp Hd), (parts_app ecs p d w Hp Hd).
    apply Forall_app in Hg as [G1 G2]. destruct (spell_part_facts (hd 0 pat) p Hp G1) as (F1 & F2 & F3 & _).
    destruct (IH (tl pat) (Forall_inv_tail G2)) as (I1 & I2 & I3). rewrite (parts_app ecs _ d _ F1 Hd). cbn [spell_parts].
    destruct (Forall_inv G2) as (D1 & D2 & _). split; [rewrite I1; reflexivity|]. split.
    + rewrite map_app. cbn [map]. rewrite F2, I2, (eng_dlm d D1); [reflexivity|]. apply N.eqb_eq. exact Hd.
    + unfold is_bytes. apply Forall_app. split; [exact F3|constructor; assumption].
Qed.

Lemma spell_parts_length ps : forall pat, length (spell_parts pat ps) = length ps.
Proof. induction ps as [|p ps IH]; intros pat; [reflexivity|]. cbn [spell_parts length]. rewrite IH. reflexivity. Qed.

Lemma erespell_facts w min : Forall eplain w ->
  map (locase ecs) (respell ecs min w) = w /\ is_bytes (respell ecs min w) /\ length (eparts (respell ecs min w)) = length (eparts w).
Proof.
  intros Hg. destruct (respell_by_facts w (pattern (length (parts ecs w)) min) Hg) as (F1 & F2 & F3). fold (respell ecs min w) in *.
  split; [exact F2|]. split; [exact F3|]. rewrite F1. apply spell_parts_length.
Qed.

Lemma plain_regular p : nodelim ecs p -> Forall eplain p -> Forall (is_regular ecs) p.
Proof.
  intros Hd Hp. induction Hd as [|c p Hc Hd IH]; [constructor|]. constructor; [|apply IH, (Forall_inv_tail Hp)].
  destruct (Forall_inv Hp) as (_ & _ & [H|[H _]]); [apply N.eqb_neq in Hc; contradiction|exact H].
Qed.

Lemma part_0 p : nodelim ecs p -> Forall eplain p -> p <> [] -> part_is ecs (spell_part 0 p) 0.
Proof. intros H1 H2 H3. apply part_small; [exact H3|apply plain_regular; assumption]. Qed.
Lemma part_1 p : nodelim ecs p -> Forall eplain p -> (2 <= length p)%nat -> (forall c r, p = c :: r -> is_capital ecs (upcase ecs c)) ->
  part_is ecs (spell_part 1 p) 1.
Proof.
  intros H1 H2 H3 H4. destruct p as [|c p]; [cbn in H3; lia|]. cbn [spell_part]. apply part_first; [eapply H4; reflexivity| |].
  - destruct p; [cbn in H3; lia|discriminate].
  - apply plain_regular; [exact (Forall_inv_tail H1)|exact (Forall_inv_tail H2)].
Qed.
Lemma part_2 p : nodelim ecs p -> Forall (fun c => is_delim ecs c \/ is_capital ecs (upcase ecs c)) p -> p <> [] -> part_is ecs (spell_part 2 p) 2.
Proof.
  intros H1 H2 H3. cbn [spell_part]. apply part_caps; [destruct p; [congruence|discriminate]|]. clear H3. induction H1 as [|c p Hc Hd IH]; [constructor|].
  cbn [map]. constructor; [|apply IH, (Forall_inv_tail H2)]. destruct (Forall_inv H2) as [H|H]; [apply N.eqb_neq in Hc; contradiction|exact H].
Qed.

Lemma parts_all (P : N -> Prop) w : Forall P w -> Forall (Forall P) (parts ecs w).
Proof.
  pattern w. apply (parts_ind ecs); clear w.
  - intros p Hp H. rewrite parts_nodelim by assumption. repeat constructor. exact H.
  - intros p d w Hp Hd IH H. rewrite parts_app by assumption. apply Forall_app in H as [G1 G2]. constructor; [exact G1|]. apply IH. exact (Forall_inv_tail G2).
Qed.

Lemma erespell_suits w min : Forall eplain w -> min <= 2 -> ecasable min w -> esuits (respell ecs min w) min.
Proof.
  intros Hg Hm (H1 & H2 & H3 & H4).
  destruct (respell_by_facts w (pattern (length (parts ecs w)) min) Hg) as (F1 & _ & _). fold (respell ecs min w) in F1.
  unfold esuits. rewrite F1. pose proof (parts_all_nodelim ecs w) as Hd. pose proof (parts_all _ _ Hg) as Hp. pose proof (parts_nonnil ecs w) as Hn.
  assert (Hm' : min = 0 \/ min = 1 \/ min = 2) by lia.
  assert (H4' : min = 2 -> Forall (Forall (fun c => is_delim ecs c \/ is_capital ecs (upcase ecs c))) (parts ecs w)) by (intros E; apply parts_all, H4, E).
  clear Hg F1 H4. destruct (parts ecs w) as [|p1 [|p2 [|p3 [|p4 ps]]]]; [congruence| | | |cbn in H2; lia]; cbn [length pattern spell_parts hd tl].
  - destruct Hm' as [->|[->| ->]].
    + exists [0]. split; [|cbn; tauto]. apply parts_last, part_0; [exact (Forall_inv Hd)|exact (Forall_inv Hp)|exact (Forall_inv H1)].
    + destruct (H3 eq_refl) as [Hc _]. pose proof (Forall_inv Hc) as Hc1. cbn beta in Hc1. destruct (Nat.lt_ge_cases (length p1) 2) as [Hlt|Hge].
      * exists [2]. split; [|cbn; tauto]. apply parts_last. destruct p1 as [|c [|c' p1]]; [destruct (Forall_inv H1); reflexivity| |cbn in Hlt; lia].
        cbn [spell_part]. apply part_caps; [discriminate|]. constructor; [|constructor]. eapply Hc1. reflexivity.
      * exists [1]. split; [|cbn; tauto]. apply parts_last, part_1; [exact (Forall_inv Hd)|exact (Forall_inv Hp)|exact Hge|exact Hc1].
    + exists [2]. split; [|cbn; tauto]. apply parts_last, part_2; [exact (Forall_inv Hd)|exact (Forall_inv (H4' eq_refl))|exact (Forall_inv H1)].
  - pose proof (Forall_inv (Forall_inv_tail Hd)) as D2. pose proof (Forall_inv (Forall_inv_tail Hp)) as P2. pose proof (Forall_inv (Forall_inv_tail H1)) as N2. cbn beta in N2.
    destruct Hm' as [->|[->| ->]].
    + exists [0; 0]. split; [|cbn; tauto]. apply parts_more; [|apply parts_last]; apply part_0; try assumption; [exact (Forall_inv Hd)|exact (Forall_inv Hp)|exact (Forall_inv H1)].
    + destruct (H3 eq_refl) as [Hc [Hl|Hl]]; [cbn in Hl; lia|]. exists [1; 1]. split; [|cbn; tauto].
      apply parts_more; [|apply parts_last]; apply part_1; try assumption; [exact (Forall_inv Hd)|exact (Forall_inv Hp)|exact (Forall_inv Hl)|exact (Forall_inv Hc)|exact (Forall_inv (Forall_inv_tail Hl))|exact (Forall_inv (Forall_inv_tail Hc))].
    + specialize (H4' eq_refl). exists [2; 2]. split; [|cbn; tauto].
      apply parts_more; [|apply parts_last]; apply part_2; try assumption; [exact (Forall_inv Hd)|exact (Forall_inv H4')|exact (Forall_inv H1)|exact (Forall_inv (Forall_inv_tail H4'))].
  - pose proof (Forall_inv (Forall_inv_tail Hd)) as D2. pose proof (Forall_inv (Forall_inv_tail Hp)) as P2. pose proof (Forall_inv (Forall_inv_tail H1)) as N2. cbn beta in N2.
    pose proof (Forall_inv (Forall_inv_tail (Forall_inv_tail Hd))) as D3. pose proof (Forall_inv (Forall_inv_tail (Forall_inv_tail Hp))) as P3.
    pose proof (Forall_inv (Forall_inv_tail (Forall_inv_tail H1))) as N3. cbn beta in N3.
    destruct Hm' as [->|[->| ->]]; cbn [N.eqb Pos.eqb].
    + exists [0; 0; 0]. split; [|cbn; tauto]. apply parts_more; [|apply parts_more; [|apply parts_last]]; apply part_0; try assumption; [exact (Forall_inv Hd)|exact (Forall_inv Hp)|exact (Forall_inv H1)].
    + destruct (H3 eq_refl) as [Hc [Hl|Hl]]; [cbn in Hl; lia|]. exists [1; 0; 1]. split; [|cbn; tauto].
      apply parts_more; [|apply parts_more; [|apply parts_last]]; [apply part_1|apply part_0|apply part_1]; try assumption;
        [exact (Forall_inv Hd)|exact (Forall_inv Hp)|exact (Forall_inv Hl)|exact (Forall_inv Hc)|exact (Forall_inv (Forall_inv_tail (Forall_inv_tail Hl)))|exact (Forall_inv (Forall_inv_tail (Forall_inv_tail Hc)))].
    + specialize (H4' eq_refl). exists [2; 2; 2]. split; [|cbn; tauto].
      apply parts_more; [|apply parts_more; [|apply parts_last]]; apply part_2; try assumption;
        [exact (Forall_inv Hd)|exact (Forall_inv H4')|exact (Forall_inv H1)|exact (Forall_inv (Forall_inv_tail H4'))|exact (Forall_inv (Forall_inv_tail (Forall_inv_tail H4')))].
Qed.

Lemma tails_part c id t : etakes c id = true -> In t (etails c id) -> exists id', eform_part c t id'.
Proof.
  unfold etakes, etails. destruct (k_ends c) as [l|] eqn:Ek; intros Hid Hin.
  - apply in_map_iff in Hin as ([id' t'] & <- & Hin). apply filter_In in Hin as [Hin _]. exists id'. eapply eform_listed; eassumption.
  - destruct Hin as [<-|[]]. exists 255. apply eform_fixed, Ek.
Qed.

Lemma ebuild_recognised A L : eholds A L -> ebuildable L -> eindexed A L -> erecognisable L ->
  forall junk mem id idform n mem', mem <> [] -> id < 2 ^ 32 -> (length (lexkeylen id ++ junk) = 16)%nat ->
  ebuild_form A junk (Some mem) id idform = Ok (n, Some mem') -> (0 < n)%Z ->
  exists key e st c fs, has_record (ewords L) key e /\ nlexid e = id /\ eclass_of L (oclass e) = Some (st, c) /\
    n = Z.of_nat (length fs) /\ mem' = filled fs mem /\
    forall form, In form fs -> form <> [] -> (length form < 48)%nat -> forall psz cch dwsets junk', given form psz cch ->
      bit 1 dwsets = true /\ (length (parts eng_casing form) <= 8)%nat \/ ecasable (ecase c) (map (locase eng_casing) form) ->
      echeck_word A junk' psz cch dwsets = Ok 1%Z.
Proof.
  intros HL HB HI HR junk mem id idform n mem' Hm Hid Hj Hb Hn.
  destruct (ebuild_form_eq A L HL HB HI junk mem id idform Hm Hid Hj) as [(E & _)|(key & e & st & c & n' & mem2 & Hr & He & Ec & E & Ha)].
  - rewrite E in Hb. injection Hb as <- _. lia.
  - rewrite E in Hb. injection Hb as -> ->. exists key, e, st, c, (erequested c key (stpost e) idform).
    destruct Ha as [(_ & _ & -> & ->)|(_ & -> & _)]; [|lia].
    repeat match goal with |- _ /\ _ => split end; try assumption; try reflexivity.
    intros form Hin Hne Hlen psz cch dwsets junk' Hg Hcase. unfold erequested in Hin. destruct (etakes c idform) eqn:Et; [|destruct Hin].
    apply in_map_iff in Hin as (w & <- & Hw).
    pose proof (err_letters L HR key e st c idform Hr Ec) as Hlet. rewrite Forall_forall in Hlet. specialize (Hlet w Hw).
    destruct (erespell_facts w (ecase c) Hlet) as (F1 & F2 & F3).
    unfold eraw_forms in Hw. apply in_map_iff in Hw as (t & <- & Ht). destruct (tails_part c idform t Et Ht) as (id' & Hf).
    assert (Hp8 : (length (eparts (respell ecs (ecase c) (key ++ t ++ stpost e))) <= 8)%nat).
    { destruct Hcase as [[_ H]|(_ & H & _)]; [exact H|]. rewrite F1 in H. rewrite F3. apply Nat.le_trans with 3%nat; [exact H|lia]. }
    eapply (echeck_word_complete A L HL) with (key := key) (e := e) (part := t) (id := id'); try eassumption.
    + apply (err_bounds L HR).
    + split.
      * split; [exact F1|]. split; [exact Hr|]. exists st, c. split; assumption.
      * intros Hi. exists st, c. split; [exact Ec|]. destruct Hcase as [[H _]|H]; [congruence|]. rewrite F1 in H.
        apply erespell_suits; try assumption. eapply eb_case; eassumption.
    + pose proof (err_postfix L HR key e st c idform Hr Ec) as H. rewrite Forall_forall in H. exact (H t Ht).
Qed.
