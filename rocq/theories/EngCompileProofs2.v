(** * EngCompileProofs2: reading an article.  PROOFS. *)
From Coq Require Import String Ascii.
From Verif Require Import Base Serial WordTree TreeSpec Stems StemSpec CharTables CapScheme CapSpec CapProofs RusRuntime RusSpec EngRuntime EngSpec Api
  EngCompile EngCompileSpec EngCompileProofs.
Local Open Scope N_scope.
Local Open Scope list_scope.

Lemma strstr_skip_char h pat a s : Forall (fun c => c <> h) a ->
  strstr (h :: pat) (a ++ s) = match strstr (h :: pat) s with None => None | Some (x, y) => Some (a ++ x, y) end.
Proof.
  intros Ha. apply strstr_skip. intros a1 c a2 ->. apply Forall_app in Ha as [_ Ha]. apply Forall_inv in Ha.
  destruct (starts (h :: pat) (c :: a2 ++ s)) eqn:E; [|reflexivity]. apply starts_iff in E as (r & E). cbn in E. injection E as -> _. contradiction.
Qed.

Definition plain (s : bytes) : Prop := Forall (fun c => visible c /\ c <> 58) s.
Lemma plain_colon s : plain s -> no_colon s.
Proof. apply Forall_impl. tauto. Qed.
Lemma plain_space s : plain s -> Forall (fun c => is_space c = false) s.
Proof. apply Forall_impl. intros c [H _]. apply visible_space, H. Qed.
Lemma plain_low s : plain s -> Forall (fun c => c < 128) s.
Proof. apply Forall_impl. unfold visible. intros c H. lia. Qed.
Lemma word_plain s : word_text s -> plain s.
Proof. apply Forall_impl. tauto. Qed.
Lemma blank_colon s : Forall blank s -> no_colon s.
Proof. apply Forall_impl. intros c [-> | ->]; discriminate. Qed.
Lemma blank_spaces s : Forall blank s -> Forall (fun c => is_space c = true) s.
Proof. apply Forall_impl, blank_space. Qed.

Lemma put_ending_plain e : ending_text e -> plain (put_ending e) /\ put_ending e <> [].
Proof.
  intros [H _]. destruct e as [|c e]; cbn [put_ending].
  - split; [|discriminate]. repeat constructor; unfold visible; try lia. 
  - split; [|discriminate]. refine (Forall_impl _ _ H). tauto.
Qed.
Lemma put_alts_plain l : Forall ending_text l -> plain (put_alts l).
Proof.
  induction l as [|e l IH]; intros H; [constructor|]. destruct (put_ending_plain e (Forall_inv H)) as [He _]. specialize (IH (Forall_inv_tail H)).
  destruct l as [|e' l]; [exact He|]. cbn [put_alts] in *. apply Forall_app. split; [exact He|]. constructor; [|exact IH]. unfold visible. lia.
Qed.
Lemma put_form_plain l : Forall ending_text l -> plain (put_form l).
Proof. destruct l; [intros _; repeat constructor; unfold visible; lia|]. apply put_alts_plain. Qed.
Lemma put_forms_plain x : article_ok x -> plain (put_forms (a_forms x)).
Proof.
  intros H. destruct (a_forms x) as [forms|] eqn:E; [|constructor]. destruct (ao_forms x H forms E) as [_ Hf]. cbn [put_forms]. clear E H.
  induction Hf as [|l forms [_ Hl] Hf IH]; [constructor|]. cbn [flat_map]. constructor; [unfold visible; lia|]. apply Forall_app. split; [apply put_form_plain, Hl|exact IH].
Qed.

Lemma tag_facts n tag : nth_error part_tags n = Some tag -> plain (text tag) /\ text tag <> [] /\ (length (text tag) < 64)%nat /\ map_part part_names (text tag) = Some (N.of_nat n).
Proof.
  assert (P : forall s, forallb (fun c => (32 <? c) && (c <? 127) && negb (c =? 58)) s = true -> plain s).
  { intros s H. apply Forall_forall. intros c Hc. rewrite forallb_forall in H. specialize (H c Hc). apply andb_true_iff in H as [H H2]. apply andb_true_iff in H as [H0 H1].
    apply N.ltb_lt in H0, H1. apply negb_true_iff, N.eqb_neq in H2. unfold visible. lia. }
  intros H. do 20 (destruct n as [|n]; [injection H as <-; split; [apply P; reflexivity|]; split; [discriminate|]; split; [cbn; lia|reflexivity]|]).
  destruct n; discriminate.
Qed.

Lemma number_facts num : num <> [] -> Forall (fun c => 48 <= c <= 57 \/ 97 <= c <= 102 \/ 65 <= c <= 70 \/ c = 120 \/ c = 88) num ->
  no_colon num /\ Forall (fun c => c <> 76) num /\ Forall (fun c => c <> 112) num /\ exists a c, num = a ++ [c] /\ is_space c = false.
Proof.
  intros H2 H1. split; [eapply Forall_impl; [|exact H1]; cbn; lia|]. split; [eapply Forall_impl; [|exact H1]; cbn; lia|].
  split; [eapply Forall_impl; [|exact H1]; cbn; lia|]. destruct (exists_last H2) as (a & c & ->). exists a, c. split; [reflexivity|].
  apply Forall_app in H1 as [_ H1]. apply Forall_inv in H1. cbn beta in H1. unfold is_space. apply N.leb_gt. lia.
Qed.
Lemma numeral_facts num n : numeral num n -> no_colon num /\ Forall (fun c => c <> 76) num /\ Forall (fun c => c <> 112) num /\
  exists a c, num = a ++ [c] /\ is_space c = false.
Proof.
  intros [(H1 & H2 & _)|[(u & -> & Hu & E)|(x & u & -> & Hx & Hne & Hu & E)]]; apply number_facts; try discriminate; try assumption.
  - eapply Forall_impl; [|exact H1]. cbn. lia.
  - constructor; [lia|]. eapply Forall_impl; [|exact Hu]. cbn. lia.
  - constructor; [lia|]. constructor; [lia|]. eapply Forall_impl; [|exact Hu]. cbn. lia.
Qed.

Lemma forms_start o : put_forms o = [] \/ exists q, put_forms o = 124 :: q.
Proof. destruct o as [[|l forms]|]; cbn [put_forms flat_map app]; [left; reflexivity| |left; reflexivity]. right. eexists. reflexivity. Qed.
Ltac norm_app := rewrite ?lid_eq, ?post_eq; unfold qlid, qpost; repeat (progress (rewrite <- ?app_assoc; cbn [app])); reflexivity.
Lemma pc_cases post pc : put_post post pc -> post = [] /\ pc = [] \/
  exists sp sp', post <> [] /\ Forall blank sp /\ sp <> [] /\ Forall blank sp' /\ pc = sp ++ text "post:" ++ sp' ++ post.
Proof. destruct 1 as [|post sp sp' A B C D]; [left; auto|]. right. exists sp, sp'. auto. Qed.

Section Article.
  Variable x : article.
  Hypothesis Hok : article_ok x.
  Let head := a_stem x ++ a_post x ++ put_forms (a_forms x).
  Lemma head_plain : plain head.
  Proof using Hok.
    unfold head. apply Forall_app. split; [apply word_plain, (ao_stem x Hok)|]. apply Forall_app. split; [apply word_plain, (ao_post x Hok)|apply put_forms_plain, Hok].
  Qed.
  Lemma head_cons : exists c r, head = c :: r.
  Proof using Hok.
    unfold head. destruct (ao_some x Hok) as [H|H].
    - rewrite app_assoc. destruct (a_stem x ++ a_post x) as [|c r]; [contradiction|]. eexists _, _. reflexivity.
    - destruct (a_forms x) as [forms|] eqn:E; [|contradiction]. destruct (ao_forms x Hok forms E) as [Hne _].
      destruct forms as [|l forms]; [contradiction|]. cbn [put_forms flat_map]. destruct (a_stem x) as [|c r]; [destruct (a_post x) as [|c r]|]; eexists _, _; reflexivity.
  Qed.

  Variables sp1 pc sp3 num : bytes.
  Variable tag : string.
  Hypothesis H1 : Forall blank sp1.
  Hypothesis H1' : sp1 <> [].
  Hypothesis Htag : nth_error part_tags (N.to_nat (a_part x)) = Some tag.
  Hypothesis Hpc : put_post (a_post x) pc.
  Hypothesis H3 : Forall blank sp3.
  Hypothesis H3' : sp3 <> [].
  Hypothesis Hnum : numeral num (a_id x).
  Let body := a_stem x ++ a_post x ++ put_forms (a_forms x) ++ sp1 ++ text tag ++ pc ++ sp3 ++ text "LID:" ++ num.
  Lemma body_head : body = head ++ sp1 ++ text tag ++ pc ++ sp3 ++ text "LID:" ++ num.
  Proof using Type. unfold body, head. rewrite <- !app_assoc. reflexivity. Qed.

  Lemma front_plain : no_colon (head ++ sp1 ++ text tag).
  Proof using Hok H1 Htag.
    apply Forall_app. split; [apply plain_colon, head_plain|]. apply Forall_app. split; [apply blank_colon, H1|]. apply plain_colon, (tag_facts _ _ Htag).
  Qed.

  Lemma find_lid : strstr (text "LID:") body = Some (head ++ sp1 ++ text tag ++ pc ++ sp3, text "LID:" ++ num).
  Proof using Hok H1 Htag Hpc H3.
    rewrite body_head. pose proof front_plain as Hf. destruct (pc_cases _ _ Hpc) as [[E1 E2]|(sp & sp' & Hne & Hsp & Hsp0 & Hsp' & E2)]; rewrite E2.
    - replace (head ++ sp1 ++ text tag ++ [] ++ sp3 ++ text "LID:" ++ num) with ((head ++ sp1 ++ text tag ++ sp3) ++ qlid ++ 58 :: num) by (rewrite lid_eq, <- !app_assoc; reflexivity).
      rewrite lid_eq. rewrite strstr_plain.
      + replace (qlid ++ 58 :: num) with ((qlid ++ [58]) ++ num) by (rewrite <- app_assoc; reflexivity). rewrite strstr_here, app_nil_r. cbn [app]. reflexivity.
      + apply qlid_plain.
      + rewrite app_assoc, app_assoc, <- (app_assoc head). apply Forall_app. split; [exact Hf|apply blank_colon, H3].
      + apply qlid_plain.
      + intros a1 a2 _ Hn. apply longer; [exact Hn|reflexivity].
    - assert (Hpost : no_colon (a_post x)) by (apply plain_colon, word_plain, (ao_post x Hok)).
      replace (head ++ sp1 ++ text tag ++ (sp ++ text "post:" ++ sp' ++ a_post x) ++ sp3 ++ text "LID:" ++ num)
        with (((head ++ sp1 ++ text tag) ++ sp) ++ qpost ++ 58 :: (sp' ++ a_post x ++ sp3) ++ qlid ++ 58 :: num) by norm_app.
      rewrite lid_eq. rewrite strstr_plain; [| | | |].
      + replace (qpost ++ 58 :: (sp' ++ a_post x ++ sp3) ++ qlid ++ 58 :: num) with ((qpost ++ [58]) ++ (sp' ++ a_post x ++ sp3) ++ qlid ++ 58 :: num) by (rewrite <- app_assoc; reflexivity).
        change (qlid ++ [58]) with (76 :: [73; 68; 58]). rewrite (strstr_skip_char 76 _ (qpost ++ [58])) by (repeat constructor; discriminate).
        change (76 :: [73; 68; 58]) with (qlid ++ [58]). rewrite strstr_plain; [| | | |].
        * replace (qlid ++ 58 :: num) with ((qlid ++ [58]) ++ num) by (rewrite <- app_assoc; reflexivity). rewrite strstr_here, app_nil_r. cbv iota beta.
          do 2 f_equal. rewrite post_eq, <- !app_assoc. reflexivity.
        * apply qlid_plain.
        * apply Forall_app. split; [apply blank_colon, Hsp'|]. apply Forall_app. split; [exact Hpost|apply blank_colon, H3].
        * apply qlid_plain.
        * intros a1 a2 _ Hn. apply longer; [exact Hn|reflexivity].
      + apply qlid_plain.
      + apply Forall_app. split; [exact Hf|apply blank_colon, Hsp].
      + apply qpost_plain.
      + intros a1 a2 _ Hn. apply longer; [exact Hn|cbn; lia].
  Qed.

  Lemma find_post_eq : find_post body = a_post x.
  Proof using Hok H1 Htag Hpc H3 H3' Hnum.
    unfold find_post. rewrite body_head. pose proof front_plain as Hf. destruct (numeral_facts _ _ Hnum) as (Hc & _ & Hp & _).
    destruct (pc_cases _ _ Hpc) as [[E1 E2]|(sp & sp' & Hne & Hsp & Hsp0 & Hsp' & E2)]; rewrite E2.
    - replace (head ++ sp1 ++ text tag ++ [] ++ sp3 ++ text "LID:" ++ num) with ((head ++ sp1 ++ text tag ++ sp3) ++ qlid ++ 58 :: num) by (rewrite lid_eq, <- !app_assoc; reflexivity).
      rewrite post_eq. rewrite strstr_plain; [| | | |].
      + replace (qlid ++ 58 :: num) with ((qlid ++ [58] ++ num) ++ []) by (rewrite app_nil_r; reflexivity).
        change (qpost ++ [58]) with (112 :: [111; 115; 116; 58]). rewrite (strstr_skip_char 112 _ (qlid ++ [58] ++ num)); [cbn; rewrite E1; reflexivity|].
        repeat (constructor; [discriminate|]). exact Hp.
      + apply qpost_plain.
      + rewrite app_assoc, app_assoc, <- (app_assoc head). apply Forall_app. split; [exact Hf|apply blank_colon, H3].
      + apply qlid_plain.
      + intros a1 a2 _ Hn E. destruct a2 as [|c1 [|c2 a2]]; [contradiction|discriminate|]. apply (f_equal (@List.length N)) in E. cbn [app length] in E. rewrite app_length in E. cbn in E. lia.
    - replace (head ++ sp1 ++ text tag ++ (sp ++ text "post:" ++ sp' ++ a_post x) ++ sp3 ++ text "LID:" ++ num)
        with (((head ++ sp1 ++ text tag) ++ sp) ++ qpost ++ 58 :: sp' ++ a_post x ++ sp3 ++ text "LID:" ++ num) by norm_app.
      rewrite post_eq. rewrite strstr_plain; [| | | |].
      + set (r := sp' ++ a_post x ++ sp3 ++ text "LID:" ++ num). replace (qpost ++ 58 :: r) with ((qpost ++ [58]) ++ r) by (rewrite <- app_assoc; reflexivity).
        rewrite strstr_here. cbv iota beta. change (skipn 5 ((qpost ++ [58]) ++ r)) with r. unfold r.
        pose proof (word_plain _ (ao_post x Hok)) as Hw. destruct (a_post x) as [|c post]; [contradiction|]. destruct sp3 as [|b sp3r]; [contradiction|]. cbn [app].
        rewrite skip_space_app; [|apply blank_spaces, Hsp'|apply visible_space, (Forall_inv Hw)].
        change (c :: post ++ b :: sp3r ++ text "LID:" ++ num) with ((c :: post) ++ b :: sp3r ++ text "LID:" ++ num).
        rewrite take_until_app; [reflexivity|apply plain_space, Hw|apply blank_space, (Forall_inv H3)].
      + apply qpost_plain.
      + apply Forall_app. split; [exact Hf|apply blank_colon, Hsp].
      + apply qpost_plain.
      + intros a1 a2 _ Hn. apply longer; [exact Hn|cbn; lia].
  Qed.

  Lemma not_comment : starts (text "//") body = false.
  Proof using Hok H1 H1'.
    destruct (starts (text "//") body) eqn:E; [|reflexivity]. exfalso. apply starts_iff in E as (r & E). change (text "//" ++ r) with (47 :: 47 :: r) in E.
    assert (Eb : body = (a_stem x ++ a_post x) ++ put_forms (a_forms x) ++ sp1 ++ text tag ++ pc ++ sp3 ++ text "LID:" ++ num) by (unfold body; rewrite <- app_assoc; reflexivity).
    rewrite Eb in E. clear Eb. pose proof (ao_comment x Hok) as Hc. destruct sp1 as [|b sp1r]; [contradiction|].
    assert (Hb : b <> 47) by (destruct (Forall_inv H1) as [-> | ->]; discriminate).
    assert (Hp : put_forms (a_forms x) = [] \/ exists q, put_forms (a_forms x) = 124 :: q).
    { apply forms_start. }
    destruct (a_stem x ++ a_post x) as [|c1 [|c2 s]]; cbn [app firstn] in *.
    - destruct Hp as [Hp|(q & Hp)]; rewrite Hp in E; cbn [app] in E; [injection E as -> _; contradiction|discriminate].
    - injection E as -> E. destruct Hp as [Hp|(q & Hp)]; rewrite Hp in E; cbn [app] in E; [injection E as -> _; contradiction|discriminate].
    - injection E as -> -> _. apply Hc. reflexivity.
  Qed.

  Lemma dict_line_eq sp0 sp4 : Forall blank sp0 -> Forall line_end sp4 -> dict_line (sp0 ++ body ++ sp4) = Some (body, a_id x).
  Proof using Hok H1 H1' Htag Hpc H3 H3' Hnum.
    intros H0 H4. unfold dict_line. destruct head_cons as (c & r & Eh).
    assert (Hc : is_space c = false) by (pose proof head_plain as Hp; rewrite Eh in Hp; apply visible_space, (Forall_inv Hp)).
    destruct (numeral_facts _ _ Hnum) as (_ & _ & _ & a & d & Ed & Hd).
    assert (Eb : exists r', body = c :: r') by (rewrite body_head, Eh; eexists; reflexivity). destruct Eb as (r' & Eb).
    assert (Et : exists r', body = r' ++ [d]).
    { exists (head ++ sp1 ++ text tag ++ pc ++ sp3 ++ text "LID:" ++ a). rewrite body_head, Ed, <- !app_assoc. reflexivity. } destruct Et as (r'' & Et).
    assert (E1 : skip_space (sp0 ++ body ++ sp4) = body ++ sp4).
    { rewrite Eb. cbn [app]. apply skip_space_app; [apply blank_spaces, H0|exact Hc]. }
    assert (E2 : trim_end (body ++ sp4) = body).
    { rewrite Et at 1. rewrite <- app_assoc. cbn [app]. rewrite trim_end_app; [symmetry; exact Et|exact Hd|]. eapply Forall_impl; [|exact H4]. apply end_space. }
    rewrite E1, E2. cbv zeta. replace (nonempty body) with true by (rewrite Eb; reflexivity). rewrite not_comment. cbn [negb orb]. rewrite find_lid.
    destruct (exists_last H3') as (s & b & Es). rewrite Es, !app_assoc, rev_app_distr. cbn [rev app].
    assert (Hb : (b =? 9) || (b =? 32) = true).
    { assert (Hb : blank b) by (pose proof H3 as K; rewrite Es in K; apply Forall_app in K as [_ K]; apply (Forall_inv K)). destruct Hb as [-> | ->]; reflexivity. }
    rewrite Hb. change (skipn 4 (text "LID:" ++ num)) with num. rewrite (strtoul_numeral num (a_id x) Hnum) by (apply (ao_id x Hok)).
    destruct (N.eqb_spec (a_id x) 0) as [E|_]; [destruct (ao_id x Hok); lia|reflexivity].
  Qed.

  Lemma post_short : (length body < 256)%nat -> (length (a_post x) < 128)%nat.
  Proof using Hpc.
    intros H. destruct (pc_cases _ _ Hpc) as [[E1 E2]|(sp & sp' & Hne & Hsp & Hsp0 & Hsp' & E2)]; [rewrite E1; cbn; lia|].
    unfold body in H. rewrite E2 in H. rewrite !app_length in H. lia.
  Qed.

  (** what [resolve_eng] takes from the article *)
  Lemma resolve_eq b : (length body < 256)%nat ->
    resolve_eng b body =
    let flex := map (tab eng_toLoCaseMatrix) (put_forms (a_forms x)) in
    let '(fb, ref) := match flex with [] => (eb_flex b, TableRef 0 0 0) | _ => add_inflex (eb_flex b) flex end in
    let wd := N.lor (a_part x) (cap_bits (cap_type (a_stem x))) in
    let '(cls, off) := eclass_add (eb_classes b) wd (t_offset ref) in
    Ok (Some (EBuilder fb cls (eb_tree b), map (tab eng_toLoCaseMatrix) (a_stem x), Entry (t_lower ref) (t_upper ref) 0 off (a_post x))).
  Proof using Hok H1 H1' Htag Hpc H3 H3' Hnum.
    intros Hlen. unfold resolve_eng. rewrite find_post_eq. destruct (N.leb_spec 256 (N.of_nat (length body))); [lia|].
    destruct head_cons as (c & r & Eh).
    assert (Hc : is_space c = false) by (pose proof head_plain as Hp; rewrite Eh in Hp; apply visible_space, (Forall_inv Hp)).
    assert (E1 : skip_space body = body).
    { rewrite body_head, Eh. cbn [app skip_space]. rewrite Hc. reflexivity. }
    rewrite E1. destruct (tag_facts _ _ Htag) as (T1 & T2 & T3 & T4). rewrite Nnat.N2Nat.id in T4. destruct sp1 as [|s1 sp1r] eqn:Es1; [contradiction|].
    pose proof (blank_space _ (Forall_inv H1)) as Hs1.
    assert (Eb : body = (a_stem x ++ a_post x) ++ put_forms (a_forms x) ++ s1 :: sp1r ++ text tag ++ pc ++ sp3 ++ text "LID:" ++ num) by (unfold body; rewrite <- app_assoc; reflexivity).
    assert (Hstop : take_until (fun c => (c =? 124) || is_space c) body = (a_stem x ++ a_post x, put_forms (a_forms x) ++ s1 :: sp1r ++ text tag ++ pc ++ sp3 ++ text "LID:" ++ num)).
    { assert (Hw : Forall (fun c => (c =? 124) || is_space c = false) (a_stem x ++ a_post x)).
      { apply Forall_app. split; [pose proof (ao_stem x Hok) as K|pose proof (ao_post x Hok) as K]; (eapply Forall_impl; [|exact K]); intros d (D1 & D2 & D3);
          rewrite (visible_space d D1); destruct (N.eqb_spec d 124); [contradiction|reflexivity|contradiction|reflexivity]. }
      rewrite Eb. assert (Hp : put_forms (a_forms x) = [] \/ exists q, put_forms (a_forms x) = 124 :: q).
      { apply forms_start. }
      destruct Hp as [-> |(q & ->)]; cbn [app]; apply take_until_app; try exact Hw; [rewrite Hs1; apply orb_true_r|reflexivity]. }
    rewrite Hstop. set (rest1 := put_forms (a_forms x) ++ s1 :: sp1r ++ text tag ++ pc ++ sp3 ++ text "LID:" ++ num).
    assert (Hr1 : exists d q, rest1 = d :: q) by (unfold rest1; destruct (put_forms (a_forms x)); eexists _, _; reflexivity). destruct Hr1 as (d1 & q1 & Hr1).
    rewrite Hr1. cbv iota beta. rewrite <- Hr1. clear d1 q1 Hr1. rewrite app_length.
    destruct (Nat.ltb_spec (length (a_stem x) + length (a_post x)) (length (a_post x))); [lia|].
    replace (length (a_stem x) + length (a_post x) - length (a_post x))%nat with (length (a_stem x)) by lia.
    rewrite firstn_app, Nat.sub_diag, firstn_all, firstn_O, app_nil_r. cbv zeta.
    unfold rest1. rewrite take_until_app; [|apply plain_space, put_forms_plain, Hok|exact Hs1]. cbv iota beta.
    assert (Et : exists t0 tr, text tag = t0 :: tr) by (destruct (text tag); [contradiction|eauto]). destruct Et as (t0 & tr & Et).
    assert (Hrest : exists y0 yr, pc ++ sp3 ++ text "LID:" ++ num = y0 :: yr /\ is_space y0 = true).
    { destruct (pc_cases _ _ Hpc) as [[_ E2]|(sp & sp' & Hne & Hsp & Hsp0 & Hsp' & E2)]; rewrite E2; [destruct sp3 as [|y yr]|destruct sp as [|y yr]]; try contradiction;
        (eexists _, _; split; [reflexivity|]; apply blank_space; [exact (Forall_inv H3)||exact (Forall_inv Hsp)]). }
    destruct Hrest as (y0 & yr & Er & Hy). rewrite Er.
    assert (Ep : take_until is_space (skip_space (s1 :: sp1r ++ text tag ++ y0 :: yr)) = (text tag, y0 :: yr)).
    { change (s1 :: sp1r ++ text tag ++ y0 :: yr) with ((s1 :: sp1r) ++ text tag ++ y0 :: yr). rewrite Et at 1. cbn [app].
      change (s1 :: sp1r ++ t0 :: tr ++ y0 :: yr) with ((s1 :: sp1r) ++ t0 :: tr ++ y0 :: yr).
      rewrite skip_space_app; [|apply blank_spaces, H1|pose proof T1 as K; rewrite Et in K; apply visible_space, (Forall_inv K)].
      change (t0 :: tr ++ y0 :: yr) with ((t0 :: tr) ++ y0 :: yr). rewrite <- Et. apply take_until_app; [apply plain_space, T1|exact Hy]. }
    rewrite Ep. cbv iota beta. rewrite Et at 1. cbv iota beta. destruct (N.leb_spec 64 (N.of_nat (length (text tag)))); [lia|]. rewrite T4. reflexivity.
  Qed.
End Article.
