(** * DumpProofs4: makeeng and compile-dict. *)
From Coq Require Import String Ascii.
From Verif Require Import Base Serial WordTree Stems GramMap RusRuntime Compile Api EngRuntime EngCompile RusText Fuzzy Dump DumpSpec DumpSpec2 DumpProofs DumpProofs2 DumpProofs3 EngCompileProofs RusTextProofs4.
Local Open Scope N_scope.
Local Open Scope list_scope.
Notation length := List.length.

(** ** makeeng *)

Definition comment_of (line : bytes) : list bytes := let s := trim_end (skip_space line) in if starts (text "//") s then [s] else [].
Lemma comment_line_added b line : comment_of line <> [] -> eadd_line b line = Ok (Some b).
Proof.
  unfold comment_of, eadd_line, dict_line. cbv zeta. destruct (starts (text "//") (trim_end (skip_space line))); [|congruence].
  rewrite orb_true_r. reflexivity.
Qed.
Lemma eng_lines can unk lines : unk = [] \/ can unk = true -> forall b u,
  match eadd_lines b lines with
  | Ok (Some b') => step_lines eng_step can unk b u lines = Ok (b', u ++ flat_map comment_of lines, true)
  | Ok None => exists b' u', step_lines eng_step can unk b u lines = Ok (b', u', false)
  | Ub => step_lines eng_step can unk b u lines = Ub
  end.
Proof.
  intros Hc. assert (Hc' : forall x : list bytes, nonempty x && nonempty unk && negb (can unk) = false).
  { intros x. destruct Hc as [-> | ->]; destruct (nonempty x); cbn [nonempty andb negb]; try reflexivity. destruct unk; reflexivity. }
  induction lines as [|l lines IH]; intros b u; cbn [eadd_lines step_lines flat_map]; [rewrite app_nil_r; reflexivity|].
  pose proof (comment_line_added b l) as HC. unfold comment_of in HC. unfold comment_of at 1. cbv zeta in *.
  assert (ES : eng_step b l = if starts (text "//") (trim_end (skip_space l)) then Ok (Some b, [trim_end (skip_space l)]) else let! o := eadd_line b l in Ok (o, [])) by reflexivity.
  rewrite ES. clear ES. destruct (starts (text "//") (trim_end (skip_space l))).
  - rewrite HC by discriminate. cbn [bind]. rewrite Hc'. specialize (IH b (u ++ [trim_end (skip_space l)])). rewrite <- app_assoc in IH. exact IH.
  - destruct (eadd_line b l) as [[b1|]|]; cbn [bind]; try rewrite Hc'; [|eauto|reflexivity]. rewrite app_nil_r. apply IH.
Qed.
Lemma comments_flat lines us : comments lines us <-> us = flat_map comment_of lines.
Proof.
  assert (C1 : forall sp0 rest sp5, Forall (fun c => c <= 32) sp0 -> Forall (fun c => c <= 32) sp5 -> 32 < last (text "//" ++ rest) 0 ->
    comment_of (sp0 ++ (text "//" ++ rest) ++ sp5) = [text "//" ++ rest]).
  { intros sp0 rest sp5 H0 H5 Hl. destruct (comment_body (sp0 ++ (text "//" ++ rest) ++ sp5) (text "//" ++ rest)) as [E1 E2].
    - exists sp0, sp5, rest. repeat split; try assumption.
    - unfold comment_of. cbv zeta. rewrite E1, E2. reflexivity. }
  assert (C2 : forall line, (exists sp0 rest sp5, line = sp0 ++ (text "//" ++ rest) ++ sp5 /\ Forall (fun c => c <= 32) sp0 /\ Forall (fun c => c <= 32) sp5 /\ 32 < last (text "//" ++ rest) 0) \/
    comment_of line = [] /\ (forall sp0 rest, Forall (fun c => c <= 32) sp0 -> line <> sp0 ++ text "//" ++ rest)).
  { intros line. destruct (starts (text "//") (trim_end (skip_space line))) eqn:E.
    - left. apply starts_iff in E. destruct E as (rest & E). destruct (skip_space_parts line) as (a & Ea & Ha). destruct (trim_end_parts (skip_space line)) as (b & Eb & Hb & Hl).
      exists a, rest, b. rewrite <- E. split; [rewrite <- Eb; exact Ea|]. split; [exact Ha|]. split; [exact Hb|]. destruct Hl as [Hl|Hl]; [rewrite E in Hl; discriminate|exact Hl].
    - right. unfold comment_of. cbv zeta. rewrite E. split; [reflexivity|]. intros sp0 rest H0 ->.
      assert (Hs0 : Forall (fun c => is_space c = true) sp0) by (refine (Forall_impl _ _ H0); apply low_space).
      change (text "//" ++ rest) with (47 :: 47 :: rest) in E. rewrite (skip_space_app sp0 47 (47 :: rest) Hs0 eq_refl) in E.
      assert (starts (text "//") (trim_end (47 :: 47 :: rest)) = true); [|congruence]. apply starts_iff.
      cbn [trim_end]. destruct (trim_end rest) as [|x y]; [exists []|exists (x :: y)]; reflexivity. }
  revert us. induction lines as [|l lines IH]; intros us; cbn [flat_map].
  - split; [intros H; inversion H; reflexivity|intros ->; constructor].
  - split.
    + intros H. inversion H as [|sp0 rest sp5 lines' us' H0 H5 Hl Hr|line lines' us' Hno Hr]; subst.
      * change ((text "//" ++ rest) :: us' = comment_of (sp0 ++ (text "//" ++ rest) ++ sp5) ++ flat_map comment_of lines).
        rewrite (C1 sp0 rest sp5 H0 H5 Hl). cbn [app]. f_equal. apply IH. assumption.
      * destruct (C2 l) as [(sp0 & rest & sp5 & -> & H0 & _)|(-> & _)]; [|apply IH; assumption].
        exfalso. apply (Hno sp0 (rest ++ sp5) H0). rewrite <- app_assoc. reflexivity.
    + intros ->. destruct (C2 l) as [(sp0 & rest & sp5 & -> & H0 & H5 & Hl)|(-> & Hno)].
      * rewrite C1 by assumption. cbn [app]. apply cm_comment; try assumption. apply IH. reflexivity.
      * cbn [app]. apply cm_other; [assumption|apply IH; reflexivity].
Qed.

Lemma eng_parsed args folder unk ns dicts : eng_options args folder unk ns dicts ->
  exists vals, parse_args eng_switches (repeat [] 3) [] args = Some (vals, dicts) /\
    or_default (nth 0 vals []) (text "./") = folder /\ nth 1 vals [] = unk /\ or_default (nth 2 vals []) (text "__libmorpheng__") = ns.
Proof.
  intros (Ho & (v4 & H4 & ->) & H5 & (v6 & H6 & ->) & Hp). destruct eng_keys as [K1 K2].
  pose proof (parse_spec eng_switches args K1 K2) as S. change (map (fun _ : bytes => @nil N) eng_switches) with (repeat (@nil N) 3) in S.
  destruct (parse_args eng_switches (repeat [] 3) [] args) as [[vals ds]|]; [|contradiction]. destruct S as (_ & -> & ->).
  apply plain_filter in Hp. subst dicts. eexists. split; [reflexivity|].
  assert (V : forall key v, In key eng_switches -> value_of key args v -> value_after key args = v).
  { intros key v Hk Hv. apply value_of_iff; [|assumption]. rewrite Forall_forall in K2. auto. }
  cbn [eng_switches map nth].
  rewrite (V (text "target-dir") _ ltac:(vm_compute; tauto) H4), (V (text "unknown") _ ltac:(vm_compute; tauto) H5), (V (text "namespace") _ ltac:(vm_compute; tauto) H6), !or_default_eq. repeat split.
Qed.

Section Makeeng.
  Variable conv : N -> N.
  Variable cut : bytes -> list bytes.
  Variable can : bytes -> bool.
  Variable fs : bytes -> option bytes.
  Variable about_length : N.

  Lemma makeeng_run args folder unk ns dicts files A us :
    (forall b, concat (cut b) = b) -> eng_options args folder unk ns dicts -> dicts <> [] ->
    Forall2 (fun d f => fs d = Some f) dicts files ->
    ecompile (flat_map (file_lines conv) files) = Ok (Some A) -> comments (flat_map (file_lines conv) files) us ->
    unk = [] \/ can unk = true ->
    (forall a path, In a (eng_arrays A) -> in_folder folder (fst a ++ text ".cpp") path -> can path = true) ->
    is_name ns = true -> Forall (fun a => array_contents (snd a)) (eng_arrays A) ->
    exists ul ws, makeeng conv cut can fs about_length args = Ok (Run (Exit 0) (ul ++ ws)) /\
      lists_lines unk us ul /\ defines_arrays folder ns (eng_arrays A) ws.
  Proof.
    intros Hcut Ho Hd HF HC Hus Hu Hcan Hns HA. destruct (eng_parsed _ _ _ _ _ Ho) as (vals & EP & E4 & E5 & E6).
    unfold makeeng. destruct args as [|a0 args0].
    { exfalso. destruct Ho as (_ & _ & _ & _ & Hp). inversion Hp. subst. congruence. }
    rewrite EP. cbv zeta. rewrite E4, E5, E6.
    rewrite (proj2 (nonempty_iff dicts) Hd). cbn [andb negb].
    assert (HF' : Forall2 (fun n l => option_map (file_lines conv) (fs n) = Some l) dicts (map (file_lines conv) files)).
    { clear - HF. induction HF as [|d f ds fl H]; cbn [map]; constructor; [rewrite H; reflexivity|assumption]. }
    rewrite (step_files_lines _ _ _ (fun n => option_map (file_lines conv) (fs n)) _ _ _ _ HF').
    apply comments_flat in Hus. subst us. unfold ecompile in HC. rewrite flat_map_concat_map in *.
    pose proof (eng_lines can unk (concat (map (file_lines conv) files)) Hu new_ebuilder []) as RL.
    destruct (eadd_lines new_ebuilder (concat (map (file_lines conv) files))) as [[b|]|]; cbn [bind option_map] in HC; try discriminate.
    injection HC as <-. rewrite RL. cbn [bind app].
    set (A := esave b) in *. rewrite !flat_map_concat_map in *. set (u := concat (map comment_of (concat (map (file_lines conv) files)))) in *.
    destruct (dump_all_reads can ns eng_license folder (eng_dumps cut A)) as (ws & EW & FW).
    - right. exact eng_license_comment.
    - right. assumption.
    - unfold eng_dumps. repeat (apply Forall_cons || apply Forall_nil); unfold dumpable; cbn [fst snd]; (split; [discriminate|split; [reflexivity|]]);
        rewrite ?Hcut; unfold eng_arrays in HA;
        repeat match goal with H : Forall _ (_ :: _) |- _ => apply Forall_cons_iff in H; destruct H end; cbn [snd] in *; assumption.
    - intros f Hf. assert (E : exists a, In a (eng_arrays A) /\ fst (fst f) = fst a ++ text ".cpp").
      { unfold eng_dumps in Hf. cbn [In] in Hf.
        destruct Hf as [<-|[<-|[<-|[<-|[]]]]]; cbn [fst]; eexists; (split; [|]); unfold eng_arrays;
          [left; reflexivity|reflexivity|right; left; reflexivity|reflexivity|right; right; left; reflexivity|reflexivity|do 3 right; left; reflexivity|reflexivity]. }
      destruct E as (a & Ha & E). rewrite E. apply (Hcan a); [assumption|apply in_folder_path].
    - rewrite EW. cbn [bind]. exists (unknown_file unk u), ws. split; [reflexivity|]. split; [apply lists_unknown|].
      unfold defines_arrays. replace (eng_arrays A) with (map (fun f : bytes * bytes * list bytes => (snd (fst f), concat (snd f))) (eng_dumps cut A)).
      + assert (FN : Forall (fun f : bytes * bytes * list bytes => fst (fst f) = snd (fst f) ++ text ".cpp") (eng_dumps cut A)) by (unfold eng_dumps; repeat constructor).
        clear - FW FN Hns. induction FW as [|f w fl ws (D1 & D2) FW IH]; cbn [map]; [constructor|]. inversion FN as [|? ? F1 F2]; subst. constructor; [|apply IH; assumption].
        cbn [fst snd]. split; [rewrite D1, F1; apply in_folder_path|]. rewrite D2. unfold spaced_name. destruct ns; [discriminate|reflexivity].
      + unfold eng_dumps, eng_arrays. cbn [map fst snd concat]. rewrite !Hcut. reflexivity.
  Qed.
  (** Everything that is refused ends the program. *)
  Lemma makeeng_refuses args : args <> [] -> ~ in_order eng_keys_known args \/ plain args [] ->
    makeeng conv cut can fs about_length args = Ok (Run Terminated []).
  Proof.
    intros Hne Hbad. unfold makeeng. destruct args as [|a0 args0]; [congruence|].
    destruct eng_keys as [K1 K2]. pose proof (parse_spec eng_switches (a0 :: args0) K1 K2) as S. change (map (fun _ : bytes => @nil N) eng_switches) with (repeat (@nil N) 3) in S.
    destruct (parse_args eng_switches (repeat [] 3) [] (a0 :: args0)) as [[vals ds]|]; [|reflexivity].
    destruct S as (Ho & -> & ->). destruct Hbad as [Hbad|Hbad]; [contradiction|]. apply plain_filter in Hbad. rewrite <- Hbad. reflexivity.
  Qed.
  Lemma makeeng_fails args : (forall p, can p = true) -> forall r, makeeng conv cut can fs about_length args = Ok r -> args <> [] -> r_ending r <> Exit 0 ->
    r_ending r = Terminated /\ forall p t, In (p, t) (r_written r) -> value_of (text "unknown") args p.
  Proof.
    intros Hcan r. unfold makeeng. destruct args as [|a0 args0]; [congruence|].
    destruct eng_keys as [K1 K2]. pose proof (parse_spec eng_switches (a0 :: args0) K1 K2) as S. change (map (fun _ : bytes => @nil N) eng_switches) with (repeat (@nil N) 3) in S.
    destruct (parse_args eng_switches (repeat [] 3) [] (a0 :: args0)) as [[vals ds]|]; [|intros H _ Hr; injection H as <-; split; [reflexivity|intros p t []]].
    destruct S as (_ & -> & ->). cbv zeta.
    match goal with |- context [nth 1 ?v []] => change (nth 1 v []) with (value_after (text "unknown") (a0 :: args0)) end.
    match goal with |- context [if ?c then _ else _] => destruct c; [intros H _ Hr; injection H as <-; split; [reflexivity|intros p t []]|] end.
    match goal with |- context [step_files ?a ?b ?c ?d ?e ?f ?g] => destruct (step_files a b c d e f g) as [[[b1 u] good]|]; [|discriminate] end. cbn [bind].
    destruct good.
    - match goal with |- context [dump_all ?a ?b ?c ?d ?e] => destruct (dump_all_total a b c d e) as (ws & good & E & G) end.
      + unfold eng_dumps. repeat constructor; discriminate.
      + rewrite E. cbn [bind]. intros H _ Hr. injection H as <-. exfalso. apply Hr. cbn [r_ending]. rewrite (proj2 G); [reflexivity|]. intros f Hf. apply Hcan.
    - intros H _ Hr. injection H as <-. split; [reflexivity|]. cbn [r_written]. intros p t Hp. unfold unknown_file in Hp.
      destruct (nonempty (value_after (text "unknown") (a0 :: args0)) && nonempty u); [|destruct Hp]. destruct Hp as [Hp|[]]. injection Hp as <- _.
      apply value_of_iff; [|reflexivity]. rewrite Forall_forall in K2. apply K2. vm_compute. tauto.
  Qed.
End Makeeng.
