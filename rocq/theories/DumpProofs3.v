(** * DumpProofs3: makerus and makeeng. *)
From Coq Require Import String Ascii.
From Verif Require Import Base Serial WordTree Stems GramMap RusRuntime Compile Api EngRuntime EngCompile RusText Dump DumpSpec DumpSpec2 DumpProofs DumpProofs2.
Local Open Scope N_scope.
Local Open Scope list_scope.
Notation length := List.length.

Section Reader.
  Context {B : Type}.
  Variable step : B -> bytes -> res (option B * list bytes).
  Variable can : bytes -> bool.
  Variable unk : bytes.
  Lemma step_lines_app l1 : forall b u l2, step_lines step can unk b u (l1 ++ l2) =
    let! (b, u, good) := step_lines step can unk b u l1 in if good then step_lines step can unk b u l2 else Ok (b, u, false).
  Proof.
    induction l1 as [|l l1 IH]; intros b u l2; cbn [app step_lines bind]; [reflexivity|].
    destruct (step b l) as [[o x]|]; [|reflexivity]. cbn [bind]. destruct (nonempty x && nonempty unk && negb (can unk)); [reflexivity|].
    destruct o as [b'|]; [apply IH|reflexivity].
  Qed.
  Lemma step_lines_bool l : forall b u b' u' good, step_lines step can unk b u l = Ok (b', u', good) -> good = false ->
    step_lines step can unk b u l = Ok (b', u', false).
  Proof using. intros. subst. assumption. Qed.
  Lemma step_files_lines fs names : forall lineses b u, Forall2 (fun n l => fs n = Some l) names lineses ->
    step_files step can unk fs b u names = step_lines step can unk b u (concat lineses).
  Proof.
    induction names as [|n names IH]; intros lineses b u H; inversion H as [|? l ? ls H1 H2]; subst; cbn [step_files concat]; [reflexivity|].
    rewrite H1, step_lines_app. destruct (step_lines step can unk b u l) as [[[b' u'] good]|]; [|reflexivity]. cbn [bind]. destruct good; [apply IH; assumption|reflexivity].
  Qed.
  Lemma step_files_missing fs names : (exists n, In n names /\ fs n = None) -> forall b u b' u' good, step_files step can unk fs b u names = Ok (b', u', good) -> good = false.
  Proof.
    induction names as [|n names IH]; intros (m & Hm & E) b u b' u' good; [destruct Hm|]. cbn [step_files].
    destruct (fs n) as [l|] eqn:En; [|intros H; injection H as _ _ <-; reflexivity].
    destruct Hm as [<-|Hm]; [congruence|].
    destruct (step_lines step can unk b u l) as [[[b1 u1] g]|]; [|discriminate]. cbn [bind]. destruct g.
    - apply IH. eauto.
    - intros H. injection H as _ _ <-. reflexivity.
  Qed.
End Reader.

(** ** Reading the Russian dictionary *)

Lemma rus_lines depth T can unk lines : unk = [] \/ can unk = true -> forall b u,
  match read_lines depth T b u lines with
  | Ok (Some (b', u')) => step_lines (rus_step depth T) can unk b u lines = Ok (b', u', true)
  | Ok None => exists b' u', step_lines (rus_step depth T) can unk b u lines = Ok (b', u', false)
  | Ub => step_lines (rus_step depth T) can unk b u lines = Ub
  end.
Proof.
  intros Hc. assert (Hc' : forall x : list bytes, nonempty x && nonempty unk && negb (can unk) = false).
  { intros x. destruct Hc as [-> | ->]; destruct (nonempty x); cbn [nonempty andb negb]; try reflexivity. destruct unk; reflexivity. }
  induction lines as [|l lines IH]; intros b u; cbn [read_lines step_lines]; [reflexivity|].
  unfold rus_step at 1 3 5. unfold rus_step at 1.
  destruct (read_line depth T l) as [[xs x]|]; cbn [bind]; [|reflexivity].
  destruct (add_lexemes depth (tb_flex T) b xs) as [[b1|]|]; cbn [bind]; try rewrite Hc'; [apply IH|eauto|reflexivity].
Qed.

(** ** The licences are comments *)

Lemma rus_license_comment : only_comments rus_license.
Proof. vm_compute. reflexivity. Qed.
Lemma eng_license_comment : only_comments eng_license.
Proof. vm_compute. reflexivity. Qed.

Lemma plain_filter args : forall ps, plain args ps <-> ps = filter (fun a => negb (is_dash a)) args.
Proof.
  induction args as [|a args IH]; intros ps; cbn [filter].
  - split; [intros H; inversion H; reflexivity|intros ->; constructor].
  - destruct (is_dash a) eqn:E; cbn [negb].
    + split; [intros H; inversion H; subst; [apply IH; assumption|]|intros H; apply pl_switch; [apply is_dash_iff; assumption|apply IH; assumption]].
      exfalso. match goal with H : ~ is_switch a |- _ => apply H end. apply is_dash_iff. assumption.
    + split; [intros H; inversion H; subst|intros ->].
      * exfalso. match goal with H : is_switch a |- _ => apply is_dash_iff in H; congruence end.
      * f_equal. apply IH. assumption.
      * apply pl_plain; [intros H; apply is_dash_iff in H; congruence|apply IH; reflexivity].
Qed.
Definition key_ok (k : bytes) : bool := forallb (fun c => negb (c =? 61) && negb (c =? 58)) k.
Lemma key_ok_separates k : key_ok k = true -> separates k.
Proof.
  unfold key_ok. rewrite forallb_forall. intros H. split; intros Hi; specialize (H _ Hi); discriminate.
Qed.
Lemma keys_separate keys : forallb key_ok keys = true -> Forall separates keys.
Proof. rewrite forallb_forall. intros H. apply Forall_forall. intros k Hk. apply key_ok_separates. auto. Qed.
Fixpoint distinct (l : list bytes) : bool := match l with [] => true | x :: l' => negb (if in_dec (list_eq_dec N.eq_dec) x l' then true else false) && distinct l' end.
Lemma distinct_nodup l : distinct l = true -> NoDup l.
Proof.
  induction l as [|x l IH]; intros H; [constructor|]. cbn [distinct] in H. apply andb_true_iff in H. destruct H as [H1 H2].
  constructor; [|apply IH; assumption]. destruct (in_dec (list_eq_dec N.eq_dec) x l); [discriminate|assumption].
Qed.
Lemma rus_keys : NoDup rus_switches /\ Forall separates rus_switches.
Proof. split; [apply distinct_nodup|apply keys_separate]; vm_compute; reflexivity. Qed.
Lemma eng_keys : NoDup eng_switches /\ Forall separates eng_switches.
Proof. split; [apply distinct_nodup|apply keys_separate]; vm_compute; reflexivity. Qed.

Lemma nonempty_iff {A} (l : list A) : nonempty l = true <-> l <> [].
Proof. destruct l; cbn [nonempty]; split; congruence. Qed.
Lemma lists_unknown name lines : lists_lines name lines (unknown_file name lines).
Proof.
  unfold lists_lines, unknown_file. destruct name as [|c n]; [left; split; [left; reflexivity|reflexivity]|].
  destruct lines as [|l ls]; [left; split; [right; reflexivity|reflexivity]|]. right. split; [discriminate|]. split; [discriminate|].
  cbn [nonempty andb]. rewrite flat_map_concat_map. reflexivity.
Qed.
Lemma or_default_eq v d : or_default v d = default v d.
Proof. destruct v; reflexivity. Qed.

Lemma Forall2_compose {X Y Z} (P : X -> Y -> Prop) (f : X -> Z) (Q : Z -> Y -> Prop) l1 l2 : (forall x y, P x y -> Q (f x) y) -> Forall2 P l1 l2 -> Forall2 Q (map f l1) l2.
Proof. intros H. induction 1; constructor; auto. Qed.

Lemma rus_parsed args ftab fidx mtab midx folder unk ns dicts : rus_options args ftab fidx mtab midx folder unk ns dicts ->
  exists vals, parse_args rus_switches (repeat [] 8) [] args = Some (vals, dicts) /\ nth 0 vals [] = ftab /\ nth 1 vals [] = fidx /\ nth 2 vals [] = mtab /\ nth 3 vals [] = midx /\
    or_default (nth 4 vals []) (text "./") = folder /\ nth 5 vals [] = unk /\ or_default (nth 6 vals []) (text "__libmorphrus__") = ns.
Proof.
  intros (Ho & H0 & H1 & H2 & H3 & (v4 & H4 & ->) & H5 & (v6 & H6 & ->) & Hp). destruct rus_keys as [K1 K2].
  pose proof (parse_spec rus_switches args K1 K2) as S. change (map (fun _ : bytes => @nil N) rus_switches) with (repeat (@nil N) 8) in S.
  destruct (parse_args rus_switches (repeat [] 8) [] args) as [[vals ds]|]; [|contradiction]. destruct S as (_ & -> & ->).
  apply plain_filter in Hp. subst dicts. eexists. split; [reflexivity|].
  assert (V : forall key v, In key rus_switches -> value_of key args v -> value_after key args = v).
  { intros key v Hk Hv. apply value_of_iff; [|assumption]. rewrite Forall_forall in K2. auto. }
  cbn [rus_switches map nth].
  rewrite (V (text "flex-table") _ ltac:(vm_compute; tauto) H0), (V (text "flex-index") _ ltac:(vm_compute; tauto) H1), (V (text "intr-table") _ ltac:(vm_compute; tauto) H2), (V (text "intr-index") _ ltac:(vm_compute; tauto) H3),
    (V (text "target-dir") _ ltac:(vm_compute; tauto) H4), (V (text "unknown") _ ltac:(vm_compute; tauto) H5), (V (text "namespace") _ ltac:(vm_compute; tauto) H6), !or_default_eq. repeat split.
Qed.

Section Makerus.
  Variable load_findex : bytes -> option (list (bytes * N)).
  Variable load_mindex : bytes -> option (list (bytes * list (N * bytes))).
  Variable depth : nat.
  Variable conv : N -> N.
  Variable cut : bytes -> list bytes.
  Variable can : bytes -> bool.
  Variable fs : bytes -> option bytes.

  Lemma makerus_run args ftab fidx mtab midx folder unk ns dicts T files A unknown :
    (forall b, concat (cut b) = b) ->
    rus_options args ftab fidx mtab midx folder unk ns dicts ->
    ftab <> [] -> fidx <> [] -> mtab <> [] -> midx <> [] -> dicts <> [] ->
    load_tables load_findex load_mindex fs ftab fidx mtab midx = Some T ->
    Forall2 (fun d f => fs d = Some f) dicts files ->
    rcompile depth T conv files = Ok (Some (A, unknown)) ->
    unk = [] \/ can unk = true ->
    (forall a path, In a (rus_arrays A) -> in_folder folder (fst a ++ text ".cpp") path -> can path = true) ->
    is_name ns = true -> Forall (fun a => array_contents (snd a)) (rus_arrays A) ->
    exists ul ws, makerus load_findex load_mindex depth conv cut can fs args = Ok (Run (Exit 0) (ul ++ ws)) /\
      lists_lines unk unknown ul /\ defines_arrays folder ns (rus_arrays A) ws.
  Proof.
    intros Hcut Ho H0 H1 H2 H3 Hd HT HF HC Hu Hcan Hns HA. destruct (rus_parsed _ _ _ _ _ _ _ _ _ Ho) as (vals & EP & E0 & E1 & E2 & E3 & E4 & E5 & E6).
    unfold makerus. destruct args as [|a0 args0].
    { exfalso. destruct Ho as (_ & _ & _ & _ & _ & _ & _ & _ & Hp). inversion Hp. subst. congruence. }
    rewrite EP. cbv zeta. rewrite E0, E1, E2, E3, E4, E5, E6.
    rewrite (proj2 (nonempty_iff ftab) H0), (proj2 (nonempty_iff fidx) H1), (proj2 (nonempty_iff mtab) H2), (proj2 (nonempty_iff midx) H3), (proj2 (nonempty_iff dicts) Hd). cbn [andb negb].
    rewrite HT.
    assert (HF' : Forall2 (fun n l => option_map (file_lines conv) (fs n) = Some l) dicts (map (file_lines conv) files)).
    { clear - HF. induction HF as [|d f ds fl H]; cbn [map]; constructor; [rewrite H; reflexivity|assumption]. }
    rewrite (step_files_lines _ _ _ (fun n => option_map (file_lines conv) (fs n)) _ _ _ _ HF').
    unfold rcompile, rcompile_lines in HC. rewrite flat_map_concat_map in HC.
    pose proof (rus_lines depth T can unk (concat (map (file_lines conv) files)) Hu new_builder []) as RL.
    destruct (read_lines depth T new_builder [] (concat (map (file_lines conv) files))) as [[[b u]|]|]; cbn [bind option_map] in HC; try discriminate.
    injection HC as <- <-. rewrite RL. cbn [bind].
    set (A := save_tables (tb_mix T) b) in *.
    destruct (dump_all_reads can ns rus_license folder (rus_dumps cut A)) as (ws & EW & FW).
    - right. exact rus_license_comment.
    - right. assumption.
    - unfold rus_dumps. repeat (apply Forall_cons || apply Forall_nil); unfold dumpable; cbn [fst snd]; (split; [discriminate|split; [reflexivity|]]);
        rewrite ?Hcut; cbn [concat]; rewrite ?app_nil_r; unfold rus_arrays in HA;
        repeat match goal with H : Forall _ (_ :: _) |- _ => apply Forall_cons_iff in H; destruct H end; cbn [snd] in *; assumption.
    - intros f Hf. assert (E : exists a, In a (rus_arrays A) /\ fst (fst f) = fst a ++ text ".cpp").
      { unfold rus_dumps in Hf. cbn [In] in Hf.
        destruct Hf as [<-|[<-|[<-|[<-|[<-|[<-|[]]]]]]]; cbn [fst]; eexists; (split; [|]); unfold rus_arrays;
          [left; reflexivity|reflexivity|right; left; reflexivity|reflexivity|right; right; left; reflexivity|reflexivity|do 3 right; left; reflexivity|reflexivity
          |do 4 right; left; reflexivity|reflexivity|do 5 right; left; reflexivity|reflexivity]. }
      destruct E as (a & Ha & E). rewrite E. apply (Hcan a); [assumption|apply in_folder_path].
    - rewrite EW. cbn [bind]. exists (unknown_file unk u), ws. split; [reflexivity|]. split; [apply lists_unknown|].
      unfold defines_arrays. replace (rus_arrays A) with (map (fun f : bytes * bytes * list bytes => (snd (fst f), concat (snd f))) (rus_dumps cut A)).
      + assert (FN : Forall (fun f : bytes * bytes * list bytes => fst (fst f) = snd (fst f) ++ text ".cpp") (rus_dumps cut A)) by (unfold rus_dumps; repeat constructor).
        clear - FW FN Hns. induction FW as [|f w fl ws (D1 & D2) FW IH]; cbn [map]; [constructor|]. inversion FN as [|? ? F1 F2]; subst. constructor; [|apply IH; assumption].
        cbn [fst snd]. split; [rewrite D1, F1; apply in_folder_path|]. rewrite D2. unfold spaced_name. destruct ns; [discriminate|reflexivity].
      + unfold rus_dumps, rus_arrays. cbn [map fst snd concat]. rewrite !Hcut, !app_nil_r. reflexivity.
  Qed.

  (** Whatever goes wrong before the dictionary is complete, no array is written. *)
  Lemma makerus_fails args : (forall p, can p = true) -> forall r, makerus load_findex load_mindex depth conv cut can fs args = Ok r -> r_ending r <> Exit 0 ->
    r_ending r = Exit efault /\ forall p t, In (p, t) (r_written r) -> value_of (text "unknown") args p.
  Proof.
    intros Hcan r. unfold makerus. destruct args as [|a0 args0]; [intros H Hr; injection H as <-; cbn [r_ending] in Hr; congruence|].
    destruct rus_keys as [K1 K2]. pose proof (parse_spec rus_switches (a0 :: args0) K1 K2) as S. change (map (fun _ : bytes => @nil N) rus_switches) with (repeat (@nil N) 8) in S.
    destruct (parse_args rus_switches (repeat [] 8) [] (a0 :: args0)) as [[vals ds]|]; [|intros H Hr; injection H as <-; split; [reflexivity|intros p t []]].
    destruct S as (_ & -> & ->). cbv zeta.
    match goal with |- context [nth 5 ?v []] => change (nth 5 v []) with (value_after (text "unknown") (a0 :: args0)) end.
    match goal with |- context [if ?c then _ else _] => destruct c; [intros H Hr; injection H as <-; split; [reflexivity|intros p t []]|] end.
    match goal with |- context [if ?c then _ else _] => destruct c; [intros H Hr; injection H as <-; split; [reflexivity|intros p t []]|] end.
    match goal with |- context [load_tables ?a ?b ?c ?d ?e ?f ?g] => destruct (load_tables a b c d e f g) as [T|]; [|intros H Hr; injection H as <-; split; [reflexivity|intros p t []]] end.
    match goal with |- context [step_files ?a ?b ?c ?d ?e ?f ?g] => destruct (step_files a b c d e f g) as [[[b1 u] good]|]; [|discriminate] end. cbn [bind].
    destruct good.
    - match goal with |- context [dump_all ?a ?b ?c ?d ?e] => destruct (dump_all_total a b c d e) as (ws & good & E & G) end.
      + unfold rus_dumps. repeat constructor; discriminate.
      + rewrite E. cbn [bind]. intros H Hr. injection H as <-. exfalso. apply Hr. cbn [r_ending]. rewrite (proj2 G); [reflexivity|]. intros f Hf. apply Hcan.
    - intros H Hr. injection H as <-. split; [reflexivity|]. cbn [r_written]. intros p t Hp. unfold unknown_file in Hp.
      destruct (nonempty (value_after (text "unknown") (a0 :: args0)) && nonempty u); [|destruct Hp]. destruct Hp as [Hp|[]]. injection Hp as <- _.
      apply value_of_iff; [|reflexivity]. rewrite Forall_forall in K2. apply K2. vm_compute. tauto.
  Qed.
  (** A command line that is not in order, or incomplete, or whose tables or dictionaries are missing, is refused. *)
  Lemma makerus_refuses args : args <> [] ->
    ~ in_order rus_keys_known args \/
    (exists key, In key (map text ["flex-table"; "flex-index"; "intr-table"; "intr-index"]%string) /\ (value_of key args [] \/ exists n, value_of key args n /\ fs n = None)) \/
    plain args [] ->
    makerus load_findex load_mindex depth conv cut can fs args = Ok (Run (Exit efault) []).
  Proof.
    intros Hne Hbad. unfold makerus. destruct args as [|a0 args0]; [congruence|].
    destruct rus_keys as [K1 K2]. pose proof (parse_spec rus_switches (a0 :: args0) K1 K2) as S. change (map (fun _ : bytes => @nil N) rus_switches) with (repeat (@nil N) 8) in S.
    destruct (parse_args rus_switches (repeat [] 8) [] (a0 :: args0)) as [[vals ds]|]; [|reflexivity].
    destruct S as (Ho & -> & ->). cbv zeta. cbn [rus_switches map nth].
    assert (V : forall key v, In key rus_switches -> value_of key (a0 :: args0) v -> value_after key (a0 :: args0) = v).
    { intros key v Hk Hv. apply value_of_iff; [|assumption]. rewrite Forall_forall in K2. auto. }
    destruct Hbad as [Hbad|[(key & Hk & Hbad)|Hbad]]; [contradiction| |].
    - destruct Hbad as [Hbad|(n & Hbad & En)].
      + apply V in Hbad; [|vm_compute in Hk |- *; tauto].
        destruct Hk as [<-|[<-|[<-|[<-|[]]]]]; rewrite Hbad; cbn [nonempty andb]; rewrite ?andb_false_r; cbn [andb negb]; rewrite ?andb_false_r; cbn [andb negb]; reflexivity.
      + apply V in Hbad; [|vm_compute in Hk |- *; tauto].
        match goal with |- context [if ?c then _ else _] => destruct c; [reflexivity|] end.
        match goal with |- context [if ?c then _ else _] => destruct c; [reflexivity|] end.
        assert (EL : load_tables load_findex load_mindex fs (value_after (text "flex-table") (a0 :: args0)) (value_after (text "flex-index") (a0 :: args0))
          (value_after (text "intr-table") (a0 :: args0)) (value_after (text "intr-index") (a0 :: args0)) = None).
        { unfold load_tables. destruct Hk as [<-|[<-|[<-|[<-|[]]]]]; rewrite Hbad, En;
            repeat match goal with |- context [match fs ?x with _ => _ end] => destruct (fs x) end; reflexivity. }
        rewrite EL. reflexivity.
    - apply plain_filter in Hbad. rewrite <- Hbad. match goal with |- context [if ?c then _ else _] => destruct c; [reflexivity|] end. cbn [nonempty negb]. reflexivity.
  Qed.
  Lemma makerus_missing args dicts n : plain args dicts -> In n dicts -> fs n = None -> forall r, makerus load_findex load_mindex depth conv cut can fs args = Ok r -> r_ending r = Exit efault.
  Proof.
    intros Hp Hn En r. unfold makerus. destruct args as [|a0 args0]; [inversion Hp; subst; destruct Hn|].
    destruct rus_keys as [K1 K2]. pose proof (parse_spec rus_switches (a0 :: args0) K1 K2) as S. change (map (fun _ : bytes => @nil N) rus_switches) with (repeat (@nil N) 8) in S.
    destruct (parse_args rus_switches (repeat [] 8) [] (a0 :: args0)) as [[vals ds]|]; [|intros H; injection H as <-; reflexivity].
    destruct S as (_ & _ & ->). cbv zeta. apply plain_filter in Hp. rewrite <- Hp.
    match goal with |- context [if ?c then _ else _] => destruct c; [intros H; injection H as <-; reflexivity|] end.
    match goal with |- context [if ?c then _ else _] => destruct c; [intros H; injection H as <-; reflexivity|] end.
    match goal with |- context [load_tables ?a ?b ?c ?d ?e ?f ?g] => destruct (load_tables a b c d e f g) as [T|]; [|intros H; injection H as <-; reflexivity] end.
    match goal with |- context [step_files ?a ?b ?c ?d ?e ?f ?g] => destruct (step_files a b c d e f g) as [[[b1 u] good]|] eqn:ES; [|discriminate] end. cbn [bind].
    apply step_files_missing in ES; [|exists n; split; [assumption|rewrite En; reflexivity]]. subst good. intros H. injection H as <-. reflexivity.
  Qed.
End Makerus.
