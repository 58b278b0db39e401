(** * DumpProofs2: dumps, and the command line. *)
From Coq Require Import String Ascii.
From Verif Require Import Base Serial WordTree Stems GramMap RusRuntime Api EngCompile Dump DumpSpec DumpProofs.
Local Open Scope N_scope.
Local Open Scope list_scope.
Notation length := List.length.

Lemma in_folder_path folder name : in_folder folder name (target_path folder name).
Proof.
  unfold target_path. destruct (rev folder) as [|c f] eqn:E.
  - apply (f_equal (@rev N)) in E. rewrite rev_involutive in E. subst. left. split; [left; reflexivity|reflexivity].
  - apply (f_equal (@rev N)) in E. rewrite rev_involutive in E. cbn [rev] in E. subst folder.
    destruct (N.eqb_spec c 47) as [->|H1]; [|destruct (N.eqb_spec c 92) as [->|H2]]; cbn [orb].
    + left. split; [right; exists (rev f), 47; split; [reflexivity|left; reflexivity]|reflexivity].
    + left. split; [right; exists (rev f), 92; split; [reflexivity|right; reflexivity]|reflexivity].
    + right. split; [exists (rev f), c; repeat split; assumption|reflexivity].
Qed.
Lemma in_folder_unique folder name p q : in_folder folder name p -> in_folder folder name q -> p = q.
Proof.
  assert (X : forall f c f' c', (folder : bytes) = f ++ [c] -> (folder : bytes) = f' ++ [c'] -> c = c').
  { intros f c f' c' -> H. apply app_inj_tail in H. apply H. }
  intros [(Hp & ->)|((f & c & Hp & n1 & n2) & ->)] [(Hq & ->)|((f' & c' & Hq & m1 & m2) & ->)]; try reflexivity; exfalso.
  - destruct Hp as [-> | (f & c & Hp & Hc)]; [destruct f'; discriminate|]. pose proof (X _ _ _ _ Hp Hq). subst. lia.
  - destruct Hq as [-> | (f' & c' & Hq & Hc)]; [destruct f; discriminate|]. pose proof (X _ _ _ _ Hp Hq). subst. lia.
Qed.

Definition printable (b : bytes) : Prop := b <> [] /\ is_bytes b /\ N.of_nat (length b) <= 2 ^ 32.

Lemma dump_one_reads can nspace header outdir output vaname pieces : header = [] \/ only_comments header -> nspace = [] \/ is_name nspace = true ->
  output <> [] -> is_name vaname = true -> printable (concat pieces) -> can (target_path outdir output) = true ->
  exists t, dump_one can nspace header outdir output vaname pieces = Ok (Some [(target_path outdir output, t)]) /\
    read_source t = Some (Source (spaced_name nspace) [Bytes_array vaname (concat pieces)]).
Proof.
  intros Hh Hn Ho Hv (Hne & Hb & Hl) Hc. unfold dump_one, dumper_dump, open_file. cbn [d_file d_szname d_outdir d_nspace d_header].
  destruct output as [|c output]; [congruence|]. cbn [nonempty]. rewrite Hc. cbn [bind option_map put_text d_file d_szname d_outdir d_nspace d_header].
  unfold dumper_close. cbn [d_file d_nspace]. eexists. split; [reflexivity|].
  rewrite <- app_assoc. rewrite <- (app_nil_r (dump_text vaname pieces)). change (dump_text vaname pieces ++ []) with (concat [dump_text vaname pieces]).
  apply file_reads; [assumption|assumption|]. constructor; [|constructor]. apply dump_declares; assumption.
Qed.
Lemma dump_one_refused can nspace header outdir output vaname pieces : output <> [] -> can (target_path outdir output) = false ->
  dump_one can nspace header outdir output vaname pieces = Ok None.
Proof.
  intros Ho Hc. unfold dump_one, dumper_dump, open_file. cbn [d_file d_szname d_outdir d_nspace d_header].
  destruct output as [|c output]; [congruence|]. cbn [nonempty]. rewrite Hc. reflexivity.
Qed.

(** All the files; and the first that cannot be created ends the run. *)
Definition dumped (outdir nspace : bytes) (f : bytes * bytes * list bytes) (w : bytes * bytes) : Prop :=
  fst w = target_path outdir (fst (fst f)) /\ read_source (snd w) = Some (Source (spaced_name nspace) [Bytes_array (snd (fst f)) (concat (snd f))]).
Definition dumpable (f : bytes * bytes * list bytes) : Prop := fst (fst f) <> [] /\ is_name (snd (fst f)) = true /\ printable (concat (snd f)).
Lemma dump_all_reads can nspace header outdir files : header = [] \/ only_comments header -> nspace = [] \/ is_name nspace = true ->
  Forall dumpable files -> (forall f, In f files -> can (target_path outdir (fst (fst f))) = true) ->
  exists ws, dump_all can nspace header outdir files = Ok (ws, true) /\ Forall2 (dumped outdir nspace) files ws.
Proof.
  intros Hh Hn. induction files as [|[[o v] ps] files IH]; intros Hd Hc; cbn [dump_all].
  - eauto.
  - inversion Hd as [|? ? (D1 & D2 & D3) Hd2]; subst. cbn [fst snd] in *.
    destruct (dump_one_reads can nspace header outdir o v ps) as (t & E & R); try assumption; [apply (Hc _ (or_introl eq_refl))|].
    rewrite E. cbn [bind]. destruct IH as (ws & E' & F); [assumption|intros f Hf; apply Hc; right; assumption|]. rewrite E'. cbn [bind app].
    exists ((target_path outdir o, t) :: ws). split; [reflexivity|]. constructor; [split; [reflexivity|assumption]|assumption].
Qed.
Lemma dump_all_total can nspace header outdir files : Forall (fun f => fst (fst f) <> []) files ->
  exists ws good, dump_all can nspace header outdir files = Ok (ws, good) /\ (good = true <-> forall f, In f files -> can (target_path outdir (fst (fst f))) = true).
Proof.
  induction files as [|[[o v] ps] files IH]; intros Hd; cbn [dump_all].
  - exists [], true. split; [reflexivity|]. split; [intros _ f []|reflexivity].
  - inversion Hd as [|? ? D Hd2]; subst. cbn [fst] in D. destruct (IH Hd2) as (ws & good & E & G).
    destruct (can (target_path outdir o)) eqn:Hc.
    + unfold dump_one, dumper_dump, open_file. cbn [d_file d_szname d_outdir d_nspace d_header].
      destruct o as [|c o]; [congruence|]. cbn [nonempty]. rewrite Hc. cbn [bind option_map]. rewrite E. cbn [bind]. do 2 eexists. split; [reflexivity|].
      rewrite G. split; [intros H f [<-|Hf]; [assumption|apply H; assumption]|intros H f Hf; apply H; right; assumption].
    + rewrite dump_one_refused by assumption. cbn [bind]. exists [], false. split; [reflexivity|]. split; [discriminate|].
      intros H. specialize (H _ (or_introl eq_refl)). cbn [fst] in H. congruence.
Qed.

(** ** Command lines *)

Definition separates (key : bytes) : Prop := ~ In 61 key /\ ~ In 58 key.
Definition switch_of (key arg : bytes) : option bytes := match arg with 45 :: a => switch_value key a | _ => None end.
Lemma starts_iff pat s : starts pat s = true <-> exists r, s = pat ++ r.
Proof.
  unfold starts. destruct (list_eq_dec N.eq_dec (firstn (length pat) s) pat) as [E|E]; split; try discriminate; try reflexivity.
  - intros _. exists (skipn (length pat) s). rewrite <- E at 1. symmetry. apply firstn_skipn.
  - intros (r & ->). exfalso. apply E. rewrite firstn_app, Nat.sub_diag, firstn_all. apply app_nil_r.
Qed.
Lemma switch_value_iff key arg v : switch_value key arg = Some v <-> arg = key ++ [61] ++ v \/ arg = key ++ [58] ++ v.
Proof.
  unfold switch_value. destruct (starts key arg) eqn:E.
  - apply starts_iff in E. destruct E as (r & ->). rewrite skipn_app, skipn_all, Nat.sub_diag. cbn [app skipn]. split.
    + destruct r as [|c r]; [discriminate|]. destruct (N.eqb_spec c 61) as [->|]; [intros H; injection H as <-; left; reflexivity|].
      destruct (N.eqb_spec c 58) as [->|]; [intros H; injection H as <-; right; reflexivity|discriminate].
    + intros [H|H]; apply app_inv_head in H; subst; reflexivity.
  - split; [discriminate|]. intros [H|H]; exfalso; assert (starts key arg = true) by (apply starts_iff; eauto); congruence.
Qed.
Lemma switch_of_iff key arg v : switch_of key arg = Some v <-> gives key v arg.
Proof.
  unfold gives, switch_of. split.
  - destruct arg as [|c a]; [discriminate|]. destruct (N.eqb_spec c 45) as [->|Hc].
    + intros H. apply switch_value_iff in H. destruct H as [-> | ->]; [left|right]; reflexivity.
    + intros H. exfalso. destruct c as [|p]; [discriminate|]. do 6 (destruct p as [p|p|]; try discriminate). apply Hc. reflexivity.
  - intros [-> | ->]; cbn [app]; apply switch_value_iff; [left|right]; reflexivity.
Qed.
Lemma keys_apart k1 k2 v1 v2 arg : separates k1 -> separates k2 -> gives k1 v1 arg -> gives k2 v2 arg -> k1 = k2 /\ v1 = v2.
Proof.
  intros S1 S2 H1 H2.
  assert (X : forall k1 k2 c1 c2 v1 v2, separates k1 -> separates k2 -> (c1 = 61 \/ c1 = 58) -> (c2 = 61 \/ c2 = 58) -> k1 ++ c1 :: v1 = k2 ++ c2 :: v2 -> k1 = k2 /\ (v1 : bytes) = v2).
  { clear. induction k1 as [|a k1 IH]; intros [|b k2] c1 c2 v1 v2 (A1 & A2) (B1 & B2) H1 H2 E; cbn [app] in E; injection E as E1 E2.
    - split; [reflexivity|assumption].
    - exfalso. subst. cbn [In] in B1, B2. destruct H1 as [->| ->]; tauto.
    - exfalso. subst. cbn [In] in A1, A2. destruct H2 as [->| ->]; tauto.
    - subst. destruct (IH k2 c1 c2 v1 v2) as [-> ->]; auto; split; cbn [In] in *; tauto. }
  assert (Y : forall k v, gives k v arg -> exists c, arg = 45 :: k ++ c :: v /\ (c = 61 \/ c = 58)).
  { intros k v [-> | ->]; [exists 61|exists 58]; split; auto. }
  destruct (Y _ _ H1) as (c1 & E1 & Hc1). destruct (Y _ _ H2) as (c2 & E2 & Hc2). rewrite E1 in E2. injection E2 as E2. exact (X _ _ _ _ _ _ S1 S2 Hc1 Hc2 E2).
Qed.

(** The value of a key after the arguments. *)
Definition after_arg (key : bytes) (acc arg : bytes) : bytes := match switch_of key arg with Some v => v | None => acc end.
Definition value_after (key : bytes) (args : list bytes) : bytes := fold_left (after_arg key) args [].
Definition is_dash (a : bytes) : bool := match a with 45 :: _ => true | _ => false end.
Lemma is_dash_iff a : is_dash a = true <-> is_switch a.
Proof.
  unfold is_switch. split.
  - destruct a as [|c a]; [discriminate|]. destruct (N.eqb_spec c 45) as [->|Hc]; [eauto|].
    intros H. exfalso. destruct c as [|p]; [discriminate|]. do 6 (destruct p as [p|p|]; try discriminate). apply Hc. reflexivity.
  - intros (x & ->). reflexivity.
Qed.

(** Setting a switch changes the value of its key only. *)
Lemma set_switch_spec arg : forall keys (val : bytes -> bytes), NoDup keys -> Forall separates keys ->
  match set_switch arg keys (map val keys) with
  | Some vals => (exists k v, In k keys /\ gives k v (45 :: arg) /\ val k = []) /\ vals = map (fun k => after_arg k (val k) (45 :: arg)) keys
  | None => forall k v, In k keys -> gives k v (45 :: arg) -> val k <> []
  end.
Proof.
  induction keys as [|k keys IH]; intros val Hn Hs; cbn [map set_switch].
  - intros k v [].
  - inversion Hn as [|? ? Hk Hn2]; subst. inversion Hs as [|? ? Hsk Hs2]; subst.
    destruct (switch_value k arg) as [x|] eqn:E.
    + assert (G : gives k x (45 :: arg)) by (apply switch_of_iff; exact E).
      assert (O : forall k', In k' keys -> switch_of k' (45 :: arg) = None).
      { intros k' Hk'. destruct (switch_of k' (45 :: arg)) as [v|] eqn:E'; [|reflexivity]. apply switch_of_iff in E'. exfalso. rewrite Forall_forall in Hs2.
        destruct (keys_apart _ _ _ _ _ Hsk (Hs2 _ Hk') G E') as [-> _]. contradiction. }
      destruct (val k) as [|c u] eqn:Ev; cbn [nonempty].
      * split; [exists k, x; split; [left; reflexivity|split; assumption]|]. f_equal; [unfold after_arg; cbn [switch_of]; rewrite E; reflexivity|].
        apply map_ext_in. intros k' Hk'. unfold after_arg. rewrite (O k' Hk'). reflexivity.
      * intros k' v [<-|Hk'] G'; [congruence|]. exfalso. apply switch_of_iff in G'. rewrite (O k' Hk') in G'. discriminate.
    + specialize (IH val Hn2 Hs2). destruct (set_switch arg keys (map val keys)) as [vals|]; cbn [option_map].
      * destruct IH as ((k' & v & Hk' & G & Hv) & ->). split; [exists k', v; split; [right; assumption|split; assumption]|].
        f_equal. unfold after_arg. cbn [switch_of]. rewrite E. reflexivity.
      * intros k' v [<-|Hk'] G; [|eapply IH; eauto]. apply switch_of_iff in G. cbn [switch_of] in G. congruence.
Qed.

(** One argument after those that are in order. *)
Lemma in_order_nil keys : in_order keys [].
Proof. split; [intros a []|]. intros before a1 mid a2 after k v1 v2 E. destruct before; discriminate. Qed.
Lemma value_after_app key args a : value_after key (args ++ [a]) = after_arg key (value_after key args) a.
Proof. unfold value_after. rewrite fold_left_app. reflexivity. Qed.
Lemma value_after_given key args : value_after key args = [] \/ exists a v, In a args /\ gives key v a /\ v = value_after key args.
Proof.
  induction args as [|a args IH] using rev_ind; [left; reflexivity|]. rewrite value_after_app. unfold after_arg.
  destruct (switch_of key a) as [v|] eqn:E.
  - right. exists a, v. split; [apply in_or_app; right; left; reflexivity|]. split; [apply switch_of_iff; assumption|reflexivity].
  - destruct IH as [IH|(b & v & Hb & G & Hv)]; [left; assumption|right]. exists b, v. split; [apply in_or_app; left; assumption|]. split; assumption.
Qed.
Lemma given_stays keys args key v a : in_order keys args -> In key keys -> separates key -> In a args -> gives key v a -> v <> [] -> value_after key args <> [].
Proof.
  intros (_ & Ho) Hk Hs Ha G Hv. apply in_split in Ha. destruct Ha as (l1 & l2 & ->).
  revert Ho. induction l2 as [|b l2 IH] using rev_ind; intros Ho.
  - rewrite value_after_app. unfold after_arg. replace (switch_of key a) with (Some v) by (symmetry; apply switch_of_iff; assumption). assumption.
  - rewrite app_comm_cons, app_assoc, value_after_app. unfold after_arg. destruct (switch_of key b) as [w|] eqn:E.
    + apply switch_of_iff in E. exfalso. apply Hv. exact (Ho l1 a l2 b [] key v w eq_refl Hk G E).
    + apply IH. intros before a1 mid a2 after k v1 v2 Eq Hk' G1 G2. eapply (Ho before a1 mid a2 (after ++ [b])); eauto.
      rewrite app_comm_cons, app_assoc, Eq. rewrite <- app_assoc. cbn [app]. rewrite <- app_assoc. reflexivity.
Qed.
Lemma in_order_snoc keys args a : in_order keys (args ++ [a]) <->
  in_order keys args /\ (is_switch a -> exists k v, In k keys /\ gives k v a) /\ (forall k v, In k keys -> gives k v a -> forall b w, In b args -> gives k w b -> w = []).
Proof.
  split.
  - intros (H1 & H2). split; [split|split].
    + intros arg Ha Hs. apply H1; [apply in_or_app; left; assumption|assumption].
    + intros before a1 mid a2 after k v1 v2 -> Hk G1 G2. eapply (H2 before a1 mid a2 (after ++ [a])); eauto.
      rewrite <- app_assoc. cbn [app]. rewrite <- app_assoc. reflexivity.
    + apply H1. apply in_or_app. right. left. reflexivity.
    + intros k v Hk G b w Hb Gb. apply in_split in Hb. destruct Hb as (l1 & l2 & ->). eapply (H2 l1 b l2 a []); eauto. rewrite <- app_assoc. reflexivity.
  - intros ((H1 & H2) & H3 & H4). split.
    + intros arg Ha Hs. apply in_app_or in Ha. destruct Ha as [Ha|[<-|[]]]; auto.
    + intros before a1 mid a2 after k v1 v2 E Hk G1 G2. destruct (exists_last (l := a2 :: after)) as (after' & z & Ez); [discriminate|].
      assert (E' : args ++ [a] = (before ++ a1 :: mid ++ after') ++ [z]).
      { rewrite E. rewrite Ez. rewrite <- app_assoc. cbn [app]. rewrite <- app_assoc. reflexivity. }
      apply app_inj_tail in E'. destruct E' as [-> ->]. destruct after' as [|x after']; cbn [app] in Ez; injection Ez as -> ->.
      * eapply H4; [exact Hk|exact G2| |exact G1]. apply in_or_app. right. left. reflexivity.
      * eapply (H2 before a1 mid x after'); eauto.
Qed.

Lemma parse_app keys args : forall vals dicts a, parse_args keys vals dicts (args ++ [a]) =
  match parse_args keys vals dicts args with
  | None => None
  | Some (vals, dicts) =>
      if is_dash a then match set_switch (tl a) keys vals with None => None | Some vals => Some (vals, dicts) end else Some (vals, dicts ++ [a])
  end.
Proof.
  assert (X : forall x vals dicts rest, parse_args keys vals dicts (x :: rest) =
    if is_dash x then match set_switch (tl x) keys vals with None => None | Some vals => parse_args keys vals dicts rest end else parse_args keys vals (dicts ++ [x]) rest).
  { intros x vals dicts rest. destruct x as [|c x]; [reflexivity|]. destruct (N.eqb_spec c 45) as [->|Hc]; [reflexivity|].
    destruct c as [|p]; [reflexivity|]. do 6 (destruct p as [p|p|]; try reflexivity; try congruence). }
  induction args as [|x args IH]; intros vals dicts a.
  - cbn [app]. rewrite X. cbn [parse_args]. destruct (is_dash a); [destruct (set_switch (tl a) keys vals); reflexivity|reflexivity].
  - cbn [app]. rewrite !X. destruct (is_dash x); [|apply IH]. destruct (set_switch (tl x) keys vals) as [vals'|]; [apply IH|reflexivity].
Qed.
Lemma parse_spec keys args : NoDup keys -> Forall separates keys ->
  match parse_args keys (map (fun _ => []) keys) [] args with
  | Some (vals, dicts) => in_order keys args /\ vals = map (fun k => value_after k args) keys /\ dicts = filter (fun a => negb (is_dash a)) args
  | None => ~ in_order keys args
  end.
Proof.
  intros Hn Hs. induction args as [|a args IH] using rev_ind; [split; [apply in_order_nil|split; reflexivity]|].
  rewrite parse_app. destruct (parse_args keys (map (fun _ => []) keys) [] args) as [[vals dicts]|].
  - destruct IH as (Ho & -> & ->). destruct (is_dash a) eqn:Ed.
    + pose proof (proj1 (is_dash_iff a) Ed) as Hsw. destruct Hsw as (x & ->). cbn [tl].
      pose proof (set_switch_spec x keys (fun k => value_after k args) Hn Hs) as S.
      destruct (set_switch x keys (map (fun k => value_after k args) keys)) as [vals|].
      * destruct S as ((k & v & Hk & G & Hv) & ->). split; [|split].
        -- apply in_order_snoc. split; [assumption|]. split; [intros _; eauto|]. intros k' v' Hk' G' b w Hb Gb.
           rewrite Forall_forall in Hs. destruct (keys_apart _ _ _ _ _ (Hs _ Hk) (Hs _ Hk') G G') as [<- _].
           destruct w as [|c w]; [reflexivity|]. exfalso. eapply (given_stays keys args k); eauto. discriminate.
        -- apply map_ext. intros k'. symmetry. apply value_after_app.
        -- rewrite filter_app. cbn [filter]. rewrite Ed. cbn [negb]. rewrite app_nil_r. reflexivity.
      * rewrite in_order_snoc. intros (_ & H1 & H2). destruct H1 as (k & v & Hk & G); [exists x; reflexivity|].
        specialize (S k v Hk G). destruct (value_after_given k args) as [E|(b & w & Hb & Gb & Ew)]; [congruence|].
        apply S. rewrite <- Ew. eapply H2; eauto.
    + assert (O : forall k, switch_of k a = None).
      { intros k. destruct (switch_of k a) as [v|] eqn:E; [|reflexivity]. apply switch_of_iff in E.
        assert (is_dash a = true) by (apply is_dash_iff; destruct E as [-> | ->]; eexists; reflexivity). congruence. }
      split; [|split].
      * apply in_order_snoc. split; [assumption|]. split.
        -- intros H. apply is_dash_iff in H. congruence.
        -- intros k v _ G. apply switch_of_iff in G. rewrite O in G. discriminate.
      * apply map_ext. intros k. rewrite value_after_app. unfold after_arg. rewrite O. reflexivity.
      * rewrite filter_app. cbn [filter]. rewrite Ed. reflexivity.
  - rewrite in_order_snoc. tauto.
Qed.
Lemma value_of_iff key args v : separates key -> value_of key args v <-> value_after key args = v.
Proof.
  intros Hs. split.
  - assert (N : forall l acc, (forall a w, In a l -> ~ gives key w a) -> fold_left (after_arg key) l acc = acc).
    { induction l as [|a l IH]; intros acc H; cbn [fold_left]; [reflexivity|]. rewrite IH by (intros; apply H; right; assumption).
      unfold after_arg. destruct (switch_of key a) as [w|] eqn:E; [|reflexivity]. apply switch_of_iff in E. exfalso. exact (H a w (or_introl eq_refl) E). }
    intros [args0 H|before arg after w G H]; unfold value_after; [apply N; assumption|].
    rewrite fold_left_app. cbn [fold_left]. rewrite N by assumption. unfold after_arg.
    replace (switch_of key arg) with (Some w) by (symmetry; apply switch_of_iff; assumption). reflexivity.
  - intros <-. induction args as [|a args IH] using rev_ind; [apply vo_none; intros x w []|].
    rewrite value_after_app. unfold after_arg. destruct (switch_of key a) as [w|] eqn:E.
    + apply switch_of_iff in E. apply vo_last; [assumption|intros x u []].
    + assert (Na : forall w, ~ gives key w a) by (intros w G; apply switch_of_iff in G; congruence).
      revert IH. generalize (value_after key args) as u0. intros u0 IH.
      inversion IH as [args0 H E1 E2|before arg after w G H E1 E2]; subst.
      * apply vo_none. intros x u Hx. apply in_app_or in Hx. destruct Hx as [Hx|[<-|[]]]; [apply H; assumption|apply Na].
      * rewrite <- app_assoc. cbn [app]. apply vo_last; [assumption|].
        intros x u Hx. apply in_app_or in Hx. destruct Hx as [Hx|[<-|[]]]; [apply H; assumption|apply Na].
Qed.
