(** * RusBuildProofs2: returning forms; BuildForm and FindForms.  PROOFS. *)
From Verif Require Import Base Serial SerialProofs WordTree TreeSpec WordTreeProofs FlatScan FlatScanProofs LidsProofs TrackProofs
  TreeWalk Stems StemSpec StemsProofs DictProofs CharTables CapScheme CapSpec CapProofs CapProofs2 PropCaseLemmas GramMap RusRuntime LevelSpec LevelProofs RusSpec
  RusProofs RusProofs2 RusProofs3 RusBuild RusBuildSpec RusBuildProofs.
Local Open Scope N_scope.

(** ** The output buffer *)
Lemma mem_write_eq {X} (done : list X) r rest x : mem_write (done ++ r :: rest) (length done) x = Ok (done ++ x :: rest).
Proof.
  unfold mem_write. rewrite app_length. cbn [length]. destruct (Nat.ltb_spec (length done) (length done + S (length rest))); [|lia].
  rewrite firstn_app, firstn_all, Nat.sub_diag, firstn_O, app_nil_r.
  rewrite skipn_app, skipn_all2 by lia. replace (S (length done) - length done)%nat with 1%nat by lia. reflexivity.
Qed.

Lemma mem_writes_eq {X} (xs : list X) : forall done rest, (length xs <= length rest)%nat ->
  mem_writes (done ++ rest) (length done) xs = Ok (done ++ xs ++ skipn (length xs) rest).
Proof.
  induction xs as [|x xs IH]; intros done rest Hl; cbn [mem_writes length skipn app]; [reflexivity|].
  destruct rest as [|r rest]; cbn [length] in Hl; [lia|]. rewrite mem_write_eq. cbn [bind].
  specialize (IH (done ++ [x]) rest ltac:(lia)). rewrite app_length in IH. cbn [length] in IH.
  replace (length done + 1)%nat with (S (length done)) in IH by lia. rewrite <- !app_assoc in IH. cbn [app] in IH. exact IH.
Qed.

Lemma append_eq done rest s :
  coder_append (Coder (done ++ rest) (length done)) s =
  (if Nat.ltb (length s) (length rest)
   then Ok (Some (Coder (done ++ s ++ 0 :: skipn (S (length s)) rest) (length done + length s)))
   else Ok None).
Proof.
  unfold coder_append. cbn [cmem cpos]. rewrite app_length. replace (length done + length rest - length done)%nat with (length rest) by lia.
  destruct (Nat.leb_spec (length rest) (length s)); destruct (Nat.ltb_spec (length s) (length rest)); try lia; [reflexivity|].
  rewrite mem_writes_eq by (rewrite app_length; cbn; lia). cbn [bind]. rewrite app_length. cbn [length]. rewrite Nat.add_1_r, <- app_assoc. reflexivity.
Qed.

Lemma skipn_skipn' {X} a b (l : list X) : skipn a (skipn b l) = skipn (a + b) l.
Proof. revert b. induction l as [|x l IH]; intros b; [rewrite !skipn_nil; reflexivity|]. destruct b as [|b]; [rewrite Nat.add_0_r; reflexivity|].
  rewrite Nat.add_succ_r. cbn [skipn]. apply IH. Qed.

Lemma put_eq done rest s :
  if Nat.leb (length s + 2) (length rest)
  then coder_put (Coder (done ++ rest) (length done)) s =
       Ok (Coder ((done ++ s ++ [0]) ++ 0 :: skipn (length s + 2) rest) (length (done ++ s ++ [0])), true)
  else exists c, coder_put (Coder (done ++ rest) (length done)) s = Ok (c, false) /\ length (cmem c) = length (done ++ rest).
Proof.
  unfold coder_put. rewrite append_eq. destruct (Nat.ltb_spec (length s) (length rest)) as [H1|H1]; cbn [bind].
  - replace (done ++ s ++ 0 :: skipn (S (length s)) rest) with ((done ++ s) ++ 0 :: skipn (S (length s)) rest) by (rewrite <- app_assoc; reflexivity).
    rewrite <- app_length. rewrite append_eq. cbn [length]. rewrite skipn_length.
    destruct (Nat.ltb_spec 1 (S (length rest - S (length s)))); destruct (Nat.leb_spec (length s + 2) (length rest)); try lia; cbn [bind].
    + change (skipn 2 (0 :: skipn (S (length s)) rest)) with (skipn 1 (skipn (S (length s)) rest)). rewrite skipn_skipn'.
      replace (1 + S (length s))%nat with (length s + 2)%nat by lia. do 3 f_equal.
      * rewrite <- !app_assoc. reflexivity.
      * rewrite !app_length. cbn [length]. lia.
    + eexists. split; [reflexivity|]. cbn [cmem]. rewrite !app_length. cbn [length]. rewrite skipn_length. lia.
  - destruct (Nat.leb_spec (length s + 2) (length rest)); [lia|]. eexists. split; reflexivity.
Qed.

Lemma after_app fs fs' mem : after (fs ++ fs') mem = after fs' (after fs mem).
Proof.
  destruct fs as [|f fs]; [reflexivity|]. cbn [app]. destruct fs' as [|f' fs']; [rewrite app_nil_r; reflexivity|].
  unfold after. change (f :: fs ++ f' :: fs') with ((f :: fs) ++ f' :: fs'). rewrite total_app.
  replace (total (f' :: fs') + 1)%nat with (S (total (f' :: fs'))) by lia. cbn [skipn]. rewrite skipn_skipn'.
  f_equal. f_equal. lia.
Qed.
Lemma after_length fs mem : fit (length mem) fs -> (length (joined fs) + length (after fs mem) = length mem)%nat.
Proof.
  rewrite joined_length. destruct fs as [|f fs]; [reflexivity|]. intros [?|H]; [discriminate|]. unfold after. cbn [length]. rewrite skipn_length. lia.
Qed.
Lemma fit_dec size fs : {fit size fs} + {~ fit size fs}.
Proof.
  destruct fs as [|f fs]; [left; left; reflexivity|]. destruct (le_dec (total (f :: fs) + 1) size); [left; right; assumption|right].
  intros [?|?]; [discriminate|contradiction].
Qed.
Lemma fit_cons size f fs mem : size = length mem -> fit size (f :: fs) <->
  (length f + 2 <= size)%nat /\ fit (length (after [f] mem)) fs.
Proof.
  intros ->. unfold fit, after. cbn [total fold_right]. fold (total fs). rewrite Nat.add_0_r. cbn [length]. rewrite skipn_length. split.
  - intros [?|H]; [discriminate|]. split; [lia|]. destruct fs; [left; reflexivity|right; lia].
  - intros [H1 [->|H2]]; right; cbn in *; lia.
Qed.
Lemma fit_app size fs fs' mem : size = length mem -> fit size (fs ++ fs') <-> fit size fs /\ fit (length (after fs mem)) fs'.
Proof.
  intros ->. destruct fs as [|f fs]; cbn [app].
  - cbn [after]. split; [intros H; split; [left; reflexivity|exact H]|intros [_ H]; exact H].
  - unfold fit, after. change (f :: fs ++ fs') with ((f :: fs) ++ fs'). rewrite total_app. cbn [length]. rewrite skipn_length. split.
    + intros [?|H]; [discriminate|]. split; [right; lia|]. destruct fs'; [left; reflexivity|right; lia].
    + intros [[?|H1] [->|H2]]; [discriminate|discriminate| |right; lia]. right. cbn [total fold_right] in *. lia.
Qed.

(** the state after the strings [fs] have been returned *)
Definition returned (done rest : bytes) (n : Z) (fs : list bytes) (r : res (coder * Z * Z)) : Prop :=
  (fit (length rest) fs -> r = Ok ((Coder ((done ++ joined fs) ++ after fs rest) (length (done ++ joined fs)), (n + Z.of_nat (length fs))%Z), 0%Z)) /\
  (~ fit (length rest) fs -> exists c z, r = Ok ((c, z), (-1)%Z) /\ length (cmem c) = length (done ++ rest)).

Lemma put_forms_eq st c : min_cap st = min_case c -> forall fs done rest n y, Forall (fun f => ~ In 0 f) fs ->
  returned done rest n (map (respell rus_casing (min_case c)) fs)
    (put_forms st (length fs) (joined fs ++ y) (Coder (done ++ rest) (length done), n)).
Proof.
  intros Hst. induction fs as [|f fs IH]; intros done rest n y Hz; cbn [length put_forms map].
  - split; [|intros H; exfalso; apply H; left; reflexivity]. intros _. cbn. rewrite app_nil_r, Z.add_0_r. reflexivity.
  - inversion Hz as [|? ? Hf Hz']; subst. cbn [joined flat_map]. fold (joined fs). rewrite <- !app_assoc. cbn [app].
    rewrite cstr_app by assumption. cbn [bind]. rewrite Hst, set_respell by (first [assumption|apply rus_ok|apply min_case_le2]). cbn [bind fst snd].
    set (f' := respell rus_casing (min_case c) f).
    assert (Hl : length f' = length f) by apply respell_length.
    assert (E1 : firstn (length f) (f' ++ 0 :: joined fs ++ y) = f') by (rewrite <- Hl, firstn_app, firstn_all, Nat.sub_diag, firstn_O; apply app_nil_r).
    assert (E2 : skipn (S (length f)) (f' ++ 0 :: joined fs ++ y) = joined fs ++ y).
    { rewrite <- Hl, skipn_app, skipn_all2 by lia. replace (S (length f') - length f')%nat with 1%nat by lia. reflexivity. }
    rewrite E1. pose proof (put_eq done rest f') as P. destruct (Nat.leb_spec (length f' + 2) (length rest)) as [Hle|Hgt].
    + rewrite P. cbn [bind]. rewrite E2.
      specialize (IH (done ++ f' ++ [0]) (0 :: skipn (length f' + 2) rest) (n + 1)%Z y Hz').
      assert (Ha : 0 :: skipn (length f' + 2) rest = after [f'] rest).
      { unfold after. cbn [total fold_right]. do 2 f_equal. lia. }
      rewrite Ha in *. destruct IH as [IH1 IH2]. split.
      * intros Hfit. rewrite (fit_cons _ f' _ rest eq_refl) in Hfit. rewrite (IH1 (proj2 Hfit)).
        change (f' :: map (respell rus_casing (min_case c)) fs) with ([f'] ++ map (respell rus_casing (min_case c)) fs).
        rewrite joined_app, after_app. cbn [joined flat_map]. rewrite app_nil_r. rewrite <- !app_assoc. cbn [app].
        do 3 f_equal. cbn [length]. lia.
      * intros Hfit. destruct IH2 as (c1 & z & E & Hlen).
        { intros H. apply Hfit. rewrite (fit_cons _ f' _ rest eq_refl). split; assumption. }
        exists c1, z. split; [exact E|]. rewrite Hlen, <- Ha, !app_length. cbn [length]. rewrite skipn_length. lia.
    + destruct P as (c1 & -> & Hlen). cbn [bind]. split.
      * intros Hfit. rewrite (fit_cons _ f' _ rest eq_refl) in Hfit. lia.
      * intros _. exists c1, n. split; [reflexivity|exact Hlen].
Qed.

(** ** FormBuild *)
(** the forms a lexeme handed over by the search or by its position has for an id *)
Definition id_forms (c : aclass) (st : steminfo) (key post : bytes) (id : N) : list bytes :=
  let fx := GetGramInfo (c_word c) id in
  if (if tfoffs st =? 0 then id =? 255 else negb (id =? 255) && negb (flexinfo_eq fx noflex)) then raw_forms c key post fx else [].

Definition no_nul (c : aclass) : Prop :=
  (forall ft, c_flex c = Some ft -> nonzero ft /\ ordered ft) /\ (forall mx, c_mix c = Some mx -> Forall (fun ma => ~ In 0 (snd ma)) mx).

Lemma lookup_nonzero {X} (t : wtree X) key a : nonzero t -> lookup key t = Some a -> ~ In 0 key.
Proof.
  revert t. induction key as [|c key IH]; intros t Hz Hl; [intros []|]. cbn [lookup] in Hl.
  destruct (assoc c (nested t)) as [t'|] eqn:E; [|discriminate]. destruct Hz as [l d Hz]. cbn [nested] in E.
  assert (Hin : In (c, t') l).
  { clear - E. induction l as [|[x b] l IH]; [discriminate|]. cbn [assoc] in E. destruct (N.eqb_spec x c) as [->|]; [injection E as ->; left; reflexivity|right; auto]. }
  destruct (Hz c t' Hin) as [H1 H2]. intros [->|H]; [congruence|]. eapply IH; eassumption.
Qed.

Lemma tails_no_nul c fx : no_nul c -> Forall (fun t => ~ In 0 t) (tails c fx).
Proof.
  intros [Hf Hm]. unfold tails. destruct (c_flex c) as [ft|]; [|repeat constructor; intros []].
  destruct (Hf ft eq_refl) as [Hz Ho].
  assert (He : Forall (fun t => ~ In 0 t) (endings_for ft fx)).
  { apply Forall_forall. intros t Ht. unfold endings_for in Ht. apply in_map_iff in Ht as ([k l] & <- & Ht). apply filter_In in Ht as [Ht _].
    apply (entries_spec ft k l []) in Ht; [|exact Ho]. apply (lookup_nonzero ft k l Hz Ht). }
  destruct (c_mix c) as [mx|]; [|exact He]. unfold alternation_for.
  destruct (find _ mx) as [[mask alt]|] eqn:E; cbn [option_map snd]; [|constructor].
  apply find_some in E as [Hin _]. specialize (Hm mx eq_refl). rewrite Forall_forall in Hm. specialize (Hm _ Hin). cbn [snd] in Hm.
  rewrite Forall_map. eapply Forall_impl; [|exact He]. intros t Ht H. apply in_app_iff in H as [H|H]; auto.
Qed.

Lemma raw_no_nul c key post fx : no_nul c -> ~ In 0 key -> ~ In 0 post -> Forall (fun f => ~ In 0 f) (raw_forms c key post fx).
Proof.
  intros Hc Hk Hp. unfold raw_forms. rewrite Forall_map. eapply Forall_impl; [|apply (tails_no_nul c fx Hc)].
  intros t Ht H. cbn beta in Ht. apply in_app_iff in H as [H|H]; [tauto|]. apply in_app_iff in H as [H|H]; tauto.
Qed.

Definition built (done rest : bytes) (n : Z) (fs : list bytes) (raw : list bytes) (r : res (coder * Z * Z)) : Prop :=
  ((total raw <= 256)%nat -> returned done rest n fs r) /\
  ((256 < total raw)%nat -> exists c z, r = Ok ((c, z), (-1)%Z) /\ length (cmem c) = length (done ++ rest)).

Lemma form_build_eq A st c key post x suffix lid gr id done rest n :
  stands_for A st c -> no_nul c -> ~ In 0 key -> ~ In 0 post -> (length key <= 48)%nat -> (forall ft, c_flex c = Some ft -> within 64 ft) ->
  fbytes suffix = Ok post -> forall inf, fstr inf = x ->
  built done rest n (map (respell rus_casing (min_case c)) (id_forms c st key post id)) (id_forms c st key post id)
    (form_build A (key ++ x) id (Coder (done ++ rest) (length done), n) lid st inf suffix gr).
Proof.
  intros Hst Hnn Hk Hp Hlen Hwi Hs inf Hinf. unfold form_build, id_forms. rewrite (stands_word A st c Hst).
  set (fx := GetGramInfo (c_word c) id).
  assert (Hskip : built done rest n (map (respell rus_casing (min_case c)) []) [] (Ok ((Coder (done ++ rest) (length done), n), 0%Z))).
  { split; [|cbn; lia]. intros _. split; [|intros H; exfalso; apply H; left; reflexivity]. intros _. cbn. rewrite app_nil_r, Z.add_0_r. reflexivity. }
  destruct (flexinfo_eq fx noflex) eqn:Efx; destruct (N.eqb_spec id 255) as [Eid|Eid]; destruct (N.eqb_spec (tfoffs st) 0) as [Etf|Etf];
    cbn [negb andb Bool.eqb]; try exact Hskip.
  all: rewrite Hinf, app_length; replace (length key + length x - length x)%nat with (length key) by lia.
  all: destruct (word_forms_eq A fmbuff st c fx key x suffix post Hst Hlen Hwi Hs) as (c' & z & E & H); rewrite E; cbn [bind].
  all: cbn [croom cout fmbuff app] in H.
  all: destruct H as [(H1 & -> & ->)|(H1 & ->)].
  all: try (cbn [Z.leb]; split; [lia|]; intros _; do 2 eexists; split; reflexivity).
  all: cbn [cout]; split; [intros _|lia].
  all: destruct (raw_forms c key post fx) as [|f fs] eqn:Er; [cbn [length Z.of_nat Z.leb map]; split; [|intros H; exfalso; apply H; left; reflexivity];
       intros _; cbn; rewrite app_nil_r, Z.add_0_r; reflexivity|].
  all: destruct (Z.leb_spec (Z.of_nat (length (f :: fs))) 0) as [Hz|_]; [cbn [length] in Hz; lia|].
  all: rewrite Nat2Z.id, <- (app_nil_r (joined (f :: fs))); apply put_forms_eq;
       [unfold min_cap, min_case; rewrite (stands_word A st c Hst); apply required_eq|rewrite <- Er; apply raw_no_nul; assumption].
Qed.
