(** * WideProofs2: the calls of the wide interface.  PROOFS. *)
From Verif Require Import Base Serial WordTree TreeSpec FlatScan Stems StemSpec CharTables CapScheme CapSpec GramMap RusRuntime RusSpec RusProofs3 PropRusLemmas
  RusBuild RusBuildSpec RusBuildProofs RusBuildProofs2 RusReadings RusReadingsProofs RusLemmaSpec PropBuildLemmas PropLemmasLemmas EngRuntime EngSpec EngFormsSpec EngLemmaSpec
  PropEngLemmas PropEngLemmas2 CxxProofs2 CxxProofs3 WildSpec Codepage WideApi WideSpec WideProofs.
Local Open Scope N_scope.

Lemma given_counted_narrow t after : (length t < 1000)%nat -> given t (Some (t ++ after)) (N.of_nat (length t)).
Proof. intros H. constructor. lia. Qed.

Section Lemm.
  Variables (W : wide).
  Hypothesis HW : wide_ok W.
  Variables (lemmatize : option bytes -> N -> option (list lemm) -> option bytes -> option (list gram) -> N -> res (Z * (option (list lemm) * option bytes * option (list gram)))).
  Variables (lmbuff : list lemm) (szlemm szword : bytes) (p : list N) (cch : N) (w : list N).
  Variables (output : option (list lemm)) (plemma : option (list N)) (pgrams : option (list gram)) (dwsets : N).
  Hypotheses (Hl : length lmbuff = 32%nat) (Hz : length szlemm = 240%nat) (Hg : given w (Some p) cch) (Hw : (length w + wslack W <= 240)%nat).
  Let n1 := option_map (fun m : list lemm => firstn (Nat.min (length m) 32) lmbuff) output.
  Let n2 := option_map (fun m : list N => firstn (Nat.min (length m) 240) szlemm) plemma.

  (** what happens with the answer of the narrow call *)
  Lemma wide_lemmatize_run : exists after,
    forall z p1 p2 p3, lemmatize (Some (narrowed W w ++ after)) (N.of_nat (length w)) n1 n2 pgrams dwsets = Ok (z, (p1, p2, p3)) ->
    ((z <= 0)%Z -> wide_lemmatize W lemmatize lmbuff szlemm szword p cch output plemma pgrams dwsets = Ok (z, (output, plemma, p3))) /\
    (forall ls n, z = Z.of_nat n -> (0 < n)%nat -> same_size p1 n1 -> length ls = n ->
       (forall m, output = Some m -> (n <= Nat.min (length m) 32)%nat) ->
       (forall m, plemma = Some m -> p2 = Some (filled ls (firstn (Nat.min (length m) 240) szlemm)) /\ Forall (fun f => ~ In 0 f) ls /\ (total ls <= length m)%nat) ->
       wide_lemmatize W lemmatize lmbuff szlemm szword p cch output plemma pgrams dwsets =
         Ok (z, (match output, p1 with Some m, Some cells => Some (firstn n cells ++ skipn n m) | _, _ => None end,
                 match plemma with Some m => Some (widened W (joined ls) ++ skipn (total ls) m) | None => None end, p3))).
  Proof.
    destruct (to_narrow_short W szword 240 p cch w Hg Hw) as (after & E). exists after. intros z p1 p2 p3 Hr.
    unfold wide_lemmatize. rewrite E. cbn [bind]. unfold n1, n2, bytes in *. rewrite Hr. cbn [bind]. split.
    - intros H. destruct (Z.leb_spec z 0); [reflexivity|lia].
    - intros ls n -> Hn Hs1 Hls Ho Hp. destruct (Z.leb_spec (Z.of_nat n) 0); [lia|]. rewrite Nat2Z.id.
      assert (E1 : (match output, p1 with
                    | Some m, Some cells => if Nat.ltb (length m) n || Nat.ltb (length cells) n then Ub else Ok (Some (firstn n cells ++ skipn n m))
                    | Some _, None => Ub | None, _ => Ok None end) =
                   Ok (match output, p1 with Some m, Some cells => Some (firstn n cells ++ skipn n m) | _, _ => None end)).
      { destruct output as [m|]; [|destruct p1; reflexivity]. unfold n1, same_size in Hs1. cbn [option_map] in Hs1.
        destruct p1 as [cells|]; [|discriminate]. injection Hs1 as Hs1. rewrite firstn_length in Hs1. specialize (Ho m eq_refl).
        destruct (Nat.ltb_spec (length m) n); [lia|]. destruct (Nat.ltb_spec (length cells) n); [lia|]. reflexivity. }
      rewrite E1. cbn [bind]. destruct plemma as [m|]; [|destruct p2; reflexivity].
      destruct (Hp m eq_refl) as (-> & Hnn & Ht). unfold filled. rewrite <- app_assoc.
      pose proof (widen_eq W HW ls [] m (RusBuildSpec.after ls (firstn (Nat.min (length m) 240) szlemm) ++ skipn (Nat.min (length m) 240) szlemm) Hnn Ht) as Hwd.
      cbn [app] in Hwd. change (@length N []) with 0%nat in Hwd. rewrite Hls in Hwd. unfold bytes in *. rewrite Hwd. reflexivity.
  Qed.
End Lemm.

Lemma firstn_same {X} (n : nat) (l : list X) : length l = n -> forall m, length (firstn (Nat.min m n) l) = Nat.min m n.
Proof. intros H m. rewrite firstn_length. lia. Qed.

Lemma lexemes_map {X Y} (f : X -> Y) o hs : lexemes_of (option_map f o) hs = lexemes_of o hs.
Proof. destruct o; reflexivity. Qed.
Lemma elexemes_map {X Y} (f : X -> Y) o hs : elexemes_of (option_map f o) hs = elexemes_of o hs.
Proof. destruct o; reflexivity. Qed.

(** ** Deciding whether everything fits *)
Lemma fit_dec' n fs : {fit n fs} + {~ fit n fs}.
Proof.
  unfold fit. destruct fs as [|f fs]; [left; left; reflexivity|].
  destruct (le_dec (total (f :: fs) + 1) n); [left; right; assumption|right; intros [H|H]; [discriminate|contradiction]].
Qed.
Lemma grams_fit_dec steps : forall n, {grams_fit n steps} + {~ grams_fit n steps}.
Proof.
  induction steps as [|x xs IH]; intros n; cbn [grams_fit]; [left; exact I|].
  destruct (le_dec (Nat.max 1 (length x)) n); [|right; tauto]. destruct (IH (n - length x)%nat); [left; tauto|right; tauto].
Qed.
Lemma opt_dec {X} (o : option X) (P : X -> Prop) : (forall x, {P x} + {~ P x}) -> {forall x, o = Some x -> P x} + {~ forall x, o = Some x -> P x}.
Proof.
  intros D. destruct o as [x|]; [|left; discriminate]. destruct (D x) as [H|H]; [left; intros y [= <-]; exact H|right; intros K; exact (H (K x eq_refl))].
Qed.
Lemma and_dec {P Q : Prop} : {P} + {~ P} -> {Q} + {~ Q} -> {P /\ Q} + {~ (P /\ Q)}.
Proof. intros [H|H] [K|K]; [left; tauto|right; tauto..]. Qed.
Lemma third_dec (o : option (list lemm)) (pg : option (list gram)) steps :
  {forall mem, o <> None -> pg = Some mem -> grams_fit (length mem) steps} + {~ forall mem, o <> None -> pg = Some mem -> grams_fit (length mem) steps}.
Proof.
  destruct o as [o|]; [|left; intros mem H; contradiction].
  destruct (opt_dec pg (fun mem => grams_fit (length mem) steps) (fun mem => grams_fit_dec steps _)) as [H|H];
    [left; intros mem _; apply H|right; intros K; apply H; intros mem; apply K; discriminate].
Qed.
Lemma wide_all_fit_dec dwsets gs ls o pl pg : {wide_all_fit dwsets gs ls o pl pg} + {~ wide_all_fit dwsets gs ls o pl pg}.
Proof.
  unfold wide_all_fit. apply and_dec; [apply opt_dec; intros m; apply le_dec|]. apply and_dec; [|apply third_dec].
  apply opt_dec. intros m. apply and_dec; [|apply fit_dec']. apply Forall_dec. intros g. apply le_dec.
Qed.
Lemma ewide_all_fit_dec gs ls o pl pg : {ewide_all_fit gs ls o pl pg} + {~ ewide_all_fit gs ls o pl pg}.
Proof.
  unfold ewide_all_fit. apply and_dec; [apply opt_dec; intros m; apply le_dec|]. apply and_dec; [|apply third_dec].
  apply opt_dec. intros m. apply and_dec; [|apply fit_dec']. apply Forall_dec. intros g. apply le_dec.
Qed.

Section Arrays.
  Variables (lmbuff : list lemm) (szlemm : bytes) (output : option (list lemm)) (plemma : option (list N)) (pgrams : option (list gram)).
  Hypotheses (Hl : length lmbuff = 32%nat) (Hz : length szlemm = 240%nat).
  Let n1 := option_map (fun m : list lemm => firstn (Nat.min (length m) 32) lmbuff) output.
  Let n2 := option_map (fun m : list N => firstn (Nat.min (length m) 240) szlemm) plemma.

  Lemma all_fit_wide dwsets gs ls : all_fit dwsets gs ls n1 n2 pgrams <-> wide_all_fit dwsets gs ls output plemma pgrams.
  Proof.
    unfold all_fit, wide_all_fit, n1, n2. destruct output as [m|], plemma as [q|]; cbn [option_map]; split; intros (H1 & H2 & H3);
      (split; [intros x [= <-] || discriminate|split; [intros x [= <-] || discriminate|intros x Hx; apply H3; discriminate || contradiction]]);
      try (specialize (H1 _ eq_refl)); try (specialize (H2 _ eq_refl)); rewrite ?firstn_length, ?Hl, ?Hz in *; try (destruct H2 as [H2 H2']; split; [exact H2|]);
      try lia; try (unfold fit in *; destruct H2' as [H2'|H2']; [left; exact H2'|right; lia]).
  Qed.
  Lemma eall_fit_wide gs ls : eall_fit gs ls n1 n2 pgrams <-> ewide_all_fit gs ls output plemma pgrams.
  Proof.
    unfold eall_fit, ewide_all_fit, n1, n2. destruct output as [m|], plemma as [q|]; cbn [option_map]; split; intros (H1 & H2 & H3);
      (split; [intros x [= <-] || discriminate|split; [intros x [= <-] || discriminate|intros x Hx; apply H3; discriminate || contradiction]]);
      try (specialize (H1 _ eq_refl)); try (specialize (H2 _ eq_refl)); rewrite ?firstn_length, ?Hl, ?Hz in *; try (destruct H2 as [H2 H2']; split; [exact H2|]);
      try lia; try (unfold fit in *; destruct H2' as [H2'|H2']; [left; exact H2'|right; lia]).
  Qed.
  Lemma safe_wide dwsets gs : wide_safe dwsets gs output plemma pgrams -> safe_call dwsets gs n1 n2 pgrams.
  Proof.
    unfold wide_safe, safe_call, n1, n2. intros [H1 H2]. split; [intros H; apply H1; intros ->; contradiction|].
    destruct output as [m|]; cbn [option_map]; [|discriminate]. intros mem g [= <-] Hpg Hne Hn. rewrite firstn_length, Hl in Hn.
    apply (H2 m g eq_refl Hpg); [intros ->; contradiction|]. replace (Nat.min (length m) 32) with (Nat.min (Nat.min (length m) 32) 32) by lia. exact Hn.
  Qed.
  Lemma esafe_wide gs : ewide_safe gs output plemma pgrams -> esafe_call gs n1 n2 pgrams.
  Proof.
    unfold ewide_safe, esafe_call, n1, n2. intros [H1 H2]. split; [intros H; apply H1; intros ->; contradiction|].
    destruct output as [m|]; cbn [option_map]; [|discriminate]. intros mem g [= <-] Hpg Hne Hn. rewrite firstn_length, Hl in Hn.
    apply (H2 m g eq_refl Hpg); [intros ->; contradiction|]. replace (Nat.min (length m) 32) with (Nat.min (Nat.min (length m) 32) 32) by lia. exact Hn.
  Qed.
  Lemma cell_wide gs ls i g : lemm_cell gs ls n2 pgrams i g = lemm_cell gs ls plemma pgrams i g.
  Proof. unfold lemm_cell, n2. destruct plemma; reflexivity. Qed.
  Lemma ecell_wide gs ls i g : elemm_cell gs ls n2 pgrams i g = elemm_cell gs ls plemma pgrams i g.
  Proof. unfold elemm_cell, n2. destruct plemma; reflexivity. Qed.
End Arrays.

Lemma nth_firstn {X} (l : list X) : forall n i, (i < n)%nat -> nth_error (firstn n l) i = nth_error l i.
Proof. induction l as [|x l IH]; intros [|n] [|i] H; try lia; try reflexivity. cbn. apply IH. lia. Qed.

(** ** The answer of the wide call from that of the narrow one; [cell] and [st] as in [wide_described] *)
Section Answer.
  Context {G : Type}.
  Variables (W : wide) (lmbuff : list lemm) (szlemm : bytes) (output : option (list lemm)) (plemma : option (list N)) (pgrams : option (list gram)).
  Hypotheses (Hl : length lmbuff = 32%nat) (Hz : length szlemm = 240%nat).
  Let n1 := option_map (fun m : list lemm => firstn (Nat.min (length m) 32) lmbuff) output.
  Let n2 := option_map (fun m : list N => firstn (Nat.min (length m) 240) szlemm) plemma.
  Variables (cell : nat -> G -> lemm) (st : list gram) (gs : list G) (ls : list bytes) (r : res (Z * (option (list lemm) * option (list N) * option (list gram)))).
  Variables (z : Z) (p1 : option (list lemm)) (p2 : option bytes) (p3 : option (list gram)) (ok : Prop).
  Hypothesis Hdec : {ok} + {~ ok}.
  Hypothesis Hlen : length ls = length gs.
  Hypotheses (S1 : same_size p1 n1) (S3 : same_size p3 pgrams).
  Hypothesis Hok : ok -> z = Z.of_nat (length gs) /\
    (forall mem, n1 = Some mem -> exists mem', p1 = Some mem' /\ (forall i g, nth_error gs i = Some g -> nth_error mem' i = Some (cell i g)) /\
       skipn (S (length gs)) mem' = skipn (S (length gs)) mem) /\
    (forall mem, n2 = Some mem -> p2 = Some (filled ls mem)) /\
    (forall mem, pgrams = Some mem -> p3 = Some (if n1 then st ++ skipn (length st) mem else mem)).
  Hypothesis Hno : ~ ok -> z = (-1)%Z \/ z = (-2)%Z \/ z = (-3)%Z.
  Hypothesis Hrooms : ok -> (forall m, output = Some m -> (length gs <= Nat.min (length m) 32)%nat) /\
    (forall m, plemma = Some m -> Forall (fun f => ~ In 0 f) ls /\ (total ls <= length m)%nat).
  Hypothesis Hrun : ((z <= 0)%Z -> r = Ok (z, (output, plemma, p3))) /\
    (forall ls n, z = Z.of_nat n -> (0 < n)%nat -> same_size p1 n1 -> length ls = n ->
       (forall m, output = Some m -> (n <= Nat.min (length m) 32)%nat) ->
       (forall m, plemma = Some m -> p2 = Some (filled ls (firstn (Nat.min (length m) 240) szlemm)) /\ Forall (fun f => ~ In 0 f) ls /\ (total ls <= length m)%nat) ->
       r = Ok (z, (match output, p1 with Some m, Some cells => Some (firstn n cells ++ skipn n m) | _, _ => None end,
                 match plemma with Some m => Some (widened W (joined ls) ++ skipn (total ls) m) | None => None end, p3))).

  Lemma wide_answered : exists z output' plemma' pgrams', r = Ok (z, (output', plemma', pgrams')) /\
    same_size output' output /\ same_size plemma' plemma /\ same_size pgrams' pgrams /\
    (ok -> z = Z.of_nat (length gs) /\ wide_described W cell st gs ls output plemma pgrams output' plemma' pgrams') /\
    (~ ok -> (z = (-1)%Z \/ z = (-2)%Z \/ z = (-3)%Z) /\ output' = output /\ plemma' = plemma).
  Proof.
    destruct Hrun as [R0 R1]. destruct Hdec as [H|H].
    - destruct (Hok H) as (Ez & D1 & D2 & D3). destruct (Hrooms H) as (Q1 & Q2).
      assert (D3' : forall mem, pgrams = Some mem -> p3 = Some (if output then st ++ skipn (length st) mem else mem)).
      { intros mem Hm. rewrite (D3 mem Hm). unfold n1. destruct output; reflexivity. }
      destruct (Nat.eq_dec (length gs) 0) as [E0|E0].
      + rewrite E0 in Ez. change (Z.of_nat 0) with 0%Z in Ez. exists z, output, plemma, p3. split; [apply R0; lia|].
        split; [reflexivity|]. split; [reflexivity|]. split; [exact S3|]. split; [|tauto]. intros _. split; [rewrite E0; exact Ez|].
        rewrite E0 in Hlen. destruct ls; [|discriminate]. destruct gs as [|g0 gs']; [|discriminate]. split; [|split; [|exact D3']].
        * intros mem Hm. exists []. split; [rewrite Hm; reflexivity|]. split; [reflexivity|]. intros i g Hi. destruct i; discriminate.
        * intros mem Hm. rewrite Hm. destruct mem; reflexivity.
      + eexists z, _, _, p3. split; [apply (R1 ls (length gs)); try assumption; try lia|].
        * intros m Hm. split; [apply D2; unfold n2; rewrite Hm; reflexivity|apply Q2, Hm].
        * split; [|split; [|split; [exact S3|split; [|tauto]]]].
          -- unfold same_size, n1 in *. destruct output as [m|]; [|destruct p1; reflexivity]. cbn [option_map] in S1. destruct p1 as [cells|]; [|discriminate].
             cbn [option_map] in S1. injection S1 as S1. rewrite firstn_length in S1. specialize (Q1 m eq_refl).
             cbn [option_map]. f_equal. rewrite app_length, firstn_length, skipn_length. lia.
          -- unfold same_size. destruct plemma as [m|]; [|reflexivity]. cbn [option_map]. f_equal. destruct (Q2 m eq_refl) as [_ Q].
             unfold widened. rewrite app_length, map_length, joined_length, skipn_length. lia.
          -- intros _. split; [exact Ez|]. split; [|split; [|exact D3']].
             ++ intros mem Hm. unfold n1 in *. rewrite Hm in *. cbn [option_map] in *. destruct (D1 _ eq_refl) as (cells & Ec & Hc & _). rewrite Ec in *.
                exists (firstn (length gs) cells). split; [reflexivity|]. specialize (Q1 mem eq_refl). unfold same_size in S1. cbn [option_map] in S1. injection S1 as S1.
                rewrite firstn_length in S1. split; [rewrite firstn_length; lia|]. intros i g Hi. rewrite nth_firstn; [apply Hc, Hi|].
                apply nth_error_Some. rewrite Hi. discriminate.
             ++ intros mem Hm. rewrite Hm. reflexivity.
    - pose proof (Hno H) as Hz'. exists z, output, plemma, p3. split; [apply R0; lia|]. split; [reflexivity|]. split; [reflexivity|]. split; [exact S3|].
      split; [tauto|]. intros _. split; [exact Hz'|]. split; reflexivity.
  Qed.
End Answer.
