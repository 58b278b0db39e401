(** * CodepageProofs: one run in windows-1251 and one in the caller's code page, side by side.  PROOFS. *)
From Verif Require Import Base Serial SerialProofs WordTree TreeSpec WordTreeProofs FlatScan FlatScanProofs LidsProofs TrackProofs
  TreeWalk Stems StemSpec StemsProofs DictProofs CharTables CapScheme CapSpec CapProofs CapProofs2 PropCaseLemmas GramMap RusRuntime LevelSpec LevelProofs RusSpec
  RusProofs RusProofs2 RusProofs3 RusBuild RusBuildSpec RusBuildProofs RusBuildProofs2 RusBuildProofs3 RusReadings RusReadingsProofs RusLemmaSpec CxxProofs2
  Codepage CodepageSpec.
Local Open Scope N_scope.

(** ** The word *)
Lemma cp_canonic_given E w psz cch : given w psz cch -> w <> [] ->
  cp_canonic E psz cch = if Nat.ltb 48 (length (dec E w) + slack E) then Ok (2 ^ 32 - 1, []) else cap_get rus_casing 48 (dec E w).
Proof.
  intros Hg Hw.
  assert (K : exists p, psz = Some p /\ (if cch =? 2 ^ 64 - 1 then cstr p
                 else if N.of_nat (length p) <? cch then Ub else Ok (firstn (N.to_nat cch) p)) = Ok w).
  { destruct Hg as [w after Hl|w after Hz].
    - exists (w ++ after). split; [reflexivity|]. destruct (N.eqb_spec (N.of_nat (length w)) (2 ^ 64 - 1)); [lia|].
      rewrite app_length. destruct (N.ltb_spec (N.of_nat (length w + length after)) (N.of_nat (length w))); [lia|].
      rewrite Nnat.Nat2N.id, firstn_app, Nat.sub_diag, firstn_all. cbn [firstn]. rewrite app_nil_r. reflexivity.
    - exists (w ++ 0 :: after). split; [reflexivity|]. rewrite N.eqb_refl. apply cstr_app. assumption. }
  destruct K as (p & -> & K). unfold cp_canonic. rewrite K. cbn [bind]. destruct w as [|b w0]; [contradiction|]. unfold convert.
  destruct (Nat.ltb 48 (length (dec E (b :: w0)) + slack E)); reflexivity.
Qed.

Lemma cp_canonic_empty E psz cch : psz = None \/ given [] psz cch -> cp_canonic E psz cch = Ok (0, []).
Proof.
  intros [->|H]; [reflexivity|]. inversion H; subst; [|reflexivity].
  unfold cp_canonic. cbn [app length N.of_nat]. destruct (N.eqb_spec 0 (2 ^ 64 - 1)); [lia|].
  destruct (N.ltb_spec (N.of_nat (length after)) 0); [lia|]. reflexivity.
Qed.

(** the converted word is searched as the windows-1251 analyser searches it *)
Lemma cp_canonic_text E w psz cch psz' cch' : given w psz cch -> w <> [] -> given (dec E w) psz' cch' -> dec E w <> [] ->
  (length (dec E w) + slack E <= 48)%nat -> cp_canonic E psz cch = to_canonic psz' cch'.
Proof.
  intros Hg Hw Hg' Ht Hl. rewrite (cp_canonic_given E w) by assumption. rewrite (to_canonic_given (dec E w)) by assumption.
  destruct (Nat.ltb_spec 48 (length (dec E w) + slack E)); [lia|reflexivity].
Qed.

Lemma cp_canonic_long E w psz cch : given w psz cch -> w <> [] -> (48 < length (dec E w) + slack E)%nat ->
  cp_canonic E psz cch = Ok (2 ^ 32 - 1, []).
Proof. intros Hg Hw Hl. rewrite (cp_canonic_given E w) by assumption. destruct (Nat.ltb_spec 48 (length (dec E w) + slack E)); [reflexivity|lia]. Qed.

(** ** The output buffer *)
Section Encoding.
  Variable E : encoding.
  Hypothesis Hnul : enc E 0 = [0].
  Notation e := (encode E).
  Notation k := (slack E).

  Lemma behind_length n mem : (n <= length mem)%nat -> (n + length (behind n mem) = length mem)%nat.
  Proof.
    intros H. unfold behind. pose proof (skipn_length n mem) as Hs. destruct (skipn n mem) as [|x r] eqn:Es; cbn [length] in *; lia.
  Qed.

  Lemma cp_append_eq done rest s : cp_append E (Coder (done ++ rest) (length done)) s =
    if Nat.ltb (length rest) (length (e s) + k) then Ok None
    else Ok (Some (Coder (done ++ e s ++ behind (length (e s)) rest) (length done + length (e s)))).
  Proof.
    unfold cp_append, convert. cbn [cmem cpos]. rewrite app_length. replace (length done + length rest - length done)%nat with (length rest) by lia.
    destruct (Nat.ltb_spec (length rest) (length (e s) + k)) as [|Hk]; [reflexivity|].
    destruct (Nat.ltb_spec (length (e s)) (length rest)) as [Hl|Hl].
    - rewrite mem_writes_eq by (rewrite app_length; cbn [length]; lia). cbn [bind]. do 4 f_equal. rewrite <- app_assoc. cbn [app]. f_equal.
      rewrite app_length. cbn [length]. unfold behind.
      assert (Hx : exists x r, skipn (length (e s)) rest = x :: r).
      { pose proof (skipn_length (length (e s)) rest) as Hs. destruct (skipn (length (e s)) rest) as [|x r]; [cbn [length] in Hs; lia|eauto]. }
      destruct Hx as (x & r & Hx). rewrite Hx. f_equal. rewrite Nat.add_comm, <- skipn_skipn', Hx. reflexivity.
    - rewrite mem_writes_eq by lia. cbn [bind]. do 4 f_equal. f_equal. unfold behind. rewrite skipn_all2 by lia. reflexivity.
  Qed.

  Lemma cp_put_eq done rest s :
    if Nat.leb (length (e s) + 1 + k) (length rest)
    then cp_put E (Coder (done ++ rest) (length done)) s =
         Ok (Coder ((done ++ e s ++ [0]) ++ behind (length (e s) + 1) rest) (length (done ++ e s ++ [0])), true)
    else exists c, cp_put E (Coder (done ++ rest) (length done)) s = Ok (c, false) /\ length (cmem c) = length (done ++ rest).
  Proof.
    assert (E0 : e [0] = [0]) by (unfold encode; cbn [flat_map]; rewrite Hnul; reflexivity).
    unfold cp_put. rewrite cp_append_eq. destruct (Nat.ltb_spec (length rest) (length (e s) + k)) as [H1|H1]; cbn [bind].
    - destruct (Nat.leb_spec (length (e s) + 1 + k) (length rest)); [lia|]. eexists. split; reflexivity.
    - rewrite app_assoc, <- app_length, cp_append_eq, E0. pose proof (behind_length (length (e s)) rest ltac:(lia)) as Hb. cbn [length].
      destruct (Nat.ltb_spec (length (behind (length (e s)) rest)) (1 + k)) as [H2|H2];
        destruct (Nat.leb_spec (length (e s) + 1 + k) (length rest)) as [H3|H3]; try lia; cbn [bind].
      + eexists. split; [reflexivity|]. cbn [cmem]. rewrite !app_length. lia.
      + do 3 f_equal; [|rewrite !app_length; cbn [length]; lia]. rewrite <- !app_assoc. do 2 f_equal. cbn [app]. f_equal.
        unfold behind in *. rewrite Nat.add_comm, <- skipn_skipn'. destruct (skipn (length (e s)) rest) as [|x r]; [cbn in H2; lia|]. reflexivity.
  Qed.

  (** ** The two buffers *)
  Lemma total_map_app fs gs : total (map e (fs ++ gs)) = (total (map e fs) + total (map e gs))%nat.
  Proof. rewrite map_app. apply total_app. Qed.

  Lemma fit_in_prefix size fs gs : fit_in E size (fs ++ gs) -> fit_in E size fs.
  Proof.
    intros [H|H]; [left; destruct fs; [reflexivity|discriminate]|]. rewrite total_map_app in H. right. lia.
  Qed.

  Lemma filled_in_snoc fs s mem : fit_in E (length mem) fs -> exists rest,
    filled_in E fs mem = joined (map e fs) ++ rest /\ (total (map e fs) + length rest = length mem)%nat /\
    ((length (e s) + 1 + k <= length rest)%nat -> filled_in E (fs ++ [s]) mem = (joined (map e fs) ++ e s ++ [0]) ++ behind (length (e s) + 1) rest).
  Proof.
    intros Hf. exists (after_in E fs mem). split; [reflexivity|].
    assert (Hl : (total (map e fs) + length (after_in E fs mem) = length mem)%nat).
    { destruct fs as [|f fs]; [reflexivity|]. destruct Hf as [?|Hf]; [discriminate|]. unfold after_in. apply behind_length. lia. }
    split; [exact Hl|]. intros Hs. unfold filled_in. rewrite map_app, joined_app. cbn [map joined flat_map]. rewrite app_nil_r, <- !app_assoc. do 3 f_equal.
    cbn [app]. f_equal. unfold after_in at 1. destruct (fs ++ [s]) as [|y ys] eqn:Ey; [destruct fs; discriminate|]. rewrite <- Ey. clear y ys Ey.
    rewrite total_map_app. cbn [map total fold_right]. rewrite Nat.add_0_r.
    destruct fs as [|f fs]; [cbn [map total fold_right after_in]; reflexivity|]. unfold after_in, behind in *.
    set (t := total (map e (f :: fs))) in *. rewrite Nat.add_comm, <- skipn_skipn'.
    destruct (skipn t mem) as [|x r]; [cbn [length] in Hs; lia|]. replace (length (e s) + 1)%nat with (S (length (e s))) by lia. reflexivity.
  Qed.

  Variable mem : bytes.          (* the caller's buffer *)
  Variable B : nat.              (* the size of the buffer of the other run *)
  Hypothesis HB : (length mem < B)%nat.
  Hypothesis Hwide : forall c, enc E c <> [].

  Lemma encode_wide s : (length s <= length (e s))%nat.
  Proof. clear - Hwide. induction s as [|c s IH]; [cbn; lia|]. unfold encode in *. cbn [flat_map length]. rewrite app_length.
    specialize (Hwide c). destruct (enc E c); [contradiction|]. cbn [length]. lia. Qed.
  Lemma total_wide fs : (total fs <= total (map e fs))%nat.
  Proof using Hwide. clear - Hwide. induction fs as [|f fs IH]; [cbn; lia|]. cbn [map total fold_right]. fold (total fs) (total (map e fs)). pose proof (encode_wide f). lia. Qed.

  Definition big (fs : list bytes) (c : coder) : Prop :=
    Forall (fun f => ~ In 0 f) fs /\ exists rest, c = Coder (joined fs ++ rest) (total fs) /\ length (joined fs ++ rest) = B.
  Definition paired (fs : list bytes) (c cE : coder) : Prop :=
    big fs c /\ cE = Coder (filled_in E fs mem) (total (map e fs)) /\ fit_in E (length mem) fs.

  Lemma filled_in_length fs : fit_in E (length mem) fs -> length (filled_in E fs mem) = length mem.
  Proof. intros H. destruct (filled_in_snoc fs [] mem H) as (rest & -> & Hl & _). rewrite app_length, joined_length. exact Hl. Qed.

  Lemma put_big fs c s : big fs c -> ~ In 0 s -> exists c' ok, coder_put c s = Ok (c', ok) /\
    (ok = true -> big (fs ++ [s]) c') /\ (ok = false -> (B < total (fs ++ [s]) + 1)%nat).
  Proof using. clear.
    intros (Hn & rest & -> & Hl) Hs. pose proof (put_eq (joined fs) rest s) as P. rewrite joined_length in P.
    rewrite app_length, joined_length in Hl. rewrite total_app. cbn [total fold_right]. rewrite Nat.add_0_r.
    destruct (Nat.leb_spec (length s + 2) (length rest)) as [H|H].
    - do 2 eexists. split; [exact P|]. split; [|discriminate]. intros _. split; [apply Forall_app; auto|].
      exists (0 :: skipn (length s + 2) rest). rewrite joined_app. cbn [joined flat_map]. rewrite app_nil_r, total_app. cbn [total fold_right]. split.
      + apply f_equal2; [reflexivity|]. rewrite !app_length, joined_length. cbn [length]. lia.
      + rewrite !app_length, joined_length. cbn [length]. rewrite skipn_length. lia.
    - destruct P as (c1 & P & _). do 2 eexists. split; [exact P|]. split; [discriminate|]. intros _. lia.
  Qed.

  Lemma put_pair fs c cE s : paired fs c cE -> ~ In 0 s -> exists c' ok cE' okE, coder_put c s = Ok (c', ok) /\ cp_put E cE s = Ok (cE', okE) /\
    (ok = true -> big (fs ++ [s]) c') /\ length (cmem cE') = length mem /\
    (okE = true -> ok = true /\ paired (fs ++ [s]) c' cE') /\ (okE = false -> ~ fit_in E (length mem) (fs ++ [s])).
  Proof.
    intros (Hbig & -> & Hf) Hs. destruct (put_big fs c s Hbig Hs) as (c' & ok & Ec & H1 & H2).
    destruct (filled_in_snoc fs s mem Hf) as (rest & Ef & Hl & Hsn). rewrite Ef.
    pose proof (cp_put_eq (joined (map e fs)) rest s) as P. rewrite joined_length in P.
    destruct (Nat.leb_spec (length (e s) + 1 + k) (length rest)) as [H|H].
    - exists c', ok. do 2 eexists. split; [exact Ec|]. split; [exact P|]. split; [exact H1|]. split.
      { cbn [cmem]. rewrite !app_length, joined_length. cbn [length]. pose proof (behind_length (length (e s) + 1) rest ltac:(lia)). lia. }
      split; [|discriminate]. intros _.
      assert (Hfit : fit_in E (length mem) (fs ++ [s])).
      { right. rewrite total_map_app. cbn [map total fold_right]. lia. }
      assert (Hok : ok = true).
      { destruct ok; [reflexivity|]. specialize (H2 eq_refl). destruct Hfit as [Hx|Hx]; [destruct fs; discriminate|].
        pose proof (total_wide (fs ++ [s])). lia. }
      split; [exact Hok|]. split; [exact (H1 Hok)|]. split; [|exact Hfit]. apply f_equal2; [symmetry; exact (Hsn H)|].
      rewrite total_map_app, !app_length, joined_length. cbn [map total fold_right length]. lia.
    - destruct P as (c1 & P & Hlen). exists c', ok, c1, false. split; [exact Ec|]. split; [exact P|]. split; [exact H1|]. split.
      { rewrite Hlen, app_length, joined_length. exact Hl. }
      split; [discriminate|]. intros _ [Hx|Hx]; [destruct fs; discriminate|]. rewrite total_map_app in Hx. cbn [map total fold_right] in Hx. lia.
  Qed.
End Encoding.

(** ** Two searches side by side.  The strings [fs] have been returned in both, or the second has given up. *)
Section Side.
  Context {S1 S2 X : Type}.
  Variable large : list bytes -> S1 -> Prop.
  Variable related : list bytes -> S1 -> S2 -> Prop.
  Variable sized : S2 -> Prop.
  Variable fits : list bytes -> Prop.
  Hypothesis related_large : forall fs s1 s2, related fs s1 s2 -> large fs s1.
  Hypothesis fits_prefix : forall fs gs, fits (fs ++ gs) -> fits fs.

  Definition side (fs : list bytes) (r1 : res (S1 * Z)) (r2 : res (S2 * Z)) : Prop :=
    forall s1 z1, r1 = Ok (s1, z1) -> (z1 <= 0)%Z /\ exists s2 z2 gs, r2 = Ok (s2, z2) /\ (z1 = 0%Z -> large (fs ++ gs) s1) /\
      ((z1 = 0 /\ z2 = 0 /\ related (fs ++ gs) s1 s2)%Z \/
       ((z2 = -1 \/ z2 = z1 /\ z1 < 0)%Z /\ sized s2 /\ (z1 = 0%Z -> ~ fits (fs ++ gs)))).
  Definition grows (fs : list bytes) (r1 : res (S1 * Z)) : Prop :=
    forall s1 z1, r1 = Ok (s1, z1) -> (z1 <= 0)%Z /\ (z1 = 0%Z -> exists gs, large (fs ++ gs) s1).

  Variables (f : S1 -> X -> res (S1 * Z)) (g : S2 -> X -> res (S2 * Z)).

  Lemma until_grows l : (forall x fs s1, In x l -> large fs s1 -> grows fs (f s1 x)) ->
    forall fs s1, large fs s1 -> grows fs (until_nonzero f l s1).
  Proof.
    induction l as [|x l IH]; intros Hf fs s1 Hl s z Er.
    - cbn in Er. injection Er as <- <-. split; [lia|]. intros _. exists []. rewrite app_nil_r. exact Hl.
    - cbn [until_nonzero] in Er. destruct (f s1 x) as [[s1' z1]|] eqn:E1; cbn [bind] in Er; [|discriminate].
      destruct (Hf x fs s1 (or_introl eq_refl) Hl s1' z1 E1) as [Hz Hg].
      destruct (Z.eqb_spec z1 0) as [->|Hne].
      + destruct (Hg eq_refl) as (gs & Hl'). destruct (IH (fun y fs s1 Hy => Hf y fs s1 (or_intror Hy)) _ _ Hl' s z Er) as [Hz' Hg'].
        split; [exact Hz'|]. intros H0. destruct (Hg' H0) as (gs' & Hl''). exists (gs ++ gs'). rewrite app_assoc. exact Hl''.
      + injection Er as <- <-. split; [exact Hz|]. intros ->. contradiction.
  Qed.

  Lemma until_side l : (forall x fs s1, In x l -> large fs s1 -> grows fs (f s1 x)) ->
    (forall x fs s1 s2, In x l -> related fs s1 s2 -> side fs (f s1 x) (g s2 x)) ->
    forall fs s1 s2, related fs s1 s2 -> side fs (until_nonzero f l s1) (until_nonzero g l s2).
  Proof.
    induction l as [|x l IH]; intros Hf Hs fs s1 s2 Hr s z Er.
    - cbn in Er. injection Er as <- <-. split; [lia|]. exists s2, 0%Z, []. rewrite app_nil_r. split; [reflexivity|]. split; [intros _; eapply related_large, Hr|].
      left. auto.
    - cbn [until_nonzero] in Er |- *. destruct (f s1 x) as [[s1' z1]|] eqn:E1; cbn [bind] in Er; [|discriminate].
      destruct (Hs x fs s1 s2 (or_introl eq_refl) Hr s1' z1 E1) as (Hz & s2' & z2 & gs & E2 & Hbig & Ho). rewrite E2. cbn [bind].
      destruct (Z.eqb_spec z1 0) as [->|Hne].
      + destruct Ho as [(_ & -> & Hr')|(Hb & Hsz & Hno)].
        * rewrite Z.eqb_refl.
          destruct (IH (fun y fs s1 Hy => Hf y fs s1 (or_intror Hy)) (fun y fs s1 s2 Hy => Hs y fs s1 s2 (or_intror Hy)) _ _ _ Hr' s z Er)
            as (Hz' & s2'' & z2 & gs' & E3 & Hl' & Ho'). split; [exact Hz'|]. exists s2'', z2, (gs ++ gs'). rewrite app_assoc. auto.
        * destruct Hb as [->|[_ ?]]; [|lia]. destruct (Z.eqb_spec (-1) 0); [lia|].
          destruct (until_grows l (fun y fs s1 Hy => Hf y fs s1 (or_intror Hy)) _ _ (Hbig eq_refl) s z Er) as [Hz' Hg'].
          split; [exact Hz'|]. destruct (Z.eq_dec z 0) as [->|Hzn].
          -- destruct (Hg' eq_refl) as (gs' & Hl'). exists s2', (-1)%Z, (gs ++ gs'). rewrite app_assoc. split; [reflexivity|]. split; [auto|].
             right. split; [auto|]. split; [exact Hsz|]. intros _ H. apply (Hno eq_refl). eapply fits_prefix, H.
          -- exists s2', (-1)%Z, []. split; [reflexivity|]. split; [contradiction|]. right. split; [auto|]. split; [exact Hsz|]. contradiction.
      + injection Er as <- <-. split; [exact Hz|]. destruct Ho as [(H0 & _)|(Hb & Hsz & Hno)]; [contradiction|].
        assert (Hz2 : z2 <> 0%Z) by lia. destruct (Z.eqb_spec z2 0); [contradiction|].
        exists s2', z2, gs. split; [reflexivity|]. split; [contradiction|]. right. split; [exact Hb|]. split; [exact Hsz|contradiction].
  Qed.
End Side.
