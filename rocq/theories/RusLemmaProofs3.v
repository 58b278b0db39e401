(** * RusLemmaProofs3: the sequence of readings Lemmatize goes through. *)
From Verif Require Import Base Serial SerialProofs WordTree TreeSpec WordTreeProofs FlatScan FlatScanProofs LidsProofs TrackProofs TreeWalk Stems StemSpec StemsProofs
  DictProofs CharTables CapScheme CapSpec CapProofs CapProofs2 PropCaseLemmas PropTreesLemmas GramMap RusRuntime RusSpec RusProofs RusProofs2 RusProofs3
  RusBuild RusBuildSpec RusBuildProofs RusBuildProofs2 RusBuildProofs3 RusReadings RusReadingsProofs RusLemmaSpec RusLemmaProofs RusLemmaProofs2.
Local Open Scope N_scope.

Lemma grams_fit_app xs : forall n ys, grams_fit n (xs ++ ys) <-> grams_fit n xs /\ grams_fit (n - length (concat xs)) ys.
Proof.
  induction xs as [|x xs IH]; intros n ys; cbn [app grams_fit concat length].
  - rewrite Nat.sub_0_r. tauto.
  - rewrite IH, app_length. replace (n - (length x + length (concat xs)))%nat with (n - length x - length (concat xs))%nat by lia. tauto.
Qed.
Lemma grams_fit_dec xs : forall n, grams_fit n xs \/ ~ grams_fit n xs.
Proof.
  induction xs as [|x xs IH]; intros n; cbn [grams_fit]; [left; exact I|].
  destruct (le_dec (Nat.max 1 (length x)) n) as [H|H]; [|right; tauto]. destruct (IH (n - length x)%nat) as [H2|H2]; [left; split; assumption|right; tauto].
Qed.
Lemma grams_fit_length xs : forall n, grams_fit n xs -> (length (concat xs) <= n)%nat.
Proof.
  induction xs as [|x xs IH]; intros n; cbn [grams_fit concat length]; [lia|]. intros [H1 H2]. specialize (IH _ H2). rewrite app_length. lia.
Qed.

Definition members (g : lexeme) : list reading := lx_first g :: lx_more g.

(** A run of [call] on some readings: if [ok], it succeeds in a state satisfying [P], otherwise it reports a failure. *)
Definition ran (s : astate) (ok : Prop) (P : astate -> Prop) (r : res (lstate * Z)) : Prop :=
  (ok -> exists s', P s' /\ r = Ok (conc s', 0%Z) /\ sizes (conc s') = sizes (conc s)) /\
  (~ ok -> exists ls z, r = Ok (ls, z) /\ code z /\ sizes ls = sizes (conc s)).

Section Runs.
  Variables (A : arrays) (L : lexicon).
  Hypothesis HL : holds A L.
  Hypothesis HB : buildable L.
  Variables (w tail : bytes) (dwsets : N).
  Local Notation call := (call A L w tail dwsets).
  Local Notation rd_ok := (rd_ok L w).

  Lemma code_nonzero z : code z -> (z =? 0)%Z = false.
  Proof. intros [->|[->| ->]]; reflexivity. Qed.

  Lemma ran_app s l1 l2 ok1 P1 ok2 ok P2 : ok1 \/ ~ ok1 -> ran s ok1 P1 (until_nonzero call l1 (conc s)) ->
    (forall s1, P1 s1 -> ran s1 ok2 P2 (until_nonzero call l2 (conc s1))) -> (ok <-> ok1 /\ ok2) ->
    ran s ok P2 (until_nonzero call (l1 ++ l2) (conc s)).
  Proof.
    intros Hdec [H1 H2] H3 Hok. rewrite until_app'. destruct Hdec as [Hd|Hd].
    - destruct (H1 Hd) as (s1 & HP & -> & Hsz). cbn [bind Z.eqb]. destruct (H3 s1 HP) as [H4 H5]. split.
      + intros Ho. apply Hok in Ho as [_ Ho]. destruct (H4 Ho) as (s2 & HP2 & -> & Hsz2). exists s2. split; [exact HP2|]. split; [reflexivity|congruence].
      + intros Hn. destruct H5 as (ls & z & -> & Hz & Hsz2); [tauto|]. exists ls, z. split; [reflexivity|]. split; [exact Hz|congruence].
    - destruct (H2 Hd) as (ls & z & -> & Hz & Hsz). cbn [bind]. rewrite (code_nonzero z Hz). split; [tauto|]. intros _. exists ls, z. auto.
  Qed.

  Lemma start_ok_dec s r l : start_ok dwsets s r l \/ ~ start_ok dwsets s r l.
  Proof.
    unfold start_ok. destruct s as [cs fm gm n]. cbn [a_cells a_forms a_grams].
    assert (D1 : (forall cells rest, cs = Some (cells, rest) -> rest <> []) \/ ~ (forall cells rest, cs = Some (cells, rest) -> rest <> [])).
    { destruct cs as [[cells [|x rest]]|].
      - right. intros H. apply (H cells []); reflexivity.
      - left. intros ? ? [= <- <-]. discriminate.
      - left. discriminate. }
    assert (D2 : (forall done rest, fm = Some (done, rest) -> small (rd_dict_forms dwsets r) /\ (length l + 2 <= length rest)%nat) \/
                 ~ (forall done rest, fm = Some (done, rest) -> small (rd_dict_forms dwsets r) /\ (length l + 2 <= length rest)%nat)).
    { destruct fm as [[done rest]|]; [|left; discriminate]. unfold small.
      destruct (le_dec (total (rd_dict_forms dwsets r)) 256) as [H1|H1]; [destruct (le_dec (length l + 2) (length rest)) as [H2|H2]|].
      - left. intros ? ? [= <- <-]. split; assumption.
      - right. intros H. apply H2, (H done rest eq_refl).
      - right. intros H. apply H1, (H done rest eq_refl). }
    assert (D3 : (forall gd gr, cs <> None -> gm = Some (gd, gr) -> (length (rd_shown r) <= length gr)%nat) \/
                 ~ (forall gd gr, cs <> None -> gm = Some (gd, gr) -> (length (rd_shown r) <= length gr)%nat)).
    { destruct cs as [p|]; [|left; intros ? ? H; contradiction]. destruct gm as [[gd gr]|]; [|left; discriminate].
      destruct (le_dec (length (rd_shown r)) (length gr)) as [H2|H2].
      - left. intros ? ? _ [= <- <-]. exact H2.
      - right. intros H. apply H2, (H gd gr); [discriminate|reflexivity]. }
    tauto.
  Qed.

  (** ** A further reading of the last lexeme *)
  Lemma merge_call s r cells' last rest : rd_ok r -> a_cells s = Some (cells' ++ [last], rest) -> lm_id last = rd_id r -> a_n s <> 0%nat ->
    exists st, (forall gf, set_graminfo st (to_gram gf) = shown (rd_class r) gf) /\
      call (conc s) r = (let! (s', ret) := put_infos (conc s) true st (map to_gram (rd_descs r)) in
                         match ret with Some r => Ok (s', r) | None => Ok (s', 0%Z) end).
  Proof.
    intros Hok Ec Hid Hn. destruct (reading_call A L HL HB w tail dwsets r Hok) as (st & Ecall & _ & _ & _ & _ & _ & _ & Hsh). exists st. split; [exact Hsh|].
    rewrite Ecall. unfold lemmatizer. replace (l_built (conc s) <? 0)%Z with false by (symmetry; apply Z.ltb_ge; cbn; lia).
    assert (Est : start_lemm (conc s) (rd_id r) = Ok (Some (conc s, true))).
    { unfold start_lemm. destruct s as [cs fm gm n]. cbn [a_cells a_n] in *. subst cs. cbn [conc a_cells option_map fst snd l_lemms l_built].
      cbn [a_n]. destruct (Z.eqb_spec (Z.of_nat n) 0); [lia|]. rewrite app_length, Nat.add_1_r. unfold mem_read.
      rewrite <- app_assoc, nth_error_app2, Nat.sub_diag by lia. cbn [app nth_error bind]. rewrite Hid, N.eqb_refl. reflexivity. }
    rewrite Est. cbn [bind]. destruct (l_forms (conc s)); reflexivity.
  Qed.

  Definition merged (cells : list lemm) (rest : list lemm) (s : astate) (x : list gram) (s' : astate) : Prop :=
    (exists rest', a_cells s' = Some (cells, rest') /\ length rest' = length rest /\ tl rest' = tl rest) /\
    a_forms s' = a_forms s /\ a_n s' = a_n s /\
    a_grams s' = option_map (fun p => (fst p ++ x, skipn (length x) (snd p))) (a_grams s).

  (** where the descriptions of the last lexeme are *)
  Definition slice_ok (s : astate) (last : lemm) (first : reading) : Prop :=
    forall gd gr, a_grams s = Some (gd, gr) -> exists g1 g2, gd = g1 ++ rd_shown first ++ g2 /\
      lm_grams last = N.of_nat (length g1) /\ lm_ngrams last = N.of_nat (length (rd_shown first)).

  Lemma step_merge s first r cells' last rest : rd_ok r -> a_cells s = Some (cells' ++ [last], rest) -> lm_id last = rd_id r -> a_n s <> 0%nat ->
    slice_ok s last first -> (a_grams s <> None -> rest <> []) ->
    ran s (forall gd gr, a_grams s = Some (gd, gr) -> grams_fit (length gr) [added first r])
        (merged (cells' ++ [last]) rest s (added first r)) (until_nonzero call [r] (conc s)).
  Proof.
    intros Hok Ec Hid Hn Hsl Hrest. destruct (merge_call s r cells' last rest Hok Ec Hid Hn) as (st & Hsh & Ecall). cbn [until_nonzero]. rewrite Ecall. clear Ecall.
    destruct s as [cs fm gm n]. cbn [a_cells a_forms a_grams a_n] in *. subst cs. unfold put_infos, ran, merged, slice_ok in *.
    cbn [conc a_cells a_forms a_grams a_n option_map fst snd l_lemms l_forms l_grams l_built] in *.
    destruct gm as [[gd gr]|]; cbn [option_map fst snd].
    - destruct (Hsl gd gr eq_refl) as (g1 & g2 & -> & Eg & En). clear Hsl. destruct rest as [|m rest]; [exfalso; apply Hrest; [discriminate|reflexivity]|].
      assert (Hlast : mem_read ((cells' ++ [last]) ++ m :: rest) (length cells') = Ok last).
      { unfold mem_read. rewrite <- app_assoc, nth_error_app2, Nat.sub_diag by lia. reflexivity. }
      assert (Hlen : length (cells' ++ [last]) = S (length cells')) by (rewrite app_length; cbn; lia).
      rewrite Hlen, Hlast. cbn [bind]. clear Hlast.
      destruct (merge_grams_eq st (rd_class r) Hsh last g1 (rd_shown first) g2 (rd_descs r) (proj1 (ok_descs L w r Hok)) Eg En gr) as [H1 H2].
      fold (rd_shown r) in H1, H2. fold (added first r) in H1, H2. cbn [grams_fit].
      destruct (le_dec (Nat.max 1 (length (added first r))) (length gr)) as [Hle|Hgt].
      + rewrite (H1 Hle). cbn [bind Nat.eqb]. set (cells := cells' ++ [last]).
        change (length cells = S (length cells')) in Hlen. rewrite <- Hlen.
        unfold mem_read. rewrite nth_error_app2, Nat.sub_diag by lia. cbn [nth_error bind]. rewrite mem_write_eq. cbn [bind]. cbn [Z.eqb].
        split.
        * intros _. match goal with |- context [cells ++ ?m' :: rest] =>
            exists (AState (Some (cells, m' :: rest)) fm (Some ((g1 ++ rd_shown first ++ g2) ++ added first r, skipn (length (added first r)) gr)) n) end.
          split; [|split].
          -- split; [eexists; split; [reflexivity|split; reflexivity]|]. split; [reflexivity|]. split; reflexivity.
          -- reflexivity.
          -- unfold sizes. cbn [conc a_cells a_forms a_grams l_lemms l_forms l_grams option_map fst snd].
             repeat match goal with |- (_, _) = (_, _) => apply f_equal2 | |- Some _ = Some _ => apply f_equal end; try reflexivity;
             rewrite !app_length; cbn [length]; rewrite ?skipn_length; lia.
        * intros Hno. exfalso. apply Hno. intros ? ? [= <- <-]. split; [exact Hle|exact I].
      + destruct H2 as (togo & mem & cur & -> & Hlm); [lia|]. cbn [bind Nat.eqb Z.eqb]. split.
        * intros H. exfalso. apply Hgt, (H _ _ eq_refl).
        * intros _. eexists _, _. split; [reflexivity|]. split; [right; right; reflexivity|]. unfold sizes.
          cbn [conc a_cells a_forms a_grams l_lemms l_forms l_grams option_map fst snd]. rewrite Hlm. reflexivity.
    - cbn [bind Z.eqb]. split.
      + intros _. exists (AState (Some (cells' ++ [last], rest)) fm None n). split; [|split; reflexivity].
        split; [eexists; split; [reflexivity|split; reflexivity]|]. split; [reflexivity|]. split; reflexivity.
      + intros Hno. exfalso. apply Hno. discriminate.
  Qed.

  Lemma merges first cells' last rs : forall s rest, Forall rd_ok rs -> Forall (fun r => rd_id r = lm_id last) rs ->
    a_cells s = Some (cells' ++ [last], rest) -> a_n s <> 0%nat -> slice_ok s last first -> (a_grams s <> None -> rs <> [] -> rest <> []) ->
    ran s (forall gd gr, a_grams s = Some (gd, gr) -> grams_fit (length gr) (map (added first) rs))
        (merged (cells' ++ [last]) rest s (concat (map (added first) rs))) (until_nonzero call rs (conc s)).
  Proof.
    induction rs as [|r rs IH]; intros s rest Hok Hid Ec Hn Hsl Hrest.
    - cbn [until_nonzero map concat]. split; [|intros H; exfalso; apply H; intros; exact I]. intros _. exists s. split; [|split; reflexivity].
      split; [exists rest; auto|]. split; [reflexivity|]. split; [reflexivity|]. destruct (a_grams s) as [[gd gr]|]; [|reflexivity].
      cbn. rewrite app_nil_r. reflexivity.
    - inversion Hok as [|? ? Hr Hrs]; subst. inversion Hid as [|? ? Hi His]; subst.
      change (r :: rs) with ([r] ++ rs) at 3.
      eapply ran_app with (ok1 := forall gd gr, a_grams s = Some (gd, gr) -> grams_fit (length gr) [added first r])
                          (P1 := merged (cells' ++ [last]) rest s (added first r))
                          (ok2 := forall gd gr, a_grams s = Some (gd, gr) -> grams_fit (length gr - length (added first r)) (map (added first) rs)).
      + destruct (a_grams s) as [[gd gr]|]; [|left; discriminate]. destruct (grams_fit_dec [added first r] (length gr)) as [H|H].
        * left. intros ? ? [= <- <-]. exact H.
        * right. intros H'. apply H, (H' gd gr eq_refl).
      + apply step_merge; try assumption; [symmetry; assumption|]. intros Hg. apply Hrest; [exact Hg|discriminate].
      + intros s1 ((rest1 & Ec1 & Hl1 & Ht1) & Ef1 & En1 & Eg1).
        assert (Hsl1 : slice_ok s1 last first).
        { intros gd1 gr1 E. rewrite Eg1 in E. destruct (a_grams s) as [[gd gr]|] eqn:Eg; [|discriminate]. cbn in E. injection E as <- <-.
          destruct (Hsl gd gr Eg) as (g1 & g2 & -> & H1 & H2). exists g1, (g2 ++ added first r). rewrite <- !app_assoc. auto. }
        assert (Hrest1 : a_grams s1 <> None -> rs <> [] -> rest1 <> []).
        { intros Hg _. intros ->. apply Hrest; [|discriminate|destruct rest; [reflexivity|discriminate]]. rewrite Eg1 in Hg. destruct (a_grams s); [discriminate|contradiction]. }
        destruct (IH s1 rest1 Hrs His Ec1 ltac:(rewrite En1; exact Hn) Hsl1 Hrest1) as [H1 H2].
        assert (Hokeq : (forall gd gr, a_grams s1 = Some (gd, gr) -> grams_fit (length gr) (map (added first) rs)) <->
                        (forall gd gr, a_grams s = Some (gd, gr) -> grams_fit (length gr - length (added first r)) (map (added first) rs))).
        { rewrite Eg1. destruct (a_grams s) as [[gd gr]|]; [|split; discriminate]. cbn [option_map fst snd]. split; intros H.
          - intros ? ? [= <- <-]. specialize (H _ _ eq_refl). rewrite skipn_length in H. exact H.
          - intros ? ? [= <- <-]. rewrite skipn_length. apply (H _ _ eq_refl). }
        split.
        * intros Ho. destruct (H1 (proj2 Hokeq Ho)) as (s2 & ((rest2 & Ec2 & Hl2 & Ht2) & Ef2 & En2 & Eg2) & E2 & Hsz2). exists s2. split; [|split; assumption].
          split; [exists rest2; split; [exact Ec2|split; congruence]|]. split; [congruence|]. split; [congruence|]. rewrite Eg2, Eg1.
          destruct (a_grams s) as [[gd gr]|]; [|reflexivity]. cbn [option_map fst snd map concat]. rewrite <- app_assoc, app_length, skipn_skipn'. do 3 f_equal. lia.
        * intros Hno. apply H2. rewrite Hokeq. exact Hno.
      + cbn [map]. destruct (a_grams s) as [[gd gr]|]; [|split; [intros _; split|]; discriminate]. split.
        * intros H. split; intros ? ? [= <- <-]; specialize (H _ _ eq_refl); cbn [grams_fit] in *; tauto.
        * intros [H H'] ? ? [= <- <-]. specialize (H _ _ eq_refl). specialize (H' _ _ eq_refl). cbn [grams_fit] in *. tauto.
  Qed.
End Runs.
