(** * WildProofs2: what the pattern search over a class reports. *)
From Verif Require Import Base Serial SerialProofs WordTree TreeSpec WordTreeProofs FlatScan FlatScanProofs Stems StemSpec StemsProofs GramMap
  RusRuntime RusBuild RusSpec RusProofs Wild WildSpec WildProofs.
Local Open Scope N_scope.

Section Flex.
  Variable filter : N -> N -> bool.

  Lemma descs_ev_sound str inflex suffix l x : In x (descs_ev filter str inflex suffix l) ->
    exists g f, In (g, f) l /\ filter g f = true /\ x = (str, Gram 0 0 g f) /\ glob inflex suffix.
  Proof.
    unfold descs_ev. rewrite in_flat_map. intros ([g f] & Hin & Hx). cbn [fst snd] in Hx.
    destruct (filter g f) eqn:E; [|destruct Hx]. destruct (suf_ev_sound _ _ _ _ Hx) as [-> G].
    exists g, f. auto.
  Qed.

  Lemma descs_ev_complete str inflex suffix l g f : In (g, f) l -> filter g f = true -> glob inflex suffix -> ~ In 42 suffix ->
    In (str, Gram 0 0 g f) (descs_ev filter str inflex suffix l).
  Proof.
    intros Hin E G H. unfold descs_ev. apply in_flat_map. exists (g, f). split; [assumption|]. cbn [fst snd]. rewrite E.
    apply suf_ev_complete; assumption.
  Qed.

  Lemma flex_ev_sound fuel : forall t inflex suffix goZero path x,
    ordered t -> In x (flex_ev filter fuel t inflex suffix goZero path) ->
    exists e g f, listed t e g f /\ filter g f = true /\ x = (path ++ e ++ suffix, Gram 0 0 g f) /\ glob inflex (e ++ suffix).
  Proof.
    induction fuel as [|fuel IH]; intros t inflex suffix goZero path x Ho Hx; [destruct Hx|].
    destruct t as [l d]. inversion Ho as [? ? Hdesc Hbyte Hsub]; subst. cbn [flex_ev nested p_data] in Hx.
    assert (Hchild : forall c t' e g f, In (c, t') l -> listed t' e g f -> listed (WNode l d) (c :: e) g f).
    { intros c t' e g f Hin (dl & Hl & Hd). exists dl. split; [|assumption]. cbn [lookup nested].
      replace (assoc c l) with (Some t'); [assumption|].
      clear -Hdesc Hin. induction l as [|[c0 t0] l IHl]; [destruct Hin|]. cbn [assoc]. cbn [map fst descending] in Hdesc. destruct Hdesc as [H1 H2].
      destruct Hin as [[= -> ->]|Hin]; [rewrite N.eqb_refl; reflexivity|].
      destruct (N.eqb_spec c0 c) as [->|]; [|apply IHl; assumption].
      rewrite Forall_forall in H1. specialize (H1 c (in_map fst _ _ Hin)). cbn in H1. lia. }
    apply in_app_or in Hx. destruct Hx as [Hx|Hx].
    - destruct inflex as [|ch next]; [destruct Hx|]. apply in_app_or in Hx. destruct Hx as [Hx|Hx].
      + destruct (N.eqb_spec ch 42) as [->|]; cbn [andb] in Hx; [|destruct Hx]. destruct goZero; [|destruct Hx].
        destruct (IH _ _ _ _ _ _ Ho Hx) as (e & g & f & H1 & H2 & H3 & H4). exists e, g, f. repeat split; try assumption. apply glob_none. assumption.
      + apply in_flat_map in Hx. destruct Hx as ([c t'] & Hin & Hx). cbn [fst snd] in Hx.
        assert (Hok : forall inf b y, In y (flex_ev filter fuel t' inf suffix b (path ++ [c])) ->
          exists e g f, listed (WNode l d) (c :: e) g f /\ filter g f = true /\ y = (path ++ (c :: e) ++ suffix, Gram 0 0 g f) /\ glob inf (e ++ suffix)).
        { intros inf b y Hy. destruct (IH _ _ _ _ _ _ (Hsub c t' Hin) Hy) as (e & g & f & H1 & H2 & H3 & H4).
          exists e, g, f. split; [apply (Hchild c t'); assumption|]. split; [assumption|]. split; [|assumption].
          rewrite H3, <- app_assoc. reflexivity. }
        destruct (N.eqb_spec ch 63) as [->|Hq]; cbn [orb] in Hx.
        * destruct (Hok _ _ _ Hx) as (e & g & f & H1 & H2 & H3 & H4). exists (c :: e), g, f. repeat split; try assumption. apply glob_one. assumption.
        * destruct (N.eqb_spec c ch) as [->|Hc].
          -- destruct (Hok _ _ _ Hx) as (e & g & f & H1 & H2 & H3 & H4). exists (ch :: e), g, f. repeat split; try assumption.
             cbn [app]. destruct (N.eq_dec ch 42) as [->|]; [apply glob_more, glob_none; assumption|]. apply glob_same; assumption.
          -- destruct (N.eqb_spec ch 42) as [->|]; [|destruct Hx]. apply in_app_or in Hx. destruct Hx as [Hx|Hx].
             ++ destruct (Hok _ _ _ Hx) as (e & g & f & H1 & H2 & H3 & H4). exists (c :: e), g, f. repeat split; try assumption. apply glob_more, glob_none. assumption.
             ++ destruct (Hok _ _ _ Hx) as (e & g & f & H1 & H2 & H3 & H4). exists (c :: e), g, f. repeat split; try assumption. apply glob_more. assumption.
    - destruct (negb (nonempty inflex) || nonempty suffix); [|destruct Hx]. destruct d as [dl|]; [|destruct Hx].
      destruct (descs_ev_sound _ _ _ _ _ Hx) as (g & f & H1 & H2 & H3 & H4).
      exists [], g, f. split; [exists dl; split; [reflexivity|assumption]|]. repeat split; assumption.
  Qed.

  Lemma flex_ev_complete_aux m : forall e t inflex suffix path g f,
    (length e + length inflex <= m)%nat ->
    listed t e g f -> filter g f = true -> glob inflex (e ++ suffix) -> ~ In 42 (e ++ suffix) ->
    (forall fuel, (m < fuel)%nat -> In (path ++ e ++ suffix, Gram 0 0 g f) (flex_ev filter fuel t inflex suffix true path)) /\
    (forall p fuel, inflex = 42 :: p -> (m < fuel)%nat ->
       In (path ++ e ++ suffix, Gram 0 0 g f) (flex_ev filter fuel t p suffix true path) \/
       In (path ++ e ++ suffix, Gram 0 0 g f) (flex_ev filter fuel t inflex suffix false path)).
  Proof.
    induction m as [m IH] using lt_wf_ind. intros e t inflex suffix path g f Hm Hl Hf G H42.
    destruct t as [l d].
    (* at the node itself *)
    assert (Hdata : forall b fuel, e = [] -> (inflex = [] \/ suffix <> []) -> (0 < fuel)%nat ->
      In (path ++ e ++ suffix, Gram 0 0 g f) (flex_ev filter fuel (WNode l d) inflex suffix b path)).
    { intros b fuel -> Hc Hfu. destruct fuel as [|fuel]; [lia|]. cbn [flex_ev p_data]. apply in_or_app. right.
      destruct Hl as (dl & Hd & Hin). cbn in Hd. rewrite Hd.
      assert (E : negb (nonempty inflex) || nonempty suffix = true).
      { destruct Hc as [->|Hc]; [reflexivity|]. destruct suffix; [contradiction|]. destruct inflex; reflexivity. }
      rewrite E. cbn [app] in *. apply descs_ev_complete; assumption. }
    (* below a child *)
    assert (Hsub : forall c e', e = c :: e' -> exists t', In (c, t') l /\ listed t' e' g f /\ c <> 42 /\ ~ In 42 (e' ++ suffix)).
    { intros c e' ->. destruct Hl as (dl & Hd & Hin). cbn [lookup nested] in Hd. destruct (assoc c l) as [t'|] eqn:E; [|discriminate].
      exists t'. split; [apply assoc_in; assumption|]. split; [exists dl; auto|]. cbn [app In] in H42. split; [intros ->; apply H42; auto|].
      intros K. apply H42. right. exact K. }
    remember (e ++ suffix) as str eqn:Es in G. remember inflex as inf eqn:Ei in G.
    destruct G as [|c p s Hc1 Hc2 G'|c p s G'|p s G'|c p s G']; pose proof (eq_sym Ei) as E1; pose proof Es as E2; clear Ei.
    - (* [] *) split; [|intros p' fuel E; subst inflex; discriminate].
      intros fuel Hfu. symmetry in E2. apply app_eq_nil in E2. destruct E2 as [-> ->]. apply Hdata; [reflexivity|left; assumption|lia].
    - (* literal *) split; [|intros p' fuel E; rewrite E1 in E; injection E as E _; congruence].
      intros fuel Hfu. destruct e as [|c' e'].
      + apply Hdata; [reflexivity| |lia]. right. intros ->. discriminate.
      + injection E2 as -> ->. destruct (Hsub _ _ eq_refl) as (t' & Hin & Hl' & Hne & H42').
        destruct fuel as [|fuel]; [lia|]. cbn [flex_ev nested]. apply in_or_app. left. rewrite E1 in *. apply in_or_app. right.
        apply in_flat_map. exists (c', t'). split; [assumption|]. cbn [fst snd]. rewrite N.eqb_refl, orb_true_r.
        cbn [length] in Hm. destruct (IH (m - 2)%nat ltac:(lia) e' t' p suffix (path ++ [c']) g f ltac:(lia) Hl' Hf G' H42') as [K _].
        specialize (K fuel ltac:(lia)). rewrite <- app_assoc in K. exact K.
    - (* ? *) split; [|intros p' fuel E; subst inflex; discriminate].
      intros fuel Hfu. destruct e as [|c' e'].
      + apply Hdata; [reflexivity| |lia]. right. intros ->. discriminate.
      + injection E2 as -> ->. destruct (Hsub _ _ eq_refl) as (t' & Hin & Hl' & Hne & H42').
        destruct fuel as [|fuel]; [lia|]. cbn [flex_ev nested]. apply in_or_app. left. rewrite E1 in *. apply in_or_app. right.
        apply in_flat_map. exists (c', t'). split; [assumption|]. cbn [fst snd]. change (63 =? 63) with true. cbn [orb].
        cbn [length] in Hm. destruct (IH (m - 2)%nat ltac:(lia) e' t' p suffix (path ++ [c']) g f ltac:(lia) Hl' Hf G' H42') as [K _].
        specialize (K fuel ltac:(lia)). rewrite <- app_assoc in K. exact K.
    - (* star, nothing *) subst inflex. rewrite E2 in G'. cbn [length] in Hm.
      destruct (IH (m - 1)%nat ltac:(lia) e (WNode l d) p suffix path g f ltac:(lia) Hl Hf G' H42) as [K _].
      split.
      + intros fuel Hfu. destruct fuel as [|fuel]; [lia|]. specialize (K fuel ltac:(lia)).
        cbn [flex_ev]. apply in_or_app. left. apply in_or_app. left. exact K.
      + intros p' fuel [= <-] Hfu. left. apply K. lia.
    - (* star, more *) subst inflex. cbn [length] in Hm. destruct e as [|c' e'].
      + assert (suffix <> []) by (intros ->; discriminate).
        split; [intros fuel Hfu; apply Hdata; [reflexivity|right; assumption|lia]|].
        intros p' fuel [= <-] Hfu. right. apply Hdata; [reflexivity|right; assumption|lia].
      + injection E2 as -> ->. destruct (Hsub _ _ eq_refl) as (t' & Hin & Hl' & Hne & H42').
        cbn [length] in Hm.
        destruct (IH (m - 1)%nat ltac:(lia) e' t' (42 :: p) suffix (path ++ [c']) g f ltac:(cbn [length]; lia) Hl' Hf G' H42') as [_ K].
        assert (Hgo : forall b fuel, (m < fuel)%nat -> In (path ++ (c' :: e') ++ suffix, Gram 0 0 g f) (flex_ev filter fuel (WNode l d) (42 :: p) suffix b path)).
        { intros b fuel Hfu. destruct fuel as [|fuel]; [lia|]. specialize (K p fuel eq_refl ltac:(lia)). rewrite <- !app_assoc in K.
          cbn [flex_ev nested]. apply in_or_app. left. apply in_or_app. right. apply in_flat_map. exists (c', t'). split; [assumption|]. cbn [fst snd].
          change (42 =? 63) with false. change (42 =? 42) with true. cbn [orb].
          destruct (N.eqb_spec c' 42); [contradiction|]. apply in_or_app. exact K. }
        split; [apply Hgo|]. intros p' fuel [= <-] Hfu. right. apply Hgo. assumption.
  Qed.

  Lemma flex_ev_complete e t inflex suffix path g f fuel :
    listed t e g f -> filter g f = true -> glob inflex (e ++ suffix) -> ~ In 42 (e ++ suffix) -> (length e + length inflex < fuel)%nat ->
    In (path ++ e ++ suffix, Gram 0 0 g f) (flex_ev filter fuel t inflex suffix true path).
  Proof.
    intros H1 H2 H3 H4 H5. destruct (flex_ev_complete_aux (length e + length inflex) e t inflex suffix path g f (le_n _) H1 H2 H3 H4) as [K _].
    apply K. assumption.
  Qed.
End Flex.

(** ** Alternations *)
Section Swap.
  Context {St : Type}.
  Variable output : bytes -> gram -> St -> res (St * Z).
  Notation out := (fun s (x : bytes * gram) => output (fst x) (snd x) s).
  Variable filter : N -> N -> bool.
  Variable t : wtree (list (N * N)).
  Variable rest : bytes.
  Variable suffix : bytes.
  Notation table := (serialize C8 flex_ser flex_len t ++ rest).

  Fixpoint swap_ev (szswap : bytes) : bytes -> bytes -> list (bytes * gram) :=
    fix inner (inflex : bytes) (path : bytes) : list (bytes * gram) :=
      match szswap with
      | [] => flex_ev filter (S (length table + length inflex)) t inflex suffix true path
      | z :: szswap' =>
          match inflex with
          | [] => []
          | a :: inflex' =>
              if z =? a then swap_ev szswap' inflex' (path ++ [z])
              else if negb (is_wildcard a) then []
              else if a =? 63 then swap_ev szswap' inflex' (path ++ [z])
              else inner inflex' path ++ swap_ev szswap' inflex (path ++ [z])
          end
      end.

  Lemma swap_ev_cons z sz a inflex path :
    swap_ev (z :: sz) (a :: inflex) path =
    (if z =? a then swap_ev sz inflex (path ++ [z])
     else if negb (is_wildcard a) then []
     else if a =? 63 then swap_ev sz inflex (path ++ [z])
     else swap_ev (z :: sz) inflex path ++ swap_ev sz (a :: inflex) (path ++ [z])).
  Proof. reflexivity. Qed.

  Lemma swap_search_cons z sz a inflex mem n s :
    swap_search output filter (z :: sz) table suffix (a :: inflex) mem n s =
    (let! mem := mem_write mem n z in
     if z =? a then swap_search output filter sz table suffix inflex mem (S n) s
     else if negb (is_wildcard a) then Ok (mem, s, 0%Z)
     else if a =? 63 then swap_search output filter sz table suffix inflex mem (S n) s
     else let! (mem, s, r) := swap_search output filter (z :: sz) table suffix inflex mem n s in
          if Z.eqb r 0 then swap_search output filter sz table suffix (a :: inflex) mem (S n) s else Ok (mem, s, r)).
  Proof. reflexivity. Qed.

  (** Nothing before position [n + 1] changes when the search starts at [n] with byte [z] stored there. *)
  Lemma swap_search_does (Hd : flex_dump t) h (Hh : within h t) sz : forall inflex mem n s,
    (n + length sz + h + length suffix <= length mem)%nat ->
    does (swap_search output filter sz table suffix inflex mem n s) n mem
         (until_nonzero out (swap_ev sz inflex (firstn n mem)) s) /\
    (forall z sz', sz = z :: sz' -> firstn (S n) mem = firstn n mem ++ [z] ->
     does (swap_search output filter sz table suffix inflex mem n s) (S n) mem
         (until_nonzero out (swap_ev sz inflex (firstn n mem)) s)).
  Proof.
    induction sz as [|z sz IH].
    - intros inflex mem n s Hm. split; [|intros; discriminate].
      assert (E : forall i p, swap_ev [] i p = flex_ev filter (S (length table + length i)) t i suffix true p) by (intros i p; destruct i; reflexivity).
      assert (E' : swap_search output filter [] table suffix inflex mem n s = flex_search output filter (S (length table + length inflex)) table inflex suffix true mem n s)
        by (destruct inflex; reflexivity).
      rewrite E, E'. cbn [length] in Hm. apply flex_search_does with h; try assumption; [|lia].
      rewrite app_length. lia.
    - induction inflex as [|a inflex IHi]; intros mem n s Hm.
      + split; [apply does_ok|intros; apply does_ok].
      + enough (G : forall mem1, length mem1 = length mem -> firstn (S n) mem1 = firstn n mem ++ [z] ->
            does (if z =? a then swap_search output filter sz table suffix inflex mem1 (S n) s
                  else if negb (is_wildcard a) then Ok (mem1, s, 0%Z)
                  else if a =? 63 then swap_search output filter sz table suffix inflex mem1 (S n) s
                  else let! (mem, s, r) := swap_search output filter (z :: sz) table suffix inflex mem1 n s in
                       if Z.eqb r 0 then swap_search output filter sz table suffix (a :: inflex) mem (S n) s else Ok (mem, s, r)) (S n) mem1
                 (until_nonzero out (swap_ev (z :: sz) (a :: inflex) (firstn n mem)) s)).
        { destruct (write_facts mem n z) as (mem1 & E & L1 & F1 & F1'); [cbn [length] in Hm; lia|].
          rewrite swap_search_cons, E. cbn [bind]. specialize (G mem1 L1 F1). split.
          - apply does_from with mem1; [apply does_less; assumption|assumption|assumption].
          - intros z' sz' [= <- <-] Hz. apply does_from with mem1; [assumption|assumption|congruence]. }
        intros mem1 L1 F1. cbn [length] in Hm.
        assert (F0 : firstn n mem1 = firstn n mem).
        { assert (length (firstn n mem) = n) by (rewrite firstn_length; lia).
          rewrite <- (Nat.min_l n (S n)) at 1 by lia. rewrite <- firstn_firstn, F1. rewrite firstn_app.
          replace (n - length (firstn n mem))%nat with 0%nat by lia. cbn [firstn]. rewrite app_nil_r. apply firstn_all2. lia. }
        rewrite swap_ev_cons. rewrite <- F1.
        destruct (z =? a); [apply IH; lia|].
        destruct (negb (is_wildcard a)); [apply does_ok|].
        destruct (a =? 63); [apply IH; lia|].
        apply does_app.
        * rewrite <- F0. apply (proj2 (IHi mem1 n s ltac:(cbn [length]; lia)) z sz eq_refl). congruence.
        * intros mem2 s2 L2 F2. rewrite <- F2. apply IH. lia.
  Qed.

  Lemma swap_ev_sound (Ho : ordered t) sz : forall inflex path x, In x (swap_ev sz inflex path) ->
    exists e g f, listed t e g f /\ filter g f = true /\ x = (path ++ sz ++ e ++ suffix, Gram 0 0 g f) /\ glob inflex (sz ++ e ++ suffix).
  Proof.
    induction sz as [|z sz IH].
    - intros inflex path x Hx. assert (Hx' : In x (flex_ev filter (S (length table + length inflex)) t inflex suffix true path)) by (destruct inflex; exact Hx).
      apply flex_ev_sound in Hx'; assumption.
    - induction inflex as [|a inflex IHi]; intros path x Hx; [destruct Hx|]. rewrite swap_ev_cons in Hx.
      assert (Hn : forall inf y, In y (swap_ev sz inf (path ++ [z])) ->
        exists e g f, listed t e g f /\ filter g f = true /\ y = (path ++ (z :: sz) ++ e ++ suffix, Gram 0 0 g f) /\ glob inf (sz ++ e ++ suffix)).
      { intros inf y Hy. destruct (IH _ _ _ Hy) as (e & g & f & H1 & H2 & H3 & H4). exists e, g, f. repeat split; try assumption.
        rewrite H3, <- app_assoc. reflexivity. }
      destruct (N.eqb_spec z a) as [->|Hza].
      + destruct (Hn _ _ Hx) as (e & g & f & H1 & H2 & H3 & H4). exists e, g, f. repeat split; try assumption. cbn [app].
        destruct (N.eq_dec a 42) as [->|]; [apply glob_more, glob_none; assumption|].
        destruct (N.eq_dec a 63) as [->|]; [apply glob_one; assumption|apply glob_same; assumption].
      + unfold is_wildcard in Hx. destruct (N.eqb_spec a 42) as [->|]; cbn [orb negb] in Hx.
        * change (42 =? 63) with false in Hx. cbn iota in Hx. apply in_app_or in Hx. destruct Hx as [Hx|Hx].
          -- destruct (IHi _ _ Hx) as (e & g & f & H1 & H2 & H3 & H4). exists e, g, f. repeat split; try assumption. apply glob_none. assumption.
          -- destruct (Hn _ _ Hx) as (e & g & f & H1 & H2 & H3 & H4). exists e, g, f. repeat split; try assumption. apply glob_more. assumption.
        * destruct (N.eqb_spec a 63) as [->|]; cbn [orb negb] in Hx; [|destruct Hx].
          destruct (Hn _ _ Hx) as (e & g & f & H1 & H2 & H3 & H4). exists e, g, f. repeat split; try assumption. apply glob_one. assumption.
  Qed.

  Lemma swap_ev_complete e g f : listed t e g f -> filter g f = true -> (length e <= length table)%nat ->
    forall sz inflex path, glob inflex (sz ++ e ++ suffix) -> ~ In 42 (sz ++ e ++ suffix) ->
    In (path ++ sz ++ e ++ suffix, Gram 0 0 g f) (swap_ev sz inflex path).
  Proof.
    intros Hl Hf He. induction sz as [|z sz IH].
    - intros inflex path G H. assert (In (path ++ e ++ suffix, Gram 0 0 g f) (flex_ev filter (S (length table + length inflex)) t inflex suffix true path))
        by (apply flex_ev_complete; try assumption; lia).
      destruct inflex; assumption.
    - induction inflex as [|a inflex IHi]; intros path G H; [inversion G|]. rewrite swap_ev_cons. cbn [app In] in H.
      assert (Hn : forall inf, glob inf (sz ++ e ++ suffix) -> In (path ++ (z :: sz) ++ e ++ suffix, Gram 0 0 g f) (swap_ev sz inf (path ++ [z]))).
      { intros inf Gi. specialize (IH inf (path ++ [z]) Gi). rewrite <- app_assoc in IH. apply IH. intros K. apply H. right. exact K. }
      inversion G as [|c p s Hc1 Hc2 G' E1 E2|c p s G' E1 E2|p s G' E1 E2|c p s G' E1 E2]; subst.
      + rewrite N.eqb_refl. apply Hn. assumption.
      + destruct (z =? 63); [apply Hn; assumption|]. change (negb (is_wildcard 63)) with false. change (63 =? 63) with true. cbn iota. apply Hn. assumption.
      + destruct (N.eqb_spec z 42) as [->|]; [exfalso; apply H; left; reflexivity|]. change (negb (is_wildcard 42)) with false. change (42 =? 63) with false. cbn iota.
        apply in_or_app. left. apply IHi; assumption.
      + destruct (N.eqb_spec z 42) as [->|]; [exfalso; apply H; left; reflexivity|]. change (negb (is_wildcard 42)) with false. change (42 =? 63) with false. cbn iota.
        apply in_or_app. right. apply Hn. assumption.
  Qed.
End Swap.
