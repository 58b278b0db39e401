(** * WildProofs: matching a pattern with postfix, inflexion tree and alternations. *)
From Verif Require Import Base Serial SerialProofs WordTree TreeSpec WordTreeProofs FlatScan FlatScanProofs Stems StemSpec StemsProofs GramMap
  RusRuntime RusBuild RusSpec RusProofs Wild WildSpec.
Local Open Scope N_scope.

(** ** The array *)
Lemma write_facts (mem : bytes) (n : nat) (c : N) : (n < length mem)%nat ->
  exists mem', mem_write mem n c = Ok mem' /\ length mem' = length mem /\ firstn (S n) mem' = firstn n mem ++ [c] /\
               firstn n mem' = firstn n mem.
Proof.
  intros H. unfold mem_write. destruct (Nat.ltb_spec n (length mem)) as [_|?]; [|lia].
  eexists. split; [reflexivity|].
  assert (Hn : length (firstn n mem) = n) by (rewrite firstn_length; lia).
  split; [|split].
  - rewrite app_length, Hn. cbn [length]. rewrite skipn_length. lia.
  - replace (S n) with (length (firstn n mem) + 1)%nat by lia. rewrite firstn_app_2. reflexivity.
  - replace n with (length (firstn n mem) + 0)%nat at 1 by lia. rewrite firstn_app_2. cbn. rewrite app_nil_r. reflexivity.
Qed.

Lemma firstn_less {X} n (a b : list X) : firstn (S n) a = firstn (S n) b -> firstn n a = firstn n b.
Proof.
  intros H. rewrite <- (Nat.min_l n (S n)) by lia. rewrite <- !firstn_firstn. rewrite H. reflexivity.
Qed.

Section Does.
  Context {St : Type}.
  (** The step [m] keeps the first [n] bytes of the array [mem] and does to the state what [m'] says. *)
  Definition does (m : wres St) (n : nat) (mem : bytes) (m' : res (St * Z)) : Prop :=
    match m' with
    | Ub => m = Ub
    | Ok (s, r) => exists mem', m = Ok (mem', s, r) /\ length mem' = length mem /\ firstn n mem' = firstn n mem
    end.

  (** ... also reaching position [p] when it answers zero. *)
  Definition doesp (m : res (bytes * bytes * St * Z)) (n : nat) (mem : bytes) (p : bytes) (m' : res (St * Z)) : Prop :=
    match m' with
    | Ub => m = Ub
    | Ok (s, r) => exists q mem', m = Ok (q, mem', s, r) /\ (r = 0%Z -> q = p) /\ length mem' = length mem /\ firstn n mem' = firstn n mem
    end.

  Lemma does_ok mem n s r : does (Ok (mem, s, r)) n mem (Ok (s, r)).
  Proof. exists mem. auto. Qed.

  Lemma does_less m n mem m' : does m (S n) mem m' -> does m n mem m'.
  Proof.
    destruct m' as [[s r]|]; cbn; [|auto]. intros (mem' & ? & ? & ?). exists mem'.
    split; [assumption|]. split; [assumption|]. apply firstn_less. assumption.
  Qed.

  Lemma does_from m n mem mem0 m' : does m n mem m' -> length mem = length mem0 -> firstn n mem = firstn n mem0 -> does m n mem0 m'.
  Proof.
    destruct m' as [[s r]|]; cbn; [|auto]. intros (mem' & ? & ? & ?) Hl Hf. exists mem'.
    repeat split; try assumption; congruence.
  Qed.

  Lemma doesp_from m n mem mem0 p m' : doesp m n mem p m' -> length mem = length mem0 -> firstn n mem = firstn n mem0 -> doesp m n mem0 p m'.
  Proof.
    destruct m' as [[s r]|]; cbn; [|auto]. intros (q & mem' & ? & ? & ? & ?) Hl Hf. exists q, mem'.
    repeat split; try assumption; congruence.
  Qed.

  Lemma does_bind m n mem m' (k : bytes -> St -> wres St) (k' : St -> res (St * Z)) :
    does m n mem m' ->
    (forall mem' s, length mem' = length mem -> firstn n mem' = firstn n mem -> does (k mem' s) n mem' (k' s)) ->
    does (let! (mem, s, r) := m in if Z.eqb r 0 then k mem s else Ok (mem, s, r)) n mem
         (let! (s, r) := m' in if Z.eqb r 0 then k' s else Ok (s, r)).
  Proof.
    destruct m' as [[s r]|]; cbn; [|intros ->; reflexivity]. intros (mem' & -> & Hl & Hf) Hk. cbn.
    destruct (Z.eqb_spec r 0); [|exists mem'; auto].
    eapply does_from; [apply Hk; assumption|assumption|assumption].
  Qed.

  Lemma doesp_bind m n mem m' p (q : bytes) (k : bytes -> St -> res (bytes * bytes * St * Z)) (k' : St -> res (St * Z)) :
    does m n mem m' ->
    (forall mem' s, length mem' = length mem -> firstn n mem' = firstn n mem -> doesp (k mem' s) n mem' p (k' s)) ->
    doesp (let! (mem, s, r) := m in if Z.eqb r 0 then k mem s else Ok (q, mem, s, r)) n mem p
         (let! (s, r) := m' in if Z.eqb r 0 then k' s else Ok (s, r)).
  Proof.
    destruct m' as [[s r]|]; cbn; [|intros ->; reflexivity]. intros (mem' & -> & Hl & Hf) Hk. cbn.
    destruct (Z.eqb_spec r 0); [|exists q, mem'; repeat split; auto; contradiction].
    eapply doesp_from; [apply Hk; assumption|assumption|assumption].
  Qed.

  Lemma does_bindp m n mem m' p (k : bytes -> bytes -> St -> wres St) (k' : St -> res (St * Z)) :
    doesp m n mem p m' ->
    (forall mem' s, length mem' = length mem -> firstn n mem' = firstn n mem -> does (k p mem' s) n mem' (k' s)) ->
    does (let! (p, mem, s, r) := m in if Z.eqb r 0 then k p mem s else Ok (mem, s, r)) n mem
         (let! (s, r) := m' in if Z.eqb r 0 then k' s else Ok (s, r)).
  Proof.
    destruct m' as [[s r]|]; cbn; [|intros ->; reflexivity]. intros (q & mem' & -> & Hq & Hl & Hf) Hk. cbn.
    destruct (Z.eqb_spec r 0) as [E|]; [|exists mem'; auto]. rewrite (Hq E).
    eapply does_from; [apply Hk; assumption|assumption|assumption].
  Qed.

  Lemma until_app' {X} (h : St -> X -> res (St * Z)) l1 l2 s :
    until_nonzero h (l1 ++ l2) s =
    let! (s', r) := until_nonzero h l1 s in if Z.eqb r 0 then until_nonzero h l2 s' else Ok (s', r).
  Proof.
    revert s. induction l1 as [|a l1 IH]; intros s; [reflexivity|]. cbn. destruct (h s a) as [[s' r]|]; [|reflexivity]. cbn.
    destruct (Z.eqb_spec r 0) as [->|Hr]; [apply IH|]. cbn. destruct (Z.eqb_spec r 0); [contradiction|reflexivity].
  Qed.

  Lemma does_app {X} (h : St -> X -> res (St * Z)) l1 l2 m n mem (k : bytes -> St -> wres St) s :
    does m n mem (until_nonzero h l1 s) ->
    (forall mem' s, length mem' = length mem -> firstn n mem' = firstn n mem -> does (k mem' s) n mem' (until_nonzero h l2 s)) ->
    does (let! (mem, s, r) := m in if Z.eqb r 0 then k mem s else Ok (mem, s, r)) n mem (until_nonzero h (l1 ++ l2) s).
  Proof. intros H1 H2. rewrite until_app'. apply does_bind; assumption. Qed.

  Lemma doesp_app {X} (h : St -> X -> res (St * Z)) l1 l2 m n mem p q k s :
    does m n mem (until_nonzero h l1 s) ->
    (forall mem' s, length mem' = length mem -> firstn n mem' = firstn n mem -> doesp (k mem' s) n mem' p (until_nonzero h l2 s)) ->
    doesp (let! (mem, s, r) := m in if Z.eqb r 0 then k mem s else Ok (q, mem, s, r)) n mem p (until_nonzero h (l1 ++ l2) s).
  Proof. intros H1 H2. rewrite until_app'. apply doesp_bind; assumption. Qed.

  Lemma does_appp {X} (h : St -> X -> res (St * Z)) l1 l2 m n mem p k s :
    doesp m n mem p (until_nonzero h l1 s) ->
    (forall mem' s, length mem' = length mem -> firstn n mem' = firstn n mem -> does (k p mem' s) n mem' (until_nonzero h l2 s)) ->
    does (let! (p, mem, s, r) := m in if Z.eqb r 0 then k p mem s else Ok (mem, s, r)) n mem (until_nonzero h (l1 ++ l2) s).
  Proof. intros H1 H2. rewrite until_app'. eapply does_bindp; eassumption. Qed.
End Does.

(** ** Postfix *)
Fixpoint suf_ev {X} (x : X) (inflex : bytes) : bytes -> list X :=
  fix inner (suffix : bytes) : list X :=
    match inflex with
    | [] => match suffix with [] => [x] | _ => [] end
    | a :: inflex' =>
        match suffix with
        | [] => if a =? 42 then suf_ev x inflex' [] else []
        | b :: suffix' =>
            if a =? b then suf_ev x inflex' suffix'
            else if a =? 42 then suf_ev x inflex' suffix ++ inner suffix'
            else if a =? 63 then suf_ev x inflex' suffix' else []
        end
    end.

Lemma suf_ev_cons {X} (x : X) a inflex b suffix :
  suf_ev x (a :: inflex) (b :: suffix) =
  (if a =? b then suf_ev x inflex suffix
   else if a =? 42 then suf_ev x inflex (b :: suffix) ++ suf_ev x (a :: inflex) suffix
   else if a =? 63 then suf_ev x inflex suffix else []).
Proof. reflexivity. Qed.

Lemma suf_ev_sound {X} (x : X) inflex : forall suffix y, In y (suf_ev x inflex suffix) -> y = x /\ glob inflex suffix.
Proof.
  induction inflex as [|a inflex IH]; intros suffix.
  - destruct suffix; cbn; [|tauto]. intros y [<-|[]]. split; [reflexivity|constructor].
  - induction suffix as [|b suffix IHs]; intros y Hy; cbn in Hy.
    + destruct (N.eqb_spec a 42) as [->|]; [|destruct Hy]. destruct (IH _ _ Hy). split; [assumption|]. constructor. assumption.
    + destruct (N.eqb_spec a b) as [->|].
      * destruct (IH _ _ Hy) as [? G]. split; [assumption|].
        destruct (N.eq_dec b 42) as [->|]; [apply glob_more, glob_none, G|].
        destruct (N.eq_dec b 63) as [->|]; [apply glob_one, G|]. apply glob_same; assumption.
      * destruct (N.eqb_spec a 42) as [->|].
        -- apply in_app_or in Hy. destruct Hy as [Hy|Hy].
           ++ destruct (IH _ _ Hy). split; [assumption|]. apply glob_none. assumption.
           ++ destruct (IHs _ Hy). split; [assumption|]. apply glob_more. assumption.
        -- destruct (N.eqb_spec a 63) as [->|]; [|destruct Hy].
           destruct (IH _ _ Hy). split; [assumption|]. apply glob_one. assumption.
Qed.

Lemma suf_ev_complete {X} (x : X) inflex suffix : glob inflex suffix -> ~ In 42 suffix -> In x (suf_ev x inflex suffix).
Proof.
  induction 1 as [|c p s H1 H2 G IH|c p s G IH|p s G IH|c p s G IH]; intros H.
  - left. reflexivity.
  - cbn [suf_ev]. rewrite N.eqb_refl. apply IH. intros K. apply H. right. exact K.
  - cbn [suf_ev]. change (63 =? 42) with false. change (63 =? 63) with true. cbn iota.
    destruct (63 =? c); apply IH; intros K; apply H; right; exact K.
  - destruct s as [|b s]; cbn [suf_ev]; change (42 =? 42) with true; cbn iota; [apply IH; assumption|].
    destruct (N.eqb_spec 42 b) as [<-|]; [exfalso; apply H; left; reflexivity|]. apply in_or_app. left. apply IH. assumption.
  - cbn [suf_ev]. change (42 =? 42) with true. cbn iota.
    destruct (N.eqb_spec 42 c) as [<-|]; [exfalso; apply H; left; reflexivity|]. apply in_or_app. right.
    apply IH. intros K. apply H. right. exact K.
Qed.

Section Classes.
  Context {St : Type}.
  Variable output : bytes -> gram -> St -> res (St * Z).
  Notation out := (fun s (x : bytes * gram) => output (fst x) (snd x) s).

  Lemma scan_suffix_cons gr a inflex b suffix mem l s :
    scan_suffix output (a :: inflex) gr (b :: suffix) mem l s =
    (if a =? b then let! mem := mem_write mem l b in scan_suffix output inflex gr suffix mem (S l) s
     else if a =? 42 then
       let! (mem, s, r) := scan_suffix output inflex gr (b :: suffix) mem l s in
       if Z.eqb r 0 then let! mem := mem_write mem l b in scan_suffix output (a :: inflex) gr suffix mem (S l) s else Ok (mem, s, r)
     else if a =? 63 then let! mem := mem_write mem l b in scan_suffix output inflex gr suffix mem (S l) s
     else Ok (mem, s, 0%Z)).
  Proof. reflexivity. Qed.

  Lemma scan_suffix_does gr inflex : forall suffix mem l s, (l + length suffix <= length mem)%nat ->
    does (scan_suffix output inflex gr suffix mem l s) l mem
         (until_nonzero out (suf_ev (firstn l mem ++ suffix, gr) inflex suffix) s).
  Proof.
    induction inflex as [|a inflex IH].
    - intros suffix. destruct suffix as [|b suffix]; intros mem l s H; cbn [scan_suffix suf_ev].
      + unfold wild_call. destruct (Nat.ltb_spec (length mem) l) as [?|_]; [cbn in *; lia|].
        cbn [until_nonzero fst snd]. rewrite app_nil_r.
        destruct (output (firstn l mem) gr s) as [[s' r]|]; cbn; [|reflexivity].
        destruct (Z.eqb_spec r 0) as [->|]; exists mem; auto.
      + apply does_ok.
    - assert (Hw : forall b suffix mem l s, (l + length (b :: suffix) <= length mem)%nat ->
        does (let! mem := mem_write mem l b in scan_suffix output inflex gr suffix mem (S l) s) l mem
             (until_nonzero out (suf_ev (firstn l mem ++ b :: suffix, gr) inflex suffix) s)).
      { intros b suff mem l s H. cbn [length] in H. destruct (write_facts mem l b) as (mem' & -> & Hl & Hf & Hf'); [lia|]. cbn [bind].
        replace (firstn l mem ++ b :: suff) with (firstn (S l) mem' ++ suff) by (rewrite Hf, <- app_assoc; reflexivity).
        apply does_from with mem'; [apply does_less, IH; lia|assumption|assumption]. }
      intros suffix. induction suffix as [|b suffix IHs]; intros mem l s H; [cbn [scan_suffix suf_ev]|rewrite scan_suffix_cons, suf_ev_cons].
      + destruct (a =? 42); [|apply does_ok].
        specialize (IH [] mem l s H).
        destruct (until_nonzero _ _ s) as [[s' r]|] eqn:E; cbn [does] in IH |- *; [|rewrite IH; reflexivity].
        destruct IH as (mem' & -> & ? & ?). cbn [bind]. exists mem'. destruct (Z.eqb_spec r 0) as [->|]; auto.
      + destruct (a =? b); [apply Hw; assumption|].
        destruct (a =? 42); [|destruct (a =? 63); [apply Hw; assumption|apply does_ok]].
        apply does_app; [apply IH; assumption|]. intros mem1 s1 Hl1 Hf1.
        destruct (write_facts mem1 l b) as (mem' & E & Hl & Hf & Hf'); [rewrite Hl1; cbn [length] in H; lia|]. rewrite E. cbn [bind].
        replace (firstn l mem ++ b :: suffix) with (firstn (S l) mem' ++ suffix) by (rewrite Hf, Hf1, <- app_assoc; reflexivity).
        apply does_from with mem'; [apply does_less|assumption|assumption].
        apply (IHs mem' (S l) s1). rewrite Hl, Hl1. cbn [length] in H. lia.
  Qed.

  (** ** Inflexion tree *)
  Variable filter : N -> N -> bool.

  Definition descs_ev (str : bytes) (inflex suffix : bytes) (l : list (N * N)) : list (bytes * gram) :=
    flat_map (fun gf => if filter (fst gf) (snd gf) then suf_ev (str, Gram 0 0 (fst gf) (snd gf)) inflex suffix else []) l.

  Lemma wild_descs_does inflex suffix l : forall junk mem n s,
    Forall (fun gf => fst gf < 2 ^ 16 /\ snd gf < 256) l -> (n + length suffix <= length mem)%nat ->
    does (wild_descs output filter (length l) (flat_map (fun gf => putword16 (fst gf) ++ [snd gf]) l ++ junk) inflex suffix mem n s) n mem
         (until_nonzero out (descs_ev (firstn n mem ++ suffix) inflex suffix l) s).
  Proof.
    induction l as [|[g f] l IH]; intros junk mem n s Hl Hn; [apply does_ok|].
    inversion Hl as [|? ? [Hg Hf] Hl']; subst. cbn [fst snd] in Hg, Hf.
    cbn [length wild_descs flat_map fst snd]. rewrite <- !app_assoc.
    rewrite getword16_put by assumption. cbn [bind app rd].
    unfold descs_ev. cbn [flat_map fst snd]. fold (descs_ev (firstn n mem ++ suffix) inflex suffix l).
    destruct (filter g f); [|apply IH; assumption].
    apply does_app; [apply scan_suffix_does; assumption|].
    intros mem' s' E1 E2. rewrite <- E2. apply IH; [assumption|rewrite E1; assumption].
  Qed.

  Fixpoint flex_ev (fuel : nat) (t : wtree (list (N * N))) (inflex suffix : bytes) (goZero : bool) (path : bytes) : list (bytes * gram) :=
    match fuel with
    | O => []
    | S fuel' =>
        (match inflex with
         | [] => []
         | ch :: next =>
             (if (ch =? 42) && goZero then flex_ev fuel' t next suffix true path else [])
             ++ flat_map (fun ct =>
                  if (ch =? 63) || (fst ct =? ch) then flex_ev fuel' (snd ct) next suffix true (path ++ [fst ct])
                  else if ch =? 42
                       then flex_ev fuel' (snd ct) next suffix true (path ++ [fst ct])
                            ++ flex_ev fuel' (snd ct) inflex suffix false (path ++ [fst ct])
                       else []) (nested t)
         end)
        ++ (if negb (nonempty inflex) || nonempty suffix
            then match p_data t with Some l => descs_ev (path ++ suffix) inflex suffix l | None => [] end else [])
    end.

  Notation fser t := (serialize C8 flex_ser flex_len t).

  Lemma flex_ser_len l : N.of_nat (length (flex_ser l)) = flex_len l.
  Proof.
    unfold flex_ser, flex_len. cbn [length]. enough (length (flat_map (fun gf : N * N => putword16 (fst gf) ++ [snd gf]) l) = 3 * length l)%nat by lia.
    induction l as [|[g f] l IH]; [reflexivity|]. cbn [flat_map length fst snd]. rewrite app_length, IH. cbn. lia.
  Qed.

  Lemma ser_shorter c t (l : list (N * wtree (list (N * N)))) d : In (c, t) l -> (length (fser t) < length (fser (WNode l d)))%nat.
  Proof.
    intros H. rewrite (serialize_eq C8 flex_ser flex_len). rewrite app_length.
    enough (length (fser t) < length (serializes C8 flex_ser flex_len l ++ ser_opt flex_ser d))%nat by lia.
    rewrite app_length. enough (length (fser t) < length (serializes C8 flex_ser flex_len l))%nat by lia.
    induction l as [|[c' t'] l IH]; [destruct H|]. unfold serializes. cbn [flat_map fst snd]. rewrite app_length. cbn [length]. rewrite app_length.
    destruct H as [[= -> ->]|H]; [lia|]. specialize (IH H). unfold serializes in IH. lia.
  Qed.

  Lemma wild_skip_eq {A} (ser : A -> bytes) (len : A -> N) (ser_len : forall a, N.of_nat (length (ser a)) = len a) (l : list (N * wtree A)) rest :
    (forall c t, In (c, t) l -> getbuflen C8 len t < 2 ^ 32) ->
    wild_skip (length l) (serializes C8 ser len l ++ rest) = Ok rest.
  Proof.
    induction l as [|[c t] l IH]; intros H; [reflexivity|]. cbn [length wild_skip]. unfold serializes. cbn [flat_map fst snd].
    cbn [app]. rewrite <- !app_assoc.
    rewrite getchild_put; [|symmetry; apply serialize_len; exact ser_len|apply (H c); left; reflexivity].
    cbn [bind]. apply IH. intros c' t' Hin. apply (H c'). right. exact Hin.
  Qed.

  Definition flex_dump (t : wtree (list (N * N))) : Prop := dumpable C8 flex_len t /\ all_data descs_ok t.

  Lemma flex_search_does fuel : forall t inflex suffix goZero h rest mem n s,
    flex_dump t -> within h t -> (length (fser t) + length inflex < fuel)%nat -> (n + h + length suffix <= length mem)%nat ->
    does (flex_search output filter fuel (fser t ++ rest) inflex suffix goZero mem n s) n mem
         (until_nonzero out (flex_ev fuel t inflex suffix goZero (firstn n mem)) s).
  Proof.
    induction fuel as [|fuel IH]; intros t inflex suffix goZero h rest mem n s Hd Hh Hf Hm; [lia|].
    destruct t as [l d]. destruct Hd as [Hdump Hdata].
    inversion Hdump as [? ? _ _ Hcnt Hsub]; subst. inversion Hdata as [? ? Hd1 Hd2]; subst.
    cbn [flex_search flex_ev nested p_data].
    pose proof (serialize_eq C8 flex_ser flex_len l d) as Eser.
    rewrite Eser at 1. rewrite <- !app_assoc.
    destruct (getcounter_store C8 (length l) (is_some d) (serializes C8 flex_ser flex_len l ++ ser_opt flex_ser d ++ rest) Hcnt) as (a & -> & Eup & Elow).
    cbn [bind]. rewrite Eup, Elow.
    (* children *)
    assert (Hchild : forall c t', In (c, t') l -> exists h', h = S h' /\ flex_dump t' /\ within h' t' /\ (length (fser t') < length (fser (WNode l d)))%nat /\
              getbuflen C8 flex_len t' < 2 ^ 32).
    { intros c t' Hin. destruct h as [|h']; [cbn in Hh; rewrite Hh in Hin; destruct Hin|].
      exists h'. split; [reflexivity|]. split; [split; [apply (Hsub c); assumption|apply (Hd2 c); assumption]|].
      split; [apply (Hh c); assumption|]. split; [apply (ser_shorter c); assumption|apply (Hsub c); assumption]. }
    apply does_appp with (p := ser_opt flex_ser d ++ rest).
    - destruct inflex as [|ch next].
      + rewrite wild_skip_eq; [|exact flex_ser_len|intros c t' Hin; destruct (Hchild c t' Hin) as (? & _ & _ & _ & _ & ?); assumption].
        cbn [bind until_nonzero]. exists (ser_opt flex_ser d ++ rest), mem. auto.
      + cbn [length] in Hf.
        apply doesp_app.
        * destruct ((ch =? 42) && goZero); [|apply does_ok].
          apply IH with h; [split; assumption|assumption|lia|assumption].
        * intros mem1 s1 Hl1 Hf1. rewrite <- Hf1. assert (Hm1 : (n + h + length suffix <= length mem1)%nat) by (rewrite Hl1; exact Hm).
          clear mem Hl1 Hf1 Hm s.
          enough (G : forall k, (forall c t', In (c, t') k -> In (c, t') l) -> forall mem s, (n + h + length suffix <= length mem)%nat ->
            doesp (flex_level
                 (fun sub mem s => flex_search output filter fuel sub next suffix true mem (S n) s)
                 (fun sub mem s => flex_search output filter fuel sub (ch :: next) suffix false mem (S n) s) n ch (length k)
                 (serializes C8 flex_ser flex_len k ++ ser_opt flex_ser d ++ rest) mem s) n mem (ser_opt flex_ser d ++ rest)
                 (until_nonzero out (flat_map (fun ct =>
                   if (ch =? 63) || (fst ct =? ch) then flex_ev fuel (snd ct) next suffix true (firstn n mem ++ [fst ct])
                   else if ch =? 42
                     then flex_ev fuel (snd ct) next suffix true (firstn n mem ++ [fst ct])
                          ++ flex_ev fuel (snd ct) (ch :: next) suffix false (firstn n mem ++ [fst ct])
                     else []) k) s)) by (apply G; auto).
          clear mem1 s1 Hm1. intros k. induction k as [|[c t'] k IHk]; intros Hk mem s Hm.
          -- cbn. exists (ser_opt flex_ser d ++ rest), mem. auto.
          -- destruct (Hchild c t' (Hk c t' (or_introl eq_refl))) as (h' & -> & Hdt & Hwt & Hst & Hbt).
             cbn [length flex_level]. unfold serializes. cbn [flat_map fst snd app]. rewrite <- !app_assoc.
             rewrite getchild_put; [|symmetry; apply serialize_len; exact flex_ser_len|exact Hbt].
             cbn [bind]. fold (serializes C8 flex_ser flex_len k).
             destruct (write_facts mem n c) as (mem1 & -> & Hl1 & Hf1 & Hf1'); [lia|]. cbn [bind].
             assert (IHk' : forall mem' s, length mem' = length mem -> firstn n mem' = firstn n mem ->
               doesp (flex_level
                 (fun sub mem s => flex_search output filter fuel sub next suffix true mem (S n) s)
                 (fun sub mem s => flex_search output filter fuel sub (ch :: next) suffix false mem (S n) s) n ch (length k)
                 (serializes C8 flex_ser flex_len k ++ ser_opt flex_ser d ++ rest) mem' s) n mem' (ser_opt flex_ser d ++ rest)
                 (until_nonzero out (flat_map (fun ct =>
                   if (ch =? 63) || (fst ct =? ch) then flex_ev fuel (snd ct) next suffix true (firstn n mem ++ [fst ct])
                   else if ch =? 42
                     then flex_ev fuel (snd ct) next suffix true (firstn n mem ++ [fst ct])
                          ++ flex_ev fuel (snd ct) (ch :: next) suffix false (firstn n mem ++ [fst ct])
                     else []) k) s)).
             { intros mem' s' E1 E2. rewrite <- E2. apply IHk; [intros; apply Hk; right; assumption|rewrite E1; exact Hm]. }
             assert (Hgo : forall mem' s, length mem' = length mem -> firstn (S n) mem' = firstn n mem ++ [c] ->
               forall inf b, (length inf <= length (ch :: next))%nat ->
               does (flex_search output filter fuel (fser t' ++ serializes C8 flex_ser flex_len k ++ ser_opt flex_ser d ++ rest) inf suffix b mem' (S n) s) (S n) mem'
                 (until_nonzero out (flex_ev fuel t' inf suffix b (firstn n mem ++ [c])) s)).
             { intros mem' s' E1 E2 inf b Hinf. rewrite <- E2. cbn [length] in Hinf. apply IH with h'; try assumption; lia. }
             apply doesp_from with mem1; [|assumption|assumption].
             destruct ((ch =? 63) || (c =? ch)).
             ++ apply doesp_app.
                ** apply does_less. apply Hgo; [assumption|assumption|cbn; lia].
                ** intros mem2 s2 E1 E2. apply IHk'; congruence.
             ++ destruct (ch =? 42).
                ** rewrite <- app_assoc. pose proof (Hgo mem1 s Hl1 Hf1 next true ltac:(cbn; lia)) as G1.
                   rewrite until_app'.
                   destruct (until_nonzero out (flex_ev fuel t' next suffix true (firstn n mem ++ [c])) s) as [[s2 r]|] eqn:Eu; cbn [does] in G1; cbn [bind].
                   2:{ rewrite G1. reflexivity. }
                   destruct G1 as (mem2 & -> & L2 & F2). cbn [bind].
                   destruct (Z.eqb_spec r 0) as [->|].
                   2:{ exists (serializes C8 flex_ser flex_len k ++ ser_opt flex_ser d ++ rest), mem2. repeat split; try contradiction; try congruence. apply firstn_less. congruence. }
                   apply doesp_from with mem2; [|congruence|apply firstn_less; congruence].
                   apply doesp_app.
                   { apply does_less. apply Hgo; [congruence|congruence|cbn; lia]. }
                   intros mem3 s3 L3 F3. apply IHk'; [congruence|].
                   rewrite F3. rewrite <- Hf1'. apply firstn_less. exact F2.
                ** cbn [app]. apply IHk'; assumption.
    - intros mem1 s1 Hl1 Hf1. destruct (negb (nonempty inflex) || nonempty suffix); cbn [andb]; [|apply does_ok].
      destruct d as [dl|]; cbn [is_some ser_opt]; [|apply does_ok].
      destruct (Hd1 dl eq_refl) as [Hlen Hok].
      unfold flex_ser. cbn [app].
      change (N.of_nat (length dl) :: flat_map (fun gf : N * N => putword16 (fst gf) ++ [snd gf]) dl ++ rest)
        with ([N.of_nat (length dl)] ++ (flat_map (fun gf : N * N => putword16 (fst gf) ++ [snd gf]) dl ++ rest)).
      rewrite <- (putserial_small (N.of_nat (length dl))) by lia.
      rewrite getserial_putserial by lia. cbn [bind]. rewrite Nnat.Nat2N.id, <- Hf1.
      apply wild_descs_does; [assumption|rewrite Hl1; lia].
  Qed.
End Classes.
