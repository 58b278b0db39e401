(** * FuzzyProofs4: lemmatising an unknown word, from end to end.  PROOFS ONLY. *)
From Coq Require Import Permutation.
From Verif Require Import Base Serial SerialProofs TreeSpec FlatScanProofs CharTables CapScheme CapSpec CapProofs CapProofs2 CapProofs3 GramMap RusRuntime
  LevelSpec LevelProofs RusSpec RusProofs RusProofs2 RusProofs3 RusBuild RusBuildSpec RusBuildProofs RusBuildProofs2 RusBuildProofs3 Fuzzy FuzzySpec FuzzyProofs FuzzyProofs2 FuzzyProofs3.
Local Open Scope N_scope.

Lemma stored_in m key r : In r (stored_under m key) -> exists kv, In kv m /\ fst kv = key /\ In r (snd kv).
Proof.
  unfold stored_under. destruct (find _ m) as [kv|] eqn:E; [|intros []]. intros H. apply find_some in E. destruct E as [E1 E2]. exists kv.
  split; [exact E1|]. split; [|exact H]. destruct (same_spec (fst kv) key); [assumption|discriminate].
Qed.
Lemma guess_in m w g : In g (guesses m w) -> exists kv n, In kv m /\ In (snd g) (snd kv) /\ (n <= length w)%nat /\ fst g = (length w - n)%nat /\
  fst kv = rev (skipn (length w - n) w).
Proof.
  intros H. unfold guesses in H. apply in_flat_map in H. destruct H as (n & Hn & H). apply in_seq in Hn. apply in_map_iff in H. destruct H as (r & <- & H).
  apply stored_in in H. destruct H as (kv & H1 & H2 & H3). exists kv, n. cbn [fst snd]. repeat split; try assumption. lia.
Qed.

Lemma ranges_known p : p < 47 -> nth (N.to_nat p) psp_ranges 0 = rus_known p.
Proof.
  intros H. assert (A : forallb (fun k => nth k psp_ranges 0 =? rus_known (N.of_nat k)) (seq 0 47) = true) by (vm_compute; reflexivity).
  rewrite forallb_forall in A. specialize (A (N.to_nat p)). rewrite Nnat.N2Nat.id in A. apply N.eqb_eq. apply A. apply in_seq. lia.
Qed.
Lemma guess_fine F t cls w g : guesser F t cls -> In g (guesses (contents t) w) -> guess_ok F cls w g.
Proof.
  intros HG H. apply guess_in in H. destruct H as (kv & n & H1 & H2 & H3 & H4 & H5).
  destruct (gu_classes _ _ _ HG kv (snd g) H1 H2) as (C1 & C2 & C3 & C4). rewrite <- (ranges_known _ C3) in C4.
  pose proof (gu_keys _ _ _ HG) as Hk. rewrite Forall_forall in Hk. specialize (Hk kv H1). cbv beta in Hk. pose proof (f_equal (@length N) H5) as H6. rewrite rev_length, skipn_length in H6. unfold bytes in *.
  constructor; try assumption; lia.
Qed.

Section Whole.
  Variable rank : N -> N -> N -> N -> bool -> Z.
  Variable sort : list stem_info -> list stem_info.
  Variable junk : nat -> bytes.

  Definition answer (plemma : option (list stem_info)) (pforms : option bytes) (pgrams : option (list gram)) cls w rs :=
    Ok (Z.of_nat (length rs),
        option_map (put_front (sort (stems_of cls rank w (is_some pforms) (is_some pgrams) 0 0 rs))) plemma,
        option_map (filled (map (normal_of cls w) rs)) pforms,
        option_map (put_front (flat_map (descriptions cls) rs)) pgrams).

  Lemma stems_length cls w a b rs : forall i j, length (stems_of cls rank w a b i j rs) = length rs.
  Proof. induction rs as [|r rs IH]; intros i j; [reflexivity|]. cbn [stems_of length]. rewrite IH. reflexivity. Qed.

  Theorem fuzzy_lemmatize_exact F t cls below lojunk w psz cch plemma pforms pgrams dwsets l : guesser F t cls ->
    (forall x, Permutation x (sort x)) ->
    proper w -> given w psz cch -> readable below t (rev (rlow w)) -> (pforms <> None -> forall n, stopped (junk n)) ->
    acceptable_guesses cls (bit 1 dwsets) w (guesses (contents t) (rlow w)) l ->
    let rs := runs l in
    let r := fuzzy_lemmatize rank sort junk F below lojunk psz cch plemma pforms pgrams dwsets in
    let enough := room_for cls (rlow w) pforms pgrams rs /\ match plemma with None => True | Some m => (length rs <= length m)%nat end in
    (enough -> r = answer plemma pforms pgrams cls (rlow w) rs) /\
    (~ enough -> exists z forms grams, r = Ok (z, plemma, forms, grams) /\ (z < 0)%Z /\
       option_map (@length N) forms = option_map (@length N) pforms /\ option_map (@length gram) grams = option_map (@length gram) pgrams).
  Proof.
    intros HG Hsort Hw Hgiven Hread Hjunk Hacc. cbv zeta. pose proof Hw as (Hb & Hne & Hlen & Hparts & H0).
    unfold fuzzy_lemmatize. rewrite (fuzzy_canonic_given w psz cch Hgiven Hne).
    destruct (fuzzy_canonic_facts w Hb Hne Hlen Hparts) as (v & -> & Hv & Hv0 & Hv1 & Hgood & Hff). cbn [bind].
    destruct (N.eqb_spec v (2 ^ 32 - 1)); [contradiction|]. destruct (N.eqb_spec v 0); [contradiction|].
    destruct Hacc as (ok & Hok & El).
    destruct ((N.land v 0xff =? 0xff) && negb (bit 1 dwsets)) eqn:Eff.
    - apply andb_true_iff in Eff. destruct Eff as [Eff Hig]. apply N.eqb_eq in Eff. apply negb_true_iff in Hig.
      assert (l = []).
      { subst l. apply flat_map_nil_in with (f := fun x => if ok x then [x] else []) (l := guesses (contents t) (rlow w)) in Hok || idtac.
        destruct (filter ok (guesses (contents t) (rlow w))) as [|g l0] eqn:E; [reflexivity|]. exfalso.
        assert (Hin : In g (filter ok (guesses (contents t) (rlow w)))) by (rewrite E; left; reflexivity). apply filter_In in Hin. destruct Hin as [Hin Hg].
        apply Hok in Hg; [|exact Hin]. destruct Hg as [Hg|Hg]; [congruence|]. exact (Hff Eff _ Hg). }
      subst l. rewrite H. cbn [runs map flat_map length].
      assert (Hr : room_for cls (rlow w) pforms pgrams [] ) by (exact (room_nil rank junk cls (rlow w) dwsets pforms pgrams (fun H => conj (Hjunk H) (nonul_low w Hb H0)))).
      split.
      + intros _. unfold answer. cbn [stems_of map flat_map length]. rewrite (Permutation_nil (Hsort [])).
        destruct plemma, pforms, pgrams; reflexivity.
      + intros H'. exfalso. apply H'. split; [exact Hr|]. destruct plemma; [lia|exact I].
    - assert (Hloc : overwrite (rlow w ++ [0]) lojunk = rlow w ++ ([0] ++ skipn (length (rlow w ++ [0])) lojunk)) by (unfold overwrite; rewrite <- app_assoc; reflexivity).
      rewrite Hloc. set (tail := [0] ++ _). clearbody tail. rewrite Hv. rewrite app_length, map_length.
      destruct (N.ltb_spec (N.of_nat (length w + length tail)) (N.of_nat (length w))); [lia|]. rewrite Nnat.Nat2N.id.
      replace (firstn (length w) (rlow w ++ tail)) with (rlow w)
        by (rewrite <- (map_length (locase rus_casing) w) at 1; rewrite firstn_app, firstn_all, Nat.sub_diag, firstn_O, app_nil_r; reflexivity).
      destruct (gu_bytes _ _ _ HG) as [rest ->].
      replace (N.of_nat (length w)) with (N.of_nat (length (rlow w))) by (rewrite map_length; reflexivity).
      rewrite scan_guesses; [|apply HG|apply HG|apply HG|exact Hread].
      set (sch := N.land v 0xffff) in *.
      assert (Ef : l = filter (accepted cls sch dwsets) (guesses (contents t) (rlow w))).
      { rewrite El. apply filter_ext_in. intros g Hg. specialize (Hok g Hg). unfold accepted.
        destruct (ok g) eqn:E.
        - symmetry. apply orb_true_iff. destruct (proj1 Hok eq_refl) as [H1|H1]; [left; exact H1|right; apply Hgood; exact H1].
        - symmetry. apply orb_false_iff. destruct (bit 1 dwsets); [discriminate (proj2 Hok (or_introl eq_refl))|]. split; [reflexivity|].
          destruct (IsGoodSheme sch _) eqn:E2; [|reflexivity]. apply Hgood in E2. discriminate (proj2 Hok (or_intror E2)). }
      assert (Hfine : Forall (guess_ok F cls (rlow w)) (guesses (contents t) (rlow w))) by (apply Forall_forall; intros g Hg; eapply guess_fine; eassumption).
      destruct (collected rank junk F cls (rlow w) tail sch dwsets pforms pgrams (fun H => conj (Hjunk H) (nonul_low w Hb H0)) (guesses (contents t) (rlow w))) as [C1 C2].
      { apply Forall_forall. intros g Hg. rewrite Forall_forall in Hfine. apply (go_class _ _ _ _ (Hfine g Hg)). }
      { apply Forall_forall. intros g Hg. apply filter_In in Hg. rewrite Forall_forall in Hfine. apply (Hfine g (proj1 Hg)). }
      rewrite <- Ef in C1, C2.
      destruct (room_dec rank cls (rlow w) dwsets pforms pgrams (runs l)) as [Hroom|Hno].
      + destruct (C1 Hroom) as (s' & -> & Hinv). cbn [bind]. change (negb (0 =? 0)%Z) with false. cbv iota.
        assert (Hl2 : length (f_stems (close_last s')) = length (runs l)) by (rewrite <- (i_len _ _ _ _ _ _ _ Hinv); apply closed_length).
        rewrite Hl2. rewrite (i_forms _ _ _ _ _ _ _ Hinv), (i_grams _ _ _ _ _ _ _ Hinv).
        assert (Efo : option_map cmem (option_map (fun m => Coder (filled (map (normal_of cls (rlow w)) (runs l)) m) (length (joined (map (normal_of cls (rlow w)) (runs l))))) pforms)
                      = option_map (filled (map (normal_of cls (rlow w)) (runs l))) pforms) by (destruct pforms; reflexivity).
        assert (Egr : option_map fst (option_map (fun m => (put_front (flat_map (descriptions cls) (runs l)) m, length (flat_map (descriptions cls) (runs l)))) pgrams)
                      = option_map (put_front (flat_map (descriptions cls) (runs l))) pgrams) by (destruct pgrams; reflexivity).
        rewrite Efo, Egr. destruct plemma as [m|].
        * destruct (Nat.ltb_spec (length m) (length (runs l))) as [Hm|Hm].
          -- split; [intros [_ H1]; lia|]. intros _. do 3 eexists. split; [reflexivity|]. split; [lia|].
             destruct Hroom as (_ & R2 & R3). split.
             ++ destruct pforms; [|reflexivity]. cbn [option_map]. rewrite filled_length by apply R2. reflexivity.
             ++ destruct pgrams; [|reflexivity]. cbn [option_map]. rewrite put_front_length by exact R3. reflexivity.
          -- pose proof (i_stems _ _ _ _ _ _ _ Hinv) as Hst. unfold closed in Hst. rewrite Hst.
             assert (Hsl : length (sort (stems_of cls rank (rlow w) (is_some pforms) (is_some pgrams) 0 0 (runs l))) = length (runs l)).
             { rewrite <- (Permutation_length (Hsort _)). apply stems_length. }
             rewrite (mem_writes_eq _ [] m) by lia. cbn [bind app]. split; [intros _; reflexivity|]. intros H1. exfalso. apply H1. split; [exact Hroom|exact Hm].
        * split; [intros _; reflexivity|]. intros H1. exfalso. apply H1. split; [exact Hroom|exact I].
      + destruct (C2 Hno) as (s' & z & -> & Hz & Hs1 & Hs2). cbn [bind]. destruct (Z.eqb_spec z 0); [lia|]. cbn [negb]. split; [intros [H1 _]; contradiction|].
        intros _. do 3 eexists. split; [reflexivity|]. split; [exact Hz|]. split.
        * rewrite <- Hs1. destruct (f_forms s'); reflexivity.
        * rewrite <- Hs2. destruct (f_grams s'); reflexivity.
  Qed.
End Whole.
