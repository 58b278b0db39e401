(** * WideProofs: conversions and forms.  PROOFS. *)
From Verif Require Import Base Serial WordTree TreeSpec FlatScan Stems StemSpec CharTables CapScheme CapSpec GramMap RusRuntime RusSpec RusProofs3
  RusBuild RusBuildSpec RusBuildProofs RusBuildProofs2 RusReadings RusLemmaSpec EngRuntime EngSpec EngFormsSpec EngLemmaSpec WildSpec Codepage WideApi WideSpec.
Local Open Scope N_scope.

Section Convert.
  Variable W : wide.
  Hypothesis HW : wide_ok W.

  Lemma narrowed_bytes w : is_bytes (narrowed W w).
  Proof. unfold narrowed. induction w as [|c w IH]; constructor; [apply (wd_bytes W HW)|exact IH]. Qed.

  Lemma widened_back t : is_bytes t -> narrowed W (widened W t) = t.
  Proof. induction 1 as [|c t Hc _ IH]; [reflexivity|]. cbn [narrowed widened map]. f_equal; [apply (wd_back W HW), Hc|exact IH]. Qed.

  Lemma to_narrow_short arr size p cch w : given w (Some p) cch -> (length w + wslack W <= size)%nat ->
    exists after, to_narrow W arr size p cch = Ok (Some (narrowed W w ++ after, N.of_nat (length w))).
  Proof.
    intros Hg Hl.
    assert (Hw : (if cch =? 2 ^ 64 - 1 then cstr p else if N.of_nat (length p) <? cch then Ub else Ok (firstn (N.to_nat cch) p)) = Ok w).
    { inversion Hg as [w' aft Hlt E1 E2 E3|w' aft H0 E1 E2 E3]; subst.
      - destruct (N.eqb_spec (N.of_nat (length w)) (2 ^ 64 - 1)); [lia|].
        destruct (N.ltb_spec (N.of_nat (length (w ++ aft))) (N.of_nat (length w))) as [H|_]; [rewrite app_length in H; lia|].
        rewrite Nnat.Nat2N.id, firstn_app, firstn_all, Nat.sub_diag, firstn_O, app_nil_r. reflexivity.
      - rewrite N.eqb_refl. apply cstr_app, H0. }
    unfold to_narrow. rewrite Hw. cbn [bind]. unfold convert. rewrite map_length.
    destruct (Nat.ltb_spec size (length w + wslack W)); [lia|]. unfold overwrite.
    destruct (Nat.ltb (length w) size); eexists; [rewrite <- app_assoc|]; reflexivity.
  Qed.

  Lemma to_narrow_long arr size p cch w : given w (Some p) cch -> (size < length w + wslack W)%nat -> to_narrow W arr size p cch = Ok None.
  Proof.
    intros Hg Hl.
    assert (Hw : (if cch =? 2 ^ 64 - 1 then cstr p else if N.of_nat (length p) <? cch then Ub else Ok (firstn (N.to_nat cch) p)) = Ok w).
    { inversion Hg as [w' aft Hlt E1 E2 E3|w' aft H0 E1 E2 E3]; subst.
      - destruct (N.eqb_spec (N.of_nat (length w)) (2 ^ 64 - 1)); [lia|].
        destruct (N.ltb_spec (N.of_nat (length (w ++ aft))) (N.of_nat (length w))) as [H|_]; [rewrite app_length in H; lia|].
        rewrite Nnat.Nat2N.id, firstn_app, firstn_all, Nat.sub_diag, firstn_O, app_nil_r. reflexivity.
      - rewrite N.eqb_refl. apply cstr_app, H0. }
    unfold to_narrow. rewrite Hw. cbn [bind]. unfold convert. rewrite map_length.
    destruct (Nat.ltb_spec size (length w + wslack W)); [reflexivity|lia].
  Qed.

  Lemma widen_eq : forall fs done mem rest, Forall (fun f => ~ In 0 f) fs -> (total fs <= length mem)%nat ->
    widen_strings W (length fs) (done ++ mem) (length done) (joined fs ++ rest) = Ok (done ++ widened W (joined fs) ++ skipn (total fs) mem).
  Proof.
    induction fs as [|f fs IH]; intros done mem rest Hn Hl; [reflexivity|]. inversion Hn as [|? ? Hf Hfs]; subst.
    cbn [length widen_strings]. rewrite app_length. destruct (Nat.ltb_spec (length done + length mem) (length done)); [lia|].
    change (joined (f :: fs)) with ((f ++ [0]) ++ joined fs). change (total (f :: fs)) with (length f + 1 + total fs)%nat in *.
    rewrite <- !app_assoc. change ([0] ++ joined fs ++ rest) with (0 :: joined fs ++ rest). rewrite cstr_app by exact Hf. cbn [bind].
    unfold convert. rewrite map_length. replace (length done + length mem - length done)%nat with (length mem) by lia.
    pose proof (wd_slack W HW) as Hs. destruct (Nat.ltb_spec (length mem) (length f + wslack W)); [lia|].
    destruct (Nat.ltb_spec (length f) (length mem)); [|lia].
    rewrite mem_writes_eq by (rewrite app_length, map_length; cbn [length]; lia). cbn [bind].
    rewrite app_length, map_length. cbn [length].
    replace (skipn (length f + 1) (f ++ 0 :: joined fs ++ rest)) with (joined fs ++ rest).
    2: { rewrite skipn_app, skipn_all2 by lia. replace (length f + 1 - length f)%nat with 1%nat by lia. reflexivity. }
    replace (length done + (length f + 1))%nat with (length (done ++ map (to_wide W) f ++ [0])) by (rewrite !app_length, map_length; cbn [length]; lia).
    replace (done ++ (map (to_wide W) f ++ [0]) ++ skipn (length f + 1) mem) with ((done ++ map (to_wide W) f ++ [0]) ++ skipn (length f + 1) mem)
      by (rewrite <- !app_assoc; reflexivity).
    rewrite IH; [|exact Hfs|rewrite skipn_length; lia]. unfold widened. rewrite !map_app. cbn [map app]. rewrite (wd_nul W HW). f_equal. rewrite <- !app_assoc.
    cbn [app]. rewrite skipn_skipn'. do 5 f_equal. lia.
  Qed.

  Lemma wide_forms_delivered build szform mem fs limits :
    length szform = 98%nat -> (2 <= length mem)%nat -> Forall (fun f => ~ In 0 f) fs ->
    delivered (firstn (Nat.min (length mem) 98 - 1) szform) fs limits (build (Some (firstn (Nat.min (length mem) 98 - 1) szform))) ->
    delivered_wide W mem fs limits (wide_forms W build szform mem).
  Proof.
    intros Hz Hm Hn [D1 D2]. set (room := (Nat.min (length mem) 98 - 1)%nat) in *.
    assert (Hr : length (firstn room szform) = room) by (rewrite firstn_length; unfold room; lia). rewrite Hr in D1, D2.
    assert (Hfit : fit room fs <-> wide_fit (length mem) fs).
    { unfold fit, wide_fit. split; (intros [H|H]; [left; exact H|right]); unfold room in *; lia. }
    split; [intros; lia|]. split; intros _ Hlim.
    - unfold wide_forms. fold room. rewrite D1 by tauto. cbn [bind]. destruct fs as [|f fs]; [destruct mem; reflexivity|].
      destruct (Z.leb_spec (Z.of_nat (length (f :: fs))) 0) as [H|_]; [cbn [length] in H; lia|]. rewrite Nat2Z.id. unfold filled.
      rewrite <- app_assoc. assert (Ht : (total (f :: fs) <= length mem)%nat) by (destruct Hlim as [_ [H|H]]; [discriminate|lia]).
      pose proof (widen_eq (f :: fs) [] mem (after (f :: fs) (firstn room szform) ++ skipn room szform) Hn Ht) as Hw. cbn [app] in Hw. unfold bytes in *.
      change (@length N []) with 0%nat in Hw. rewrite Hw. reflexivity.
    - destruct (D2 ltac:(tauto)) as (mem' & _ & E). unfold wide_forms. fold room. rewrite E. reflexivity.
  Qed.

  Lemma wide_forms_refused build szform mem z : (z <= 0)%Z ->
    (exists out, build (Some (firstn (Nat.min (length mem) 98 - 1) szform)) = Ok (z, out)) -> wide_forms W build szform mem = Ok (z, Some mem).
  Proof. intros Hz (out & E). unfold wide_forms. rewrite E. cbn [bind]. destruct (Z.leb_spec z 0); [reflexivity|lia]. Qed.
End Convert.
