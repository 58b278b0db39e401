(** * WideProofs5: the wide instances, searching by pattern and the degenerate calls.  PROOFS. *)
From Verif Require Import Base Serial WordTree TreeSpec FlatScan Stems StemSpec CharTables CapScheme CapSpec GramMap RusRuntime RusSpec RusProofs3 PropRusLemmas
  RusBuild RusBuildSpec RusReadings RusLemmaSpec PropBuildLemmas PropLemmasLemmas EngRuntime EngSpec EngProofs2 EngFormsSpec EngLemmaSpec
  PropEngLemmas PropEngLemmas2 Wild WildSpec WildProofs4 EngWild EngWildSpec EngWildProofs2 Codepage WideApi WideSpec WideProofs WideProofs2 WideProofs3 WideProofs4.
Local Open Scope N_scope.

Section Deliver.
  Context {U : Type}.
  Variables (W : wide) (add : U -> N -> list (list N * N) -> U * Z).
  Hypothesis HW : wide_ok W.

  Lemma widen_matches_eq ms : forall room, fold_right (fun m n => N.of_nat (length (fst m)) + 1 + n) 0 ms <= N.of_nat room ->
    widen_matches W room ms = Ok (map (fun m => (widened W (fst m), snd m)) ms).
  Proof.
    induction ms as [|[s id] ms IH]; intros room H; [reflexivity|]. cbn [fold_right fst snd] in H. cbn [widen_matches map fst snd].
    set (r := fold_right (fun (m : bytes * N) n => N.of_nat (length (fst m)) + 1 + n) 0 ms) in *.
    unfold convert. rewrite map_length. pose proof (wd_slack W HW). destruct (Nat.ltb_spec room (length s + wslack W)); [lia|].
    destruct (Nat.ltb_spec room (length s + 1)); [lia|]. rewrite IH by (fold r; lia). reflexivity.
  Qed.
  Lemma wide_add_eq u call : call_fits call ->
    wide_add W add (Ok u) (fst call) (snd call) = (Ok (fst (wide_calls W add u (fst call) (snd call))), snd (wide_calls W add u (fst call) (snd call))).
  Proof.
    intros [H1 H2]. unfold wide_add. destruct (Nat.ltb_spec 512 (length (snd call))); [lia|].
    rewrite widen_matches_eq by (change (N.of_nat (512 * 48)) with 24576; exact H2).
    unfold wide_calls. destruct (add u (fst call) _) as [u' z]. reflexivity.
  Qed.
  Lemma deliver_wide calls : Forall call_fits calls -> forall u,
    deliver (wide_add W add) calls (Ok u) = (Ok (fst (deliver (wide_calls W add) calls u)), snd (deliver (wide_calls W add) calls u)).
  Proof.
    induction 1 as [|c calls Hc _ IH]; intros u; [reflexivity|]. destruct calls as [|c' calls'].
    - destruct c as [lid ms]. exact (wide_add_eq u (lid, ms) Hc).
    - rewrite (deliver_cons (wide_add W add)), (deliver_cons (wide_calls W add)) by discriminate. rewrite wide_add_eq by exact Hc. cbn [fst]. apply IH.
  Qed.

  Lemma wide_match_run find szword p cch w u : given w (Some p) cch -> cch <> 0 ->
    ((length w + wslack W <= 48)%nat -> exists psz n, given (narrowed W w) psz n /\
       wide_find_match W add find szword (Some p) cch u = (let! (s, z) := find (wide_add W add) psz n (Ok u) in let! u := s in Ok (u, z))) /\
    ((48 < length w + wslack W)%nat -> wide_find_match W add find szword (Some p) cch u = Ok (u, (-4)%Z)).
  Proof.
    intros Hg H0. unfold wide_find_match. destruct (N.eqb_spec cch 0); [contradiction|]. split; intros Hl.
    - destruct (to_narrow_short W szword 48 p cch w Hg Hl) as (after & E). rewrite E. cbn [bind].
      eexists _, _. split; [|reflexivity]. rewrite <- (narrowed_length W w). apply given_counted_narrow. rewrite narrowed_length. lia.
    - rewrite (to_narrow_long W szword 48 p cch w Hg Hl). reflexivity.
  Qed.
End Deliver.

Lemma given_count w psz cch : given w psz cch -> w <> [] -> cch <> 0.
Proof. intros H Hw. inversion H; subst; [destruct w; [contradiction|cbn [length]; lia]|lia]. Qed.

Lemma wc_match_exact W A L w rest : wide_ok W -> holds A L -> fixed_plain L -> strings_within 47 L ->
  stemtree A = stemtree_bytes (words L) ++ rest -> rest <> [] \/ lookup [] (words L) <> None ->
  (forall key e, has_record (words L) key e -> nlexid e <> 0) ->
  let t := narrowed W w in w <> [] -> (length w < 48)%nat -> (length (parts rus_casing t) <= 16)%nat ->
  exists evs : list (N * bytes * N),
    (forall p cch, given w (Some p) cch ->
       forall U (add : U -> N -> list (list N * N) -> U * Z) junk buf szword u, length junk = 48%nat -> length buf = 48%nat ->
       (Forall call_fits (runs evs) -> wc_find_match W add A junk buf szword (Some p) cch u = Ok (deliver (wide_calls W add) (runs evs) u)) /\
       (~ Forall call_fits (runs evs) -> wc_find_match W add A junk buf szword (Some p) cch u = Ub)) /\
    (forall lid str id, In (lid, str, id) evs -> matching L (map (locase rus_casing) t) lid str id) /\
    (bounds_ok L -> forall key e part str id, has_form L key e part str id -> glob (map (locase rus_casing) t) str -> ~ In 42 str ->
       part <> [] \/ match stpost e with [] => True | b :: _ => chrmin e <= b <= chrmax e end -> In (nlexid e, str, id) evs).
Proof.
  intros HW HL H1 H2 H3 H4 H5 t Hne Hl Hp. pose proof (narrowed_ne W w Hne) as Hne'. pose proof (narrowed_bytes W HW w) as Hb.
  assert (Hlt : (length t < 48)%nat) by (unfold t; rewrite narrowed_length; exact Hl).
  assert (Hg0 : given t (Some (t ++ [])) (N.of_nat (length t))) by (apply given_counted_narrow; lia).
  destruct (find_match_eq A L t _ _ rest HL H1 H2 H3 H4 H5 Hg0 Hb Hne' Hlt Hp) as (evs & K1 & K2 & K3).
  exists evs. split; [|split; [exact K2|exact K3]]. intros p cch Hg U add junk buf szword u Hj Hbuf.
  destruct (wide_match_run W add (fun add psz cch u => find_match add A junk buf psz cch u) szword p cch w u Hg (given_count _ _ _ Hg Hne)) as [R _].
  destruct (R ltac:(pose proof (wd_slack W HW); lia)) as (psz & n & Hn & E). unfold wc_find_match. rewrite E.
  rewrite (find_match_start _ A t psz n junk buf (Ok u)), <- (find_match_start _ A t _ _ junk buf (Ok u) Hg0) by assumption.
  destruct (K1 _ (wide_add W add) junk buf (Ok u) Hj Hbuf) as [Y Z']. split; intros F.
  - rewrite (Y F). cbn [bind]. rewrite (deliver_wide W add HW _ F). cbn [bind]. destruct (deliver (wide_calls W add) (runs evs) u). reflexivity.
  - rewrite (Z' F). reflexivity.
Qed.

Lemma sum_le (ms : list (bytes * N)) : Forall (fun m => (length (fst m) <= 47)%nat) ms ->
  fold_right (fun m n => N.of_nat (length (fst m)) + 1 + n) 0 ms <= N.of_nat (length ms) * 48.
Proof.
  induction 1 as [|m ms Hm _ IH]; [cbn; lia|]. cbn [fold_right length].
  set (r := fold_right (fun (m : bytes * N) n => N.of_nat (length (fst m)) + 1 + n) 0 ms) in *. lia.
Qed.

Lemma wc_ematch_exact W A L w rest : wide_ok W -> eholds A L -> ebuildable L -> estrings_within 47 L -> eforms_at_most 256 L ->
  e_stems A = stemtree_bytes (ewords L) ++ rest -> rest <> [] \/ lookup [] (ewords L) <> None ->
  (forall key e, has_record (ewords L) key e -> nlexid e <> 0) ->
  let t := narrowed W w in w <> [] -> (length w < 48)%nat -> (length (parts eng_casing t) <= 16)%nat ->
  exists calls : list (N * list (bytes * N)),
    (forall p cch, given w (Some p) cch ->
       forall U (add : U -> N -> list (list N * N) -> U * Z) junk buf szword u, length junk = 48%nat -> length buf = 48%nat ->
       wc_efind_match W add A junk buf szword (Some p) cch u = Ok (deliver (wide_calls W add) calls u)) /\
    (forall lid ms str id, In (lid, ms) calls -> In (str, id) ms -> elexeme_form L lid str id /\ glob (map (locase eng_casing) t) str) /\
    (ebounds_ok L -> forall key e part str id, ehas_form L key e part str id -> glob (map (locase eng_casing) t) str -> ~ In 42 str ->
       part <> [] \/ match stpost e with [] => True | b :: _ => chrmin e <= b <= chrmax e end ->
       exists ms, In (nlexid e, ms) calls /\ In (str, id) ms) /\
    Forall (fun call => NoDup (snd call) /\ snd call <> []) calls /\ neighbours_differ calls.
Proof.
  intros HW HL H1 H2 H2' H3 H4 H5 t Hne Hl Hp. pose proof (narrowed_ne W w Hne) as Hne'. pose proof (narrowed_bytes W HW w) as Hb.
  assert (Hlt : (length t < 48)%nat) by (unfold t; rewrite narrowed_length; exact Hl).
  assert (Hg0 : given t (Some (t ++ [])) (N.of_nat (length t))) by (apply given_counted_narrow; lia).
  destruct (efind_match_eq A L t _ _ rest HL H1 H2 H2' H3 H4 H5 Hg0 Hb Hne' Hlt Hp) as (calls & K1 & K2 & K3 & K4 & K5).
  exists calls. split; [|repeat match goal with |- _ /\ _ => split end; assumption]. intros p cch Hg U add junk buf szword u Hj Hbuf.
  assert (F : Forall call_fits calls).
  { apply Forall_forall. intros [lid ms] Hin. rewrite Forall_forall in K4. destruct (K4 _ Hin) as [Hnd _]. cbn [snd] in Hnd.
    assert (Hn : (length ms <= 256)%nat) by (apply (H2' lid ms Hnd); intros str id Hi; apply (K2 lid ms str id Hin Hi)).
    split; cbn [snd]; [lia|]. eapply N.le_trans; [apply sum_le|lia]. apply Forall_forall. intros [str id] Hi. cbn [fst].
    destruct (K2 lid ms str id Hin Hi) as [(key & e & part & Hf & _) _]. exact (proj2 H2 key e part str id Hf). }
  destruct (wide_match_run W add (fun add psz cch u => efind_match add A junk buf psz cch u) szword p cch w u Hg (given_count _ _ _ Hg Hne)) as [R _].
  destruct (R ltac:(pose proof (wd_slack W HW); lia)) as (psz & n & Hn & E). unfold wc_efind_match. rewrite E.
  rewrite (efind_match_start _ A t psz n junk buf (Ok u)), <- (efind_match_start _ A t _ _ junk buf (Ok u) Hg0) by assumption.
  rewrite (K1 _ (wide_add W add) junk buf (Ok u) Hj Hbuf).
  cbn [bind]. rewrite (deliver_wide W add HW _ F). cbn [bind]. destruct (deliver (wide_calls W add) calls u). reflexivity.
Qed.

(** ** Degenerate calls *)
Lemma wc_match_degenerate {U} W (add : U -> N -> list (list N * N) -> U * Z) A junk buf szword u cch : wide_ok W ->
  wc_find_match W add A junk buf szword None cch u = Ok (u, (-5)%Z) /\
  (forall p, wc_find_match W add A junk buf szword (Some p) 0 u = Ok (u, (-5)%Z)) /\
  (forall p, given [] (Some p) cch -> cch <> 0 -> wc_find_match W add A junk buf szword (Some p) cch u = Ok (u, 0%Z)) /\
  (forall w p, given w (Some p) cch -> (48 <= length w)%nat -> wc_find_match W add A junk buf szword (Some p) cch u = Ok (u, (-4)%Z)).
Proof.
  intros HW. split; [reflexivity|]. split; [reflexivity|].
  pose proof (find_match_degenerate (wide_add W add) A junk buf (Ok u)) as D.
  split; intros.
  - destruct (wide_match_run W add (fun add psz cch u => find_match add A junk buf psz cch u) szword p cch [] u H H0) as [R _].
    destruct (R ltac:(pose proof (wd_slack W HW); cbn [length]; lia)) as (psz & n & Hn & E). unfold wc_find_match. rewrite E.
    destruct (D n) as (_ & D2 & _). rewrite (D2 psz Hn). reflexivity.
  - assert (Hw : w <> []) by (intros ->; cbn [length] in *; lia).
    destruct (wide_match_run W add (fun add psz cch u => find_match add A junk buf psz cch u) szword p cch w u H (given_count _ _ _ H Hw)) as [R1 R2].
    unfold wc_find_match. destruct (le_dec (length w + wslack W) 48) as [Hl|Hl]; [|apply R2; lia].
    destruct (R1 Hl) as (psz & n & Hn & E). rewrite E.
    destruct (D n) as (_ & _ & D3). rewrite (D3 _ psz Hn) by (rewrite narrowed_length; lia). reflexivity.
Qed.
Lemma wc_ematch_degenerate {U} W (add : U -> N -> list (list N * N) -> U * Z) A junk buf szword u cch : wide_ok W ->
  wc_efind_match W add A junk buf szword None cch u = Ok (u, (-5)%Z) /\
  (forall p, wc_efind_match W add A junk buf szword (Some p) 0 u = Ok (u, (-5)%Z)) /\
  (forall p, given [] (Some p) cch -> cch <> 0 -> wc_efind_match W add A junk buf szword (Some p) cch u = Ok (u, 0%Z)) /\
  (forall w p, given w (Some p) cch -> (48 <= length w)%nat -> wc_efind_match W add A junk buf szword (Some p) cch u = Ok (u, (-4)%Z)).
Proof.
  intros HW. split; [reflexivity|]. split; [reflexivity|].
  pose proof (efind_match_degenerate (wide_add W add) A junk buf (Ok u)) as D.
  split; intros.
  - destruct (wide_match_run W add (fun add psz cch u => efind_match add A junk buf psz cch u) szword p cch [] u H H0) as [R _].
    destruct (R ltac:(pose proof (wd_slack W HW); cbn [length]; lia)) as (psz & n & Hn & E). unfold wc_efind_match. rewrite E.
    destruct (D n) as (_ & D2 & _). rewrite (D2 psz Hn). reflexivity.
  - assert (Hw : w <> []) by (intros ->; cbn [length] in *; lia).
    destruct (wide_match_run W add (fun add psz cch u => efind_match add A junk buf psz cch u) szword p cch w u H (given_count _ _ _ H Hw)) as [R1 R2].
    unfold wc_efind_match. destruct (le_dec (length w + wslack W) 48) as [Hl|Hl]; [|apply R2; lia].
    destruct (R1 Hl) as (psz & n & Hn & E). rewrite E.
    destruct (D n) as (_ & _ & D3). rewrite (D3 _ psz Hn) by (rewrite narrowed_length; lia). reflexivity.
Qed.

Lemma wc_lemm_degenerate W A junk lmbuff szlemm szword p cch output plemma pgrams dwsets :
  length lmbuff = 32%nat -> length szlemm = 240%nat -> wide_ok W ->
  (given [] (Some p) cch -> wc_lemmatize W A junk lmbuff szlemm szword p cch output plemma pgrams dwsets = Ok (0%Z, (output, plemma, pgrams))) /\
  (forall w, given w (Some p) cch -> (48 <= length w)%nat -> (length (parts rus_casing (narrowed W w)) <= 16)%nat \/ (240 < length w)%nat ->
     wc_lemmatize W A junk lmbuff szlemm szword p cch output plemma pgrams dwsets = Ok ((-4)%Z, (output, plemma, pgrams))).
Proof.
  intros H32 H240 HW. set (lem := fun psz cch l f g sets => lemmatize A junk psz cch l f g sets).
  assert (G : forall w, given w (Some p) cch -> (length w <= 239)%nat \/ (length w + wslack W <= 240)%nat -> forall z,
    (forall psz n n1 n2, given (narrowed W w) psz n -> lemmatize A junk psz n n1 n2 pgrams dwsets = Ok (z, (n1, n2, pgrams))) -> (z <= 0)%Z ->
    wc_lemmatize W A junk lmbuff szlemm szword p cch output plemma pgrams dwsets = Ok (z, (output, plemma, pgrams))).
  { intros w Hg Hl z Hz Hz0. assert (Hw : (length w + wslack W <= 240)%nat) by (pose proof (wd_slack W HW); lia).
    destruct (wide_lemmatize_run W HW lem lmbuff szlemm szword p cch w output plemma pgrams dwsets H32 H240 Hg Hw) as (after & R).
    assert (Hgn : given (narrowed W w) (Some (narrowed W w ++ after)) (N.of_nat (length w)))
      by (rewrite <- (narrowed_length W w); apply given_counted_narrow; rewrite narrowed_length; lia).
    destruct (R z _ _ _ (Hz _ _ _ _ Hgn)) as [R0 _]. exact (R0 Hz0). }
  split.
  - intros Hg. apply (G [] Hg); [left; cbn [length]; lia| |lia]. intros psz n n1 n2 Hn. apply lemmatize_degenerate. right. exact Hn.
  - intros w Hg Hl Hp. destruct (le_dec (length w + wslack W) 240) as [Hs|Hs].
    + destruct Hp as [Hp|Hp]; [|lia]. apply (G w Hg); [right; exact Hs| |lia]. intros psz n n1 n2 Hn.
      apply (proj2 (lemmatize_degenerate A psz n n1 n2 pgrams dwsets junk) (narrowed W w)); try assumption. rewrite narrowed_length. exact Hl.
    + unfold wc_lemmatize, wide_lemmatize. rewrite (to_narrow_long W szword 240 p cch w Hg) by lia. reflexivity.
Qed.
Lemma wc_elemm_degenerate W A junk lmbuff szlemm szword p cch output plemma pgrams dwsets :
  length lmbuff = 32%nat -> length szlemm = 240%nat -> wide_ok W ->
  (given [] (Some p) cch -> wc_elemmatize W A junk lmbuff szlemm szword p cch output plemma pgrams dwsets = Ok (0%Z, (output, plemma, pgrams))) /\
  (forall w, given w (Some p) cch -> (48 <= length w)%nat -> (length (parts eng_casing (narrowed W w)) <= 16)%nat \/ (240 < length w)%nat ->
     wc_elemmatize W A junk lmbuff szlemm szword p cch output plemma pgrams dwsets = Ok ((-4)%Z, (output, plemma, pgrams))).
Proof.
  intros H32 H240 HW. set (lem := fun psz cch l f g sets => elemmatize A junk psz cch l f g sets).
  assert (G : forall w, given w (Some p) cch -> (length w <= 239)%nat \/ (length w + wslack W <= 240)%nat -> forall z,
    (forall psz n n1 n2, given (narrowed W w) psz n -> elemmatize A junk psz n n1 n2 pgrams dwsets = Ok (z, (n1, n2, pgrams))) -> (z <= 0)%Z ->
    wc_elemmatize W A junk lmbuff szlemm szword p cch output plemma pgrams dwsets = Ok (z, (output, plemma, pgrams))).
  { intros w Hg Hl z Hz Hz0. assert (Hw : (length w + wslack W <= 240)%nat) by (pose proof (wd_slack W HW); lia).
    destruct (wide_lemmatize_run W HW lem lmbuff szlemm szword p cch w output plemma pgrams dwsets H32 H240 Hg Hw) as (after & R).
    assert (Hgn : given (narrowed W w) (Some (narrowed W w ++ after)) (N.of_nat (length w)))
      by (rewrite <- (narrowed_length W w); apply given_counted_narrow; rewrite narrowed_length; lia).
    destruct (R z _ _ _ (Hz _ _ _ _ Hgn)) as [R0 _]. exact (R0 Hz0). }
  split.
  - intros Hg. apply (G [] Hg); [left; cbn [length]; lia| |lia]. intros psz n n1 n2 Hn. apply elemmatize_degenerate. right. exact Hn.
  - intros w Hg Hl Hp. destruct (le_dec (length w + wslack W) 240) as [Hs|Hs].
    + destruct Hp as [Hp|Hp]; [|lia]. apply (G w Hg); [right; exact Hs| |lia]. intros psz n n1 n2 Hn.
      apply (proj2 (elemmatize_degenerate A psz n n1 n2 pgrams dwsets junk) (narrowed W w)); try assumption. rewrite narrowed_length. exact Hl.
    + unfold wc_elemmatize, wide_lemmatize. rewrite (to_narrow_long W szword 240 p cch w Hg) by lia. reflexivity.
Qed.
