(** * TfcProofs4: elements, tables and files. *)
From Coq Require Import String.
From Verif Require Import Base Serial WordTree TreeSpec Stems StemSpec SerialProofs DictProofs GramMap RusRuntime LevelSpec RusSpec Compile CompileSpec CompileProofs Api EngCompile EngCompileSpec EngCompileProofs Utf8 RusText Tfc TfcSpec TfcProofs TfcProofs2 TfcProofs3.
Local Open Scope N_scope.
Local Open Scope list_scope.
Notation length := List.length.

(** ** Elements *)
Lemma field_stop c : ((c =? 44) || is_space c) = false <-> inked c /\ c <> 44.
Proof. rewrite orb_false_iff, N.eqb_neq, ink_iff. tauto. Qed.
Lemma field_all f : field_text f -> Forall (fun c => ((c =? 44) || is_space c) = false) f.
Proof. apply Forall_impl. intros c. apply field_stop. Qed.
Lemma field_white f sp : field_text f -> white sp -> exists r, field_of (f ++ sp) = (f, r) /\ r = sp.
Proof.
  intros Hf Hw. exists sp. split; [|reflexivity]. unfold field_of. destruct sp as [|c sp]; [rewrite app_nil_r; apply take_until_all, field_all, Hf|].
  apply take_until_app; [apply field_all, Hf|]. inversion Hw. rewrite (proj2 (space_iff c)) by assumption. apply orb_true_r.
Qed.
Lemma field_skip f s : field_text f -> f <> [] -> skip_space (f ++ s) = f ++ s.
Proof. intros H Hn. destruct f as [|c f]; [congruence|]. inversion H as [|? ? [Hc _] _]. apply (skip_inked c (f ++ s)), Hc. Qed.
Lemma field_stops f c s : field_text f -> c = 44 \/ c <= 32 -> field_of (f ++ c :: s) = (f, c :: s).
Proof. intros Hf Hc. apply take_until_app; [apply field_all, Hf|]. destruct Hc as [->|Hc]; [reflexivity|]. rewrite (proj2 (space_iff c) Hc). apply orb_true_r. Qed.
Definition rest_fields (fs : list bytes) : list bytes := match tl fs with [] => [[]] | l => l end.
Lemma skip_skip s : skip_space (skip_space s) = skip_space s.
Proof. induction s as [|c s IH]; [reflexivity|]. cbn [skip_space]. destruct (is_space c) eqn:E; [exact IH|]. cbn [skip_space]. rewrite E. reflexivity. Qed.
Lemma no_comma_id c r : inked c -> c <> 44 -> no_comma (c :: r) = c :: r.
Proof. intros H1 H2. unfold no_comma. rewrite skip_inked by exact H1. destruct c as [|p]; [reflexivity|]. do 6 (destruct p; try reflexivity). congruence. Qed.
Lemma no_comma_white sp s : white sp -> no_comma (sp ++ s) = no_comma s.
Proof. intros H. unfold no_comma. rewrite skip_white by exact H. reflexivity. Qed.
Lemma fields_step s fs : fields s fs -> exists r s', field_of (skip_space s) = (nth 0 fs [], r) /\ skip_space (no_comma r) = skip_space s' /\ fields s' (rest_fields fs).
Proof.
  intros H. destruct H as [f sp Hf Hw|f sp sp' s fs Hf Hw Hw' Hs|f sp g s fs Hf Hfn Hw Hn Hg Hs].
  - exists (if list_eq_dec N.eq_dec f [] then [] else sp), []. split; [|split].
    + destruct (list_eq_dec N.eq_dec f []) as [->|Hn].
      * cbn [app nth]. rewrite skip_space_all by (apply white_space, Hw). reflexivity.
      * rewrite field_skip by assumption. destruct (field_white f sp Hf Hw) as (r & E & ->). exact E.
    + destruct (list_eq_dec N.eq_dec f []); [reflexivity|]. unfold no_comma. rewrite (skip_space_all sp) by (apply white_space, Hw). reflexivity.
    + apply (fs_last [] []); constructor.
  - exists (if list_eq_dec N.eq_dec f [] then 44 :: sp' ++ s else sp ++ 44 :: sp' ++ s), s. split; [|split].
    + cbn [nth]. destruct (list_eq_dec N.eq_dec f []) as [->|Hn].
      * cbn [app]. rewrite skip_white by exact Hw. rewrite skip_inked by (unfold inked; lia). reflexivity.
      * rewrite field_skip by assumption. destruct sp as [|c sp]; cbn [app]; apply field_stops; try exact Hf; [left; reflexivity|right; inversion Hw; assumption].
    + match goal with |- skip_space (no_comma ?x) = _ => assert (E : no_comma x = sp' ++ s) end.
      { unfold no_comma. destruct (list_eq_dec N.eq_dec f []); [|rewrite skip_white by exact Hw]; rewrite skip_inked by (unfold inked; lia); reflexivity. }
      rewrite E. apply skip_white, Hw'.
    + unfold rest_fields. cbn [tl]. destruct fs; [inversion Hs|exact Hs].
  - exists (sp ++ s), s. split; [|split].
    + cbn [nth]. rewrite field_skip by assumption. destruct sp as [|c sp]; [congruence|]. cbn [app]. apply field_stops; [exact Hf|right; inversion Hw; assumption].
    + assert (Hgs : exists c r, s = c :: r /\ inked c /\ c <> 44).
      { assert (K : forall g', field_text g' -> g' = g -> forall x, exists c r, g' ++ x = c :: r /\ inked c /\ c <> 44). { intros g' Hg' -> x. destruct g as [|c g]; [congruence|]. inversion Hg' as [|? ? [K1 K2] _]. exists c, (g ++ x). auto. }
        inversion Hs; subst; apply (K g); auto. }
      destruct Hgs as (c & r & -> & Hc & Hc'). rewrite no_comma_white by exact Hw. rewrite no_comma_id by assumption. reflexivity.
    + exact Hs.
Qed.
Lemma nth_rest fs n : nth n (rest_fields fs) [] = nth (S n) fs ([] : bytes).
Proof. unfold rest_fields. destruct fs as [|f [|g fs]]; cbn [tl]; [destruct n as [|[|n]]; reflexivity|destruct n as [|[|n]]; reflexivity|reflexivity]. Qed.
Lemma map_line_fields s fs cg : fields s fs -> map_line s cg =
  match map_gram (nth 1 fs []) cg with
  | None => None
  | Some cg =>
      let sztail := if list_eq_dec N.eq_dec (nth 0 fs []) [39; 39] then [] else nth 0 fs [] in
      Some (if nonempty (nth 2 fs []) then FxItem sztail (gi_info cg) (N.lor (gi_flags cg) 0x80) (nth 2 fs [])
            else if nonempty (nth 3 fs []) then FxItem sztail (gi_info cg) (N.lor (gi_flags cg) 0x40) (nth 3 fs [])
            else FxItem sztail (gi_info cg) (gi_flags cg) [])
  end.
Proof.
  intros H. unfold map_line. destruct (fields_step _ _ H) as (r1 & s1 & E1 & K1 & H1). rewrite E1, K1.
  destruct (fields_step _ _ H1) as (r2 & s2 & E2 & K2 & H2). rewrite E2, K2. destruct (fields_step _ _ H2) as (r3 & s3 & E3 & K3 & H3). rewrite E3, K3.
  destruct (fields_step _ _ H3) as (r4 & s4 & E4 & _ & _). rewrite E4. rewrite !nth_rest. reflexivity.
Qed.
Lemma map_line_says s cg it : element cg s it -> map_line s cg = Some it.
Proof.
  intros (fs & cg' & Hf & Hg & Ht & Hi & Hn). rewrite (map_line_fields _ _ _ Hf). apply map_gram_says in Hg. rewrite Hg. change (text "''") with [39; 39] in Ht. cbv zeta. f_equal.
  destruct it as [t i f n]. cbn [fx_tail fx_info fx_flags fx_next] in *. subst t i. destruct (nth 2 fs []) as [|c l]; cbn [nonempty].
  - destruct (nth 3 fs []) as [|c l]; cbn [nonempty]; destruct Hn as [-> ->]; reflexivity.
  - destruct Hn as [-> ->]. reflexivity.
Qed.
Lemma body_reads body : forall cg t ss its, body_says cg body its -> table_body cg t (body ++ [125] :: ss) = Some (fold_left (fun t x => ftable_insert x t) its t, ss).
Proof.
  induction body as [|s body IH]; intros cg t ss its H; inversion H as [|s' ? cg' ? ? Hg Hb|? it ? ? its' Hs1 Hs2 He Hb]; subst; cbn [app table_body].
  - reflexivity.
  - destruct (list_eq_dec N.eq_dec (46 :: s') [125]) as [E|]; [discriminate|]. apply map_gram_says in Hg. rewrite Hg. apply IH, Hb.
  - destruct (list_eq_dec N.eq_dec s [125]) as [E|]; [contradiction|]. apply map_line_says in He. cbn [fold_left].
    assert (E : match s with 46 :: s' => match map_gram s' cg with None => None | Some cg => table_body cg t (body ++ [125] :: ss) end
      | _ => match map_line s cg with None => None | Some fx => table_body cg (ftable_insert fx t) (body ++ [125] :: ss) end end = match map_line s cg with None => None | Some fx => table_body cg (ftable_insert fx t) (body ++ [125] :: ss) end).
    { clear - Hs2. destruct s as [|c s]; [reflexivity|]. cbn [hd] in Hs2. destruct c as [|p]; [reflexivity|]. do 6 (destruct p; try reflexivity). congruence. }
    rewrite E, He. apply IH, Hb.
Qed.

(** ** Names *)
Lemma name_shape n : name_text n -> ~ In 44 n /\ (exists c t, n = c :: t /\ inked c) /\ trim_end n = n.
Proof. intros (H1 & H2 & t & c & E & Hc). split; [exact H1|]. split; [exact H2|]. rewrite E. apply trim_inked, Hc. Qed.
Lemma no_comma_all n : ~ In 44 n -> Forall (fun c => (c =? 44) = false) n.
Proof. intros H. apply Forall_forall. intros c Hc. apply N.eqb_neq. intros ->. contradiction. Qed.
Lemma white_no_comma w : white w -> ~ In 44 w.
Proof. intros H K. unfold white in H. rewrite Forall_forall in H. specialize (H _ K). lia. Qed.
Lemma names_split s ns : names_written s ns -> forall fuel, (length s < fuel)%nat -> split_names fuel s = ns.
Proof.
  induction 1 as [sp Hw|sp s ns Hw Hs IH|sp n sp' Hw Hn Hw'|sp n sp' s ns Hw Hn Hw' Hs IH]; intros fuel Hf; (destruct fuel as [|fuel]; [lia|]); cbn [split_names].
  - rewrite skip_space_all by (apply white_space, Hw). reflexivity.
  - rewrite skip_white by exact Hw. rewrite skip_inked by (unfold inked; lia). rewrite (take_until_app _ [] 44 s (Forall_nil _) eq_refl : take_until _ (44 :: s) = _). cbn [fst trim_end length skipn nonempty].
    unfold no_comma. rewrite skip_inked by (unfold inked; lia). apply IH. rewrite app_length in Hf. cbn in Hf. lia.
  - destruct (name_shape n Hn) as (H1 & (c & t & E & Hc) & H3). rewrite skip_white by exact Hw. rewrite E. cbn [app]. rewrite skip_inked by exact Hc. change (c :: t ++ sp') with ((c :: t) ++ sp'). rewrite <- E.
    rewrite take_until_all by (apply no_comma_all; intros K; apply in_app_or in K; destruct K as [K|K]; [contradiction|apply (white_no_comma _ Hw' K)]).
    cbn [fst]. rewrite trim_white, H3 by exact Hw'. rewrite skipn_app, skipn_all, Nat.sub_diag. cbn [app skipn]. unfold no_comma. rewrite (skip_space_all sp') by (apply white_space, Hw').
    assert (En : nonempty n = true) by (rewrite E; reflexivity). rewrite En. destruct fuel; reflexivity.
  - destruct (name_shape n Hn) as (H1 & (c & t & E & Hc) & H3). rewrite skip_white by exact Hw. rewrite E. cbn [app]. rewrite skip_inked by exact Hc. change (c :: t ++ sp' ++ 44 :: s) with ((c :: t) ++ sp' ++ 44 :: s). rewrite <- E.
    rewrite app_assoc. rewrite (take_until_app _ (n ++ sp') 44 s) by first [reflexivity|apply no_comma_all; intros K; apply in_app_or in K; destruct K as [K|K]; [contradiction|apply (white_no_comma _ Hw' K)]].
    cbn [fst]. rewrite trim_white, H3 by exact Hw'. rewrite <- app_assoc, skipn_app, skipn_all, Nat.sub_diag. cbn [app skipn]. unfold no_comma. rewrite skip_white by exact Hw'. rewrite skip_inked by (unfold inked; lia).
    assert (En : nonempty n = true) by (rewrite E; reflexivity). rewrite En. f_equal. apply IH. rewrite !app_length in Hf. cbn in Hf. lia.
Qed.
Lemma trim_comma a s : trim_end (a ++ 44 :: s) = a ++ 44 :: trim_end s.
Proof.
  induction a as [|c a IH]; cbn [app trim_end].
  - destruct (trim_end s); reflexivity.
  - rewrite IH. destruct a; reflexivity.
Qed.
Lemma names_trim s ns : names_written s ns -> names_written (trim_end s) ns.
Proof.
  induction 1 as [sp Hw|sp s ns Hw Hs IH|sp n sp' Hw Hn Hw'|sp n sp' s ns Hw Hn Hw' Hs IH].
  - rewrite trim_all by (apply white_space, Hw). apply nw_end. constructor.
  - rewrite trim_comma. apply nw_empty; assumption.
  - destruct Hn as (H1 & H2 & t & c & E & Hc). rewrite app_assoc, trim_white by exact Hw'. rewrite E, app_assoc, trim_inked by exact Hc. rewrite <- app_assoc, <- E. replace (sp ++ n) with (sp ++ n ++ []) by (rewrite app_nil_r; reflexivity). apply nw_last; [exact Hw| |constructor]. split; [exact H1|]. split; [exact H2|]. exists t, c. auto.
  - replace (sp ++ n ++ sp' ++ 44 :: s) with ((sp ++ n ++ sp') ++ 44 :: s) by (rewrite <- !app_assoc; reflexivity). rewrite trim_comma. replace ((sp ++ n ++ sp') ++ 44 :: trim_end s) with (sp ++ n ++ sp' ++ 44 :: trim_end s) by (rewrite <- !app_assoc; reflexivity). apply nw_more; assumption.
Qed.
Lemma split_skip fuel s : split_names fuel (skip_space s) = split_names fuel s.
Proof. destruct fuel as [|fuel]; [reflexivity|]. cbn [split_names]. rewrite skip_skip. reflexivity. Qed.
Lemma skip_length s : (length (skip_space s) <= length s)%nat.
Proof. induction s as [|c s IH]; [reflexivity|]. cbn [skip_space]. destruct (is_space c); cbn [length]; lia. Qed.
Lemma no_comma_len s : (length (no_comma s) <= length s)%nat.
Proof.
  unfold no_comma. pose proof (skip_length s) as K. destruct (skip_space s) as [|y l]; [cbn; lia|]. destruct (N.eq_dec y 44) as [->|Hy]; [cbn in *; lia|].
  assert (E : match y :: l with 44 :: s' => s' | s' => s' end = y :: l) by (destruct y as [|p]; [reflexivity|]; do 6 (destruct p; try reflexivity); congruence). etransitivity; [|exact K]. apply Nat.eq_le_incl. exact (f_equal (@length N) E).
Qed.
Lemma split_fuel fuel : forall s fuel', (length s < fuel)%nat -> (length s < fuel')%nat -> split_names fuel s = split_names fuel' s.
Proof.
  induction fuel as [|fuel IH]; intros s fuel' H H'; [lia|]. destruct fuel' as [|fuel']; [lia|]. cbn [split_names]. pose proof (skip_length s) as Hl. destruct (skip_space s) as [|c s'] eqn:E; [reflexivity|].
  set (name := trim_end (fst (take_until (fun c => c =? 44) (c :: s')))). assert (Hr : (length (no_comma (skipn (length name) (c :: s'))) < length (c :: s'))%nat).
  { destruct name as [|x nm] eqn:En.
    - cbn [length skipn] in *. assert (Hc : is_space c = false). { clear - E. revert E. induction s as [|y s IH]; cbn [skip_space]; [discriminate|]. destruct (is_space y) eqn:Ey; [exact IH|]. intros H. injection H as <- <-. exact Ey. }
      destruct (N.eqb_spec c 44) as [->|Hne]; [change (no_comma (44 :: s')) with s'; lia|]. exfalso. unfold name in En. cbn [take_until] in En. destruct (N.eqb_spec c 44); [contradiction|]. destruct (take_until (fun c => c =? 44) s') as [a b]. cbn [fst trim_end] in En. rewrite Hc in En. destruct (trim_end a); discriminate.
    - pose proof (no_comma_len (skipn (length (x :: nm)) (c :: s'))) as K. rewrite skipn_length in K. cbn [length] in K |- *. lia. }
  assert (Hq : split_names fuel (no_comma (skipn (length name) (c :: s'))) = split_names fuel' (no_comma (skipn (length name) (c :: s')))) by (apply IH; lia). rewrite Hq. reflexivity.
Qed.
Lemma split_names_in rest ns : names_written rest ns -> names_in (trim rest) = ns.
Proof.
  intros H. apply names_trim in H. unfold names_in, trim. set (s := trim_end rest) in *. rewrite (split_fuel _ (skip_space s) (S (length s))) by (pose proof (skip_length s); lia). rewrite split_skip. apply names_split; [exact H|lia].
Qed.
