(** * EngCompileProofs3: tables of endings.  PROOFS. *)
From Coq Require Import String Ascii Permutation.
From Verif Require Import Base Serial WordTree TreeSpec Stems StemSpec StemsProofs CharTables CapScheme CapSpec CapProofs RusRuntime RusSpec RusProofs EngRuntime EngSpec Api
  EngCompile EngCompileSpec EngCompileProofs EngCompileProofs2.
Local Open Scope N_scope.
Local Open Scope list_scope.

(** ** Small letters in the text of the forms *)
Definition form_ok (l : list bytes) : Prop := l <> [[45]] /\ Forall ending_text l.
Lemma small_nil e : to_small e = [] <-> e = [].
Proof. destruct e; split; intros H; try reflexivity; discriminate. Qed.
Lemma small_ending e : ending_text e -> ending_text (to_small e).
Proof.
  intros [H1 H2]. split.
  - unfold to_small. apply Forall_map. eapply Forall_impl; [|exact H1]. unfold visible, capital. intros c Hc.
    destruct (N.leb_spec 65 c), (N.leb_spec c 90); cbn [andb]; lia.
  - destruct e as [|c e]; [exact H2|]. cbn [hd to_small map] in *. unfold capital. destruct (N.leb_spec 65 c), (N.leb_spec c 90); cbn [andb]; lia.
Qed.
Lemma small_form l : form_ok l -> form_ok (map to_small l).
Proof.
  intros [H1 H2]. split; [|apply Forall_map; eapply Forall_impl; [|exact H2]; apply small_ending].
  intros E. apply H1. destruct l as [|e [|e' l]]; try discriminate. cbn [map] in E. injection E as E. destruct e as [|c [|c' e]]; try discriminate.
  cbn [to_small map] in E. injection E as E. unfold capital in E. destruct (N.leb_spec 65 c), (N.leb_spec c 90); cbn [andb] in E; subst; try reflexivity; lia.
Qed.
Lemma ending_low e : ending_text e -> Forall (fun c => c < 128) e.
Proof. intros [H _]. eapply Forall_impl; [|exact H]. unfold visible. cbn. lia. Qed.
Lemma low_put_ending e : ending_text e -> map (tab eng_toLoCaseMatrix) (put_ending e) = put_ending (to_small e).
Proof.
  intros H. destruct e as [|c e]; [vm_compute; reflexivity|]. cbn [put_ending]. rewrite low_small_map by (apply ending_low, H). reflexivity.
Qed.
Lemma low_put_alts l : Forall ending_text l -> map (tab eng_toLoCaseMatrix) (put_alts l) = put_alts (map to_small l).
Proof.
  induction l as [|e l IH]; intros H; [reflexivity|]. specialize (IH (Forall_inv_tail H)). pose proof (low_put_ending e (Forall_inv H)) as He.
  destruct l as [|e' l]; [exact He|]. cbn [put_alts map] in *. rewrite map_app, He. f_equal. cbn [map]. apply (f_equal2 cons); [vm_compute; reflexivity|exact IH].
Qed.
Lemma low_put_form l : form_ok l -> map (tab eng_toLoCaseMatrix) (put_form l) = put_form (map to_small l).
Proof. intros [_ H]. destruct l as [|e l]; [vm_compute; reflexivity|]. apply low_put_alts, H. Qed.
Lemma low_put_forms forms : Forall form_ok forms ->
  map (tab eng_toLoCaseMatrix) (put_forms (Some forms)) = put_forms (Some (map (map to_small) forms)).
Proof.
  cbn [put_forms]. induction 1 as [|l forms Hl Hf IH]; [reflexivity|]. cbn [flat_map map].
  change (map (tab eng_toLoCaseMatrix) ((124 :: put_form l) ++ flat_map (fun l => 124 :: put_form l) forms))
    with (tab eng_toLoCaseMatrix 124 :: map (tab eng_toLoCaseMatrix) (put_form l ++ flat_map (fun l => 124 :: put_form l) forms)).
  rewrite map_app, low_put_form, IH by exact Hl. reflexivity.
Qed.

(** ** Parsing *)
Definition add_ie (t : ftab) (ie : N * bytes) : ftab := ftab_add (fst ie) (snd ie) t.
Fixpoint listing (forms : list (list bytes)) (i : N) : list (N * bytes) :=
  match forms with [] => [] | l :: forms' => map (pair i) l ++ listing forms' (i + 1) end.

Lemma put_ending_noslash e : ending_text e -> Forall (fun c => (c =? 47) = false) (put_ending e) /\ Forall (fun c => (c =? 124) = false) (put_ending e).
Proof.
  intros [H _]. destruct e as [|c e]; cbn [put_ending]; [split; repeat constructor|].
  split; (eapply Forall_impl; [|exact H]); cbn; intros d Hd; apply N.eqb_neq; tauto.
Qed.
Lemma put_ending_cons e : ending_text e -> exists c r, put_ending e = c :: r /\ (if c =? 48 then [] else put_ending e) = e.
Proof.
  intros [_ H]. destruct e as [|c e]; cbn [put_ending]; [exists 48, []; auto|]. exists c, e. split; [reflexivity|]. cbn [hd] in H. apply N.eqb_neq in H. rewrite H. reflexivity.
Qed.
Lemma add_alts_eq l : forall fuel id t, Forall ending_text l -> (length (put_alts l) <= fuel)%nat ->
  add_alts fuel (put_alts l) id t = fold_left add_ie (map (pair id) l) t.
Proof.
  induction l as [|e l IH]; intros fuel id t H Hf; [cbn [put_alts map fold_left]; destruct fuel; reflexivity|].
  pose proof (Forall_inv H) as He. destruct (put_ending_cons e He) as (c & r & Ec & Ei). destruct (put_ending_noslash e He) as [Hs _].
  destruct l as [|e' l].
  - cbn [put_alts] in *. rewrite Ec in *. destruct fuel as [|fuel]; [cbn in Hf; lia|]. cbn [add_alts]. rewrite take_until_all by exact Hs.
    cbv iota beta zeta. cbn [map fold_left]. unfold add_ie. cbn [fst snd]. f_equal. exact Ei.
  - change (put_alts (e :: e' :: l)) with (put_ending e ++ 47 :: put_alts (e' :: l)) in *. rewrite Ec in *. cbn [app] in *. destruct fuel as [|fuel]; [cbn in Hf; lia|]. cbn [add_alts].
    change (c :: r ++ 47 :: put_alts (e' :: l)) with ((c :: r) ++ 47 :: put_alts (e' :: l)).
    rewrite (take_until_app (fun c => c =? 47)) by (try exact Hs; reflexivity). cbv iota beta zeta. rewrite IH.
    + change (fold_left add_ie (map (pair id) (e :: e' :: l)) t) with (fold_left add_ie (map (pair id) (e' :: l)) (ftab_add id e t)). do 2 f_equal. exact Ei.
    + exact (Forall_inv_tail H).
    + cbn [length] in Hf. rewrite app_length in Hf. cbn [length] in Hf. lia.
Qed.

Fixpoint put_slots (forms : list (list bytes)) : bytes :=
  match forms with [] => [] | [l] => put_form l | l :: forms' => put_form l ++ 124 :: put_slots forms' end.
Lemma put_forms_slots forms : forms <> [] -> put_forms (Some forms) = 124 :: put_slots forms.
Proof.
  cbn [put_forms]. induction forms as [|l forms IH]; intros H; [contradiction|]. cbn [flat_map app]. f_equal. destruct forms as [|l' forms]; [cbn [flat_map put_slots]; apply app_nil_r|].
  rewrite IH by discriminate. reflexivity.
Qed.
Lemma put_alts_nobar l : Forall ending_text l -> Forall (fun c => (c =? 124) = false) (put_alts l).
Proof.
  induction l as [|e l IH]; intros H; [constructor|]. destruct (put_ending_noslash e (Forall_inv H)) as [_ He]. specialize (IH (Forall_inv_tail H)).
  destruct l as [|e' l]; [exact He|]. change (put_alts (e :: e' :: l)) with (put_ending e ++ 47 :: put_alts (e' :: l)). apply Forall_app. split; [exact He|]. constructor; [reflexivity|exact IH].
Qed.
Lemma put_form_facts l : form_ok l -> Forall (fun c => (c =? 124) = false) (put_form l) /\ (exists c r, put_form l = c :: r) /\ (l <> [] -> put_form l <> [45]).
Proof.
  intros [H1 H2]. destruct l as [|e l]; [split; [repeat constructor|split; [eexists _, _; reflexivity|contradiction]]|]. cbn [put_form].
  split; [apply put_alts_nobar, H2|]. destruct (put_ending_cons e (Forall_inv H2)) as (c & r & Ec & Ei).
  assert (Ep : put_alts (e :: l) = put_ending e ++ match l with [] => [] | _ => 47 :: put_alts l end) by (destruct l; [cbn [put_alts]; rewrite app_nil_r|]; reflexivity).
  rewrite Ep. split; [rewrite Ec; eexists _, _; reflexivity|]. intros _ E. apply H1. destruct l as [|e' l].
  - rewrite app_nil_r in E. rewrite <- Ei, E. rewrite Ec in E. injection E as -> ->. reflexivity.
  - rewrite Ec in E. destruct r; discriminate.
Qed.

Lemma add_slots_eq forms : forall fuel i t, Forall form_ok forms -> i + N.of_nat (length forms) <= 256 -> (length (put_slots forms) <= fuel)%nat ->
  add_slots fuel (put_slots forms) i t = fold_left add_ie (listing forms i) t.
Proof.
  induction forms as [|l forms IH]; intros fuel i t H Hi Hf; [cbn [put_slots listing fold_left]; destruct fuel; reflexivity|].
  pose proof (Forall_inv H) as Hl. destruct (put_form_facts l Hl) as (F1 & (c & r & F2) & F3).
  assert (Ea : (if list_eq_dec N.eq_dec (put_form l) [45] then t else add_alts (length (put_form l)) (put_form l) (i mod 256) t) = fold_left add_ie (map (pair i) l) t).
  { cbn [length] in Hi. rewrite (N.mod_small i 256) by lia. destruct (list_eq_dec N.eq_dec (put_form l) [45]) as [E|E].
    - destruct l as [|e l]; [reflexivity|]. exfalso. apply F3; [discriminate|exact E].
    - destruct l as [|e l]; [contradiction E; reflexivity|]. cbn [put_form]. apply add_alts_eq; [apply Hl|reflexivity]. }
  cbn [listing]. rewrite fold_left_app. destruct forms as [|l' forms].
  - cbn [put_slots listing fold_left] in *. rewrite F2 in Hf |- *. destruct fuel as [|fuel]; [cbn in Hf; lia|]. cbn [add_slots]. rewrite <- F2. rewrite take_until_all by exact F1.
    rewrite Ea. destruct fuel; reflexivity.
  - change (put_slots (l :: l' :: forms)) with (put_form l ++ 124 :: put_slots (l' :: forms)) in *.
    assert (Es : exists c' r', put_form l ++ 124 :: put_slots (l' :: forms) = c' :: r') by (rewrite F2; eexists _, _; reflexivity). destruct Es as (c' & r' & Es).
    assert (Hf' : (length (put_slots (l' :: forms)) < fuel)%nat) by (rewrite app_length in Hf; cbn [length] in Hf; lia).
    rewrite Es. destruct fuel as [|fuel]; [lia|]. cbn [add_slots]. rewrite <- Es. rewrite (take_until_app (fun c => c =? 124)) by (try exact F1; reflexivity).
    rewrite Ea. apply IH; [exact (Forall_inv_tail H)|cbn [length] in *; lia|lia].
Qed.

(** the table of a text *)
Definition table_of (flex : bytes) : ftab :=
  let slots := match flex with 124 :: s => s | s => s end in add_slots (length slots) slots 0 (FTab [] (TableRef 0 0xff 0)).
Definition table_for (forms : list (list bytes)) : ftab := fold_left add_ie (listing forms 0) (FTab [] (TableRef 0 0xff 0)).
Lemma table_of_eq forms : Forall form_ok forms -> forms <> [] -> (length forms <= 256)%nat -> table_of (put_forms (Some forms)) = table_for forms.
Proof.
  intros H Hne Hl. unfold table_of. rewrite put_forms_slots by exact Hne. cbv iota zeta. apply add_slots_eq; [exact H|lia|reflexivity].
Qed.

(** ** Facts about tables *)
Lemma fx_insert_perm x l : Permutation (fx_insert x l) (x :: l).
Proof. induction l as [|y l IH]; cbn [fx_insert]; [reflexivity|]. destruct (fx_lt y x); [|reflexivity]. rewrite IH. apply perm_swap. Qed.
Lemma strcmp_le a b : match strcmp a b with Lt => lex_lt a b | Eq => a = b | Gt => lex_lt b a end.
Proof.
  revert b. induction a as [|x a IH]; intros [|y b]; cbn [strcmp]; try reflexivity; try (constructor; fail).
  destruct (N.ltb_spec x y); [constructor; assumption|]. destruct (N.ltb_spec y x); [constructor; assumption|]. assert (x = y) by lia. subst y.
  specialize (IH b). destruct (strcmp a b); [f_equal; exact IH|constructor; exact IH|constructor; exact IH].
Qed.
Definition lex_le (a b : bytes) : Prop := lex_lt a b \/ a = b.
Lemma lex_le_trans a b c : lex_le a b -> lex_le b c -> lex_le a c.
Proof. intros [H| ->] [K| <-]; try (left; eapply lex_lt_trans; eassumption); [left; assumption|left; assumption|right; reflexivity]. Qed.
Lemma fx_insert_ascending x l : ascending (map snd l) -> ascending (map snd (fx_insert x l)).
Proof.
  induction l as [|y l IH]; intros H; cbn [fx_insert map ascending] in *; [split; constructor|]. destruct H as [H1 H2].
  pose proof (strcmp_le (snd y) (snd x)) as Hc. unfold fx_lt. destruct (strcmp (snd y) (snd x)) eqn:Ec.
  - destruct (fst y <? fst x); cbn [map ascending].
    + split; [|apply IH, H2]. apply Forall_forall. intros b Hb. apply in_map_iff in Hb as (z & <- & Hz). apply (Permutation_in _ (fx_insert_perm x l)) in Hz. destruct Hz as [<-|Hz]; [right; exact Hc|].
      rewrite Forall_forall in H1. apply H1, in_map, Hz.
    + split; [constructor; [right; symmetry; exact Hc|rewrite <- Hc; exact H1]|split; assumption].
  - cbn [map ascending]. split; [|apply IH, H2]. apply Forall_forall. intros b Hb. apply in_map_iff in Hb as (z & <- & Hz). apply (Permutation_in _ (fx_insert_perm x l)) in Hz. destruct Hz as [<-|Hz]; [left; exact Hc|].
    rewrite Forall_forall in H1. apply H1, in_map, Hz.
  - cbn [map ascending]. split; [constructor; [left; exact Hc|]|split; assumption]. eapply Forall_impl; [|exact H1]. intros b Hb. eapply lex_le_trans; [left; exact Hc|exact Hb].
Qed.

Definition first (e : bytes) : N := match e with [] => 0 | c :: _ => c end.
Lemma fold_add_facts l : forall t, ascending (map snd (t_items t)) ->
  let t' := fold_left add_ie l t in
  Permutation (t_items t') (l ++ t_items t) /\ ascending (map snd (t_items t')) /\ t_offset (t_ref t') = t_offset (t_ref t) /\
  t_lower (t_ref t') = fold_right N.min (t_lower (t_ref t)) (map (fun ie => first (snd ie)) l) /\
  t_upper (t_ref t') = fold_right N.max (t_upper (t_ref t)) (map (fun ie => first (snd ie)) l).
Proof.
  induction l as [|[i e] l IH]; intros t Ht; cbv zeta; [cbn; auto|]. cbn [fold_left map fold_right app].
  destruct (IH (add_ie t (i, e))) as (I1 & I2 & I3 & I4 & I5); [cbn [add_ie ftab_add t_items]; apply fx_insert_ascending, Ht|].
  cbv zeta in *. cbn [add_ie ftab_add t_items t_ref t_offset t_lower t_upper fst snd] in *. fold (first e) in *.
  split; [|split; [exact I2|]; split; [exact I3|]; split].
  - rewrite I1, fx_insert_perm. symmetry. apply Permutation_middle.
  - rewrite I4. clear. induction (map (fun ie : N * bytes => first (snd ie)) l) as [|c l' IH]; cbn [fold_right]; [lia|]. rewrite IH. lia.
  - rewrite I5. clear. induction (map (fun ie : N * bytes => first (snd ie)) l) as [|c l' IH]; cbn [fold_right]; [lia|]. rewrite IH. lia.
Qed.

Lemma listing_in forms i id e : In (id, e) (listing forms i) <-> exists k alts, nth_error forms k = Some alts /\ In e alts /\ id = i + N.of_nat k.
Proof.
  revert i. induction forms as [|l forms IH]; intros i; cbn [listing].
  - split; [intros []|intros ([|k] & alts & H & _); discriminate].
  - rewrite in_app_iff, in_map_iff, IH. split.
    + intros [(e' & [= <- <-] & H)|(k & alts & H1 & H2 & H3)]; [exists O, l; cbn; repeat split; auto; lia|]. exists (S k), alts. split; [exact H1|]. split; [exact H2|]. lia.
    + intros ([|k] & alts & H1 & H2 & H3).
      * left. injection H1 as <-. exists e. split; [f_equal; lia|exact H2].
      * right. exists k, alts. split; [exact H1|]. split; [exact H2|]. lia.
Qed.
Lemma listing_snd forms : forall i, map snd (listing forms i) = concat forms.
Proof.
  induction forms as [|l forms IH]; intros i; [reflexivity|]. cbn [listing concat]. rewrite map_app, IH, map_map. cbn [snd]. rewrite map_id. reflexivity.
Qed.

(** sizes *)
Lemma put_alts_long l : l <> [] -> (2 * length l <= S (length (put_alts l)))%nat.
Proof.
  induction l as [|e l IH]; intros H; [contradiction|]. assert (Hp : (1 <= length (put_ending e))%nat) by (destruct e; cbn; lia). destruct l as [|e' l]; [cbn [put_alts length] in *; lia|].
  specialize (IH ltac:(discriminate)). change (put_alts (e :: e' :: l)) with (put_ending e ++ 47 :: put_alts (e' :: l)). rewrite app_length. cbn [length] in *. lia.
Qed.
Lemma put_alts_each l e : In e l -> (length e <= length (put_alts l))%nat.
Proof.
  induction l as [|a l IH]; intros H; [destruct H|]. assert (Hp : (length a <= length (put_ending a))%nat) by (destruct a; cbn; lia).
  destruct l as [|a' l]; [destruct H as [<-|[]]; exact Hp|]. change (put_alts (a :: a' :: l)) with (put_ending a ++ 47 :: put_alts (a' :: l)). rewrite app_length. cbn [length].
  destruct H as [<-|H]; [lia|]. specialize (IH H). cbn [length] in IH. lia.
Qed.
Lemma put_forms_long forms : (2 * length forms <= length (put_forms (Some forms)))%nat /\ (2 * length (concat forms) <= length (put_forms (Some forms)))%nat /\
  (forall l e, In l forms -> In e l -> (length e < length (put_forms (Some forms)))%nat).
Proof.
  cbn [put_forms]. induction forms as [|l forms (I1 & I2 & I3)]; [cbn; split; [lia|split; [lia|intros l e []]]|].
  cbn [flat_map concat length app]. rewrite !app_length.
  assert (Hl : (1 <= length (put_form l))%nat /\ (2 * length l <= S (length (put_form l)))%nat /\ forall e, In e l -> (length e <= length (put_form l))%nat).
  { destruct l as [|e l]; [cbn; split; [lia|split; [lia|intros e []]]|]. cbn [put_form]. pose proof (put_alts_long (e :: l) ltac:(discriminate)) as K. split; [cbn [length] in *; lia|]. split; [exact K|apply put_alts_each]. }
  destruct Hl as (L1 & L2 & L3). split; [lia|]. split; [lia|]. intros l' e [<-|Hl] He; [specialize (L3 e He); lia|]. specialize (I3 l' e Hl He). lia.
Qed.

Lemma ids_count t part : length (ids_of t part) = count_occ (list_eq_dec N.eq_dec) (map snd t) part.
Proof.
  unfold ids_of. rewrite map_length. induction t as [|[i e] t IH]; [reflexivity|]. cbn [filter map snd count_occ]. destruct (list_eq_dec N.eq_dec e part) as [E|E]; cbn [length]; rewrite IH; reflexivity.
Qed.
Lemma count_perm (l l' : list bytes) part : Permutation l l' -> count_occ (list_eq_dec N.eq_dec) l part = count_occ (list_eq_dec N.eq_dec) l' part.
Proof.
  induction 1 as [|a l l' _ IH|a b l|l l' l'' _ I1 _ I2]; cbn [count_occ]; [reflexivity|rewrite IH; reflexivity| |congruence].
  destruct (list_eq_dec N.eq_dec a part), (list_eq_dec N.eq_dec b part); reflexivity.
Qed.
Lemma concat_small forms : concat (map (map to_small) forms) = map to_small (concat forms).
Proof. rewrite concat_map. reflexivity. Qed.

(** the table of an article *)
Definition article_table (forms : list (list bytes)) : ftab := table_for (map (map to_small) forms).
Lemma article_table_facts forms : Forall form_ok forms -> (length (put_forms (Some forms)) < 256)%nat ->
  (forall part, (count_occ (list_eq_dec N.eq_dec) (map to_small (concat forms)) part <= 64)%nat) ->
  let t := article_table forms in
  etable_ok (t_items t) /\
  (forall id part, In (id, part) (t_items t) <-> exists k alts e, nth_error forms k = Some alts /\ In e alts /\ part = to_small e /\ id = N.of_nat k) /\
  Forall (fun ie => t_lower (t_ref t) <= first (snd ie) <= t_upper (t_ref t)) (t_items t) /\
  t_lower (t_ref t) <= 255 /\ t_upper (t_ref t) < 128 /\
  (t_upper (t_ref t) = 0 \/ exists id part, In (id, part) (t_items t) /\ first part = t_upper (t_ref t)).
Proof.
  intros Hok Hlen Hc. cbv zeta. unfold article_table, table_for. set (forms' := map (map to_small) forms).
  destruct (fold_add_facts (listing forms' 0) (FTab [] (TableRef 0 0xff 0)) I) as (P & A & _ & Lo & Up). cbv zeta in *. cbn [t_items t_ref t_lower t_upper] in *. rewrite app_nil_r in P.
  set (t := fold_left add_ie (listing forms' 0) (FTab [] (TableRef 0 0xff 0))) in *.
  assert (Hin : forall id part, In (id, part) (t_items t) <-> exists k alts e, nth_error forms k = Some alts /\ In e alts /\ part = to_small e /\ id = N.of_nat k).
  { intros id part. split.
    - intros H. apply (Permutation_in _ P) in H. apply listing_in in H as (k & alts & H1 & H2 & H3). unfold forms' in H1. rewrite nth_error_map in H1.
      destruct (nth_error forms k) as [alts'|] eqn:E; [|discriminate]. cbn in H1. injection H1 as <-. apply in_map_iff in H2 as (e & <- & H2). exists k, alts', e. repeat split; auto.
    - intros (k & alts & e & H1 & H2 & -> & ->). apply (Permutation_in _ (Permutation_sym P)). apply listing_in. exists k, (map to_small alts).
      split; [unfold forms'; rewrite nth_error_map, H1; reflexivity|]. split; [apply in_map, H2|lia]. }
  destruct (put_forms_long forms) as (S1 & S2 & S3).
  assert (Hlow : forall id part, In (id, part) (t_items t) -> ending_text part /\ (length part < 256)%nat /\ id < 256).
  { intros id part H. apply Hin in H as (k & alts & e & H1 & H2 & -> & ->). pose proof (nth_error_In _ _ H1) as Hi. rewrite Forall_forall in Hok. destruct (Hok _ Hi) as [_ Ho].
    rewrite Forall_forall in Ho. split; [apply small_ending, Ho, H2|]. split; [unfold to_small; rewrite map_length; specialize (S3 _ _ Hi H2); lia|].
    assert (k < length forms)%nat by (apply nth_error_Some; congruence). lia. }
  split; [|split; [exact Hin|]].
  - assert (Psnd : Permutation (map snd (t_items t)) (map to_small (concat forms))) by (rewrite P, listing_snd; unfold forms'; rewrite concat_small; reflexivity).
    split; [|split; [|split; [exact A|]]].
    + apply Permutation_length in Psnd. rewrite !map_length in Psnd. rewrite Psnd. lia.
    + apply Forall_forall. intros [id part] H. destruct (Hlow _ _ H) as (_ & H1 & H2). auto.
    + intros part. rewrite ids_count, (count_perm _ _ part Psnd). apply Hc.
  - assert (Hb : forall c, In c (map (fun ie => first (snd ie)) (listing forms' 0)) <-> exists id part, In (id, part) (t_items t) /\ first part = c).
    { intros c. rewrite in_map_iff. split.
      - intros ([id part] & <- & H). exists id, part. split; [apply (Permutation_in _ (Permutation_sym P)), H|reflexivity].
      - intros (id & part & H & <-). exists (id, part). split; [reflexivity|]. apply (Permutation_in _ P), H. }
    assert (Hf : forall id part, In (id, part) (t_items t) -> first part < 128).
    { intros id part H. destruct (Hlow _ _ H) as ([H1 _] & _). destruct part as [|c part]; [cbn; lia|]. apply Forall_inv in H1. unfold visible in H1. cbn. lia. }
    rewrite Lo, Up. set (cs := map (fun ie => first (snd ie)) (listing forms' 0)) in *.
    assert (Hmm : forall c, In c cs -> fold_right N.min 255 cs <= c <= fold_right N.max 0 cs).
    { clear. induction cs as [|d cs IH]; intros c Hi; [destruct Hi|]. cbn [fold_right]. destruct Hi as [<-|Hi]; [lia|]. specialize (IH c Hi). lia. }
    assert (Hl : fold_right N.min 255 cs <= 255) by (clear; induction cs as [|d cs IH]; cbn [fold_right]; lia).
    assert (Hu : fold_right N.max 0 cs = 0 \/ In (fold_right N.max 0 cs) cs).
    { clear. induction cs as [|d cs IH]; cbn [fold_right]; [auto|]. destruct (N.max_spec d (fold_right N.max 0 cs)) as [[H ->]|[H ->]]; [|right; left; reflexivity].
      destruct IH as [IH|IH]; [lia|right; right; exact IH]. }
    split; [|split; [exact Hl|split]].
    + apply Forall_forall. intros [id part] H. cbn [snd]. apply Hmm. apply Hb. eauto.
    + destruct Hu as [-> |Hu]; [reflexivity|]. apply Hb in Hu as (id & part & H & <-). eapply Hf, H.
    + destruct Hu as [Hu|Hu]; [left; exact Hu|right]. apply Hb in Hu as (id & part & H & E). eauto.
Qed.
