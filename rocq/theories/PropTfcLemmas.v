(** * PropTfcLemmas: proofs of the theorems of Prop_Tfc. *)
From Coq Require Import String.
From Verif Require Import Base Serial WordTree TreeSpec Stems StemSpec SerialProofs DictProofs GramMap RusRuntime LevelSpec RusSpec Compile CompileSpec CompileProofs Api EngCompile EngCompileSpec EngCompileProofs EngCompileProofs4 Utf8 RusText Tfc TfcSpec TfcProofs TfcProofs2 TfcProofs3 TfcProofs4 TfcProofs5 TfcProofs6.
Local Open Scope N_scope.
Local Open Scope list_scope.
Notation length := List.length.

Lemma empty_map : map_inv (FxList [] []). Proof. constructor. Qed.
Lemma tfc_reads depth fs conv name ds : file_defines fs conv depth name ds -> tfc depth fs conv name = store (collect ds (FxList [] [])).
Proof. intros H. unfold tfc. rewrite (proj1 (files_read fs conv) _ _ _ H). reflexivity. Qed.
Lemma store_means ds b ix : Forall fits_format ds -> Forall bounded ds -> store (collect ds (FxList [] [])) = Some (b, ix) -> tables_mean ds b ix.
Proof.
  intros Hf Hb Hs. destruct (store_meaning ds _ b ix (collected ds) Hf Hb Hs) as (H1 & H2 & H3). split; [exact H1|]. split.
  - intros name. specialize (H2 name). destruct (lookup name ix) as [off|] eqn:E.
    + split; [intros _; destruct (H3 _ _ E) as (_ & lines & K & _); eauto|eauto].
    + split; [intros [off K]; discriminate|]. intros K. exfalso. apply (proj1 H2 eq_refl), K.
  - intros name off lines Hl Hd. destruct (H3 _ _ Hl) as (K1 & lines' & K2 & K3). rewrite (defined_unique _ _ _ _ Hd K2). split; [exact K1|]. split; [exact K3|]. intros s g f. apply (endings_told ds b ix H3), Hl.
Qed.
Lemma tables_compiled depth fs conv name ds : file_defines fs conv depth name ds -> Forall fits_format ds -> links_defined ds -> whole_size ds <= 0x20000 ->
  exists b ix, tfc depth fs conv name = Some (b, ix) /\ tables_mean ds b ix.
Proof.
  intros Hd Hf Hl Hs. rewrite (tfc_reads _ _ _ _ _ Hd). destruct (store_some (collect ds (FxList [] []))) as (b & ix & E).
  - apply collect_map, empty_map.
  - pose proof (collect_size ds (FxList [] []) Hf) as K. unfold whole_size in Hs. cbn [fl_tables tables_size fold_right] in K. lia.
  - apply (linked_from ds _ (collected ds)), Hl.
  - exists b, ix. split; [exact E|]. apply store_means; [exact Hf|apply (proj1 (defined_bounded fs conv) _ _ _ Hd)|exact E].
Qed.
Lemma accepted depth fs conv name b ix : readable fs -> conv_white conv -> tfc depth fs conv name = Some (b, ix) ->
  exists ds, file_defines fs conv depth name ds /\ links_defined ds /\ (Forall fits_format ds -> tables_mean ds b ix).
Proof.
  intros Hr Hc H. unfold tfc in H. destruct (tfc_file fs conv depth name (FxList [] [])) as [fl|] eqn:E; [|discriminate]. destruct (files_total fs conv Hc Hr _ _ _ _ E) as (ds & Hd & ->). exists ds. split; [exact Hd|]. split.
  - apply (linked_from ds _ (collected ds)). eapply store_linked, H.
  - intros Hf. apply store_means; [exact Hf|apply (proj1 (defined_bounded fs conv) _ _ _ Hd)|exact H].
Qed.
Lemma dangling depth fs conv name ds : file_defines fs conv depth name ds -> ~ links_defined ds -> tfc depth fs conv name = None.
Proof.
  intros Hd Hn. rewrite (tfc_reads _ _ _ _ _ Hd). destruct (store _) as [[b ix]|] eqn:E; [|reflexivity]. exfalso. apply Hn. apply (linked_from ds _ (collected ds)). eapply store_linked, E.
Qed.
Lemma collect_same ds ds' : same_tables ds ds' -> forall fl, collect ds fl = collect ds' fl.
Proof.
  induction 1 as [|d d' ds ds' [H1 H2] Hs IH]; intros fl; [reflexivity|]. cbn [collect fold_left]. fold (collect ds) (collect ds'). rewrite H1, (norm_eq _ _ H2). apply IH.
Qed.
Lemma order_free depth fs conv name ds depth' fs' conv' name' ds' : file_defines fs conv depth name ds -> file_defines fs' conv' depth' name' ds' -> same_tables ds ds' ->
  tfc depth fs conv name = tfc depth' fs' conv' name'.
Proof. intros H H' Hs. rewrite (tfc_reads _ _ _ _ _ H), (tfc_reads _ _ _ _ _ H'), (collect_same _ _ Hs). reflexivity. Qed.

(** offsets differ *)
Lemma relocate_increasing l : forall dw offs, N.odd dw = false -> relocate dw l = Some offs -> forall i j a b, (i < j)%nat -> nth_error offs i = Some a -> nth_error offs j = Some b -> a < b.
Proof.
  induction l as [|t l IH]; intros dw offs Hd H i j a b Hij Hi Hj; cbn [relocate] in H; [injection H as <-; destruct i; discriminate|].
  destruct (N.leb_spec 0x1ffff dw) as [|Hlt]; [discriminate|]. rewrite Hd in H. cbn [orb] in H.
  set (dw' := even_up (dw + 1 + fold_right (fun fx n => fx_len fx + n) 0 t)) in *. destruct (relocate dw' l) as [offs'|] eqn:E; [|discriminate]. cbn [option_map] in H. injection H as <-.
  destruct j as [|j]; [lia|]. cbn [nth_error] in Hj. destruct i as [|i].
  - cbn in Hi. injection Hi as <-. pose proof (relocate_offsets _ _ _ E) as K. rewrite Forall_forall in K. specialize (K b (nth_error_In _ _ Hj)). destruct K as [K _]. eapply N.lt_le_trans; [|exact K].
    assert (Hge : dw + 2 <= dw'). { unfold dw'. rewrite <- N.add_assoc, even_up_add by exact Hd. pose proof (even_up_ge (1 + fold_right (fun fx n => fx_len fx + n) 0 t)) as K1. pose proof (even_up_even (1 + fold_right (fun fx n => fx_len fx + n) 0 t)) as K2.
      destruct (N.eq_dec (even_up (1 + fold_right (fun fx n => fx_len fx + n) 0 t)) 1) as [E1|]; [rewrite E1 in K2; discriminate|]. lia. }
    rewrite !N.shiftr_div_pow2. change (2 ^ 1) with 2. apply N.lt_le_trans with ((dw + 1 * 2) / 2); [rewrite N.div_add by discriminate; lia|]. apply N.div_le_mono; [discriminate|lia].
  - cbn [nth_error] in Hi. eapply (IH dw' offs' (even_up_even _) E i j); [lia|exact Hi|exact Hj].
Qed.
Lemma same_lines_norm a b : norm a = norm b <-> same_lines a b.
Proof. split; [intros E it; rewrite <- (norm_in a), <- (norm_in b), E; reflexivity|apply norm_eq]. Qed.
Lemma shared depth fs conv name ds b ix : file_defines fs conv depth name ds -> tfc depth fs conv name = Some (b, ix) ->
  forall n n' l l', defined ds n l -> defined ds n' l' -> (lookup n ix = lookup n' ix <-> same_lines l l').
Proof.
  intros Hd H n n' l l' Dn Dn'. rewrite (tfc_reads _ _ _ _ _ Hd) in H. pose proof (collected ds) as I. set (fl := collect ds (FxList [] [])) in *. clearbody fl. unfold store in H.
  destruct (relocate 6 (fl_tables fl)) as [offs|] eqn:Er; [|discriminate]. destruct (ftables_ser fl offs (fl_tables fl)) as [bs|]; [|discriminate]. destruct (index_of_names offs (fl_map fl)) as [ix'|] eqn:Ei; [|discriminate]. injection H as <- <-.
  assert (L : forall n l, defined ds n l -> exists i off, lookup n ix' = Some off /\ nth_error offs i = Some off /\ nth_error (fl_tables fl) i = Some (norm l)).
  { intros m lm Dm. rewrite (index_spec _ _ _ Ei). destruct (lookup m (fl_map fl)) as [i|] eqn:E.
    - destruct (fi_some _ _ I _ _ E) as (lines & K1 & K2). rewrite (defined_unique _ _ _ _ Dm K1). destruct (nth_error offs i) as [off|] eqn:Eo; [exists i, off; auto|]. exfalso. apply nth_error_None in Eo. rewrite (relocate_length _ _ _ Er) in Eo. apply nth_error_None in Eo. congruence.
    - exfalso. destruct Dm as (a & d & z & -> & K1 & K2 & K3). apply (fi_none _ _ I _ E d); [apply in_or_app; right; left; reflexivity|exact K1]. }
  destruct (L _ _ Dn) as (i & off & E1 & E2 & E3). destruct (L _ _ Dn') as (j & off' & F1 & F2 & F3). rewrite E1, F1, <- same_lines_norm. split.
  - intros K. injection K as <-. destruct (Nat.lt_trichotomy i j) as [Hij|[->|Hij]]; [|congruence|].
    + pose proof (relocate_increasing _ 6 _ eq_refl Er _ _ _ _ Hij E2 F2). lia.
    + pose proof (relocate_increasing _ 6 _ eq_refl Er _ _ _ _ Hij F2 E2). lia.
  - intros K. rewrite K in E3. assert (i = j) by (apply (proj1 (NoDup_nth_error (fl_tables fl)) (fi_nodup _ _ I)); [apply nth_error_Some; congruence|congruence]). congruence.
Qed.

(** ** Limits *)
From Verif Require Import TfcDemo.
(** one file with one table *)
Definition one_file (s : bytes) (name : bytes) : option bytes := if list_eq_dec N.eq_dec name (text "a.tf") then Some s else None.
Definition letters16 : bytes := Eval vm_compute in map N.of_nat (seq 224 16).
Definition big_table : bytes := Eval vm_compute in lines_of [".тип а"; "{"]%string ++ flat_map (fun a => flat_map (fun b => a :: b :: text ", " ++ cyr "И" ++ nl) letters16) letters16 ++ lines_of ["}"]%string.
Lemma big_defines : exists d, file_defines (one_file big_table) same 1 (text "a.tf") [d] /\ Nat.eqb (length (d_lines d)) 256 = true.
Proof.
  set (r := parse_file (one_file big_table) same 1 (text "a.tf")).
  assert (E : match r with Some [d] => Nat.eqb (length (d_lines d)) 256 | _ => false end = true) by (vm_compute; reflexivity).
  destruct r as [[|d [|? ?]]|] eqn:Er; try discriminate. exists d. split; [apply parse_says; [exact same_white|exact Er]|exact E].
Qed.
Lemma big_compiled : match tfc 1 (one_file big_table) same (text "a.tf") with Some (b, [(n, o)]) => (o =? 3) && (nth 6 b 1 =? 0) && (if list_eq_dec N.eq_dec n (cyr "а") then true else false) | _ => false end = true.
Proof. vm_compute. reflexivity. Qed.
Lemma count_zero b off items : table_at b off items -> nth (N.to_nat (2 * off)) b 1 = 0 -> items = [].
Proof.
  intros (_ & _ & pre & rest & -> & Hl) H. rewrite app_nth2 in H by lia. replace (N.to_nat (2 * off) - length pre)%nat with 0%nat in H by lia. cbn [nth] in H. destruct items; [reflexivity|cbn in H; lia].
Qed.
Lemma big_lost : exists b, tfc 1 (one_file big_table) same (text "a.tf") = Some (b, [(cyr "а", 3)]) /\ forall s g f, ~ ending b 3 s g f.
Proof.
  pose proof big_compiled as H. destruct (tfc 1 (one_file big_table) same (text "a.tf")) as [[b [|[n o] [|? ?]]]|]; try discriminate.
  apply andb_true_iff in H. destruct H as [H1 H2]. apply andb_true_iff in H1. destruct H1 as [H0 H1]. apply N.eqb_eq in H0. subst o. destruct (list_eq_dec N.eq_dec n (cyr "а")) as [->|]; [|discriminate]. apply N.eqb_eq in H1. exists b. split; [reflexivity|].
  intros s g f He. inversion He as [off items it T Hin|off items it s' g' f' T Hin]; subst; rewrite (count_zero _ _ _ T H1) in Hin; destruct Hin.
Qed.
(** a name defined twice *)
Definition twice_tf : bytes := Eval vm_compute in lines_of [".тип а"; "{"; "ы, Р"; "}"; ".тип а"; "{"; "у, Д"; "}"]%string.
Definition twice_defs : list definition := Eval vm_compute in match parse_file (one_file twice_tf) same 1 (text "a.tf") with Some ds => ds | None => [] end.
Lemma twice_defines : file_defines (one_file twice_tf) same 1 (text "a.tf") twice_defs.
Proof. apply parse_says; [exact same_white|]. vm_compute. reflexivity. Qed.
Definition verbs_alone : bytes := Eval vm_compute in lines_of [".тип нсв 1a"; "{"; ".инфинитив"; "    ть,,,""1"""; "}"]%string.
Definition verbs_alone_defs : list definition := Eval vm_compute in match parse_file (one_file verbs_alone) same 1 (text "a.tf") with Some ds => ds | None => [] end.
Lemma verbs_alone_defines : file_defines (one_file verbs_alone) same 1 (text "a.tf") verbs_alone_defs.
Proof. apply parse_says; [exact same_white|]. vm_compute. reflexivity. Qed.
Lemma map_gram_says_iff s cg cg' : map_gram s cg = Some cg' <-> gram_says s cg cg'.
Proof. apply map_gram_says. Qed.
Lemma spaced_token cg it : element cg (cyr "а, число М") it -> fx_next it = cyr "М" /\ linked_to it.
Proof.
  intros H. apply map_line_says in H. unfold map_line in H. cbv zeta in H.
  change (field_of (skip_space (cyr "а, число М"))) with (cyr "а", cyr ", число М") in H. cbv beta iota in H. change (field_of (skip_space (no_comma (cyr ", число М")))) with (cyr "число", cyr " М") in H. cbv beta iota in H.
  change (field_of (skip_space (no_comma (cyr " М")))) with (cyr "М", @nil N) in H. cbv beta iota in H. destruct (map_gram (cyr "число") cg) as [cg'|]; [|discriminate]. change (nonempty (cyr "М")) with true in H.
  change (field_of (skip_space (no_comma []))) with (@nil N, @nil N) in H. cbv beta iota in H. apply some_inj in H. subst it. cbn [fx_next]. split; [reflexivity|]. unfold linked_to. cbn [fx_flags].
  intros K. assert (B : N.testbit (N.land (N.lor (gi_flags cg') 128) 192) 7 = true) by (rewrite N.land_spec, N.lor_spec, orb_true_r; reflexivity). rewrite K in B. discriminate.
Qed.
Lemma spaced_token_case : exists it, element (GramInfo 0 3) (cyr "а, число М") it.
Proof. eexists. apply map_line_total; [eexists _, _; split; [vm_compute; reflexivity|reflexivity]|]. vm_compute. reflexivity. Qed.
Lemma defined_more_defs ds d n lines : defined ds n lines -> defined (ds ++ [d]) n lines.
Proof. apply defined_more. Qed.
Lemma first_wins depth fs conv name ds b ix : file_defines fs conv depth name ds -> tfc depth fs conv name = Some (b, ix) ->
  forall d, Forall fits_format ds -> Forall fits_format [d] -> forall depth' fs' conv' name' b' ix', file_defines fs' conv' depth' name' (ds ++ [d]) -> tfc depth' fs' conv' name' = Some (b', ix') ->
  forall n, (exists off, lookup n ix = Some off) -> exists lines off off', defined ds n lines /\ defined (ds ++ [d]) n lines /\ lookup n ix = Some off /\ lookup n ix' = Some off' /\
    compiled_as b ix off lines /\ compiled_as b' ix' off' lines.
Proof.
  intros Hd Ht d Hf Hf' depth' fs' conv' name' b' ix' Hd' Ht' n [off Hn].
  rewrite (tfc_reads _ _ _ _ _ Hd) in Ht. rewrite (tfc_reads _ _ _ _ _ Hd') in Ht'.
  pose proof (store_means _ _ _ Hf (proj1 (defined_bounded fs conv) _ _ _ Hd) Ht) as (_ & M1 & M2). assert (Hff : Forall fits_format (ds ++ [d])) by (apply Forall_app; auto).
  pose proof (store_means _ _ _ Hff (proj1 (defined_bounded fs' conv') _ _ _ Hd') Ht') as (_ & M1' & M2').
  destruct (proj1 (M1 n)) as [lines Hl]; [eauto|]. pose proof (defined_more ds n lines d Hl) as Hl'. destruct (proj2 (M1' n)) as [off' Ho']; [eauto|].
  exists lines, off, off'. destruct (M2 _ _ _ Hn Hl) as (_ & K & _). destruct (M2' _ _ _ Ho' Hl') as (_ & K' & _). repeat match goal with |- _ /\ _ => split end; assumption.
Qed.
