(** * FuzzyProofs6: what the compiler makes of its sources is a guesser.  PROOFS ONLY. *)
From Coq Require Import Permutation.
From Verif Require Import Base Serial SerialProofs TreeSpec FlatScanProofs CharTables CapScheme CapSpec CapProofs CapProofs2 CapProofs3 GramMap RusRuntime
  LevelSpec LevelProofs RusSpec RusProofs RusProofs2 RusProofs3 RusBuild RusBuildSpec RusBuildProofs RusBuildProofs2 RusBuildProofs3 Fuzzy FuzzySpec FuzzyProofs FuzzyProofs2 FuzzyProofs3 FuzzyProofs4 FuzzyProofs5.
Local Open Scope N_scope.

Lemma add_keys k r m : NoDup (map fst m) -> NoDup (map fst (index_add k r m)) /\ (forall x, In x (map fst (index_add k r m)) -> x = k \/ In x (map fst m)).
Proof.
  induction m as [|[k0 l] m IH]; intros H; cbn [index_add].
  - split; [constructor; [intros []|constructor]|]. cbn. intros x [<-|[]]. left. reflexivity.
  - cbn [map fst] in H. inversion H as [|? ? H1 H2]; subst. destruct (list_eq_dec N.eq_dec k0 k) as [->|Hn]; cbn [map fst].
    + split; [constructor; assumption|]. intros x Hx. right. exact Hx.
    + destruct (IH H2) as [I1 I2]. split.
      * constructor; [|exact I1]. intros Hx. apply I2 in Hx. destruct Hx as [Hx|Hx]; [congruence|contradiction].
      * intros x [<-|Hx]; [right; left; reflexivity|]. apply I2 in Hx. destruct Hx as [->|Hx]; [left; reflexivity|right; right; exact Hx].
Qed.
Lemma flex_keys i ms f : forall m, NoDup (map fst m) -> NoDup (map fst (index_flex i ms f m)).
Proof. unfold index_flex. induction ms as [|md ms IH]; intros m H; [exact H|]. cbn [fold_left]. apply IH, add_keys, H. Qed.
Lemma class_keys i c m : NoDup (map fst m) -> NoDup (map fst (index_class i c m)).
Proof.
  unfold index_class. generalize (c_inflex c) as fs. intros fs. revert m. induction fs as [|f fs IH]; intros m H; [exact H|]. cbn [fold_left]. apply IH, flex_keys, H.
Qed.
Lemma classes_keys cs : forall i m, NoDup (map fst m) -> NoDup (map fst (index_classes i cs m)).
Proof. induction cs as [|c cs IH]; intros i m H; [exact H|]. cbn [index_classes]. apply IH, class_keys, H. Qed.

Lemma stored_found m key v : NoDup (map fst m) -> In (key, v) m -> stored_under m key = v.
Proof.
  induction m as [|kv m IH]; [intros _ []|]. intros Hn [H|H]; cbn [map] in Hn; inversion Hn as [|? ? H1 H2]; subst.
  - rewrite stored_cons. cbn [fst snd]. destruct (same_spec key key); [reflexivity|congruence].
  - rewrite stored_cons. destruct (same_spec (fst kv) key) as [E|]; [|apply IH; assumption]. exfalso. apply H1. rewrite E. exact (in_map fst _ _ H).
Qed.
Lemma stored_perm m m' key : NoDup (map fst m) -> Permutation m m' -> stored_under m key = stored_under m' key.
Proof.
  intros Hn Hp. assert (Hn' : NoDup (map fst m')) by (eapply Permutation_NoDup; [apply Permutation_map; exact Hp|exact Hn]).
  destruct (in_dec (list_eq_dec N.eq_dec) key (map fst m)) as [Hi|Hi].
  - apply in_map_iff in Hi. destruct Hi as ([k v] & E & Hi). cbn [fst] in E. subst k. rewrite (stored_found m key v Hn Hi). symmetry. apply stored_found; [exact Hn'|].
    eapply Permutation_in; eassumption.
  - rewrite stored_none; [rewrite stored_none; [reflexivity|]|].
    + intros kv Hkv E. apply Hi. rewrite <- E. apply in_map. eapply Permutation_in; [apply Permutation_sym; exact Hp|exact Hkv].
    + intros kv Hkv E. apply Hi. rewrite <- E. apply in_map. exact Hkv.
Qed.

(** ** The classes *)
Lemma accepted_suffix c : class_accepted c = true -> Forall (fun m => length (m_suffix m) = 2%nat) (c_models c).
Proof.
  intros H. unfold class_accepted in H. apply andb_true_iff in H. destruct H as [H _]. apply andb_true_iff in H. destruct H as [_ H].
  apply Forall_forall. intros m Hm. rewrite forallb_forall in H. apply Nat.eqb_eq. exact (H m Hm).
Qed.
Lemma accepted_inflex c : class_accepted c = true -> c_inflex c <> [].
Proof.
  intros H. unfold class_accepted in H. apply andb_true_iff in H. destruct H as [H _]. apply andb_true_iff in H. destruct H as [H _]. apply andb_true_iff in H.
  destruct H as [_ H]. intros E. rewrite E in H. discriminate.
Qed.

Lemma perm_forall {X} (P : X -> Prop) l l' : Permutation l l' -> Forall P l -> Forall P l'.
Proof. intros Hp H. rewrite Forall_forall in *. intros x Hx. apply H. eapply Permutation_in; [apply Permutation_sym; exact Hp|exact Hx]. Qed.

Section Sorted.
  Variable sort : list model_src -> list model_src.
  Hypothesis Hsort : forall l, Permutation l (sort l).

  Lemma source_class c : source_ok c -> class_ok (sorted_class sort c).
  Proof.
    intros H. constructor; cbn [sorted_class c_partsp c_inflex c_models].
    - pose proof (so_flex _ H) as Hf. pose proof (accepted_inflex c (so_accepted _ H)) as Hn. destruct (c_inflex c) as [|f l]; [congruence|].
      destruct (Forall_inv Hf) as (_ & _ & _ & Hk & _). lia.
    - apply H.
    - eapply Forall_impl; [|apply (so_flex _ H)]. intros f (H1 & H2 & H3 & _). repeat split; [exact H1|lia|exact H3].
    - rewrite <- (Permutation_length (Hsort (c_models c))). apply H.
    - eapply perm_forall; [apply Hsort|]. pose proof (so_models _ H) as H1. pose proof (accepted_suffix c (so_accepted _ H)) as H2.
      rewrite Forall_forall in *. intros m Hm. split; [apply H2; exact Hm|apply H1; exact Hm].
  Qed.

  Lemma source_bytes c : source_ok c -> guess_class_ser sort c = class_bytes (sorted_class sort c).
  Proof.
    intros H. pose proof (source_class c H) as Hc. unfold guess_class_ser, class_bytes. cbn [sorted_class c_partsp c_inflex c_models c_accent] in *.
    rewrite N.mod_small by (pose proof (co_partsp _ Hc) as Hp; cbn in Hp; lia). cbn [app]. do 2 f_equal. f_equal. f_equal.
    - apply flat_map_ext_in. intros f Hf. pose proof (co_flex _ Hc) as Hx. cbn [sorted_class c_inflex] in Hx. rewrite Forall_forall in Hx. destruct (Hx f Hf) as (H1 & H2 & H3).
      unfold guess_flex_ser. rewrite !N.mod_small by assumption. rewrite Nnat.Nat2N.id, firstn_all. reflexivity.
    - f_equal; [rewrite <- (Permutation_length (Hsort (c_models c))); reflexivity|]. apply flat_map_ext_in. intros m Hm.
      pose proof (co_models _ Hc) as Hx. cbn [sorted_class c_models] in Hx. rewrite Forall_forall in Hx. destruct (Hx m Hm) as (H1 & _).
      unfold guess_model_ser. rewrite firstn_all2 by lia. reflexivity.
  Qed.

  Lemma offsets_nth l : forall k off b, nth_error l k = Some b ->
    nth_error (class_offsets off l) k = Some (off + N.of_nat (length (concat (firstn k l)))) /\ concat l = concat (firstn k l) ++ b ++ concat (skipn (S k) l).
  Proof.
    induction l as [|a l IH]; intros [|k] off b H; try discriminate; cbn [nth_error] in H.
    - injection H as ->. cbn [class_offsets nth_error firstn concat length skipn app]. split; [f_equal; lia|reflexivity].
    - destruct (IH k (off + N.of_nat (length a)) b H) as [I1 I2]. cbn [class_offsets nth_error firstn concat skipn]. split.
      + rewrite I1. f_equal. rewrite app_length. lia.
      + rewrite I2 at 1. rewrite <- app_assoc. reflexivity.
  Qed.

  Lemma compiled_class cs t F k c : compiled sort cs t F -> nth_error cs k = Some c -> source_ok c ->
    has_class F (N.of_nat k) (sorted_class sort c).
  Proof.
    intros HC Hk Hc. split; [apply source_class; exact Hc|].
    assert (Hb : nth_error (map (guess_class_ser sort) cs) k = Some (class_bytes (sorted_class sort c))).
    { rewrite <- source_bytes by exact Hc. apply map_nth_error. exact Hk. }
    destruct (offsets_nth _ k 0 _ Hb) as [O1 O2].
    exists (concat (firstn k (map (guess_class_ser sort) cs))), (concat (skipn (S k) (map (guess_class_ser sort) cs))).
    rewrite (cm_offsets _ _ _ _ HC), (cm_tables _ _ _ _ HC), Nnat.Nat2N.id. split; [exact O1|exact O2].
  Qed.

  Lemma compiled_stored cs t F key : compiled sort cs t F -> stored_under (contents t) key = stored_under (index_classes 0 cs []) key.
  Proof.
    intros HC. symmetry. apply stored_perm; [apply classes_keys; constructor|apply Permutation_sym, (cm_index _ _ _ _ HC)].
  Qed.

  (** every value of the index is what is stored under its key *)
  Lemma compiled_value cs t F kv r : compiled sort cs t F -> In kv (contents t) -> In r (snd kv) ->
    exists k c f md, nth_error cs k = Some c /\ In f (c_inflex c) /\ In md (c_models c) /\ index_key (snd f) (m_suffix md) = fst kv /\
      r = ClassRef (N.of_nat k) (m_weight md) (fst f mod 256).
  Proof.
    intros HC Hkv Hr.
    assert (Hn : NoDup (map fst (contents t))).
    { eapply Permutation_NoDup; [apply Permutation_map, Permutation_sym, (cm_index _ _ _ _ HC)|]. apply classes_keys. constructor. }
    assert (Hs : stored_under (contents t) (fst kv) = snd kv) by (apply stored_found; [exact Hn|destruct kv; exact Hkv]).
    rewrite <- Hs, (compiled_stored cs t F _ HC), stored_classes in Hr. change (stored_under [] _) with (@nil class_ref) in Hr. cbn [app] in Hr.
    apply all_refs_in in Hr. exact Hr.
  Qed.

  (** a key of the index is the key of an inflexion and a model *)
  Lemma index_len cs : Forall (fun c => Forall (fun m => length (m_suffix m) = 2%nat) (c_models c) /\ Forall (fun f => (length (snd f) <= 14)%nat) (c_inflex c)) cs ->
    forall i m, NoDup (map fst m) -> (forall x : bytes, In x (map fst m) -> (2 <= length x <= 16)%nat) ->
    forall x : bytes, In x (map fst (index_classes i cs m)) -> (2 <= length x <= 16)%nat.
  Proof.
    induction cs as [|c cs IH]; intros H i m Hn Hm; [exact Hm|]. inversion H as [|? ? [H1 H2] H3]; subst. cbn [index_classes]. apply IH; [exact H3|apply class_keys; exact Hn|].
    clear IH H H3. unfold index_class. revert m Hn Hm H2. generalize (c_inflex c) as fs. induction fs as [|f fs IH]; intros m Hn Hm H2; [exact Hm|]. cbn [fold_left].
    inversion H2 as [|? ? H3 H4]; subst. apply IH; [apply flex_keys; exact Hn| |exact H4]. clear IH H2 H4. unfold index_flex. revert m Hn Hm.
    induction H1 as [|md ms Hmd Hms IH]; intros m Hn Hm; [exact Hm|]. cbn [fold_left]. apply IH; [apply add_keys; exact Hn|].
    intros x Hx. destruct (proj2 (add_keys _ _ m Hn) x Hx) as [->|Hx']; [|apply Hm; exact Hx']. unfold index_key. rewrite app_length, rev_length. cbn [length]. cbv beta in H3. unfold bytes in *. lia.
  Qed.

  Lemma find_source cs k c : nth_error cs k = Some c -> numbered sort cs (N.of_nat k) = sorted_class sort c.
  Proof. intros H. unfold numbered. rewrite Nnat.Nat2N.id. f_equal. apply nth_error_nth. exact H. Qed.

  Theorem compiled_guesser cs t F : compiled sort cs t F -> Forall source_ok cs -> N.of_nat (length cs) < 2 ^ 32 -> guesser F t (numbered sort cs).
  Proof.
    intros HC Hcs Hcount. rewrite Forall_forall in Hcs.
    assert (Hval : forall kv r, In kv (contents t) -> In r (snd kv) -> exists k c f md, nth_error cs k = Some c /\ source_ok c /\ In f (c_inflex c) /\ In md (c_models c) /\
      r = ClassRef (N.of_nat k) (m_weight md) (fst f)).
    { intros kv r H1 H2. destruct (compiled_value cs t F kv r HC H1 H2) as (k & c & f & md & E1 & E2 & E3 & E4 & ->). exists k, c, f, md.
      pose proof (Hcs c (nth_error_In _ _ E1)) as Hc. split; [exact E1|]. split; [exact Hc|]. split; [exact E2|]. split; [exact E3|]. f_equal. apply N.mod_small. pose proof (so_flex _ Hc) as Hf. rewrite Forall_forall in Hf.
      apply (Hf f E2). }
    constructor.
    - exists []. rewrite app_nil_r. apply (cm_dict _ _ _ _ HC).
    - apply (cm_sized _ _ _ _ HC).
    - apply (cm_ordered _ _ _ _ HC).
    - unfold refs_ok. apply Forall_forall. intros kv Hkv. apply Forall_forall. intros r Hr. destruct (Hval kv r Hkv Hr) as (k & c & f & md & E1 & Hc & E2 & E3 & ->).
      pose proof (so_models _ Hc) as Hm. rewrite Forall_forall in Hm. pose proof (so_flex _ Hc) as Hf. rewrite Forall_forall in Hf. unfold ref_ok. cbn [r_class r_power r_form].
      assert (k < length cs)%nat by (apply nth_error_Some; congruence). repeat split; [lia|apply (Hm md E3)|apply (Hf f E2)].
    - apply Forall_forall. intros kv Hkv. apply (index_len cs) with (i := 0) (m := []).
      + apply Forall_forall. intros c Hc. split; [apply accepted_suffix, (so_accepted _ (Hcs c Hc))|]. eapply Forall_impl; [|apply (so_flex _ (Hcs c Hc))].
        intros f (_ & H & _). exact H.
      + constructor.
      + intros x [].
      + apply in_map. eapply Permutation_in; [apply (cm_index _ _ _ _ HC)|exact Hkv].
    - intros kv r Hkv Hr. destruct (Hval kv r Hkv Hr) as (k & c & f & md & E1 & Hc & E2 & E3 & ->). cbn [r_class r_form]. rewrite (find_source cs k c E1). split; [|split].
      + eapply compiled_class; eassumption.
      + cbn [sorted_class c_inflex]. apply accepted_inflex, (so_accepted _ Hc).
      + cbn [sorted_class c_partsp]. pose proof (so_flex _ Hc) as Hf. rewrite Forall_forall in Hf. apply (Hf f E2).
  Qed.

  Theorem compiled_guesses cs t F w n i p id : compiled sort cs t F -> Forall source_ok cs ->
    In (n, ClassRef i p id) (guesses (contents t) w) <-> exists m f, ends_like cs w n i m f /\ m_weight m = p /\ fst f = id.
  Proof.
    intros HC Hcs. rewrite (guesses_of_source cs (contents t) w n); [|intros key; apply (compiled_stored cs t F key HC)|].
    2:{ eapply Forall_impl; [|exact Hcs]. intros c Hc. apply accepted_suffix, (so_accepted _ Hc). }
    rewrite Forall_forall in Hcs.
    assert (Hsm : forall k c f, nth_error cs k = Some c -> In f (c_inflex c) -> fst f mod 256 = fst f).
    { intros k c f H1 H2. apply N.mod_small. pose proof (so_flex _ (Hcs c (nth_error_In _ _ H1))) as Hf. rewrite Forall_forall in Hf. apply (Hf f H2). }
    split.
    - intros (k & c & f & md & H1 & H2 & H3 & H4 & H5 & E). injection E as -> -> ->. exists md, f. split; [|split; [reflexivity|symmetry; eapply Hsm; eassumption]].
      exists c. rewrite Nnat.Nat2N.id. repeat split; assumption.
    - intros (md & f & (c & H1 & H2 & H3 & H4 & H5) & <- & <-). exists (N.to_nat i), c, f, md. repeat split; try assumption. rewrite Nnat.N2Nat.id.
      rewrite (Hsm _ _ _ H1 H3). reflexivity.
  Qed.
End Sorted.

(** A guess gives the word back. *)
Lemma ends_like_word cs w n i m f : ends_like cs w n i m f -> length (m_suffix m) = 2%nat -> firstn (n + 2) w ++ snd f = w.
Proof.
  intros (c & _ & _ & _ & Hn & E) H2. rewrite <- (firstn_skipn n w) at 1. rewrite firstn_app, firstn_firstn, firstn_length.
  replace (Nat.min (n + 2) n) with n by lia. replace (n + 2 - Nat.min n (length w))%nat with 2%nat by lia. rewrite E.
  rewrite <- H2. rewrite firstn_app, firstn_all, Nat.sub_diag, firstn_O, app_nil_r. rewrite <- app_assoc, <- E. apply firstn_skipn.
Qed.
