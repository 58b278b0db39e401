(** * FuzzyProofs5: models, word information, the compiler of the guesser.  PROOFS ONLY. *)
From Coq Require Import Permutation.
From Verif Require Import Base Serial SerialProofs TreeSpec FlatScanProofs CharTables CapScheme CapSpec CapProofs CapProofs2 CapProofs3 GramMap RusRuntime
  LevelSpec LevelProofs RusSpec RusProofs RusProofs2 RusProofs3 RusBuild RusBuildSpec RusBuildProofs RusBuildProofs2 RusBuildProofs3 Fuzzy FuzzySpec FuzzyProofs FuzzyProofs2 FuzzyProofs3 FuzzyProofs4.
Local Open Scope N_scope.

(** ** Models *)
Lemma skip_flex_eq l rest : skip_flex (length l) (flexes l ++ rest) = Ok rest.
Proof.
  induction l as [|f l IH]; [reflexivity|]. cbn [length skip_flex flexes flat_map]. fold (flexes l). cbn [app rd bind]. rewrite <- app_assoc.
  rewrite advance_app by reflexivity. cbn [bind]. exact IH.
Qed.

Definition model_bytes (m : model_src) : bytes := m_suffix m ++ putserial (m_weight m) ++ putserial (N.of_nat (length (m_sample m))) ++ m_sample m.

Lemma put_models_eq l : Forall (fun m => length (m_suffix m) = 2%nat /\ m_weight m < 2 ^ 32 /\ N.of_nat (length (m_sample m)) < 2 ^ 32) l ->
  forall done rest tail n, (0 <= n)%Z ->
  let fs := fitting (length rest) (map m_sample l) in
  put_models (length l) (flat_map model_bytes l ++ tail) (Coder (done ++ rest) (length done)) n =
  Ok (if (Z.of_nat (length fs) + n =? 0)%Z && negb (Nat.eqb (length l) 0) then (-1)%Z else (n + Z.of_nat (length fs))%Z, done ++ joined fs ++ skipn (total fs) rest).
Proof.
  induction l as [|m l IH]; intros Hok done rest tail n Hn; cbn [length put_models flat_map map fitting].
  - rewrite andb_false_r. cbn [joined flat_map app total fold_right skipn cmem length]. f_equal. f_equal. lia.
  - inversion Hok as [|? ? (H1 & H2 & H3) Hok']; subst. unfold model_bytes at 1. rewrite <- !app_assoc.
    destruct (m_suffix m) as [|a [|b [|? ?]]]; try discriminate. cbn [app rd bind].
    rewrite getserial_putserial by exact H2. cbn [bind]. rewrite getserial_putserial by exact H3. cbn [bind].
    rewrite app_length. destruct (N.ltb_spec (N.of_nat (length (m_sample m) + length (flat_map model_bytes l ++ tail))) (N.of_nat (length (m_sample m)))); [lia|].
    cbn [bind]. rewrite Nnat.Nat2N.id. rewrite firstn_app, firstn_all, Nat.sub_diag, firstn_O, app_nil_r. rewrite append_eq.
    destruct (Nat.ltb_spec (length (m_sample m)) (length rest)) as [Hl|Hl]; cbn [bind].
    + rewrite advance_app by reflexivity. cbn [bind cmem cpos].
      specialize (IH Hok' (done ++ m_sample m ++ [0]) (skipn (S (length (m_sample m))) rest) tail (n + 1)%Z ltac:(lia)). cbv zeta in IH.
      rewrite !app_length in IH. cbn [length] in IH. rewrite skipn_length in IH.
      replace (S (length done + length (m_sample m))) with (length done + (length (m_sample m) + 1))%nat by lia.
      replace (done ++ m_sample m ++ 0 :: skipn (S (length (m_sample m))) rest) with ((done ++ m_sample m ++ [0]) ++ skipn (S (length (m_sample m))) rest)
        by (rewrite <- !app_assoc; reflexivity).
      rewrite IH. clear IH. replace (length rest - S (length (m_sample m)))%nat with (length rest - length (m_sample m) - 1)%nat by lia.
      set (fs := fitting (length rest - length (m_sample m) - 1) (map m_sample l)). cbn [length joined flat_map total fold_right]. fold (joined fs). fold (total fs).
      rewrite skipn_skipn'. rewrite <- !app_assoc. cbn [app]. f_equal. f_equal.
      * destruct (Z.eqb_spec (Z.of_nat (length fs) + (n + 1)) 0); [lia|]. destruct (Z.eqb_spec (Z.of_nat (S (length fs)) + n) 0); [lia|]. cbn [andb]. lia.
      * match goal with |- context [skipn ?a rest] => match goal with |- context [skipn ?b rest] => first [constr_eq a b; fail 1|replace a with b by lia; reflexivity] end end.
    + cbn [cmem joined flat_map app total fold_right skipn length Z.of_nat]. f_equal. f_equal. cbn [Nat.eqb negb]. rewrite andb_true_r.
      change (0 + n)%Z with n. destruct (Z.eqb n 0); [reflexivity|]. lia.
Qed.

Definition models_answer (samples : list bytes) (mem : bytes) : Z * option bytes :=
  let fs := fitting (length mem) samples in
  (match samples, fs with _ :: _, [] => (-1)%Z | _, _ => Z.of_nat (length fs) end, Some (joined fs ++ skipn (total fs) mem)).

Theorem fuzzy_models_exact F i c mem : has_class F i c -> mem <> [] ->
  fuzzy_models F (Some mem) i = Ok (models_answer (map m_sample (c_models c)) mem).
Proof.
  intros Hc Hm. destruct (get_class F i c Hc) as [rest E]. destruct Hc as [Hok _]. destruct mem as [|m0 mem]; [congruence|].
  unfold fuzzy_models. rewrite E. cbn [bind app rd]. rewrite getserial_putserial by apply (co_nflex _ Hok). cbn [bind]. rewrite Nnat.Nat2N.id, skip_flex_eq. cbn [bind].
  unfold class_models. rewrite <- app_assoc. rewrite getserial_putserial by apply (co_nmodels _ Hok). cbn [bind]. rewrite Nnat.Nat2N.id.
  pose proof (put_models_eq (c_models c) (co_models _ Hok) [] (m0 :: mem) rest 0%Z ltac:(lia)) as H. cbv zeta in H. cbn [app length] in H.
  unfold model_bytes in H. rewrite H. cbn [bind]. unfold models_answer. f_equal. cbn [length].
  destruct (c_models c) as [|m l]; [reflexivity|]. cbn [map length Nat.eqb negb].
  destruct (fitting (S (length mem)) (m_sample m :: map m_sample l)) as [|f fs]; reflexivity.
Qed.

Theorem fuzzy_wd_info_exact F i c : has_class F i c -> fuzzy_wd_info F true i = Ok (1%Z, Some (c_partsp c)).
Proof.
  intros Hc. destruct (get_class F i c Hc) as [rest E]. unfold fuzzy_wd_info. rewrite E. reflexivity.
Qed.

Lemma no_class F i : N.of_nat (length (class_offset F)) <= i -> GetClass F i = Ok None.
Proof. intros H. unfold GetClass. rewrite (proj2 (nth_error_None _ _)) by lia. reflexivity. Qed.

(** ** The index the compiler makes *)
Lemma stored_add key k r m : stored_under (index_add k r m) key = stored_under m key ++ (if same k key then [r] else []).
Proof.
  induction m as [|[k0 l] m IH]; cbn [index_add].
  - rewrite stored_cons. cbn [fst snd]. destruct (same k key); reflexivity.
  - destruct (list_eq_dec N.eq_dec k0 k) as [->|Hn]; rewrite !stored_cons; cbn [fst snd].
    + destruct (same k key); [reflexivity|rewrite app_nil_r; reflexivity].
    + rewrite IH. destruct (same_spec k0 key) as [->|]; [|reflexivity]. destruct (same_spec k key) as [->|]; [congruence|]. rewrite app_nil_r. reflexivity.
Qed.

Lemma stored_flex key i f ms : forall m,
  stored_under (index_flex i ms f m) key =
  stored_under m key ++ flat_map (fun md => if same (index_key (snd f) (m_suffix md)) key then [ClassRef i (m_weight md) (fst f mod 256)] else []) ms.
Proof.
  unfold index_flex. induction ms as [|md ms IH]; intros m; cbn [fold_left flat_map]; [rewrite app_nil_r; reflexivity|].
  rewrite IH, stored_add, <- app_assoc. reflexivity.
Qed.
Lemma stored_class key i ms : forall fs m,
  stored_under (fold_left (fun m f => index_flex i ms f m) fs m) key =
  stored_under m key ++ flat_map (fun f => flat_map (fun md => if same (index_key (snd f) (m_suffix md)) key then [ClassRef i (m_weight md) (fst f mod 256)] else []) ms) fs.
Proof.
  induction fs as [|f fs IH]; intros m; cbn [fold_left flat_map]; [rewrite app_nil_r; reflexivity|]. rewrite IH, stored_flex, <- app_assoc. reflexivity.
Qed.

(** The references a class makes under a key. *)
Definition class_refs (i : N) (c : class_src) (key : bytes) : list class_ref :=
  flat_map (fun f => flat_map (fun md => if same (index_key (snd f) (m_suffix md)) key then [ClassRef i (m_weight md) (fst f mod 256)] else []) (c_models c)) (c_inflex c).
Fixpoint all_refs (i : N) (cs : list class_src) (key : bytes) : list class_ref :=
  match cs with [] => [] | c :: cs' => class_refs i c key ++ all_refs (i + 1) cs' key end.
Lemma stored_classes key cs : forall i m, stored_under (index_classes i cs m) key = stored_under m key ++ all_refs i cs key.
Proof.
  induction cs as [|c cs IH]; intros i m; cbn [index_classes all_refs]; [rewrite app_nil_r; reflexivity|].
  rewrite IH. unfold index_class. rewrite stored_class, <- app_assoc. reflexivity.
Qed.

Lemma all_refs_in key r cs : forall i, In r (all_refs i cs key) <->
  exists k c f md, nth_error cs k = Some c /\ In f (c_inflex c) /\ In md (c_models c) /\ index_key (snd f) (m_suffix md) = key /\
    r = ClassRef (i + N.of_nat k) (m_weight md) (fst f mod 256).
Proof.
  induction cs as [|c cs IH]; intros i; cbn [all_refs].
  - split; [intros []|]. intros (k & c & f & md & H & _). destruct k; discriminate.
  - rewrite in_app_iff, IH. split.
    + intros [H|H].
      * unfold class_refs in H. apply in_flat_map in H. destruct H as (f & Hf & H). apply in_flat_map in H. destruct H as (md & Hmd & H).
        destruct (same_spec (index_key (snd f) (m_suffix md)) key) as [E|]; [|destruct H]. destruct H as [<-|[]].
        exists 0%nat, c, f, md. repeat split; try assumption. f_equal. lia.
      * destruct H as (k & c' & f & md & H1 & H2 & H3 & H4 & ->). exists (S k), c', f, md. repeat split; try assumption. f_equal. lia.
    + intros (k & c' & f & md & H1 & H2 & H3 & H4 & ->). destruct k as [|k]; cbn [nth_error] in H1.
      * injection H1 as <-. left. unfold class_refs. apply in_flat_map. exists f. split; [exact H2|]. apply in_flat_map. exists md. split; [exact H3|].
        destruct (same_spec (index_key (snd f) (m_suffix md)) key); [|congruence]. left. f_equal. lia.
      * right. exists k, c', f, md. repeat split; try assumption. f_equal. lia.
Qed.

Lemma suffix_two s : length s = 2%nat -> [nth 1 s 0; nth 0 s 0] = rev s.
Proof. destruct s as [|a [|b [|? ?]]]; try discriminate. reflexivity. Qed.

Lemma rev_inj {X} (a b : list X) : rev a = rev b -> a = b.
Proof. intros H. rewrite <- (rev_involutive a), H. apply rev_involutive. Qed.

(** Which guesses the index of the compiler gives. *)
Theorem guesses_of_source cs m w n r : (forall key, stored_under m key = stored_under (index_classes 0 cs []) key) ->
  Forall (fun c => Forall (fun md => length (m_suffix md) = 2%nat) (c_models c)) cs ->
  In (n, r) (guesses m w) <->
  exists k c f md, nth_error cs k = Some c /\ In f (c_inflex c) /\ In md (c_models c) /\ (n <= length w)%nat /\ skipn n w = m_suffix md ++ snd f /\
    r = ClassRef (N.of_nat k) (m_weight md) (fst f mod 256).
Proof.
  intros Hm Htwo.
  assert (Hkey : forall c k (f : N * bytes) md, nth_error cs k = Some c -> In md (c_models c) -> index_key (snd f) (m_suffix md) = rev (m_suffix md ++ snd f)).
  { intros c k f md H1 H2. unfold index_key. rewrite rev_app_distr, suffix_two; [reflexivity|]. rewrite Forall_forall in Htwo.
    pose proof (Htwo c (nth_error_In _ _ H1)) as H3. rewrite Forall_forall in H3. exact (H3 md H2). }
  unfold guesses. rewrite in_flat_map. split.
  - intros (j & Hj & H). apply in_seq in Hj. apply in_map_iff in H. destruct H as (r' & E & H). injection E as <- ->.
    rewrite Hm, stored_classes in H. cbn [app] in H. change (stored_under [] _) with (@nil class_ref) in H. cbn [app] in H. apply all_refs_in in H.
    destruct H as (k & c & f & md & H1 & H2 & H3 & H4 & ->). exists k, c, f, md. rewrite (Hkey c k f md H1 H3) in H4. apply rev_inj in H4.
    repeat split; try assumption; try lia. symmetry. exact H4.
  - intros (k & c & f & md & H1 & H2 & H3 & Hn & H4 & ->). exists (length w - n)%nat. split; [apply in_seq; lia|].
    replace (length w - (length w - n))%nat with n by lia. apply in_map. rewrite Hm, stored_classes. change (stored_under [] _) with (@nil class_ref). cbn [app].
    apply all_refs_in. exists k, c, f, md. repeat split; try assumption. rewrite (Hkey c k f md H1 H3). f_equal. symmetry. exact H4.
Qed.
