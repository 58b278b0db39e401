(** * PropMakeichLemmas: proofs of the theorems of Prop_Makeich. *)
From Coq Require Import String.
From Verif Require Import Base Serial WordTree TreeSpec Stems StemSpec SerialProofs DictProofs GramMap RusRuntime LevelSpec RusSpec Compile CompileSpec CompileProofs CompileProofs2 Api EngCompile EngCompileSpec EngCompileProofs Utf8 RusText Tfc TfcSpec TfcProofs TfcProofs2 TfcProofs3 TfcProofs4 TfcProofs5 TfcProofs6 TfcDemo PropTfcLemmas Makeich MakeichSpec MakeichProofs MakeichProofs2 MakeichProofs3 MakeichProofs4 MakeichDemo.
Local Open Scope N_scope.
Local Open Scope list_scope.
Notation length := List.length.

Definition two_strings (d : mixdef) : Prop := Forall (fun x => (2 <= length (ml_strings x))%nat) (md_lines d).
Lemma says_two s x : mix_says s x -> (2 <= length (ml_strings x))%nat.
Proof. intros (fs & one & two & more & _ & _ & _ & _ & _ & ->). cbn [map length]. lia. Qed.
Lemma defined_two fs conv :
  (forall depth name ds, mixes_defined fs conv depth name ds -> Forall two_strings ds) /\ (forall depth name ss ds, mixes_listed fs conv depth name ss ds -> Forall two_strings ds).
Proof.
  apply (mixes_ind fs conv (fun _ _ ds => Forall two_strings ds) (fun _ _ _ ds => Forall two_strings ds)).
  - auto.
  - constructor.
  - intros. apply Forall_app. auto.
  - intros depth name header names body xs ss ds Hh Hb Hs Hl IH. constructor; [|exact IH]. unfold two_strings. cbn [md_lines]. clear - Hs. induction Hs as [|s x body xs Hx Hs IH]; [constructor|]. constructor; [eapply says_two, Hx|exact IH].
Qed.
Lemma lines_size ns l : fold_right (fun (st : mstep) n => mix_size (snd st) + n) 0 (map (fun x => (ns, x)) l) = fold_right (fun x n => mix_size x + n) 0 l.
Proof. induction l as [|x l IH]; [reflexivity|]. cbn [map fold_right snd]. rewrite <- IH. reflexivity. Qed.
Lemma steps_size ds : fold_right (fun (st : mstep) n => mix_size (snd st) + n) 0 (steps_of ds) = fold_right (fun d n => fold_right (fun x n => mix_size x + n) 0 (md_lines d) + n) 0 ds.
Proof.
  induction ds as [|d ds IH]; [reflexivity|]. etransitivity; [exact (fold_size_app (fun st : mstep => mix_size (snd st)) (map (fun x => (md_names d, x)) (md_lines d)) (steps_of ds))|]. cbn [fold_right]. apply f_equal2; [exact (lines_size _ _)|exact IH].
Qed.
Lemma fits_steps ds : Forall two_strings ds -> Forall mix_fits ds -> mixes_size ds <= 2 ^ 16 -> steps_fit (steps_of ds).
Proof.
  intros H2 Hf Hs. split; [|pose proof (steps_size ds) as K; unfold mixes_size in Hs; rewrite <- K in Hs; exact Hs]. apply Forall_forall. intros st Hst. apply step_in in Hst. destruct Hst as (d & x & Hd & Hx & ->). cbn [snd]. rewrite Forall_forall in H2, Hf. specialize (H2 d Hd). specialize (Hf d Hd). unfold two_strings, mix_fits in *. rewrite Forall_forall in H2, Hf.
  specialize (H2 x Hx). destruct (Hf x Hx) as [K1 K2]. split; [lia|exact K2].
Qed.
Lemma mixes_compiled depth fs conv name ds : mixes_defined fs conv depth name ds -> consistent ds -> Forall mix_fits ds -> mixes_size ds <= 0x10000 ->
  exists b ix, makeich depth fs conv name = Some (b, ix) /\ mixes_mean ds b ix.
Proof.
  intros Hd Hc Hf Hs. unfold makeich. rewrite (proj1 (mixes_read fs conv) _ _ _ Hd). destruct (agree_steps (steps_of ds) [] (Collector [] [] [])) as [co E]; [exact (consistent_agree _ Hc)|exact inv_nil|]. rewrite E.
  exists (fst (mix_store co)), (snd (mix_store co)). split; [destruct (mix_store co); reflexivity|]. apply grouped_mean; [exact Hc|]. apply grouped; [exact (inv_steps _ [] _ _ inv_nil E)|]. apply fits_steps; [exact (proj1 (defined_two fs conv) _ _ _ Hd)|exact Hf|exact Hs].
Qed.
Lemma mixes_accepted depth fs conv name b ix : readable fs -> conv_white conv -> makeich depth fs conv name = Some (b, ix) ->
  exists ds, mixes_defined fs conv depth name ds /\ (Forall mix_fits ds -> mixes_size ds <= 0x10000 -> mixes_grouped ds b ix).
Proof.
  intros Hr Hc H. unfold makeich in H. destruct (mix_file fs conv depth name (Collector [] [] [])) as [co|] eqn:E; [|discriminate]. apply some_inj in H. destruct (mixes_total fs conv Hc Hr _ _ _ _ E) as (ds & Hd & Ha). exists ds. split; [exact Hd|]. intros Hf Hs.
  replace b with (fst (mix_store co)) by (rewrite H; reflexivity). replace ix with (snd (mix_store co)) by (rewrite H; reflexivity). apply grouped; [exact (inv_steps _ [] _ _ inv_nil Ha)|]. apply fits_steps; [exact (proj1 (defined_two fs conv) _ _ _ Hd)|exact Hf|exact Hs].
Qed.
(** Checks. *)
Definition fits_check (ds : list mixdef) : bool :=
  forallb (fun d => forallb (fun x => Nat.leb (length (ml_strings x)) 4 && forallb (fun s => forallb (fun c => c <? 256) s && Nat.ltb (length s) 16) (ml_strings x)) (md_lines d)) ds.
Lemma fits_checked ds : fits_check ds = true -> Forall mix_fits ds.
Proof.
  intros H. unfold fits_check in H. rewrite forallb_forall in H. apply Forall_forall. intros d Hd. specialize (H d Hd). rewrite forallb_forall in H. apply Forall_forall. intros x Hx. specialize (H x Hx). apply andb_true_iff in H. destruct H as [H1 H2]. apply Nat.leb_le in H1. split; [exact H1|].
  rewrite forallb_forall in H2. apply Forall_forall. intros s Hs. specialize (H2 s Hs). apply andb_true_iff in H2. destruct H2 as [K1 K2]. apply Nat.ltb_lt in K2. split; [|exact K2]. rewrite forallb_forall in K1. apply Forall_forall. intros c Hc. specialize (K1 c Hc). apply N.ltb_lt in K1. exact K1.
Qed.
Definition has_name (n : bytes) (l : list bytes) : bool := if in_dec (list_eq_dec N.eq_dec) n l then true else false.
Definition consistent_check (ds : list mixdef) : bool :=
  forallb (fun d => match md_names d with [] => false | _ => true end) ds &&
  forallb (fun d => forallb (fun d' => (forallb (fun n => has_name n (md_names d')) (md_names d) && forallb (fun n => has_name n (md_names d)) (md_names d')) || forallb (fun n => negb (has_name n (md_names d'))) (md_names d)) ds) ds.
Lemma has_name_iff n l : has_name n l = true <-> In n l. Proof. unfold has_name. destruct (in_dec (list_eq_dec N.eq_dec) n l); split; congruence || auto. Qed.
Lemma consistent_checked ds : consistent_check ds = true -> consistent ds.
Proof.
  intros H. apply andb_true_iff in H. destruct H as [H1 H2]. rewrite forallb_forall in H1, H2. split.
  - intros d Hd _ E. specialize (H1 d Hd). rewrite E in H1. discriminate.
  - intros d d' Hd Hd' _ _. specialize (H2 d Hd). rewrite forallb_forall in H2. specialize (H2 d' Hd'). apply orb_true_iff in H2. destruct H2 as [K|K].
    + left. apply andb_true_iff in K. destruct K as [K1 K2]. rewrite forallb_forall in K1, K2. intros n. split; intros Hn; apply has_name_iff; auto.
    + right. rewrite forallb_forall in K. intros n Hn Hn'. specialize (K n Hn). apply has_name_iff in Hn'. rewrite Hn' in K. discriminate.
Qed.
Lemma demo_mix_consistent : consistent demo_mixdefs. Proof. apply consistent_checked. vm_compute. reflexivity. Qed.
Lemma demo_mix_fits : Forall mix_fits demo_mixdefs. Proof. apply fits_checked. vm_compute. reflexivity. Qed.
Lemma demo_mix_size : mixes_size demo_mixdefs <= 0x10000. Proof. vm_compute. discriminate. Qed.
(** One file. *)
Definition mix_text (l : list string) : bytes -> option bytes := one_file (lines_of l).
Definition a_tf : bytes := Eval vm_compute in text "a.tf".
Lemma one_mix l ds : mparse_file (mix_text l) same 1 a_tf = Some ds -> mixes_defined (mix_text l) same 1 a_tf ds.
Proof. apply mparse_says, same_white. Qed.
Lemma mix_at_unique b off mx mx' : mix_at b off mx -> mix_at b off mx' -> mx = mx'.
Proof. apply CompileProofs2.mix_unique. Qed.

Lemma mix_here pre mx rest off b : mix_ok mx -> b = pre ++ mix_ser mx ++ rest -> N.of_nat (length pre) = off -> mix_at b off mx.
Proof. intros H1 H2 H3. split; [exact H1|]. exists pre, rest. auto. Qed.
Definition long_lines : list string := [".table A"; "{"; "о абвгдежзийклмноп к"; "}"]%string.
Definition long_defs : list mixdef := Eval vm_compute in match mparse_file (mix_text long_lines) same 1 a_tf with Some ds => ds | None => [] end.
Lemma long_defined : mixes_defined (mix_text long_lines) same 1 a_tf long_defs. Proof. apply one_mix. vm_compute. reflexivity. Qed.
Definition long_out := Eval vm_compute in match makeich 1 (mix_text long_lines) same a_tf with Some r => r | None => ([], []) end.
Lemma long_compiled : makeich 1 (mix_text long_lines) same a_tf = Some (fst long_out, [(text "A", [(6, cyr "о")])]). Proof. vm_compute. reflexivity. Qed.
Lemma long_lost : ~ alternates_as (fst long_out) 6 [cyr "абвгдежзийклмноп"; cyr "к"].
Proof.
  intros (mx & Hm & _ & Ht). assert (H : mix_at (fst long_out) 6 [(5, []); (14, [])]).
  { apply (mix_here (firstn 6 (fst long_out)) _ (skipn 9 (fst long_out))); [|vm_compute; reflexivity|vm_compute; reflexivity]. split; [reflexivity|]. split; [repeat (constructor; [cbn; lia|]); constructor|]. cbn [map snd ascending]. split; [constructor; [right; reflexivity|constructor]|]. split; [constructor|exact I]. }
  rewrite (mix_at_unique _ _ _ _ Hm H) in Ht. destruct (proj2 (Ht (cyr "к"))) as [K|[K|[]]]; [right; left; reflexivity|discriminate|discriminate].
Qed.
Definition alias_lines : list string := [".table A"; "{"; "о к ч"; "}"; ".table A, C"; "{"; "о г ж"; "}"]%string.
Definition alias_back : list string := [".table A"; "{"; "о к ч"; "}"; ".table C, D"; "{"; "о г ж"; "}"; ".table C, A"; "{"; "о т ч"; "}"]%string.
Definition defs_in (l : list string) : list mixdef := match mparse_file (mix_text l) same 1 a_tf with Some ds => ds | None => [] end.
Definition alias_defs : list mixdef := Eval vm_compute in defs_in alias_lines.
Definition back_defs : list mixdef := Eval vm_compute in defs_in alias_back.
Lemma alias_defined : mixes_defined (mix_text alias_lines) same 1 a_tf alias_defs. Proof. apply one_mix. vm_compute. reflexivity. Qed.
Lemma back_defined : mixes_defined (mix_text alias_back) same 1 a_tf back_defs. Proof. apply one_mix. vm_compute. reflexivity. Qed.
Definition comma_lines : list string := [".table ,"; "{"; "о к ч"; "}"]%string.
Definition comma_defs : list mixdef := Eval vm_compute in defs_in comma_lines.
Lemma comma_defined : mixes_defined (mix_text comma_lines) same 1 a_tf comma_defs. Proof. apply one_mix. vm_compute. reflexivity. Qed.
