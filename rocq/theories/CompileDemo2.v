(** * CompileDemo2: the small sources without как-то meet the conditions of CompileFormsSpec. *)
From Verif Require Import Base Serial SerialProofs WordTree TreeSpec WordTreeProofs Stems StemSpec CharTables CapScheme CapSpec GramMap RusRuntime LevelSpec RusSpec RusProofs RusBuildSpec
  Compile CompileSpec CompileProofs CompileProofs2 CompileProofs5 Resolve ResolveSpec ResolveProofs CompileDemo CompileFormsSpec.
Local Open Scope N_scope.

(** дом, сон, сон-то, мыть, под, как *)
Definition demo_ys : list Compile.lexeme := Eval vm_compute in filter (fun x => negb (l_id x =? 65540)) demo_xs.
Lemma demo_ys_in x : In x demo_ys -> In x demo_xs.
Proof. change demo_ys with (filter (fun x => negb (l_id x =? 65540)) demo_xs). intros H. apply filter_In in H. apply H. Qed.
Lemma ys_sources : sources_ok demo_ftable demo_mtable demo_ys.
Proof.
  destruct demo_sources as [H1 H2 (al & H3 & H4)]. split; [exact H1|reflexivity|]. exists al. split; [exact H3|]. rewrite Forall_forall in *. intros x Hx. apply H4, demo_ys_in, Hx.
Qed.
Lemma ys_covered : Forall (bounds_cover demo_ftable demo_mtable) demo_ys.
Proof. pose proof demo_covered as H. rewrite Forall_forall in *. intros x Hx. apply H, demo_ys_in, Hx. Qed.
Definition ys_compiled : arrays := Eval vm_compute in match compile 8 demo_ftable demo_mtable demo_ys with Ok (Some A) => A | _ => Arrays [] [] [] [] [] end.
Lemma ys_compile : compile 8 demo_ftable demo_mtable demo_ys = Ok (Some ys_compiled).
Proof. vm_compute. reflexivity. Qed.
Lemma ys_fit : arrays_fit ys_compiled /\ N.of_nat (length (lidstree ys_compiled)) < 2 ^ 32.
Proof. split; [split; [|split]; vm_compute; congruence|vm_compute; reflexivity]. Qed.

Lemma endings_checked tables off (p : bytes -> list (N * N) -> bool) : is_bytes tables ->
  (match create_tree 8 tables off 0 255 [] wempty with Ok t => allb p 16 [] t | Ub => false end) = true ->
  forall s g f, ending tables off s g f -> exists l, In (g, f) l /\ p s l = true.
Proof.
  intros Hb H s g f He. destruct (create_tree 8 tables off 0 255 [] wempty) as [t|] eqn:Et; [|discriminate].
  apply (plain_tree 8 tables _ t Hb Et) in He as (l & Hl & Hin). exists l. split; [exact Hin|]. exact (allb_ok _ _ _ _ H s l Hl).
Qed.
Definition letterb (c : N) : bool := (224 <=? c) && (c <=? 255).
Definition tamed (s : bytes) (l : list (N * N)) : bool := (length s <=? 4)%nat && forallb letterb s.
Lemma demo_endings x s g f : In x demo_ys -> inflected (l_class x) = true -> ending demo_ftable (m_tfoffs (l_class x)) s g f -> (length s <= 4)%nat /\ forallb letterb s = true.
Proof.
  intros Hx Hi He. assert (E : m_tfoffs (l_class x) = 1 \/ m_tfoffs (l_class x) = 20) by (repeat destruct Hx as [<-|Hx]; try contradiction; try discriminate Hi; auto).
  assert (H : tamed s [] = true); [|apply andb_true_iff in H as [H1 H2]; apply Nat.leb_le in H1; auto].
  destruct E as [E|E]; rewrite E in He; apply (endings_checked _ _ tamed demo_bytes) in He; try (vm_compute; reflexivity); destruct He as (l & _ & H); exact H.
Qed.
Lemma demo_mix x mx : In x demo_ys -> m_mtoffs (l_class x) <> 0 -> mix_at demo_mtable (m_mtoffs (l_class x)) mx -> mx = sleep.
Proof.
  intros Hx Hne Hm. assert (E : m_mtoffs (l_class x) = 1) by (repeat destruct Hx as [<-|Hx]; try contradiction; try reflexivity; exfalso; apply Hne; reflexivity).
  rewrite E in Hm. apply (mix_unique _ _ _ _ Hm sleep_at).
Qed.

Lemma ys_buildable : Forall (lexeme_buildable demo_ftable demo_mtable) demo_ys.
Proof.
  apply Forall_forall. intros x Hx. constructor.
  - repeat destruct Hx as [<-|Hx]; try contradiction; cbn; lia.
  - repeat destruct Hx as [<-|Hx]; try contradiction; cbn; intros H; repeat destruct H as [H|H]; discriminate || contradiction.
  - intros Hi s g f He. apply (demo_endings x s g f Hx Hi) in He. lia.
  - intros mx Hne Hm. rewrite (demo_mix x mx Hx Hne Hm). repeat constructor; cbn; intros H; repeat destruct H as [H|H]; discriminate || contradiction.
  - repeat destruct Hx as [<-|Hx]; try contradiction; reflexivity.
Qed.
Lemma letterb_good s : forallb letterb s = true -> Forall (good_char rus_casing) s.
Proof.
  intros H. apply Forall_forall. intros c Hc. rewrite forallb_forall in H. apply H in Hc. unfold letterb in Hc. apply andb_true_iff in Hc as [H1 H2]. apply N.leb_le in H1, H2.
  left. assert (E : exists n, (n < 32)%nat /\ c = 224 + N.of_nat n) by (exists (N.to_nat (c - 224)); lia). destruct E as (n & Hn & ->). clear H1 H2.
  unfold letter. do 32 (destruct n as [|n]; [vm_compute; repeat split; congruence|]). lia.
Qed.
Lemma asked_letters x fx part : In x demo_ys -> asked_part demo_ftable demo_mtable (l_class x) fx part -> forallb letterb part = true.
Proof.
  intros Hx H. destruct H as [?|s f Hi _ He _|before mask alt behind s f Hi Hne Hm lv _ _ He _].
  - reflexivity.
  - apply (demo_endings x _ _ _ Hx Hi He).
  - rewrite forallb_app. apply andb_true_iff. split; [|apply (demo_endings x _ _ _ Hx Hi He)]. pose proof (demo_mix _ _ Hx Hne Hm) as E.
    assert (Hin : In (mask, alt) sleep) by (rewrite <- E; apply in_or_app; right; left; reflexivity). repeat destruct Hin as [[= <- <-]|Hin]; try contradiction; reflexivity.
Qed.
Lemma ys_recognisable : Forall (lexeme_recognisable demo_ftable demo_mtable) demo_ys.
Proof.
  apply Forall_forall. intros x Hx. constructor.
  - pose proof ys_covered as H. rewrite Forall_forall in H. apply H, Hx.
  - intros E. repeat destruct Hx as [<-|Hx]; try contradiction; discriminate E.
  - intros E. exfalso. repeat destruct Hx as [<-|Hx]; try contradiction; cbn in E; repeat destruct E as [E|E]; discriminate || contradiction.
  - intros fx _. repeat destruct Hx as [<-|Hx]; try contradiction; cbn; try exact I. lia.
  - intros fx part Ha. apply asked_letters in Ha; [|exact Hx]. apply letterb_good in Ha. apply Forall_app. split; [|apply Forall_app; split; [exact Ha|]].
    + apply letterb_good. repeat destruct Hx as [<-|Hx]; try contradiction; reflexivity.
    + repeat destruct Hx as [<-|Hx]; try contradiction; cbn [l_post]; try constructor; [right|apply letterb_good; reflexivity].
      vm_compute. repeat split; auto; discriminate.
Qed.
Lemma ys_dict x gf : In x demo_ys -> exists part, dict_part demo_ftable demo_mtable (l_class x) 0 gf part.
Proof.
  assert (N1 : ending demo_ftable 1 [] 0 3) by exact (ending_here _ 1 nouns (FlexItem 3 0 [] 0) nouns_at (or_introl eq_refl) eq_refl).
  assert (N2 : ending demo_ftable 20 [242; 252] 1 0x7f) by exact (ending_here _ 20 verbs (FlexItem 0x7f 1 [242; 252] 32) verbs_at (or_introl eq_refl) eq_refl).
  intros Hx. repeat destruct Hx as [<-|Hx]; try contradiction; eexists; left.
  - eapply asked_ending; [reflexivity|reflexivity|exact N1|discriminate].
  - eapply (asked_mixed _ _ _ _ [(2, [237])] 1 [238; 237] []); [reflexivity|discriminate|exact sleep_at|reflexivity| |exact N1|discriminate]. intros mask' alt' [[= <- <-]|[]]. reflexivity.
  - eapply (asked_mixed _ _ _ _ [(2, [237])] 1 [238; 237] []); [reflexivity|discriminate|exact sleep_at|reflexivity| |exact N1|discriminate]. intros mask' alt' [[= <- <-]|[]]. reflexivity.
  - eapply asked_ending; [reflexivity|reflexivity|exact N2|discriminate].
  - apply asked_never. reflexivity.
  - apply asked_never. reflexivity.
Qed.
Lemma ys_searchable : Forall (lexeme_searchable demo_ftable demo_mtable) demo_ys.
Proof.
  apply Forall_forall. intros x Hx. constructor.
  - repeat destruct Hx as [<-|Hx]; try contradiction; cbn; lia.
  - intros Hi. exists 4%nat, 2%nat. split; [intros s g f He; apply (demo_endings x s g f Hx Hi) in He; lia|]. split.
    + intros mx Hne Hm. rewrite (demo_mix x mx Hx Hne Hm). repeat constructor; cbn; lia.
    + repeat destruct Hx as [<-|Hx]; try contradiction; cbn; lia.
  - intros Hi. repeat destruct Hx as [<-|Hx]; try contradiction; try discriminate Hi; reflexivity.
  - repeat destruct Hx as [<-|Hx]; try contradiction; discriminate.
Qed.
Lemma ys_ids x y : In x demo_ys -> In y demo_ys -> l_id y = l_id x -> y = x.
Proof. intros Hx Hy E. repeat destruct Hx as [<-|Hx]; try contradiction; repeat destruct Hy as [<-|Hy]; try contradiction; try reflexivity; discriminate E. Qed.
