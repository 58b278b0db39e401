(** * C118: a word for the game of five letters (lang-rus/libdict/utils/5-samples.cpp). *)
From Verif Require Import Base Letters LettersSpec LettersProofs Tasks TasksSpec TasksProofs Prop_Letters.
Local Open Scope N_scope.

(** C118: with a search that is exact and a help that misses no next letter, whatever the random numbers, [GetNewTask] ends without reading past the
    table of ranks or writing past its array, and gives a noun of five letters in dictionary form that is none of the ruled out ones; nothing only if there are
    none.  Every such word comes out for some random numbers. *)
Theorem C118_new_task help find wd d : find_exact find d -> help_complete help d ->
  (forall rnd, (forall n, rnd n <= rand_max) ->
     exists o, new_task help find wd rnd = Ok o /\ match o with Some w => task_word d wd w | None => forall w, ~ task_word d wd w end) /\
  forall w, task_word d wd w -> exists rnd, (forall n, rnd n <= rand_max) /\ new_task help find wd rnd = Ok (Some w).
Proof. intros H1 H2. exact (new_task_ok help find wd d H1 H2). Qed.

(** A dictionary of two lexemes: the nouns of the list, and as lexeme 2 (no noun) терма. *)
Definition d5 : forms := fun lex w id => id = 0 /\ ((lex = 1 /\ In w five_nouns) \/ (lex = 2 /\ w = terma)).
Definition wd5 (lex : N) : N := if lex =? 1 then 7 else 50.
Definition find5 (pattern : wstring) : list (N * list (wstring * N)) :=
  [(1, map (fun w => (w, 0)) (filter (fitsb pattern) five_nouns)); (2, map (fun w => (w, 0)) (filter (fitsb pattern) [terma]))].
Fixpoint next_of (p w : wstring) : wstring :=
  match p, w with [], c :: _ => [c] | a :: p', c :: w' => if a =? c then next_of p' w' else [] | _, [] => [] end.
Definition help5 (p : wstring) : wstring := 0 :: flat_map (next_of p) (five_nouns ++ [terma]).

Lemma listed_in l pattern (w : wstring) (id : N) : In (w, id) (map (fun w => (w, 0)) (filter (fitsb pattern) l)) <-> id = 0 /\ In w l /\ fits pattern w.
Proof.
  rewrite in_map_iff. split.
  - intros (x & E & Hi). injection E as -> <-. apply filter_In in Hi as [Hi Hf]. split; [reflexivity|]. split; [exact Hi|apply fitsb_ok; exact Hf].
  - intros (-> & Hi & Hf). exists w. split; [reflexivity|]. apply filter_In. split; [exact Hi|apply fitsb_ok; exact Hf].
Qed.
Lemma find5_ok : find_exact find5 d5.
Proof.
  split.
  - intros pattern _ lex w id. unfold find5, d5. split.
    + intros (ms & [H|[H|[]]] & Hm); assert (E1 := f_equal fst H); assert (E2 := f_equal snd H); cbn [fst snd] in E1, E2; subst lex ms; apply listed_in in Hm as (-> & Hi & Hf); (split; [|exact Hf]); (split; [reflexivity|]).
      * left. split; [reflexivity|exact Hi].
      * right. split; [reflexivity|destruct Hi as [<-|[]]; reflexivity].
    + intros [[-> [[-> Hi]|[-> ->]]] Hf]; (eexists; split; [try (left; reflexivity); right; left; reflexivity|]); apply listed_in; (split; [reflexivity|]); (split; [|exact Hf]); [exact Hi|left; reflexivity].
  - intros lex w id [_ [[_ Hi]|[_ ->]]] _; [|repeat (constructor; [unfold is_letter; lia|]); constructor]. pose proof five_nouns_ok as F. rewrite Forall_forall in F. apply (F w Hi).
Qed.
Lemma next_of_app : forall p c rest, next_of p (p ++ c :: rest) = [c].
Proof. induction p as [|a p IH]; intros c rest; cbn [next_of app]; [reflexivity|]. rewrite N.eqb_refl. apply IH. Qed.
Lemma next_of_sub : forall p w, (length (next_of p w) <= 1)%nat /\ incl (next_of p w) w.
Proof.
  induction p as [|a p IH]; intros [|c w]; cbn [next_of].
  - split; [cbn; lia|intros x []].
  - split; [cbn; lia|]. intros x [<-|[]]. left. reflexivity.
  - split; [cbn; lia|intros x []].
  - destruct (IH w) as [H1 H2]. destruct (a =? c); [|split; [cbn; lia|intros x []]]. split; [exact H1|]. intros x Hx. right. exact (H2 x Hx).
Qed.
Lemma help5_ok : help_complete help5 d5.
Proof.
  intros p. split; [|split].
  - intros c rest lex id [_ H]. right. apply in_flat_map. exists (p ++ c :: rest). split; [apply in_or_app; destruct H as [[_ H]|[_ H]]; [left; exact H|right; left; symmetry; exact H]|].
    rewrite next_of_app. left. reflexivity.
  - unfold help5. cbn [length flat_map five_nouns app]. rewrite !app_length. cbn [length].
    pose proof (next_of_sub p shlyapa). pose proof (next_of_sub p testo). pose proof (next_of_sub p tembr). pose proof (next_of_sub p techka). pose proof (next_of_sub p terem). pose proof (next_of_sub p terma). lia.
  - constructor; [left; lia|]. apply Forall_forall. intros c Hc. right. apply in_flat_map in Hc as (w & Hw & Hc). apply next_of_sub in Hc.
    assert (F : Forall (Forall is_letter) (five_nouns ++ [terma])) by (repeat (constructor; [repeat (constructor; [unfold is_letter; lia|]); constructor|]); constructor).
    rewrite Forall_forall in F. specialize (F w Hw). rewrite Forall_forall in F. exact (F c Hc).
Qed.

(** The theorem at work: some random numbers make тембр the word; none make it терма. *)
Example C118_case : (exists rnd, (forall n, rnd n <= rand_max) /\ new_task help5 find5 wd5 rnd = Ok (Some tembr)) /\
  forall rnd, (forall n, rnd n <= rand_max) -> exists w, new_task help5 find5 wd5 rnd = Ok (Some w) /\ In w five_nouns.
Proof.
  destruct (C118_new_task help5 find5 wd5 d5 find5_ok help5_ok) as [H1 H2].
  assert (Ht : task_word d5 wd5 tembr).
  { split; [reflexivity|]. exists 1, 0. split; [split; [reflexivity|left; split; [reflexivity|right; right; left; reflexivity]]|]. split; [cbn; lia|]. split; [lia|left; reflexivity]. }
  split; [apply H2; exact Ht|]. intros rnd Hr. destruct (H1 rnd Hr) as (o & E & Ho). destruct o as [w|]; [|exfalso; exact (Ho tembr Ht)].
  exists w. split; [exact E|]. destruct Ho as [_ (lex & id & (-> & [[-> Hi]|[-> ->]]) & Hw & _)]; [exact Hi|]. cbn in Hw. lia.
Qed.
(** With zeros for random numbers the first letters are taken, with the greatest numbers the last ones: then the beginning терм leads to no noun and is given up. *)
Example C118_run : new_task help5 find5 wd5 (fun _ => 0) = Ok (Some shlyapa) /\ new_task help5 find5 wd5 (fun _ => rand_max) = Ok (Some terem) /\
  get_new_task help5 find5 wd5 (fun _ => rand_max) 0 [1090; 1077; 1088; 1084] 4 = Ok (None, 4%nat).
Proof. vm_compute. repeat split. Qed.

(** A claim the program does not keep: a next letter ё (1105) is read past the table of ranks. *)
Theorem C118_yo_refuted : new_task (fun _ => [1105]) find5 wd5 (fun _ => 0) = Ub.
Proof. vm_compute. reflexivity. Qed.

Print Assumptions C118_new_task.
