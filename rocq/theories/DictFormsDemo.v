(** * DictFormsDemo: the words of the dictionary of DictTextDemo, and that they satisfy the conditions of DictFormsSpec. *)
From Coq Require Import String.
From Verif Require Import RusDemo2.
From Verif Require Import Base Serial SerialProofs WordTree TreeSpec Stems StemSpec CharTables CapScheme CapSpec GramMap RusRuntime LevelSpec RusSpec RusProofs RusBuild RusBuildSpec RusReadings RusLemmaSpec Compile CompileSpec CompileProofs CompileProofs2 CompileProofs5 CompileDemo
  Resolve ResolveSpec ResolveProofs ResolveProofs2 StripSpec StripProofs StripProofs2 StripProofs3 Api EngCompile EngCompileSpec EngCompileProofs Utf8 RusText RusTextSpec RusTextProofs RusTextProofs2 RusTextProofs3 RusTextProofs4 RusTextProofs5 RusTextProofs6 RusTextDemo
  PropRusTextLemmas Tfc TfcSpec TfcProofs TfcProofs2 TfcDemo PropTfcLemmas Makeich MakeichSpec MakeichDemo PropMakeichLemmas DictTextSpec DictTextProofs DictTextProofs2 DictTextProofs3 PropDictTextLemmas DictTextDemo DictFormsSpec DictFormsProofs.
Local Open Scope N_scope.
Local Open Scope list_scope.
Notation length := List.length.
Notation lookup := RusText.lookup.
Notation tells := TfcSpec.tells.

Definition dt_at (i : nat) : rarticle := nth i dt_articles dt_son.
Definition dt_dom : rarticle := Eval vm_compute in dt_at 0.
Definition dt_sonto : rarticle := Eval vm_compute in dt_at 2.
Definition dt_verb : rarticle := Eval vm_compute in dt_at 3.
Definition dt_pod : rarticle := Eval vm_compute in dt_at 4.
Definition dt_kak : rarticle := Eval vm_compute in dt_at 5.
Definition dt_other : rarticle := Eval vm_compute in dt_at 6.
Definition dt_dom_word : tword := Eval vm_compute in TWord (cyr "дом") 7 (Some (table_name dt_dom (r_index dt_dom))) None 0.
Definition dt_sonto_word : tword := Eval vm_compute in TWord (cyr "с") 7 (Some (table_name dt_sonto (r_index dt_sonto))) (Some dt_son_mix) 0.
Definition dt_verb_word : tword := Eval vm_compute in TWord (cyr "дела") 1 (Some (table_name dt_verb (r_index dt_verb))) None 0.
Definition dt_pod_word : tword := Eval vm_compute in TWord (cyr "под") 51 None None (case_scale (r_index dt_pod)).
Definition dt_kak_word : tword := Eval vm_compute in TWord (cyr "как") 52 None None 0.

Definition typedb (mark type : bytes) (n : N) (p : bool) : bool := existsb (fun np => (fst np =? n) && Bool.eqb (snd np) p) (typed_list mark type).
Lemma typedb_typed mark type n p : typedb mark type n p = true -> typed mark type n p.
Proof.
  unfold typedb, typed_list. intros H. apply existsb_exists in H as ((n' & p') & Hin & E). apply in_map_iff in Hin as (((n2 & p2) & names) & E2 & Hin). cbn [fst] in E2. injection E2 as -> ->. cbn [fst snd] in E.
  apply andb_true_iff in E as [E1 E2]. apply N.eqb_eq in E1. apply eqb_prop in E2. subst n' p'. apply filter_In in Hin as [H1 H2]. cbn [snd] in H2. apply has_name_iff, in_map_iff in H2 as (name & E & H2). exists names, name. auto.
Qed.
Lemma table_sense x n p base lines l stem left mix :
  typedb (r_mark x) (r_type x) n p = true -> n < 48 -> first_def dt_defs (table_name x (r_index x)) = Some lines -> plain_word (r_head x) = base ++ post_of (r_notes x) -> existsb (N.eqb 64) base = false ->
  normal_list dt_defs 5 (is_verb (class_bits x n p)) (if is_verb (class_bits x n p) then 0x8001 else normal_gramm (class_bits x n p) base) (table_name x (r_index x)) = Some l ->
  (exists d behind, l = d :: behind /\ base = stem ++ fst (fst d)) ->
  alternation_told (mixes_of dt_mixes (table_name x (r_index x))) (is_verb (class_bits x n p)) (remark_of (r_notes x)) stem left mix ->
  meanings dt_defs dt_mixes x [TWord left (class_bits x n p + kind_bits (r_index x) n mix) (Some (table_name x (r_index x))) mix 0].
Proof.
  intros Ht Hn Hd Hw H64 Hl (d & behind & El & Eb) Ha. apply mg_one. eapply (sn_changes dt_defs dt_mixes x (r_index x) n p base lines l None stem left mix).
  - apply typedb_typed, Ht.
  - unfold constant. lia.
  - apply first_def_some, Hd.
  - exists (post_of (r_notes x)). auto.
  - apply existsb_false_in, H64.
  - apply normal_list_told in Hl. exact Hl.
  - apply (ue_normal _ _ _ _ stem d); [reflexivity|]. exists [], behind. split; [exact El|]. split; [exact Eb|constructor].
  - exact Ha.
Qed.
Lemma fixed_sense x n p base : typedb (r_mark x) (r_type x) n p = true -> 48 <= n -> plain_word (r_head x) = base ++ post_of (r_notes x) ->
  meanings dt_defs dt_mixes x [TWord base (class_bits x n p) None None (if n =? 51 then case_scale (r_index x) else 0)].
Proof.
  intros Ht Hn Hw. apply mg_one, sn_fixed.
  - apply typedb_typed, Ht.
  - left. exact Hn.
  - exists (post_of (r_notes x)). auto.
  - apply case_scale_eq.
Qed.
Lemma no_mixes (x : rarticle) verb rems stem : mixes_of dt_mixes (table_name x (r_index x)) = [] -> alternation_told (mixes_of dt_mixes (table_name x (r_index x))) verb rems stem stem None.
Proof. intros ->. apply at_none. constructor. Qed.
Lemma dt_dom_means : meanings dt_defs dt_mixes dt_dom [dt_dom_word].
Proof.
  eapply (table_sense dt_dom 7 false (cyr "дом") _ _ (cyr "дом") (cyr "дом") None).
  - vm_compute. reflexivity.
  - reflexivity.
  - vm_compute. reflexivity.
  - reflexivity.
  - vm_compute. reflexivity.
  - vm_compute. reflexivity.
  - eexists _, _. split; reflexivity.
  - apply no_mixes. vm_compute. reflexivity.
Qed.
Lemma dt_sonto_means : meanings dt_defs dt_mixes dt_sonto [dt_sonto_word].
Proof.
  eapply (table_sense dt_sonto 7 false (cyr "сон") _ _ (cyr "сон") (cyr "с") (Some dt_son_mix)).
  - vm_compute. reflexivity.
  - reflexivity.
  - vm_compute. reflexivity.
  - reflexivity.
  - vm_compute. reflexivity.
  - vm_compute. reflexivity.
  - eexists _, _. split; reflexivity.
  - change (mixes_of dt_mixes (table_name dt_sonto (r_index dt_sonto))) with ([MixLine (cyr "о") [cyr "ец"; cyr "ц"]] ++ dt_son_mix :: []). eapply at_found; [reflexivity| | |reflexivity].
    + constructor; [|constructor]. intros [[r E] _]. apply (f_equal (@rev N)) in E. rewrite rev_app_distr in E. vm_compute in E. discriminate E.
    + split; [exists (cyr "с"); reflexivity|]. left. reflexivity.
Qed.
Lemma dt_verb_means : meanings dt_defs dt_mixes dt_verb [dt_verb_word].
Proof.
  eapply (table_sense dt_verb 1 false (cyr "делать") _ _ (cyr "дела") (cyr "дела") None).
  - vm_compute. reflexivity.
  - reflexivity.
  - vm_compute. reflexivity.
  - reflexivity.
  - vm_compute. reflexivity.
  - vm_compute. reflexivity.
  - eexists _, _. split; reflexivity.
  - apply no_mixes. vm_compute. reflexivity.
Qed.
Lemma dt_pod_means : meanings dt_defs dt_mixes dt_pod [dt_pod_word].
Proof.
  assert (E : dt_pod_word = TWord (cyr "под") (class_bits dt_pod 51 false) None None (if 51 =? 51 then case_scale (r_index dt_pod) else 0)) by (vm_compute; reflexivity). rewrite E.
  apply fixed_sense; [vm_compute; reflexivity|lia|reflexivity].
Qed.
Lemma dt_kak_means : meanings dt_defs dt_mixes dt_kak [dt_kak_word].
Proof.
  assert (E : dt_kak_word = TWord (cyr "как") (class_bits dt_kak 52 false) None None (if 52 =? 51 then case_scale (r_index dt_kak) else 0)) by (vm_compute; reflexivity). rewrite E.
  apply fixed_sense; [vm_compute; reflexivity|lia|reflexivity].
Qed.
Lemma dt_other_means : meanings dt_defs dt_mixes dt_other [].
Proof.
  apply mg_none; [apply sn_untyped; intros n p H; apply typed_listed in H; vm_compute in H; destruct H|]. apply strstr_none_lacks. vm_compute. reflexivity.
Qed.
Lemma dt_son_means : meanings dt_defs dt_mixes dt_son [dt_son_word].
Proof. apply mg_one, dt_son_sense. Qed.
Definition dt_words : list (rarticle * tword) := [(dt_dom, dt_dom_word); (dt_son, dt_son_word); (dt_sonto, dt_sonto_word); (dt_verb, dt_verb_word); (dt_pod, dt_pod_word); (dt_kak, dt_kak_word)].
Lemma dt_meant x tw : meant dt_defs dt_mixes dt_articles x tw <-> In (x, tw) dt_words.
Proof.
  pose proof (dv_search _ _ _ _ dt_valid) as Hs. rewrite Forall_forall in Hs. split.
  - intros (Hx & tws & Hm & Hin). pose proof (Hs x Hx) as H. clear Hs.
    assert (G : forall tws', meanings dt_defs dt_mixes x tws' -> In tw tws') by (intros tws' K; rewrite <- (meanings_unique _ _ _ _ _ H Hm K); exact Hin). clear tws Hm Hin H.
    change dt_articles with [dt_dom; dt_son; dt_sonto; dt_verb; dt_pod; dt_kak; dt_other] in Hx. unfold dt_words.
    destruct Hx as [<-|[<-|[<-|[<-|[<-|[<-|[<-|[]]]]]]]].
    + destruct (G _ dt_dom_means) as [<-|[]]. left. reflexivity.
    + destruct (G _ dt_son_means) as [<-|[]]. do 1 right. left. reflexivity.
    + destruct (G _ dt_sonto_means) as [<-|[]]. do 2 right. left. reflexivity.
    + destruct (G _ dt_verb_means) as [<-|[]]. do 3 right. left. reflexivity.
    + destruct (G _ dt_pod_means) as [<-|[]]. do 4 right. left. reflexivity.
    + destruct (G _ dt_kak_means) as [<-|[]]. do 5 right. left. reflexivity.
    + destruct (G _ dt_other_means).
  - intros Hin. change dt_articles with [dt_dom; dt_son; dt_sonto; dt_verb; dt_pod; dt_kak; dt_other].
    assert (G : forall x tw, In x [dt_dom; dt_son; dt_sonto; dt_verb; dt_pod; dt_kak; dt_other] -> meanings dt_defs dt_mixes x [tw] -> meant dt_defs dt_mixes [dt_dom; dt_son; dt_sonto; dt_verb; dt_pod; dt_kak; dt_other] x tw).
    { intros x0 tw0 K1 K2. split; [exact K1|]. exists [tw0]. split; [exact K2|left; reflexivity]. }
    unfold dt_words in Hin. destruct Hin as [K|[K|[K|[K|[K|[K|[]]]]]]]; injection K as <- <-; apply G.
    + left. reflexivity.
    + exact dt_dom_means.
    + do 1 right. left. reflexivity.
    + exact dt_son_means.
    + do 2 right. left. reflexivity.
    + exact dt_sonto_means.
    + do 3 right. left. reflexivity.
    + exact dt_verb_means.
    + do 4 right. left. reflexivity.
    + exact dt_pod_means.
    + do 5 right. left. reflexivity.
    + exact dt_kak_means.
Qed.

(** ** Deciding *)
Definition told (tw : tword) : list described := match tw_table tw with Some name => match tell_list dt_defs 5 name with Some l => l | None => [] end | None => [] end.
Definition table_known (tw : tword) : bool := match tw_table tw with Some name => match tell_list dt_defs 5 name with Some _ => true | None => false end | None => true end.
Lemma told_in tw name s g f : table_known tw = true -> tw_table tw = Some name -> (tells dt_defs name s g f <-> In (s, g, f) (told tw)).
Proof. unfold table_known, told. intros Hk E. rewrite E in *. destruct (tell_list dt_defs 5 name) as [l|] eqn:El; [|discriminate]. apply (tell_list_all _ _ _ _ El). Qed.
Definition no_zero (s : bytes) : bool := negb (existsb (N.eqb 0) s).
Definition mix_strings (tw : tword) : list bytes := match tw_mix tw with Some y => ml_strings y | None => [] end.
Definition buildable_check (xt : rarticle * tword) : bool :=
  let '(x, tw) := xt in table_known tw && Nat.leb (length (tw_stem tw)) 48 && no_zero (post_of (r_notes x)) && forallb (fun d => Nat.leb (length (fst (fst d))) 64) (told tw) && forallb no_zero (mix_strings tw) && (r_id x <? 2 ^ 24).
Lemma buildable_checked x tw : buildable_check (x, tw) = true -> word_buildable dt_defs x tw.
Proof.
  unfold buildable_check. rewrite !andb_true_iff. intros (((((H1 & H2) & H3) & H4) & H5) & H6). constructor.
  - apply Nat.leb_le, H2.
  - apply existsb_false_in, negb_true_iff, H3.
  - intros name s g f E Ht. apply (told_in tw name s g f H1 E) in Ht. rewrite forallb_forall in H4. apply Nat.leb_le, (H4 _ Ht).
  - intros y E. unfold mix_strings in H5. rewrite E in H5. apply Forall_forall. intros s Hs. rewrite forallb_forall in H5. apply existsb_false_in, negb_true_iff, H5, Hs.
  - apply N.ltb_lt, H6.
Qed.
Lemma dt_buildable x tw : meant dt_defs dt_mixes dt_articles x tw -> word_buildable dt_defs x tw.
Proof.
  intros H. apply dt_meant in H. apply buildable_checked. assert (K : forallb buildable_check dt_words = true) by (vm_compute; reflexivity). rewrite forallb_forall in K. apply K, H.
Qed.

(** All changing parts for a description. *)
Definition asked_list (tw : tword) (fx : flexinfo) : list bytes :=
  match tw_table tw with
  | None => [[]]
  | Some _ => map (fun d => match tw_mix tw with None => [] | Some y => level_string (ml_strings y) (N.to_nat (alternation_level (tw_class tw) (gramm fx) (flags fx) - 1)) end ++ fst (fst d))
                (filter (fun d => (snd (fst d) =? gramm fx) && negb (N.land (snd d) (flags fx) =? 0)) (told tw))
  end.
Lemma asked_listed tw fx part : table_known tw = true -> (word_asked dt_defs tw fx part <-> In part (asked_list tw fx)).
Proof.
  intros Hk. unfold asked_list. split.
  - intros H. inversion H as [K|name s f En Ey He Hf E|name y s f En Ey He Hf E]; subst.
    + rewrite K. left. reflexivity.
    + rewrite En, Ey. apply in_map_iff. exists (part, gramm fx, f). split; [reflexivity|]. apply filter_In. split; [apply (told_in tw name _ _ _ Hk En), He|]. cbn [fst snd]. rewrite N.eqb_refl. apply negb_true_iff, N.eqb_neq, Hf.
    + rewrite En, Ey. apply in_map_iff. exists (s, gramm fx, f). split; [reflexivity|]. apply filter_In. split; [apply (told_in tw name _ _ _ Hk En), He|]. cbn [fst snd]. rewrite N.eqb_refl. apply negb_true_iff, N.eqb_neq, Hf.
  - destruct (tw_table tw) as [name|] eqn:En; [|intros [<-|[]]; apply wa_fixed, En]. intros H. apply in_map_iff in H as (((s & g) & f) & <- & H). apply filter_In in H as [H1 H2]. cbn [fst snd] in *. apply andb_true_iff in H2 as [H2 H3]. apply N.eqb_eq in H2. subst g. apply negb_true_iff, N.eqb_neq in H3.
    apply (told_in tw name _ _ _ Hk En) in H1. destruct (tw_mix tw) as [y|] eqn:Ey; [eapply wa_mixed; eassumption|cbn [app]; eapply wa_ending; eassumption].
Qed.

Definition level_ok (tw : tword) : bool := forallb (fun k => match tw_mix tw with None => true | Some y => forallb goodb (level_string (ml_strings y) k) end) [0; 1; 2]%nat.
Definition letters_check (xt : rarticle * tword) : bool :=
  let '(x, tw) := xt in table_known tw && forallb goodb (tw_stem tw) && forallb goodb (post_of (r_notes x)) && forallb (fun d => forallb goodb (fst (fst d))) (told tw) && level_ok tw.
Lemma letters_checked x tw fx part : letters_check (x, tw) = true -> word_asked dt_defs tw fx part -> Forall (good_char rus_casing) (tw_stem tw ++ part ++ post_of (r_notes x)).
Proof.
  unfold letters_check. rewrite !andb_true_iff. intros ((((H1 & H2) & H3) & H4) & H5) Ha. apply goodb_ok. rewrite !forallb_app. rewrite H2, H3, andb_true_r. cbn [andb]. rewrite forallb_forall in H4.
  inversion Ha as [K|name s f En Ey He Hf E|name y s f En Ey He Hf E]; subst.
  - reflexivity.
  - apply (told_in tw name _ _ _ H1 En) in He. apply (H4 _ He).
  - apply (told_in tw name _ _ _ H1 En) in He. rewrite forallb_app. pose proof (H4 _ He) as H6. cbn [fst] in H6. rewrite H6, andb_true_r. unfold level_ok in H5. rewrite Ey in H5. rewrite forallb_forall in H5. apply H5.
    pose proof (level_below (tw_class tw) (gramm fx) (flags fx)) as Hl. assert (K : (N.to_nat (alternation_level (tw_class tw) (gramm fx) (flags fx) - 1) < 3)%nat) by lia.
    destruct (N.to_nat (alternation_level (tw_class tw) (gramm fx) (flags fx) - 1)) as [|[|[|k]]]; [left|right; left|right; right; left|lia]; reflexivity.
Qed.
Lemma dt_sonto_part : word_part dt_defs dt_sonto_word (cyr "он") 0 3.
Proof.
  assert (H : tells dt_defs (table_name dt_sonto (r_index dt_sonto)) [] 0 3).
  { destruct (tell_list dt_defs 5 (table_name dt_sonto (r_index dt_sonto))) as [l|] eqn:E; [|vm_compute in E; discriminate E]. apply (tell_list_all _ _ _ _ E). vm_compute in E. injection E as <-. left. reflexivity. }
  apply (wp_changing dt_defs dt_sonto_word (table_name dt_sonto (r_index dt_sonto))); [reflexivity|].
  apply (pt_mixed dt_defs 7 (table_name dt_sonto (r_index dt_sonto)) dt_son_mix [] 0 3 H). discriminate.
Qed.
Lemma dt_all_reached x tw part : meant dt_defs dt_mixes dt_articles x tw -> postfix_reached dt_defs x tw part.
Proof.
  intros H. apply dt_meant in H. right. unfold dt_words in H. destruct H as [K|[K|[K|[K|[K|[K|[]]]]]]]; injection K as <- <-; try exact I.
  change (post_of (r_notes dt_sonto)) with [45; 242; 238]. exists 238, [237], 0, 3. split; [exact dt_sonto_part|]. lia.
Qed.
Lemma dt_recognisable x tw : meant dt_defs dt_mixes dt_articles x tw -> word_recognisable dt_defs x tw.
Proof.
  intros H. pose proof H as Hm. apply dt_meant in H. constructor.
  - assert (K : forallb (fun xt => negb (N.testbit (tw_class (snd xt)) 6)) dt_words = true) by (vm_compute; reflexivity). rewrite forallb_forall in K. specialize (K _ H). cbn [snd] in K. apply negb_true_iff in K. intros E. congruence.
  - assert (K : forallb (fun xt => negb (existsb (N.eqb (tw_class (snd xt) mod 64)) [9; 15; 18])) dt_words = true) by (vm_compute; reflexivity). rewrite forallb_forall in K. specialize (K _ H). cbn [snd] in K. apply negb_true_iff in K. intros Hin. exfalso.
    apply not_true_iff_false in K. apply K, existsb_exists. exists (tw_class tw mod 64). split; [exact Hin|apply N.eqb_refl].
  - intros fx _. apply dt_all_reached, Hm.
  - intros fx part. apply letters_checked. assert (K : forallb letters_check dt_words = true) by (vm_compute; reflexivity). rewrite forallb_forall in K. apply K, H.
Qed.
Lemma dt_dict x tw gf : meant dt_defs dt_mixes dt_articles x tw -> exists part, word_dict dt_defs tw 0 gf part.
Proof.
  intros H. apply dt_meant in H.
  assert (K : forallb (fun xt => table_known (snd xt) && match asked_list (snd xt) (Flexinfo (word_gramm (snd xt) 0 (0, 0)) 3) with [] => false | _ => true end) dt_words = true) by (vm_compute; reflexivity). rewrite forallb_forall in K. specialize (K _ H). cbn [snd] in K.
  apply andb_true_iff in K as [K1 K2]. destruct (asked_list tw (Flexinfo (word_gramm tw 0 (0, 0)) 3)) as [|part l] eqn:E; [discriminate|]. exists part. left. change (word_gramm tw 0 gf) with (word_gramm tw 0 (0, 0)).
  apply (asked_listed _ _ _ K1). rewrite E. left. reflexivity.
Qed.
Definition longest (l : list bytes) : nat := fold_right (fun s n => Nat.max (length s) n) O l.
Lemma longest_le l s : In s l -> (length s <= longest l)%nat.
Proof. induction l as [|a l IH]; [intros []|]. cbn [longest fold_right]. intros [<-|H]; [lia|]. specialize (IH H). unfold longest in IH. lia. Qed.
Definition search_check (xt : rarticle * tword) : bool :=
  let '(x, tw) := xt in table_known tw && Nat.leb (length (tw_stem tw) + longest (mix_strings tw) + longest (map (fun d => fst (fst d)) (told tw)) + length (post_of (r_notes x))) 47 &&
    (match tw_table tw with Some _ => true | None => match post_of (r_notes x) with [] => true | _ => false end end) && negb (r_id x =? 0).
Lemma dt_searchable x tw : meant dt_defs dt_mixes dt_articles x tw -> word_searchable dt_defs x tw.
Proof.
  intros H. apply dt_meant in H. assert (K : forallb search_check dt_words = true) by (vm_compute; reflexivity). rewrite forallb_forall in K. specialize (K _ H). unfold search_check in K. rewrite !andb_true_iff in K. destruct K as (((K1 & K2) & K3) & K4).
  apply Nat.leb_le in K2. constructor.
  - lia.
  - intros name E. exists (longest (map (fun d => fst (fst d)) (told tw))), (longest (mix_strings tw)). split; [|split].
    + intros s g f Ht. apply (told_in tw name _ _ _ K1 E) in Ht. apply longest_le. apply in_map_iff. exists (s, g, f). auto.
    + intros y Ey. apply Forall_forall. intros s Hs. apply longest_le. unfold mix_strings. rewrite Ey. exact Hs.
    + exact K2.
  - intros E. rewrite E in K3. destruct (post_of (r_notes x)); [reflexivity|discriminate].
  - apply negb_true_iff, N.eqb_neq in K4. exact K4.
Qed.
Lemma dt_ids x x' : In x dt_articles -> In x' dt_articles -> r_id x' = r_id x -> x' = x.
Proof.
  intros H H' E. change dt_articles with [dt_dom; dt_son; dt_sonto; dt_verb; dt_pod; dt_kak; dt_other] in H, H'.
  destruct H as [<-|[<-|[<-|[<-|[<-|[<-|[<-|[]]]]]]]]; destruct H' as [<-|[<-|[<-|[<-|[<-|[<-|[<-|[]]]]]]]]; try reflexivity; discriminate E.
Qed.
