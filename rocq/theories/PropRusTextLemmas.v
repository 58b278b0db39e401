(** * PropRusTextLemmas: proofs for Prop_RusText. *)
From Coq Require Import String Ascii.
From Verif Require Import Base Serial SerialProofs WordTree TreeSpec Stems StemSpec CharTables CapScheme CapSpec GramMap RusRuntime LevelSpec RusSpec Compile CompileSpec CompileFormsSpec CompileProofs CompileProofs2 CompileProofs5
  Resolve ResolveSpec ResolveProofs ResolveProofs2 CompileDemo CompileDemo2 Api Utf8 EngCompile EngCompileSpec EngCompileProofs EngCompileProofs4
  RusText RusTextSpec RusTextProofs RusTextProofs2 RusTextProofs3 RusTextProofs4 RusTextProofs5 RusTextProofs6 RusTextDemo StripSpec StripProofs StripProofs2 StripProofs3 PropCompileLemmas.
Local Open Scope N_scope.
Local Open Scope list_scope.
Notation length := List.length.

(** ** Files *)
Lemma files_lines depth T conv files liness : Forall2 in_lines files liness -> rcompile depth T conv files = rcompile_lines depth T (map (map conv) (concat liness)).
Proof.
  intros H. unfold rcompile. f_equal. induction H as [|f ls files liness Hf H IH]; [reflexivity|]. cbn [flat_map concat]. rewrite map_app, IH. f_equal. unfold file_lines. rewrite (fgets_eq _ _ Hf). reflexivity.
Qed.
Theorem rus_text_compiled depth T conv files liness xs ls us : tables_ok T -> Forall2 in_lines files liness -> rlists depth T (map (map conv) (concat liness)) xs ls us ->
  rcompile depth T conv files = let! o := compile depth (tb_flex T) (tb_mix T) ls in Ok (option_map (fun A => (A, us)) o).
Proof. intros HT Hf Hl. rewrite (files_lines _ _ _ _ _ Hf). apply (rcompile_eq _ _ _ xs), Hl. exact HT. Qed.

Theorem rus_text_from depth T lines xs ls us : tables_ok T -> rlists depth T lines xs ls us -> forall l, In l ls <-> exists x, In x xs /\ lexeme_of depth T x l.
Proof.
  intros HT H l. destruct (rlists_in _ _ _ _ _ _ H) as [A B]. split.
  - intros Hl. destruct (A l Hl) as (x & line & body & s & Hx & _ & _ & Hs & Hin). exists x. split; [exact Hx|]. exists s. auto.
  - intros (x & Hx & s & Hs & Hin). destruct (B x Hx) as (line & body & s' & _ & Hw & Hs' & Hi & _). rewrite (senses_unique _ _ _ _ _ _ _ HT Hw Hs Hs') in Hin. apply Hi, Hin.
Qed.

(** ** Words *)
Lemma article_source depth T lines xs ls us ignore w : tables_ok T -> rlists depth T lines xs ls us -> forall l part g f,
  source_word (tb_flex T) (tb_mix T) ls ignore w l part g f <-> exists x, article_word depth T xs ignore w x l part g f.
Proof.
  intros HT H l part g f. pose proof (rus_text_from _ _ _ _ _ _ HT H l) as K. unfold source_word, article_word. split.
  - intros (H1 & H2 & H3). apply K in H1 as (x & Hx & Hl). exists x. auto.
  - intros (x & H0 & H1 & H2 & H3). split; [apply K; exists x; auto|]. auto.
Qed.
Theorem rus_text_check alphabet depth T conv files liness xs ls us A us' w psz cch dwsets junk :
  tables_valid alphabet T -> Forall2 in_lines files liness -> rlists depth T (map (map conv) (concat liness)) xs ls us -> Forall (rarticle_valid alphabet) xs -> N.of_nat (length ls) < 2 ^ 32 ->
  rcompile depth T conv files = Ok (Some (A, us')) -> arrays_fit A ->
  given w psz cch -> is_bytes w -> w <> [] -> (length w < 48)%nat -> (length (parts rus_casing w) <= 8)%nat ->
  (forall x l part g f, article_word depth T xs (bit 1 dwsets) w x l part g f -> part <> [] \/ match l_post l with [] => True | c :: _ => c <= l_max l end) ->
  check_word A junk psz cch dwsets = Ok 1%Z /\ (exists x l part g f, article_word depth T xs (bit 1 dwsets) w x l part g f) \/
  check_word A junk psz cch dwsets = Ok 0%Z /\ ~ (exists x l part g f, article_word depth T xs (bit 1 dwsets) w x l part g f).
Proof.
  intros HT Hf Hl Hxs Hn HA Hfit Hg Hb Hne Hlen Hp Hpost. pose proof (tv_offsets _ _ HT) as HT0. rewrite (rus_text_compiled depth T conv files liness xs ls us HT0 Hf Hl) in HA.
  apply bind_ok_inv in HA as (o & Ec & HA). destruct o as [A0|]; [|discriminate]. injection HA as -> _.
  destruct (lists_sources alphabet depth T _ xs ls us HT Hxs Hl Hn) as [Hso Hcov]. pose proof (article_source depth T _ xs ls us (bit 1 dwsets) w HT0 Hl) as Hsrc.
  destruct (compiled_check depth (tb_flex T) (tb_mix T) ls A w psz cch dwsets junk Ec Hso Hfit Hcov Hg Hb Hne Hlen Hp) as [[E (l & part & g & f & H)]|[E H]].
  - intros l part g f H. apply Hsrc in H as (x & H). exact (Hpost x l part g f H).
  - left. split; [exact E|]. apply Hsrc in H as (x & H). exists x, l, part, g, f. exact H.
  - right. split; [exact E|]. intros (x & l & part & g & f & K). apply H. exists l, part, g, f. apply Hsrc. exists x. exact K.
Qed.

(** ** Headwords *)
Lemma existsb_false_in c (l : bytes) : existsb (N.eqb c) l = false <-> ~ In c l.
Proof.
  split; [intros H K; apply not_true_iff_false in H; apply H, existsb_exists; exists c; split; [exact K|apply N.eqb_refl]|].
  intros H. apply not_true_iff_false. intros K. apply existsb_exists in K as (y & Hy & E). apply N.eqb_eq in E. subst y. auto.
Qed.
Lemma typed_unique m t n p n' p' : typed m t n p -> typed m t n' p' -> n = n' /\ p = p'.
Proof.
  intros H H'. apply typed_type in H as [E Hn], H' as [E' Hn']. rewrite E in E'. pose proof (bits_low n p Hn) as K. pose proof (bits_low n' p' Hn') as K'. rewrite <- E' in K'. rewrite K in K'. subst n'.
  split; [reflexivity|]. unfold type_bits in E'. destruct p, p'; try reflexivity; lia.
Qed.

(** The search gives a form for the headword of the article. *)
Theorem article_headword depth T x n p off base d l :
  tables_ok T -> typed (r_mark x) (r_type x) n p -> ~ constant n -> RusText.lookup (r_type x ++ 32 :: r_index x) (tb_findex T) = Some off ->
  plain_word (r_head x) = base ++ post_of (r_notes x) -> ~ In 64 base -> ~ In 58 (r_index x) ->
  let wd := class_bits x n p in
  searchable (tb_flex T) (tb_mix T) (match RusText.lookup (r_type x ++ 32 :: r_index x) (tb_mindex T) with Some l => l | None => [] end) wd off base (remark_of (r_notes x)) ->
  normal_of_word (tb_flex T) wd off base d -> entry depth T x (r_index x) (Ok (Some l)) ->
  (if is_verb wd then reflexive_last (tb_flex T) off else m_mtoffs (l_class l) <> 0 -> p = false) ->
  exists part g f, form_of (tb_flex T) (tb_mix T) l (plain_word (r_head x)) part g f.
Proof.
  intros HT Ht Hc Hl Hw H64 H58 wd Hse Hno He Hcond. pose proof (typed_type _ _ _ _ Ht) as [_ Hn].
  inversion He as [| |n' p' off' cases at_mark r Ht' Hoff Hcases word post Hlen Hat Hr]; subst. destruct (typed_unique _ _ _ _ _ _ Ht Ht') as [<- <-].
  assert (off' = off) as ->. { destruct Hoff as [[K _]|[_ [K|(K & _)]]]; [contradiction|congruence|congruence]. }
  assert (Hpost : firstn (length word - length post) word = base). { unfold word, post. rewrite Hw, app_length. replace (length base + length (post_of (r_notes x)) - length (post_of (r_notes x)))%nat with (length base) by lia. rewrite firstn_app, Nat.sub_diag, firstn_all. apply app_nil_r. }
  assert (at_mark = None) as ->. { destruct at_mark as [k|]; [|reflexivity]. destruct Hat as (rest & E & _). exfalso. apply H64. rewrite <- Hpost, E. apply in_or_app. right. left. reflexivity. }
  rewrite (proj2 (existsb_false_in 58 (r_index x)) H58) in Hr. unfold word, post in Hr. rewrite Hw in Hr. rewrite Hw.
  assert (Hn64 : wd mod 64 = n) by (apply class_number; lia).
  assert (Hoff0 : off <> 0). { specialize (HT _ _ Hl). lia. }
  apply (headword_form _ _ _ _ _ _ _ _ _ _ _ _ d _ Hr Hoff0); [|exact Hse|exact Hno|].
  - fold wd. rewrite Hn64. unfold constant in Hc. lia.
  - fold wd. destruct (is_verb wd) eqn:Ev; [exact Hcond|]. intros Hm. specialize (Hcond Hm). split.
    + unfold wd, class_bits. rewrite Hcond. rewrite N.add_0_r. pose proof (attr_mod (r_notes x)) as Ha. pose proof (attr_bound (r_notes x)) as Hb.
      assert (Hat2 : exists q, attribute_bits (r_notes x) = 128 * q) by (unfold attribute_bits; destruct (has_attribute _ 0), (has_attribute _ 1), (has_attribute _ 2), (has_attribute _ 3);
        match goal with |- exists q, ?e = _ => let v := eval vm_compute in (e / 128) in exists v; reflexivity end).
      destruct Hat2 as (q & ->). rewrite N.testbit_eqb. change (2 ^ 6) with 64. rewrite N.add_comm, (N.mul_comm 128 q), (N.add_comm (q * 128)). replace (n + q * 128) with (n + (2 * q) * 64) by lia.
      rewrite N.div_add by lia. rewrite N.div_small by lia. rewrite N.add_0_l, N.mul_comm, N.mod_mul by lia. reflexivity.
    + unfold is_verb in Ev. rewrite Hn64 in Ev. destruct (N.leb_spec n 6); [|reflexivity]. destruct (N.leb_spec 1 n); [discriminate|]. lia.
Qed.

Theorem headword_accepted alphabet depth T conv files liness xs ls us A us' x n p off base d l w psz cch dwsets junk :
  tables_valid alphabet T -> Forall2 in_lines files liness -> rlists depth T (map (map conv) (concat liness)) xs ls us -> Forall (rarticle_valid alphabet) xs -> N.of_nat (length ls) < 2 ^ 32 ->
  rcompile depth T conv files = Ok (Some (A, us')) -> arrays_fit A ->
  In x xs -> typed (r_mark x) (r_type x) n p -> ~ constant n -> RusText.lookup (r_type x ++ 32 :: r_index x) (tb_findex T) = Some off ->
  plain_word (r_head x) = base ++ post_of (r_notes x) -> ~ In 64 base -> ~ In 58 (r_index x) ->
  searchable (tb_flex T) (tb_mix T) (match RusText.lookup (r_type x ++ 32 :: r_index x) (tb_mindex T) with Some l => l | None => [] end) (class_bits x n p) off base (remark_of (r_notes x)) ->
  normal_of_word (tb_flex T) (class_bits x n p) off base d -> entry depth T x (r_index x) (Ok (Some l)) ->
  (if is_verb (class_bits x n p) then reflexive_last (tb_flex T) off else m_mtoffs (l_class l) <> 0 -> p = false) ->
  given w psz cch -> is_bytes w -> w <> [] -> (length w < 48)%nat -> (length (parts rus_casing w) <= 8)%nat ->
  (forall x l part g f, article_word depth T xs (bit 1 dwsets) w x l part g f -> part <> [] \/ match l_post l with [] => True | c :: _ => c <= l_max l end) ->
  map (locase rus_casing) w = plain_word (r_head x) -> (bit 1 dwsets = false -> suits w (required_case (m_wdinfo (l_class l)))) ->
  check_word A junk psz cch dwsets = Ok 1%Z.
Proof.
  intros HT Hf Hl Hxs Hn HA Hfit Hx Ht Hc Hlk Hw H64 H58 Hse Hno He Hcond Hg Hb Hne Hlen Hp Hpost Elow Hsuit. pose proof (senses_one _ _ _ l He) as Hs.
  destruct (article_headword depth T x n p off base d l (tv_offsets _ _ HT) Ht Hc Hlk Hw H64 H58 Hse Hno He Hcond) as (part & g & f & Hform).
  destruct (rus_text_check alphabet depth T conv files liness xs ls us A us' w psz cch dwsets junk HT Hf Hl Hxs Hn HA Hfit Hg Hb Hne Hlen Hp Hpost) as [[E _]|[_ K]]; [exact E|].
  exfalso. apply K. exists x, l, part, g, f. split; [exact Hx|]. split; [exists [l]; split; [exact Hs|left; reflexivity]|]. split; [rewrite Elow; exact Hform|exact Hsuit].
Qed.

(** ** Cases *)
Definition demo_file : bytes := Eval vm_compute in concat demo_lines.
Lemma in_lines_cons line line' file lines : line' = line ++ [10] -> ~ In 10 line -> (length line < 1022)%nat -> in_lines file lines -> in_lines (line' ++ file) (line' :: lines).
Proof. intros -> H1 H2 H3. rewrite <- app_assoc. apply il_more; assumption. Qed.
Lemma demo_in_lines : in_lines demo_file demo_lines.
Proof.
  assert (H : forallb (fun l => negb (existsb (N.eqb 10) (removelast l)) && (last l 0 =? 10) && Nat.ltb (length (removelast l)) 1022) demo_lines = true) by (vm_compute; reflexivity).
  assert (K : forall ls, forallb (fun l => negb (existsb (N.eqb 10) (removelast l)) && (last l 0 =? 10) && Nat.ltb (length (removelast l)) 1022) ls = true -> in_lines (concat ls) ls).
  { clear H. induction ls as [|l ls IH]; intros H; [apply il_nil|]. cbn [forallb] in H. rewrite !andb_true_iff, negb_true_iff in H. destruct H as [[[H1 H2] H3] H4]. apply N.eqb_eq in H2.
    cbn [concat]. apply (in_lines_cons (removelast l)).
    - destruct l as [|c l]; [discriminate|]. rewrite <- H2. apply app_removelast_last. discriminate.
    - apply existsb_false_in, H1.
    - apply Nat.ltb_lt, H3.
    - apply IH, H4. }
  exact (K demo_lines H).
Qed.
Definition at_ (i : nat) : rarticle := nth i demo_articles (RArticle [] [] [] [] [] 0).
Definition ly (i : nat) : lexeme := nth i demo_ys (Lexeme [] (Morphclass 0 0 0) 0 0 [] 0).
Lemma demo_entry i l : (i < 7)%nat -> read_line 8 demo_tables (spaced (at_ i) (snd (nth i demo_arts (at_ 0, []))) ++ [10]) = Ok ([l], []) -> senses 8 demo_tables (at_ i) [l].
Proof.
  intros Hi E. pose proof demo_written as W. rewrite Forall_forall in W. specialize (W (nth i demo_arts (at_ 0, []))). assert (Hin : In (nth i demo_arts (at_ 0, [])) demo_arts) by (apply nth_In; exact Hi).
  specialize (W Hin). assert (Ex : fst (nth i demo_arts (at_ 0, [])) = at_ i) by (do 7 (destruct i as [|i]; [reflexivity|]); lia). rewrite Ex in W.
  apply (read_senses 8 demo_tables _ _ _ _ _ demo_tables_ok W) in E. apply E.
Qed.

Lemma verb_links o : linked demo_ftable 20 o -> o = 20 \/ o = 32.
Proof.
  intros H. apply (linked_inv _ _ _ verbs) in H; [|apply verbs_at]. destruct H as [<-|(it & Hin & Hne & H)]; [auto|]. right.
  assert (E : fi_next it = 32) by (repeat destruct Hin as [<-|Hin]; try contradiction; try reflexivity; exfalso; apply Hne; reflexivity). rewrite E in H.
  apply (linked_inv _ _ _ particle) in H; [|apply particle_at]. destruct H as [<-|(it' & Hin' & Hne' & _)]; [reflexivity|]. exfalso. apply Hne'. repeat destruct Hin' as [<-|Hin']; try contradiction; reflexivity.
Qed.
Lemma noun_links o : linked demo_ftable 1 o -> o = 1.
Proof.
  intros H. apply (linked_inv _ _ _ nouns) in H; [|apply nouns_at]. destruct H as [<-|(it & Hin & Hne & H)]; [auto|]. exfalso. apply Hne. repeat destruct Hin as [<-|Hin]; try contradiction; reflexivity.
Qed.
Definition wash : bytes := [236; 251; 242; 252].
Lemma wash_searchable : searchable demo_ftable demo_mtable [] 1 20 wash [].
Proof.
  split.
  - reflexivity.
  - intros o items H T. apply verb_links in H as [-> | ->].
    + rewrite (table_unique _ _ _ _ T verbs_at). split; [cbn; lia|]. intros it Hin. repeat destruct Hin as [<-|Hin]; try contradiction; cbn; (split; [lia|]); intros; discriminate.
    + rewrite (table_unique _ _ _ _ T particle_at). split; [cbn; lia|]. intros it Hin. repeat destruct Hin as [<-|Hin]; try contradiction; cbn; (split; [lia|]); intros; discriminate.
  - intros o items it l d H T Hin Hno H7. exfalso. apply verb_links in H as [-> | ->]; [rewrite (table_unique _ _ _ _ T verbs_at) in Hin|rewrite (table_unique _ _ _ _ T particle_at) in Hin];
      repeat destruct Hin as [<-|Hin]; try contradiction; discriminate H7 || discriminate Hno.
  - intros o cond [].
  - intros H. repeat destruct H as [H|H]; discriminate || contradiction.
Qed.
Lemma wash_normal : normal_of_word demo_ftable 1 20 wash [describe (FlexItem 0x7f 1 [242; 252] 32)].
Proof.
  unfold normal_of_word. change (is_verb 1) with true. cbn beta iota. apply (ne_table demo_ftable true 0x8001 20 verbs [[describe (FlexItem 0x7f 1 [242; 252] 32)]; []; []]); [apply verbs_at|].
  constructor; [apply no_here; reflexivity|]. constructor; [apply no_other; intros K; discriminate K|]. constructor; [apply no_other; intros K; discriminate K|]. constructor.
Qed.
Lemma wash_reflexive : reflexive_last demo_ftable 20.
Proof.
  intros o items it H T Hin Hr. apply verb_links in H as [-> | ->]; [rewrite (table_unique _ _ _ _ T verbs_at) in Hin|rewrite (table_unique _ _ _ _ T particle_at) in Hin];
    repeat destruct Hin as [<-|Hin]; try contradiction; try discriminate Hr. split; [reflexivity|]. split; [cbn; lia|]. intros; discriminate.
Qed.
Definition dream : bytes := [241; 238; 237].
Lemma dream_searchable : searchable demo_ftable demo_mtable demo_alts 7 1 dream [].
Proof.
  split.
  - intros K. discriminate K.
  - intros o items H T. apply noun_links in H as ->. rewrite (table_unique _ _ _ _ T nouns_at). split; [cbn; lia|]. intros it Hin. repeat destruct Hin as [<-|Hin]; try contradiction; cbn; (split; [lia|]); intros; discriminate.
  - intros o items it l d H T Hin Hno H7. exfalso. apply noun_links in H as ->. rewrite (table_unique _ _ _ _ T nouns_at) in Hin. repeat destruct Hin as [<-|Hin]; try contradiction; discriminate H7.
  - intros o cond [[= <- <-]|[]]. split; [discriminate|]. exists sleep. apply sleep_at.
  - intros H. repeat destruct H as [H|H]; discriminate || contradiction.
Qed.
Lemma dream_normal : normal_of_word demo_ftable 7 1 dream [describe (FlexItem 3 0 [] 0)].
Proof.
  unfold normal_of_word. change (is_verb 7) with false. cbn beta iota. change (normal_gramm 7 dream) with 0.
  apply (ne_table demo_ftable false 0 1 nouns [[describe (FlexItem 3 0 [] 0)]; []; []; []; []]); [apply nouns_at|].
  constructor; [apply no_here; reflexivity|]. repeat (constructor; [apply no_other; intros K; discriminate K|]). constructor.
Qed.

(** мыться: ть goes on with ся *)
Definition wash_items : list flexitem := [FlexItem 0xbf 1 [242; 252] 12; FlexItem 0xbf 0x205 [235] 12].
Definition self_items : list flexitem := [FlexItem 0x3f 0x8001 [241; 255] 0].
Definition self_ftable : bytes := Eval vm_compute in let t0 := [0; 0] ++ tb wash_items in t0 ++ zeros (24 - length t0) ++ tb self_items.
Lemma wash_items_at : table_at self_ftable 1 wash_items.
Proof. apply table_here; [apply itemb_ok; reflexivity|cbn; lia|reflexivity|reflexivity]. Qed.
Lemma self_items_at : table_at self_ftable 12 self_items.
Proof. apply table_here; [apply itemb_ok; reflexivity|cbn; lia|reflexivity|reflexivity]. Qed.
Definition wash_self : bytes := [236; 251; 242; 252; 241; 255].
Lemma self_links o : linked self_ftable 1 o -> o = 1 \/ o = 12.
Proof.
  intros H. apply (linked_inv _ _ _ wash_items) in H; [|apply wash_items_at]. destruct H as [<-|(it & Hin & Hne & H)]; [auto|]. right.
  assert (E : fi_next it = 12) by (repeat destruct Hin as [<-|Hin]; try contradiction; reflexivity). rewrite E in H.
  apply (linked_inv _ _ _ self_items) in H; [|apply self_items_at]. destruct H as [<-|(it' & Hin' & Hne' & _)]; [reflexivity|]. exfalso. apply Hne'. repeat destruct Hin' as [<-|Hin']; try contradiction; reflexivity.
Qed.
Lemma self_endings : normal_endings self_ftable true 0x8001 12 [describe (FlexItem 0x3f 0x8001 [241; 255] 0); describe (FlexItem 0x3f 0x8001 [241; 255] 0)].
Proof. apply (ne_table self_ftable true 0x8001 12 self_items [[describe (FlexItem 0x3f 0x8001 [241; 255] 0)]]); [apply self_items_at|]. constructor; [apply no_here; reflexivity|constructor]. Qed.
Lemma self_endings_only l d : normal_endings self_ftable true 0x8001 12 l -> In d l -> fst (fst d) = [241; 255].
Proof.
  intros H Hd. inversion H as [off items ls T F]; subst. rewrite (table_unique _ _ _ _ T self_items_at) in *. clear T items. inversion F as [|it l0 ? ls' F1 F2]; subst. inversion F2; subst.
  apply in_app_or in Hd as [Hd|Hd].
  - cbn [concat] in Hd. rewrite app_nil_r in Hd. inversion F1 as [it0 K|it0 K1 K2|it0 l1 K1 K2]; subst; [destruct Hd|destruct Hd as [<-|[]]; reflexivity|discriminate K2].
  - cbn in Hd. destruct Hd as [<-|[]]. reflexivity.
Qed.
Lemma self_searchable : searchable self_ftable [] [] 1 1 wash_self [].
Proof.
  split.
  - reflexivity.
  - intros o items H T. apply self_links in H as [-> | ->].
    + rewrite (table_unique _ _ _ _ T wash_items_at). split; [cbn; lia|]. intros it Hin. repeat destruct Hin as [<-|Hin]; try contradiction; cbn; (split; [lia|]); intros; discriminate.
    + rewrite (table_unique _ _ _ _ T self_items_at). split; [cbn; lia|]. intros it Hin. repeat destruct Hin as [<-|Hin]; try contradiction; cbn; (split; [lia|]); intros; discriminate.
  - intros o items it l d H T Hin Hno H7 Hl Hd _. apply self_links in H as [-> | ->]; [rewrite (table_unique _ _ _ _ T wash_items_at) in Hin|rewrite (table_unique _ _ _ _ T self_items_at) in Hin; repeat destruct Hin as [<-|Hin]; try contradiction; discriminate H7].
    change (is_verb 1) with true in *. cbn beta iota in *. destruct Hin as [<-|[<-|[]]]; [|discriminate Hno]. rewrite (self_endings_only l d Hl Hd). exists [236; 251]. reflexivity.
  - intros o cond [].
  - intros H. repeat destruct H as [H|H]; discriminate || contradiction.
Qed.
Lemma self_normal : exists l, normal_of_word self_ftable 1 1 wash_self l /\ In ([242; 252; 241; 255], 0x8001, 0x3f) l.
Proof.
  eexists. split.
  - unfold normal_of_word. change (is_verb 1) with true. cbn beta iota. eapply (ne_table self_ftable true 0x8001 1 wash_items [_; _]); [apply wash_items_at|].
    constructor; [apply no_further; [reflexivity|reflexivity|apply self_endings]|]. constructor; [apply no_other; intros K; discriminate K|constructor].
  - left. reflexivity.
Qed.
Lemma self_reflexive : reflexive_last self_ftable 1.
Proof.
  intros o items it H T Hin Hr. apply self_links in H as [-> | ->]; [rewrite (table_unique _ _ _ _ T wash_items_at) in Hin|rewrite (table_unique _ _ _ _ T self_items_at) in Hin];
    repeat destruct Hin as [<-|Hin]; try contradiction; try discriminate Hr. split; [reflexivity|]. split; [cbn; lia|]. intros; discriminate.
Qed.
Definition wash_self_x : lexeme := Lexeme [236; 251] (Morphclass 1 1 0) 235 242 [] 7.
Lemma self_resolve : resolve 8 self_ftable [] [] wash_self [] [] 1 1 0 None false 0 7 = Ok (Some wash_self_x).
Proof. vm_compute. reflexivity. Qed.

Lemma demo_entry_one i l : (i < 7)%nat -> read_line 8 demo_tables (spaced (at_ i) (snd (nth i demo_arts (at_ 0, []))) ++ [10]) = Ok ([l], []) -> has_text (text "//") (r_index (at_ i)) = false ->
  entry 8 demo_tables (at_ i) (r_index (at_ i)) (Ok (Some l)).
Proof.
  intros Hi E Hn. pose proof (demo_entry i l Hi E) as H. inversion H as [l0 He|He Hl|a b la lb He Ei]; subst; [exact He|]. exfalso.
  unfold has_text in Hn. rewrite Ei in Hn. destruct (strstr (text "//") (a ++ text "//" ++ b)) eqn:Es; [discriminate|]. exact (strstr_none_lacks _ _ Es a b eq_refl).
Qed.

(** ** Refutations *)
Definition long_index : bytes := Eval vm_compute in cyr "дом # м 1aaaaaaaaaaaaaaaaaaaaaaaaaaaaaaaaaaaaaa LID:1".
Lemma long_field : read_line 8 demo_tables long_index = Ub.
Proof. vm_compute. reflexivity. Qed.
Definition odd_post : bytes := Eval vm_compute in cyr "кабан # союз 0 post:-то LID:5".
Lemma odd_postfix : read_line 8 demo_tables odd_post = Ok ([Lexeme (cyr "ка") (Morphclass 52 0 0) 0 0 (cyr "-то") 5], []).
Proof. vm_compute. reflexivity. Qed.
Definition long_post : bytes := Eval vm_compute in cyr "он # союз 0 post:-то LID:5".
Lemma long_postfix : read_line 8 demo_tables long_post = Ub.
Proof. vm_compute. reflexivity. Qed.
Lemma two_hyphens : get_remark (cyr "post:-де-факто LID:5") = cyr "де".
Proof. vm_compute. reflexivity. Qed.
Definition marked : bytes := Eval vm_compute in cyr "ко@т # союз 0 LID:5".
Lemma marked_constant : read_line 8 demo_tables marked = Ok ([Lexeme (cyr "ко@т") (Morphclass 52 0 0) 0 0 [] 5], []).
Proof. vm_compute. reflexivity. Qed.
(** a comment of 1038 characters whose last sixteen are an article *)
Definition long_comment : bytes := text "//" ++ repeat 32 1020 ++ cyr "дом # м 1a LID:1".
Lemma comment_read : ~ In 10 long_comment /\ starts (text "//") long_comment = true /\ map (read_line 8 demo_tables) (file_lines (fun c => c) (long_comment ++ [10])) = [Ok ([], [text "//"]); Ok ([ly 0], [])].
Proof.
  split; [|split; [reflexivity|vm_compute; reflexivity]]. intros H. assert (K : existsb (N.eqb 10) long_comment = false) by (vm_compute; reflexivity). apply existsb_false_in in K. exact (K H).
Qed.
