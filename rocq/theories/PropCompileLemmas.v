(** * Lemmas for Prop_Compile. *)
From Verif Require Import Base Serial SerialProofs WordTree TreeSpec WordTreeProofs Stems StemSpec CharTables CapScheme CapSpec GramMap RusRuntime LevelSpec RusSpec RusProofs
  Compile CompileSpec CompileProofs CompileProofs2 CompileProofs5 Resolve ResolveSpec ResolveProofs ResolveProofs2 CompileDemo.
Local Open Scope N_scope.

Lemma add_all_inv : forall ms t t' offs, cls_inv t -> add_all t ms = Some (t', offs) ->
  cls_inv t' /\ cls_grows t t' /\ Forall2 (fun m off => In (m, off) (clsset t')) ms offs.
Proof.
  induction ms as [|m ms IH]; intros t t' offs Hi H; cbn [add_all] in H.
  - injection H as <- <-. split; [exact Hi|]. split; [apply cls_grows_refl|constructor].
  - destruct (add_class t m) as [[t1 off]|] eqn:E; [|discriminate]. destruct (add_all t1 ms) as [[t2 offs2]|] eqn:E2; [|discriminate]. injection H as <- <-.
    apply add_class_inv in E as (H1 & H2 & H3); [|exact Hi]. destruct (IH _ _ _ H1 E2) as (K1 & K2 & K3). split; [exact K1|]. split; [eapply cls_grows_trans; eassumption|].
    constructor; [eapply cls_grows_in; eassumption|exact K3].
Qed.
Lemma add_all_set : forall ms t t' offs, add_all t ms = Some (t', offs) -> forall r, In r (clsset t') -> In r (clsset t) \/ In (fst r) ms.
Proof.
  induction ms as [|m ms IH]; intros t t' offs H r Hr; cbn [add_all] in H; [injection H as <- <-; left; exact Hr|].
  destruct (add_class t m) as [[t1 off]|] eqn:E; [|discriminate]. destruct (add_all t1 ms) as [[t2 offs2]|] eqn:E2; [|discriminate]. injection H as <- <-.
  destruct (IH _ _ _ E2 r Hr) as [K|K]; [|right; right; exact K]. unfold add_class in E. destruct (find _ _).
  - injection E as <- <-. left. exact K.
  - destruct (0xffff <? _); [discriminate|]. injection E as <- <-. cbn [clsset] in K. apply in_app_iff in K as [K|[<-|[]]]; [left; exact K|right; left; reflexivity].
Qed.

Lemma describable_fits m : describable m -> class_fits m. Proof. exact (fun H => H). Qed.
Lemma class_reads m rest : describable m -> reads_as (morphclass_ser m ++ rest) m.
Proof.
  intros H. pose proof (load_stored m rest H) as E. exists (stored m). split; [exact E|]. split; [|split; reflexivity].
  apply (stored_word_facts m). apply H.
Qed.

Lemma class_history ms t offs : add_all no_classes ms = Some (t, offs) ->
  length offs = length ms /\
  (forall i m off, nth_error ms i = Some m -> nth_error offs i = Some off -> describable m -> exists p, advance off (classtable_ser t) = Ok p /\ reads_as p m) /\
  (forall i j mi mj oi oj, nth_error ms i = Some mi -> nth_error ms j = Some mj -> nth_error offs i = Some oi -> nth_error offs j = Some oj -> (oi = oj <-> mi = mj)) /\
  (exists each, NoDup each /\ (forall m, In m each <-> In m ms) /\ classtable_ser t = flat_map morphclass_ser each).
Proof.
  intros H. pose proof (add_all_set _ _ _ _ H) as Hset. destruct (add_all_inv _ _ _ _ cls_empty H) as (Hi & _ & H2).
  split; [symmetry; eapply Forall2_len, H2|].
  assert (Hn : forall i m off, nth_error ms i = Some m -> nth_error offs i = Some off -> In (m, off) (clsset t)).
  { clear H Hset Hi. induction H2 as [|m off ms offs H H2 IH]; intros i m' off' E1 E2; [destruct i; discriminate|]. destruct i as [|i]; [injection E1 as <-; injection E2 as <-; exact H|eapply IH; eassumption]. }
  split; [|split].
  - intros i m off E1 E2 Hd. destruct (cls_at _ _ _ Hi (Hn _ _ _ E1 E2)) as (pre & rest & E & El). exists (morphclass_ser m ++ rest). split; [|apply class_reads, Hd].
    rewrite E. subst off. apply advance_app. reflexivity.
  - intros i j mi mj oi oj A B C D. pose proof (Hn _ _ _ A C) as K1. pose proof (Hn _ _ _ B D) as K2. split; intros ->; [eapply cls_offset_inj|eapply cls_class_inj]; eassumption.
  - exists (map fst (clsset t)). split; [apply (ci_once _ Hi)|]. split.
    + intros m. split.
      * intros Hm. apply in_map_iff in Hm as (r & <- & Hr). destruct (Hset r Hr) as [[]|K]; exact K.
      * intros Hm. destruct (Forall2_in_l _ _ _ _ H2 Hm) as (off & _ & K). apply in_map_iff. exists (m, off). auto.
    + unfold classtable_ser. clear. induction (clsset t) as [|r l IH]; [reflexivity|]. cbn [flat_map map]. rewrite IH. reflexivity.
Qed.

Lemma add_all_app : forall ms ms' t, add_all t (ms ++ ms') =
  match add_all t ms with None => None | Some (t1, offs) => match add_all t1 ms' with None => None | Some (t2, offs') => Some (t2, offs ++ offs') end end.
Proof.
  induction ms as [|m ms IH]; intros ms' t; cbn [add_all app]; [destruct (add_all t ms') as [[]|]; reflexivity|].
  destruct (add_class t m) as [[t1 off]|]; [|reflexivity]. rewrite IH. destruct (add_all t1 ms) as [[t2 offs]|]; [|reflexivity]. destruct (add_all t2 ms') as [[]|]; reflexivity.
Qed.
Lemma class_later ms more t' offs' : add_all no_classes (ms ++ more) = Some (t', offs') ->
  exists t offs, add_all no_classes ms = Some (t, offs) /\ firstn (length ms) offs' = offs /\ exists rest, classtable_ser t' = classtable_ser t ++ rest.
Proof.
  intros H. rewrite add_all_app in H. destruct (add_all no_classes ms) as [[t offs]|] eqn:E; [|discriminate]. destruct (add_all t more) as [[t2 offs2]|] eqn:E2; [|discriminate].
  injection H as <- <-. exists t, offs. split; [reflexivity|]. destruct (add_all_inv _ _ _ _ cls_empty E) as (Hi & _ & H2). split.
  - rewrite (Forall2_len _ _ _ H2), firstn_app, Nat.sub_diag, firstn_all, app_nil_r. reflexivity.
  - destruct (add_all_inv _ _ _ _ Hi E2) as (_ & (l & El) & _). exists (sers l). unfold classtable_ser, sers. rewrite El, flat_map_app. reflexivity.
Qed.

(** ** An offset beyond what stem records hold: 5463 nouns with different tables *)
Definition nth_class (n : nat) : morphclass := Morphclass 7 (N.of_nat n) 1.
Definition many_classes : list morphclass := map nth_class (seq 1 (N.to_nat 5463)).
Lemma many_describable_to k : (N.of_nat k < 2 ^ 16 - 1) -> Forall describable (map nth_class (seq 1 k)).
Proof.
  intros Hk. apply Forall_forall. intros m Hm. apply in_map_iff in Hm as (n & <- & Hn). apply in_seq in Hn. unfold describable, nth_class. cbn [m_tfoffs m_mtoffs m_wdinfo].
  split; [reflexivity|]. split; [lia|]. split; [reflexivity|]. intros H. discriminate.
Qed.
Lemma many_describable : Forall describable many_classes.
Proof. apply many_describable_to. rewrite Nnat.N2Nat.id. reflexivity. Qed.
Definition beyond (ms : list morphclass) (i : nat) (off0 off1 w : N) (m0 : morphclass) : bool :=
  match add_all no_classes ms with
  | Some (t, offs) =>
      match nth_error offs i with
      | Some off => match nth_error ms i with
        | Some m => match advance off1 (classtable_ser t) with
          | Ok p => match load p with Ok st => (off =? off0) && class_eqb m m0 && (wdinfo st =? w) | Ub => false end
          | Ub => false end
        | None => false end
      | None => false
      end
  | None => false
  end.
Lemma beyond_true : beyond many_classes (N.to_nat 5462) 0x8004 4 1 (Morphclass 7 5463 1) = true.
Proof. vm_cast_no_check (eq_refl true). Qed.
Lemma beyond_wrong ms i off0 off1 w m0 : off1 = off0 mod 2 ^ 15 -> w mod 2 ^ 13 <> m_wdinfo m0 -> Forall describable ms -> beyond ms i off0 off1 w m0 = true ->
  exists ms t offs i m off p, Forall describable ms /\ add_all no_classes ms = Some (t, offs) /\ nth_error ms i = Some m /\ nth_error offs i = Some off /\
  advance (off mod 2 ^ 15) (classtable_ser t) = Ok p /\ ~ reads_as p m.
Proof.
  intros Ho Hw Hd H. unfold beyond in H. destruct (add_all no_classes ms) as [[t offs]|] eqn:E; [|discriminate].
  destruct (nth_error offs i) as [off|] eqn:E1; [|discriminate]. destruct (nth_error ms i) as [m|] eqn:E2; [|discriminate].
  destruct (advance off1 (classtable_ser t)) as [p|] eqn:E3; [|discriminate]. destruct (load p) as [st|] eqn:E4; [|discriminate].
  apply andb_true_iff in H as [H H3]. apply andb_true_iff in H as [H1 H2]. apply N.eqb_eq in H1. apply N.eqb_eq in H3. apply class_eqb_eq in H2. subst off m.
  exists ms, t, offs, i, m0, off0, p. split; [exact Hd|]. split; [exact E|]. split; [exact E2|]. split; [exact E1|]. split; [rewrite <- Ho; exact E3|].
  intros (st' & K & K1 & _). rewrite K in E4. injection E4 as ->. rewrite H3 in K1. contradiction.
Qed.
Lemma too_many : exists ms t offs i m off p, Forall describable ms /\ add_all no_classes ms = Some (t, offs) /\ nth_error ms i = Some m /\ nth_error offs i = Some off /\
  advance (off mod 2 ^ 15) (classtable_ser t) = Ok p /\ ~ reads_as p m.
Proof. apply (beyond_wrong many_classes (N.to_nat 5462) 0x8004 4 1 (Morphclass 7 5463 1)); [reflexivity|discriminate|apply many_describable|apply beyond_true]. Qed.

(** ** Prepositions *)
(** под without its cases, or coloquial *)
Lemma no_cases : exists x, resolve 8 demo_ftable demo_mtable [] [239; 238; 228] [] [] 51 0 0 None false 0 300 = Ok (Some x) /\
  load (morphclass_ser (l_class x)) = Ub /\ (forall a b rest, a < 256 -> b < 256 -> a + b <> 0 -> ~ reads_as (morphclass_ser (l_class x) ++ a :: b :: rest) (l_class x)).
Proof.
  eexists. split; [reflexivity|]. split; [reflexivity|]. intros a b rest Ha Hb Hne (st & E & _ & K & _). cbn [l_class m_tfoffs] in K.
  assert (E' : load (morphclass_ser (Morphclass 51 0 0) ++ a :: b :: rest) = Ok (Steminfo 51 (N.lor a (N.shiftl b 8 mod 2 ^ 16)) 0)) by reflexivity.
  change (load (morphclass_ser (Morphclass 51 0 0) ++ a :: b :: rest) = Ok st) in E. rewrite E' in E. injection E as <-. cbn [tfoffs] in K.
  change (N.lor a (N.shiftl b 8 mod 2 ^ 16) = 0) in K. apply N.lor_eq_0_iff in K as [-> K]. rewrite N.shiftl_mul_pow2, N.mod_small in K by (change (2 ^ 16) with (256 * 2 ^ 8); lia). lia.
Qed.
(** table 16 of these sources is a table of nouns *)
Definition prep_ftable : bytes := Eval vm_compute in zeros 32 ++ tb nouns.
Lemma marked_cases : exists x b m, resolve 8 prep_ftable demo_mtable [] [239; 238; 228] [] [] (51 + 512) 0 16 None false 0 300 = Ok (Some x) /\ m_tfoffs (l_class x) = 16 /\
  map_tables 8 prep_ftable new_builder (l_class x) = Ok (b, m) /\ m_tfoffs m = 1.
Proof. eexists. eexists. eexists. split; [reflexivity|]. split; [reflexivity|]. split; [vm_compute; reflexivity|reflexivity]. Qed.

(** ** татарин, татары: the empty alternation *)
Definition tatar : list (N * bytes) := [(2, []); (1, [232; 237])].
Definition tatar_mtable : bytes := Eval vm_compute in 0 :: mix_ser tatar.
Definition tatar_x : lexeme := Eval vm_compute in
  match resolve 8 demo_ftable tatar_mtable demo_alts [242; 224; 242; 224; 240; 232; 237] [] [] 8 1 0 None false 0 1 with Ok (Some x) => x | _ => Lexeme [] (Morphclass 0 0 0) 0 0 [] 0 end.
Lemma tatar_at : mix_at tatar_mtable 1 tatar.
Proof. split; [split; [reflexivity|split; [repeat constructor; cbn; lia|repeat constructor; left; constructor; reflexivity]]|]. exists [0], (@nil N). split; reflexivity. Qed.
Lemma tatar_sources : sources_ok demo_ftable tatar_mtable [tatar_x].
Proof.
  split; [apply demo_bytes|reflexivity|]. exists cyrillic. split; [apply cyrillic_ok|]. constructor; [|constructor]. apply lexemeb_ok; [apply demo_bytes|vm_compute; reflexivity|].
  right. split; [reflexivity|]. exists tatar. apply tatar_at.
Qed.
Definition tatars : bytes := [242; 224; 242; 224; 240; 251].
Lemma tatars_form : form_of demo_ftable tatar_mtable tatar_x tatars [251] 0x800 3.
Proof.
  split; [|reflexivity]. change [251] with ([] ++ [251]). eapply changing_mixed with (mx := tatar) (mask := 2); [reflexivity|discriminate|apply tatar_at|left; reflexivity|reflexivity| |intros H; discriminate].
  change (ending demo_ftable 1 (fi_text (FlexItem 3 0x800 [251] 0)) (fi_info (FlexItem 3 0x800 [251] 0)) (fi_flags (FlexItem 3 0x800 [251] 0))).
  eapply ending_here; [apply nouns_at|right; right; right; left; reflexivity|reflexivity].
Qed.
Lemma empty_alternation : exists A, 
  resolve 8 demo_ftable tatar_mtable demo_alts [242; 224; 242; 224; 240; 232; 237] [] [] 8 1 0 None false 0 1 = Ok (Some tatar_x) /\
  sources_ok demo_ftable tatar_mtable [tatar_x] /\ compile 8 demo_ftable tatar_mtable [tatar_x] = Ok (Some A) /\ arrays_fit A /\
  form_of demo_ftable tatar_mtable tatar_x tatars [251] 0x800 3 /\ l_max tatar_x < 251 /\
  check_word A (repeat 7 48) (Some tatars) 6 0 = Ok 0%Z.
Proof.
  eexists. split; [reflexivity|]. split; [apply tatar_sources|]. split; [vm_compute; reflexivity|]. split; [split; [|split]; vm_compute; congruence|]. split; [apply tatars_form|]. split; [reflexivity|].
  vm_compute. reflexivity.
Qed.

(** ** An empty optional element: the letters of its continuation are not counted *)
Definition optional : list flexitem := [ FlexItem 0x43 0 [] 32 ].
Definition option_ftable : bytes := Eval vm_compute in let t := [0; 0] ++ tb optional in t ++ zeros (64 - length t) ++ tb particle.
Lemma option_at : table_at option_ftable 1 optional /\ table_at option_ftable 32 particle.
Proof. split; apply table_here; try (apply itemb_ok; reflexivity); try (cbn; lia); reflexivity. Qed.
Lemma empty_option : flex_minmax 8 option_ftable 1 = Ok (0, 0) /\ ending option_ftable 1 [241; 255] 0x8000 3.
Proof.
  split; [reflexivity|]. change (ending option_ftable 1 (fi_text (FlexItem 0x43 0 [] 32) ++ fi_text (FlexItem 0x3f 0x8000 [241; 255] 0))
    (N.lor (fi_info (FlexItem 0x43 0 [] 32)) (fi_info (FlexItem 0x3f 0x8000 [241; 255] 0))) (N.land (fi_flags (FlexItem 0x43 0 [] 32)) (fi_flags (FlexItem 0x3f 0x8000 [241; 255] 0)))).
  eapply ending_further; [apply option_at|left; reflexivity|discriminate|]. eapply ending_here; [apply option_at|left; reflexivity|reflexivity].
Qed.

(** ** Headwords that are not forms of their lexemes *)
Lemma ending_list depth tables off t s g f : is_bytes tables -> create_tree depth tables off 0 255 [] wempty = Ok t -> ending tables off s g f ->
  exists l, lookup s t = Some l /\ In (g, f) l.
Proof. intros Hb Ht He. apply (plain_tree depth tables off t Hb Ht) in He. exact He. Qed.

Definition spoiling : list flexitem := [ FlexItem 0x83 0 [234] 20; FlexItem 3 0 [] 0 ].
Definition spoil_ftable : bytes := Eval vm_compute in let t := [0; 0] ++ tb spoiling in t ++ zeros (40 - length t) ++ tb [ FlexItem 3 0 [224] 0 ].
Lemma spoil_tables : table_at spoil_ftable 1 spoiling /\ table_at spoil_ftable 20 [ FlexItem 3 0 [224] 0 ].
Proof. split; apply table_here; try (apply itemb_ok; reflexivity); try (cbn; lia); reflexivity. Qed.
(** вода *)
Lemma spoiled : exists x, resolve 8 spoil_ftable [0] [] [226; 238; 228; 224] [] [] 13 1 0 None false 0 1 = Ok (Some x) /\
  forall part g f, ~ form_of spoil_ftable [0] x [226; 238; 228; 224] part g f.
Proof.
  exists (Lexeme [226; 238; 228] (Morphclass 13 1 0) 0 234 [] 1). split; [vm_compute; reflexivity|]. intros part g f (Hc & E). cbn [l_stem l_post l_class] in *. rewrite app_nil_r in E.
  injection E as E. subst part.
  assert (Hb : is_bytes spoil_ftable) by repeat constructor. inversion Hc as [Hi|s g' f' Hi Hm He Hn|mx mask alt s g' f' Hi Hm]; subst; try discriminate; [|exfalso; apply Hm; reflexivity].
  cbn [m_tfoffs] in He. destruct (ending_list 8 spoil_ftable 1 _ _ _ _ Hb eq_refl He) as (l & Hl & _). vm_compute in Hl. discriminate.
Qed.

(** соны, plural only *)
Lemma plural_headword : exists x, resolve 8 demo_ftable demo_mtable demo_alts [241; 238; 237; 251] [] [] 71 1 0 None false 0 1 = Ok (Some x) /\
  forall part g f, ~ form_of demo_ftable demo_mtable x [241; 238; 237; 251] part g f.
Proof.
  exists (Lexeme [241] (Morphclass 71 1 1) 237 238 [] 1). split; [vm_compute; reflexivity|]. intros part g f (Hc & E). cbn [l_stem l_post l_class] in *. rewrite app_nil_r in E.
  injection E as E. subst part.
  inversion Hc as [Hi|s g' f' Hi Hm He Hn|mx mask alt s g' f' Hi Hm Hmx Hin Hbit He Hn E]; subst; try discriminate. cbn [m_mtoffs m_tfoffs m_wdinfo] in *.
  rewrite (mix_unique _ _ _ _ Hmx sleep_at) in Hin. destruct Hin as [[= <- <-]|[[= <- <-]|[]]]; [discriminate|]. injection E as E. subst s.
  destruct (ending_list 8 demo_ftable 1 _ _ _ _ demo_bytes eq_refl He) as (l & Hl & Hin). vm_compute in Hl. injection Hl as <-. destruct Hin as [[= <- <-]|[]]. vm_compute in Hbit. discriminate.
Qed.

(** ** A compiled word that is not found: как-то *)
Lemma compiled_missed : exists x, In x demo_xs /\ form_of demo_ftable demo_mtable x [234; 224; 234; 45; 242; 238] [] 0 0 /\
  check_word demo_compiled (repeat 7 48) (Some [234; 224; 234; 45; 242; 238]) 6 0 = Ok 0%Z.
Proof.
  exists (nth 5 demo_xs tatar_x). split; [cbn; auto 12|]. split; [|vm_compute; reflexivity]. split; [|reflexivity]. exact (changing_never demo_ftable demo_mtable (Morphclass 52 0 0) eq_refl).
Qed.
