(** * CompileDemo: small sources for the compiler, and a checker that shows they meet the conditions of CompileSpec. *)
From Verif Require Import Base Serial SerialProofs WordTree TreeSpec WordTreeProofs Stems StemSpec CharTables CapScheme CapSpec GramMap RusRuntime LevelSpec RusSpec RusProofs
  Compile CompileSpec CompileProofs CompileProofs2 CompileProofs5 Resolve ResolveSpec ResolveProofs.
Local Open Scope N_scope.

Fixpoint allb {X} (f : bytes -> X -> bool) (n : nat) (pre : bytes) (t : wtree X) : bool :=
  match n with
  | O => false
  | S n' => (match p_data t with Some x => f pre x | None => true end) && forallb (fun ct => allb f n' (pre ++ [fst ct]) (snd ct)) (nested t)
  end.
Lemma allb_ok {X} (f : bytes -> X -> bool) n : forall pre t, allb f n pre t = true -> forall key x, lookup key t = Some x -> f (pre ++ key) x = true.
Proof.
  induction n as [|n IH]; intros pre t H key x Hk; [discriminate|]. cbn [allb] in H. apply andb_true_iff in H as [H1 H2].
  destruct key as [|c key]; cbn [lookup] in Hk; [rewrite Hk in H1; rewrite app_nil_r; exact H1|].
  destruct (assoc c (nested t)) as [t'|] eqn:E; [|discriminate].
  apply assoc_in in E. rewrite forallb_forall in H2. specialize (IH _ _ (H2 _ E) key x Hk). cbn [fst] in IH. rewrite <- app_assoc in IH. exact IH.
Qed.

Definition inb (alphabet s : bytes) : bool := forallb (fun c => existsb (N.eqb c) alphabet) s.
Lemma inb_ok alphabet s : inb alphabet s = true -> incl s alphabet.
Proof. intros H c Hc. unfold inb in H. rewrite forallb_forall in H. apply H, existsb_exists in Hc as (y & Hy & E). apply N.eqb_eq in E. subst y. exact Hy. Qed.

(** The conditions on a lexeme, but for its alternations. *)
Definition lexemeb (ftable alphabet : bytes) (x : lexeme) : bool :=
  inb alphabet (l_stem x) && (l_min x <? 256) && (l_max x <? 256) && (l_id x <? 2 ^ 32) &&
  forallb (fun c => c <? 256) (l_post x) && (N.of_nat (length (l_post x)) <? 128) &&
  (m_wdinfo (l_class x) <? 2 ^ 13) && (m_tfoffs (l_class x) <? 2 ^ 16) &&
  (if m_wdinfo (l_class x) mod 64 =? 51 then (m_wdinfo (l_class x) =? 51) && negb (m_tfoffs (l_class x) =? 0) else true) &&
  (if inflected (l_class x) then
     match create_tree 8 ftable (m_tfoffs (l_class x)) 0 255 [] wempty with
     | Ok t => allb (fun s l => inb alphabet s && (length l <=? 64)%nat) 16 [] t
     | Ub => false
     end
   else true).
Lemma lexemeb_ok ftable mtable alphabet x : is_bytes ftable -> lexemeb ftable alphabet x = true ->
  m_mtoffs (l_class x) = 0 \/ m_mtoffs (l_class x) < 2 ^ 16 /\ (exists mx, mix_at mtable (m_mtoffs (l_class x)) mx) -> lexeme_ok ftable mtable alphabet x.
Proof.
  intros Hb H Hm. unfold lexemeb in H. repeat rewrite andb_true_iff in H. destruct H as (((((((((H1 & H2) & H3) & H4) & H5) & H6) & H7) & H8) & H9) & H10).
  assert (Ht : inflected (l_class x) = true -> exists t, create_tree 8 ftable (m_tfoffs (l_class x)) 0 255 [] wempty = Ok t /\
     forall s g f, ending ftable (m_tfoffs (l_class x)) s g f -> exists l, lookup s t = Some l /\ In (g, f) l /\ incl s alphabet /\ (length l <= 64)%nat).
  { intros Hi. rewrite Hi in H10. destruct (create_tree 8 ftable (m_tfoffs (l_class x)) 0 255 [] wempty) as [t|] eqn:Et; [|discriminate]. exists t. split; [reflexivity|].
    intros s g f He. apply (plain_tree 8 ftable _ t Hb Et) in He as (l & Hl & Hin). pose proof (allb_ok _ _ _ _ H10 s l Hl) as K. cbn beta in K. apply andb_true_iff in K as [K1 K2].
    exists l. split; [exact Hl|]. split; [exact Hin|]. split; [apply inb_ok, K1|apply Nat.leb_le, K2]. }
  constructor.
  - apply inb_ok, H1.
  - split; apply N.ltb_lt; assumption.
  - apply N.ltb_lt, H4.
  - split; [|apply N.ltb_lt, H6]. apply Forall_forall. intros c Hc. rewrite forallb_forall in H5. apply N.ltb_lt, H5, Hc.
  - split; apply N.ltb_lt; assumption.
  - intros E. rewrite E in H9. change (51 =? 51) with true in H9. cbn beta iota in H9. apply andb_true_iff in H9 as [K1 K2]. split; [apply N.eqb_eq, K1|]. apply negb_true_iff, N.eqb_neq in K2. exact K2.
  - exact Hm.
  - intros Hi s g f He. destruct (Ht Hi) as (t & _ & K). destruct (K s g f He) as (l & _ & _ & K1 & _). exact K1.
  - intros Hi s l Hnd Hl. destruct (Ht Hi) as (t & _ & K). destruct l as [|[g f] l]; [cbn; lia|].
    destruct (K s g f (Hl (g, f) (or_introl eq_refl))) as (l0 & E0 & _ & _ & Hlen).
    apply Nat.le_trans with (length l0); [|exact Hlen]. apply NoDup_incl_length; [exact Hnd|]. intros [g' f'] Hin.
    destruct (K s g' f' (Hl (g', f') Hin)) as (l1 & E1 & Hin1 & _). rewrite E0 in E1. injection E1 as <-. exact Hin1.
Qed.

(** ** Small sources *)
Definition cyrillic : bytes := Eval vm_compute in map N.of_nat (seq 224 32).
Lemma cyrillic_ok : alphabet_ok cyrillic.
Proof. split; [repeat constructor|]. split; [intros H; repeat destruct H as [H|H]; discriminate || contradiction|cbn; lia]. Qed.

Definition tb (items : list flexitem) : bytes := N.of_nat (length items) :: flat_map item_ser items.
(** table 1: nouns like дом; table 20: infinitive, past; table 32: ся *)
Definition nouns : list flexitem :=
  [ FlexItem 3 0 [] 0; FlexItem 3 0x3000 [] 0; FlexItem 3 0x1000 [224] 0; FlexItem 3 0x800 [251] 0; FlexItem 3 0x1800 [238; 226] 0 ].
Definition verbs : list flexitem := [ FlexItem 0x7f 1 [242; 252] 32; FlexItem 0xbf 0x205 [235] 32; FlexItem 0x3f 5 [235; 232] 0 ].
Definition particle : list flexitem := [ FlexItem 0x3f 0x8000 [241; 255] 0; FlexItem 0x3f 0 [] 0 ].
Definition zeros (n : nat) : bytes := repeat 0 n.
Definition demo_ftable : bytes := Eval vm_compute in
  let t0 := [0; 0] ++ tb nouns in let t1 := t0 ++ zeros (40 - length t0) ++ tb verbs in t1 ++ zeros (64 - length t1) ++ tb particle.
(** at 1: он / н *)
Definition sleep : list (N * bytes) := [(2, [237]); (1, [238; 237])].
Definition demo_mtable : bytes := Eval vm_compute in 0 :: mix_ser sleep.
Definition demo_alts : list (N * bytes) := [(1, [238])].

Definition entry_of (word post : bytes) (wd off cases id : N) : lexeme :=
  match resolve 8 demo_ftable demo_mtable demo_alts word post [] wd off cases None false 0 id with Ok (Some x) => x | _ => Lexeme [] (Morphclass 0 0 0) 0 0 [] 0 end.
(** дом, сон, сон-то, мыть, под, как-то, как *)
Definition demo_xs : list lexeme := Eval vm_compute in
  [ entry_of [228; 238; 236] [] 7 1 0 1; entry_of [241; 238; 237] [] 7 1 0 2; entry_of [241; 238; 237; 45; 242; 238] [45; 242; 238] 7 1 0 6;
    entry_of [236; 251; 242; 252] [] 1 20 0 7; entry_of [239; 238; 228] [] 51 0 16 300; entry_of [234; 224; 234; 45; 242; 238] [45; 242; 238] 52 0 0 65540;
    entry_of [234; 224; 234] [] 52 0 0 3 ].

Lemma table_here tables off items : Forall item_ok items -> (length items < 256)%nat ->
  firstn (N.to_nat (2 * off)) tables ++ tb items ++ skipn (N.to_nat (2 * off) + length (tb items)) tables = tables -> N.of_nat (length (firstn (N.to_nat (2 * off)) tables)) = 2 * off ->
  table_at tables off items.
Proof. intros H1 H2 H3 H4. split; [exact H1|]. split; [exact H2|]. eexists. eexists. split; [|exact H4]. symmetry. exact H3. Qed.
Definition itemb (it : flexitem) : bool :=
  (fi_flags it <? 256) && (fi_info it <? 2 ^ 16) && (length (fi_text it) <? 256)%nat && forallb (fun c => c <? 256) (fi_text it) && (fi_next it <? 2 ^ 16) &&
  (negb (N.land (fi_flags it) 0xc0 =? 0) || (fi_next it =? 0)).
Lemma itemb_ok items : forallb itemb items = true -> Forall item_ok items.
Proof.
  intros H. apply Forall_forall. intros it Hin. rewrite forallb_forall in H. apply H in Hin. unfold itemb in Hin. repeat rewrite andb_true_iff in Hin.
  destruct Hin as (((((H1 & H2) & H3) & H4) & H5) & H6). split; [apply N.ltb_lt, H1|]. split; [apply N.ltb_lt, H2|]. split; [apply Nat.ltb_lt, H3|].
  split; [apply Forall_forall; intros c Hc; rewrite forallb_forall in H4; apply N.ltb_lt, H4, Hc|]. split; [apply N.ltb_lt, H5|].
  intros E. rewrite E in H6. cbn in H6. apply N.eqb_eq, H6.
Qed.
Lemma nouns_at : table_at demo_ftable 1 nouns.
Proof. apply table_here; [apply itemb_ok; reflexivity|cbn; lia|reflexivity|reflexivity]. Qed.
Lemma verbs_at : table_at demo_ftable 20 verbs.
Proof. apply table_here; [apply itemb_ok; reflexivity|cbn; lia|reflexivity|reflexivity]. Qed.
Lemma particle_at : table_at demo_ftable 32 particle.
Proof. apply table_here; [apply itemb_ok; reflexivity|cbn; lia|reflexivity|reflexivity]. Qed.
Lemma sleep_at : mix_at demo_mtable 1 sleep.
Proof. split; [split; [reflexivity|split; [repeat constructor; cbn; lia|repeat constructor; left; constructor; reflexivity]]|]. exists [0], (@nil N). split; reflexivity. Qed.

Lemma demo_bytes : is_bytes demo_ftable.
Proof. repeat constructor. Qed.
Lemma demo_sources : sources_ok demo_ftable demo_mtable demo_xs.
Proof.
  split; [apply demo_bytes|reflexivity|]. exists cyrillic. split; [apply cyrillic_ok|]. apply Forall_forall. intros x Hx. apply lexemeb_ok; [apply demo_bytes| |].
  - assert (H : forallb (lexemeb demo_ftable cyrillic) demo_xs = true) by (vm_compute; reflexivity). rewrite forallb_forall in H. apply H, Hx.
  - assert (H : forallb (fun x => (m_mtoffs (l_class x) =? 0) || (m_mtoffs (l_class x) =? 1)) demo_xs = true) by reflexivity. rewrite forallb_forall in H. apply H, orb_true_iff in Hx as [E|E]; apply N.eqb_eq in E.
    + left. exact E.
    + right. rewrite E. split; [reflexivity|]. exists sleep. apply sleep_at.
Qed.

(** ** Links between tables *)
Lemma linked_inv tables a b items : linked tables a b -> table_at tables a items -> a = b \/ exists it, In it items /\ fi_next it <> 0 /\ linked tables (fi_next it) b.
Proof.
  intros H T. destruct H as [a|a items' it b T' Hin Hne H]; [left; reflexivity|]. rewrite (table_unique _ _ _ _ T T'). right. exists it. auto.
Qed.
Lemma begins_inv tables a b items : begins tables a b -> table_at tables a items ->
  a = b \/ exists it, In it items /\ fi_text it = [] /\ fi_next it <> 0 /\ begins tables (fi_next it) b.
Proof.
  intros H T. destruct H as [a|a items' it b T' Hin Ht Hne H]; [left; reflexivity|]. rewrite (table_unique _ _ _ _ T T'). right. exists it. auto.
Qed.
Lemma nouns_plain : plain_links demo_ftable 1.
Proof.
  intros o items Hl T. apply (begins_inv _ _ _ nouns) in Hl; [|apply nouns_at]. destruct Hl as [<-|(it & Hin & _ & Hne & _)].
  - rewrite (table_unique _ _ _ _ T nouns_at). split; [cbn; lia|]. intros it Hin. repeat destruct Hin as [<-|Hin]; try contradiction; cbn; auto.
  - exfalso. apply Hne. repeat destruct Hin as [<-|Hin]; try contradiction; reflexivity.
Qed.
Lemma verbs_plain : plain_links demo_ftable 20.
Proof.
  assert (P : plain_links demo_ftable 32).
  { intros o items Hl T. apply (begins_inv _ _ _ particle) in Hl; [|apply particle_at]. destruct Hl as [<-|(it & Hin & _ & Hne & _)].
    - rewrite (table_unique _ _ _ _ T particle_at). split; [cbn; lia|]. intros it Hin. repeat destruct Hin as [<-|Hin]; try contradiction; cbn; auto.
    - exfalso. apply Hne. repeat destruct Hin as [<-|Hin]; try contradiction; reflexivity. }
  intros o items Hl T. apply (begins_inv _ _ _ verbs) in Hl; [|apply verbs_at]. destruct Hl as [<-|(it & Hin & _ & Hne & Hl)].
  - rewrite (table_unique _ _ _ _ T verbs_at). split; [cbn; lia|]. intros it Hin. repeat destruct Hin as [<-|Hin]; try contradiction; cbn; auto; discriminate.
  - apply (P o items); [|exact T]. repeat destruct Hin as [<-|Hin]; try contradiction; try exact Hl; exfalso; apply Hne; reflexivity.
Qed.
Lemma demo_bounds_computed : Forall (fun x => letter_bounds 8 demo_ftable demo_mtable (l_class x) = Ok (l_min x, l_max x)) demo_xs.
Proof. repeat constructor. Qed.
Lemma sleep_letters mx : mix_at demo_mtable 1 mx -> letters_alternate mx.
Proof. intros H. rewrite (mix_unique _ _ _ _ H sleep_at). repeat constructor; eexists; eexists; repeat split. Qed.
Lemma demo_covered : Forall (bounds_cover demo_ftable demo_mtable) demo_xs.
Proof.
  pose proof demo_bounds_computed as H. rewrite Forall_forall in *. intros x Hx. apply (bounds_sound 8); [apply H, Hx| |].
  - intros Hi. assert (K : forallb (fun x => negb (inflected (l_class x)) || (m_tfoffs (l_class x) =? 1) || (m_tfoffs (l_class x) =? 20)) demo_xs = true) by reflexivity.
    rewrite forallb_forall in K. specialize (K x Hx). rewrite Hi in K. cbn [negb orb] in K.
    apply orb_true_iff in K as [K|K]; apply N.eqb_eq in K; rewrite K; [apply nouns_plain|apply verbs_plain].
  - intros mx _ Hne Hm. assert (K : forallb (fun x => (m_mtoffs (l_class x) =? 0) || (m_mtoffs (l_class x) =? 1)) demo_xs = true) by reflexivity. rewrite forallb_forall in K.
    apply K, orb_true_iff in Hx as [E|E]; apply N.eqb_eq in E; [contradiction|]. rewrite E in Hm. left. apply sleep_letters, Hm.
Qed.

Definition demo_compiled : arrays := Eval vm_compute in match compile 8 demo_ftable demo_mtable demo_xs with Ok (Some A) => A | _ => Arrays [] [] [] [] [] end.
Lemma demo_compile : compile 8 demo_ftable demo_mtable demo_xs = Ok (Some demo_compiled).
Proof. vm_compute. reflexivity. Qed.
Lemma demo_fit : arrays_fit demo_compiled.
Proof. split; [|split]; vm_compute; congruence. Qed.
