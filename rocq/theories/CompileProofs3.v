(** * CompileProofs3: the compiler's invariant.  PROOFS. *)
From Verif Require Import Base Serial SerialProofs WordTree TreeSpec WordTreeProofs FlatScan LidsProofs TreeWalk Stems StemSpec StemsProofs DictProofs GramMap RusRuntime LevelSpec LevelProofs
  RusSpec RusProofs Compile CompileSpec CompileProofs CompileProofs2.
Local Open Scope N_scope.

Lemma pad_len (l : bytes) : N.of_nat (length (l ++ padding (N.of_nat (length l)))) mod 16 = 0.
Proof.
  unfold padding. rewrite app_length, repeat_length. set (n := N.of_nat (length l)).
  assert (E : N.ldiff (n + 15) 15 = (n + 15) / 16 * 16).
  { change 15 with (N.ones 4) at 2. rewrite N.ldiff_ones_r, N.shiftl_mul_pow2, N.shiftr_div_pow2. reflexivity. }
  rewrite E. rewrite Nnat.Nat2N.inj_add, Nnat.N2Nat.id. fold n.
  pose proof (N.div_mod (n + 15) 16 ltac:(discriminate)) as D. pose proof (N.mod_lt (n + 15) 16 ltac:(discriminate)) as M.
  replace (n + ((n + 15) / 16 * 16 - n)) with ((n + 15) / 16 * 16) by lia. apply N.mod_mul. discriminate.
Qed.

Section Build.
  Variable depth : nat.
  Variable ftable : bytes.

  Definition expanded (k : N) (t : wtree (list (N * N))) : Prop := create_tree depth ftable k 0 255 [] wempty = Ok t.
  Record bld_inv (b : builder) : Prop := {
    bi_align : N.of_nat (length (aplain b)) mod 16 = 0 /\ 16 <= N.of_nat (length (aplain b));
    bi_tables : forall k o, In (k, o) (iplain b) -> o mod 16 = 0 /\ 16 <= o < N.of_nat (length (aplain b)) /\
      exists t pre rest, expanded k t /\ aplain b = pre ++ serialize C8 gramlist_ser gramlist_len t ++ rest /\ N.of_nat (length pre) = o;
    bi_inj : forall k k' o, In (k, o) (iplain b) -> In (k', o) (iplain b) -> k = k';
    bi_cls : cls_inv (classes b);
  }.
  Definition grows (b b' : builder) : Prop := incl (iplain b) (iplain b') /\ cls_grows (classes b) (classes b').
  Lemma grows_refl b : grows b b.
  Proof. split; [intros x H; exact H|apply cls_grows_refl]. Qed.
  Lemma grows_trans a b c : grows a b -> grows b c -> grows a c.
  Proof. intros [A1 A2] [B1 B2]. split; [intros x H; apply B1, A1, H|eapply cls_grows_trans; eassumption]. Qed.

  Definition mapped (b : builder) (m m' : morphclass) : Prop :=
    if negb (m_tfoffs m =? 0) && negb (m_wdinfo m =? 51)
    then exists o, In (m_tfoffs m, o) (iplain b) /\ m' = Morphclass (m_wdinfo m) (N.shiftr o 4 mod 2 ^ 16) (m_mtoffs m)
    else m' = m.
  Lemma mapped_grows b b' m m' : grows b b' -> mapped b m m' -> mapped b' m m'.
  Proof.
    intros [G _]. unfold mapped. destruct (_ && _); [|auto]. intros (o & H & E). exists o. split; [apply G, H|exact E].
  Qed.

  Lemma new_inv : bld_inv new_builder.
  Proof. constructor; cbn [new_builder aplain iplain classes]; [split; [reflexivity|discriminate]|intros k o []|intros k k' o []|apply cls_empty]. Qed.

  Lemma map_find_in k l v : map_find k l = Some v -> In (k, v) l.
  Proof.
    induction l as [|[k' v'] l IH]; cbn; [discriminate|]. destruct (N.eqb_spec k' k) as [->|]; [intros [= <-]; auto|auto].
  Qed.

  Lemma ser_pos t : (0 < length (serialize C8 gramlist_ser gramlist_len t))%nat.
  Proof. destruct t as [l d]. rewrite serialize_eq, app_length. cbn [storecount length]. lia. Qed.

  Lemma map_tables_inv b m b' m' : bld_inv b -> map_tables depth ftable b m = Ok (b', m') ->
    bld_inv b' /\ grows b b' /\ mapped b' m m' /\ tree b' = tree b.
  Proof.
    intros [[A1 A2] T J C]. unfold map_tables, mapped. destruct (negb (m_tfoffs m =? 0) && negb (m_wdinfo m =? 51)).
    - destruct (map_find (m_tfoffs m) (iplain b)) as [o|] eqn:E.
      + intros [= <- <-]. apply map_find_in in E. split; [constructor; auto|]. split; [apply grows_refl|]. split; [|reflexivity]. exists o. auto.
      + intros H. apply bind_ok_inv in H as (at_ & Et & H). unfold create_plain_table in Et. apply bind_ok_inv in Et as (t & Et & [= <-]).
        set (tb := serialize C8 gramlist_ser gramlist_len t) in *. cbv zeta in H. injection H as <- <-. set (o := N.of_nat (length (aplain b))) in *.
        pose proof (ser_pos t) as Hpos. fold tb in Hpos.
        split; [|split; [|split; [|reflexivity]]].
        * constructor; cbn [aplain iplain classes].
          -- split; [apply pad_len|]. rewrite !app_length. lia.
          -- intros k x [[= <- <-]|Hin].
             ++ split; [exact A1|]. split; [rewrite !app_length; lia|]. exists t, (aplain b), (padding (N.of_nat (length (aplain b ++ tb)))).
                split; [exact Et|]. split; [rewrite <- app_assoc; reflexivity|reflexivity].
             ++ destruct (T k x Hin) as (T1 & T2 & t' & pre & rest & T3 & T4 & T5). split; [exact T1|]. split; [rewrite !app_length; lia|].
                exists t', pre. eexists. split; [exact T3|]. split; [|exact T5]. rewrite T4, <- !app_assoc. reflexivity.
          -- intros k k' x [E1|H1] [E2|H2].
             ++ congruence.
             ++ injection E1 as <- <-. destruct (T k' _ H2) as (_ & T2 & _). fold o in T2. lia.
             ++ injection E2 as <- <-. destruct (T k _ H1) as (_ & T2 & _). fold o in T2. lia.
             ++ eapply J; eassumption.
          -- exact C.
        * split; cbn [iplain classes]; [intros x Hx; right; exact Hx|apply cls_grows_refl].
        * exists o. cbn [iplain]. split; [left; reflexivity|reflexivity].
    - intros [= <- <-]. split; [constructor; auto|]. split; [apply grows_refl|]. split; reflexivity.
  Qed.

  (** the record of a lexeme *)
  Definition record_rel (b : builder) (x : lexeme) (ke : bytes * entry) : Prop :=
    exists m' off, mapped b (l_class x) m' /\ In (m', off) (clsset (classes b)) /\
      ke = (l_stem x, Entry (l_min x) (l_max x) (l_id x) off (l_post x)).
  Lemma record_grows b b' x ke : grows b b' -> record_rel b x ke -> record_rel b' x ke.
  Proof.
    intros G (m' & off & H1 & H2 & H3). exists m', off. split; [eapply mapped_grows; eassumption|]. split; [|exact H3]. eapply cls_grows_in; [apply G|exact H2].
  Qed.

  Lemma add_lexeme_inv b x b' : bld_inv b -> add_lexeme depth ftable b x = Ok (Some b') ->
    bld_inv b' /\ grows b b' /\ exists ke, record_rel b' x ke /\ tree b' = dict_reader [ke] (tree b).
  Proof.
    intros Hi H. unfold add_lexeme in H. apply bind_ok_inv in H as ([b1 m'] & E & H). destruct (map_tables_inv _ _ _ _ Hi E) as (I1 & G1 & M1 & T1).
    destruct (add_class (classes b1) m') as [[cls off]|] eqn:Ec; [|discriminate]. injection H as <-.
    destruct (add_class_inv _ _ _ _ (bi_cls _ I1) Ec) as (C1 & C2 & C3). destruct I1 as [A1 A2 A3 A4].
    assert (G2 : grows b1 (Builder (aplain b1) (iplain b1) cls (insert [] (l_stem x) (insert_entry (Entry (l_min x) (l_max x) (l_id x) off (l_post x))) (tree b1)))).
    { split; cbn [iplain classes]; [intros y Hy; exact Hy|exact C2]. }
    split; [constructor; cbn [aplain iplain classes]; assumption|]. split; [eapply grows_trans; eassumption|].
    exists (l_stem x, Entry (l_min x) (l_max x) (l_id x) off (l_post x)). split.
    - exists m', off. split; [eapply mapped_grows; eassumption|]. split; [exact C3|reflexivity].
    - cbn [tree dict_reader fold_left fst snd]. rewrite T1. reflexivity.
  Qed.

  Lemma add_lexemes_inv xs : forall b b', bld_inv b -> add_lexemes depth ftable b xs = Ok (Some b') ->
    bld_inv b' /\ grows b b' /\ exists items, Forall2 (record_rel b') xs items /\ tree b' = dict_reader items (tree b).
  Proof.
    induction xs as [|x xs IH]; intros b b' Hi H; cbn [add_lexemes] in H.
    - injection H as <-. split; [exact Hi|]. split; [apply grows_refl|]. exists []. split; [constructor|reflexivity].
    - apply bind_ok_inv in H as ([b1|] & E & H); [|discriminate]. destruct (add_lexeme_inv _ _ _ Hi E) as (I1 & G1 & ke & R1 & T1).
      destruct (IH _ _ I1 H) as (I2 & G2 & items & R2 & T2). split; [exact I2|]. split; [eapply grows_trans; eassumption|].
      exists (ke :: items). split; [constructor; [eapply record_grows; eassumption|exact R2]|]. rewrite T2, T1. reflexivity.
  Qed.
End Build.
