(** * EngCompileProofs4: the compiler's invariant.  PROOFS. *)
From Coq Require Import String Ascii Permutation.
From Verif Require Import Base Serial WordTree TreeSpec Stems StemSpec StemsProofs CharTables CapScheme CapSpec CapProofs RusRuntime RusSpec RusProofs EngRuntime EngSpec Api
  CompileProofs CompileProofs2 EngCompile EngCompileSpec EngCompileProofs EngCompileProofs2 EngCompileProofs3.
Local Open Scope N_scope.
Local Open Scope list_scope.

(** ** The tables *)
Definition total (l : list (bytes * ftab)) : N := fold_right (fun kt n => ftab_len (snd kt) + n) 0 l.
Lemma total_app l l' : total (l ++ l') = total l + total l'.
Proof. induction l as [|kt l IH]; [reflexivity|]. cbn [app total fold_right] in *. fold (total (l ++ l')). fold (total l). rewrite IH. lia. Qed.
Lemma ftab_len_pos t : 1 <= ftab_len t.
Proof. unfold ftab_len. lia. Qed.
Record fb_inv (fb : flexbox) : Prop := {
  fi_len : fb_length fb = (4 + total (fb_tables fb)) mod 2 ^ 16;
  fi_at : forall l1 k t l2, fb_tables fb = l1 ++ (k, t) :: l2 ->
    t = FTab (t_items (table_of k)) (TableRef ((4 + total l1) mod 2 ^ 16) (t_lower (t_ref (table_of k))) (t_upper (t_ref (table_of k))));
}.
Lemma find_table_in flex l t : find_table flex l = Some t -> In (flex, t) l.
Proof. induction l as [|[k t'] l IH]; cbn; [discriminate|]. destruct (list_eq_dec N.eq_dec k flex) as [->|]; [intros [= <-]; auto|auto]. Qed.

Lemma snoc_split {X} (l l1 l2 : list X) a b : l ++ [a] = l1 ++ b :: l2 -> (l1 = l /\ b = a) \/ exists l2', l = l1 ++ b :: l2'.
Proof.
  intros E. destruct l2 as [|c l2].
  - apply app_inj_tail in E as [-> ->]. auto.
  - right. destruct (@exists_last _ (c :: l2)) as (l2' & d & Es); [discriminate|]. rewrite Es, app_comm_cons, app_assoc in E. apply app_inj_tail in E as [-> _]. eauto.
Qed.

Lemma new_fb_inv : fb_inv new_flexbox.
Proof. constructor; cbn [new_flexbox fb_tables fb_length]; [reflexivity|]. intros [|? ?] k t l2; discriminate. Qed.

Lemma add_inflex_inv fb flex fb' ref : fb_inv fb -> add_inflex fb flex = (fb', ref) ->
  fb_inv fb' /\ incl (fb_tables fb) (fb_tables fb') /\ exists t, In (flex, t) (fb_tables fb') /\ ref = t_ref t.
Proof.
  intros [L A]. unfold add_inflex. destruct (find_table flex (fb_tables fb)) as [t|] eqn:E.
  - intros [= <- <-]. split; [constructor; assumption|]. split; [apply incl_refl|]. exists t. split; [apply find_table_in, E|reflexivity].
  - cbv zeta. fold (table_of flex). intros [= <- <-]. set (t := FTab _ _). split; [|split].
    + constructor; cbn [fb_tables fb_length].
      * rewrite total_app. cbn [total fold_right]. fold t. rewrite L. cbn [snd]. rewrite N.add_0_r, N.add_assoc, N.add_mod_idemp_l by discriminate. reflexivity.
      * intros l1 k t' l2 E'. apply snoc_split in E' as [[-> [= -> ->]]|(l2' & E')]; [|eapply A, E'].
        unfold t. f_equal. f_equal. exact L.
    + cbn [fb_tables]. apply incl_appl, incl_refl.
    + exists t. split; [cbn [fb_tables]; apply in_or_app; right; left; reflexivity|reflexivity].
Qed.

(** ** The classes *)
Record ec_inv (t : eclasses) : Prop := {
  ec_len : ec_length t = (4 * N.of_nat (length (ec_list t))) mod 2 ^ 32;
  ec_at : forall l1 wd fx off l2, ec_list t = l1 ++ (wd, fx, off) :: l2 -> off = (4 * N.of_nat (length l1)) mod 2 ^ 16;
}.
Lemma new_ec_inv : ec_inv (EClasses [] 0).
Proof. constructor; cbn; [reflexivity|]. intros [|? ?]; discriminate. Qed.
Lemma eclass_add_inv t wd fx t' off : ec_inv t -> eclass_add t wd fx = (t', off) ->
  ec_inv t' /\ incl (ec_list t) (ec_list t') /\ In (wd, fx, off) (ec_list t').
Proof.
  intros [L A]. unfold eclass_add. destruct (find _ (ec_list t)) as [r|] eqn:E.
  - intros [= <- <-]. apply find_some in E as [Hin E]. destruct r as [[wd' fx'] off']. cbn [fst snd] in *. apply andb_true_iff in E as [E1 E2]. apply N.eqb_eq in E1, E2. subst.
    split; [constructor; assumption|]. split; [apply incl_refl|exact Hin].
  - cbv zeta. intros [= <- <-]. split; [|split].
    + constructor; cbn [ec_list ec_length].
      * rewrite L, app_length, Nnat.Nat2N.inj_add. cbn [length]. rewrite N.add_mod_idemp_l by discriminate. f_equal. lia.
      * intros l1 wd' fx' off' l2 E'. apply snoc_split in E' as [[-> [= -> -> ->]]|(l2' & E')]; [|eapply A, E'].
        rewrite L. set (n := 4 * N.of_nat (length (ec_list t))). change (2 ^ 32) with (2 ^ 16 * 2 ^ 16). rewrite N.mod_mul_r by discriminate.
        rewrite (N.mul_comm (2 ^ 16)), N.mod_add by discriminate. apply N.mod_mod. discriminate.
    + apply incl_appl, incl_refl.
    + apply in_or_app. right. left. reflexivity.
Qed.

(** ** The builder *)
Definition awd (x : article) : N := a_part x + 128 * acase x.
Lemma acase_type x : article_ok x -> cap_type (a_stem x) = acase x.
Proof.
  intros H. pose proof (word_low _ (ao_stem x H)) as Hl. unfold cap_type, acase. destruct (a_stem x) as [|c [|c' s]]; [reflexivity| |]; cbn [nth_error].
  - rewrite is_capital_some by (apply (Forall_inv Hl)). reflexivity.
  - rewrite !is_capital_some; [reflexivity|apply (Forall_inv (Forall_inv_tail Hl))|apply (Forall_inv Hl)].
Qed.
Lemma acase_le x : acase x <= 2.
Proof. unfold acase. destruct (a_stem x) as [|c [|c' s]]; [discriminate| |]; destruct (capital c); try destruct (capital c'); discriminate. Qed.
Lemma part_le n tag : nth_error part_tags n = Some tag -> (n < 20)%nat.
Proof. intros H. change 20%nat with (List.length part_tags). apply nth_error_Some. congruence. Qed.
Lemma awd_eq x tag : article_ok x -> nth_error part_tags (N.to_nat (a_part x)) = Some tag -> N.lor (a_part x) (cap_bits (cap_type (a_stem x))) = awd x.
Proof.
  intros H Ht. rewrite acase_type by exact H. apply part_le in Ht. unfold awd. assert (Ha : acase x = 0 \/ acase x = 1 \/ acase x = 2) by (pose proof (acase_le x); lia).
  assert (E : forall b, N.lor (a_part x) (N.shiftl b 7) = a_part x + b * 2 ^ 7) by (intros b; apply lor_field; change (2 ^ 7) with 128; lia).
  destruct Ha as [-> |[-> | ->]]; cbn [cap_bits]; [rewrite N.lor_0_r; lia|specialize (E 1)|specialize (E 2)]; cbn in E; exact E.
Qed.

Record eb_inv (b : ebuilder) : Prop := { ei_fb : fb_inv (eb_flex b); ei_ec : ec_inv (eb_classes b) }.
Definition eb_grows (b b' : ebuilder) : Prop := incl (fb_tables (eb_flex b)) (fb_tables (eb_flex b')) /\ incl (ec_list (eb_classes b)) (ec_list (eb_classes b')).
Lemma eb_grows_refl b : eb_grows b b.
Proof. split; apply incl_refl. Qed.
Lemma eb_grows_trans a b c : eb_grows a b -> eb_grows b c -> eb_grows a c.
Proof. intros [A1 A2] [B1 B2]. split; eapply incl_tran; eassumption. Qed.

Definition small_forms (x : article) : option (list (list bytes)) := option_map (map (map to_small)) (a_forms x).
Definition ref_for (b : ebuilder) (x : article) (ref : tableref) : Prop :=
  match a_forms x with
  | None => ref = TableRef 0 0 0
  | Some forms => exists t, In (put_forms (Some (map (map to_small) forms)), t) (fb_tables (eb_flex b)) /\ ref = t_ref t
  end.
Definition erecord_rel (b : ebuilder) (x : article) (ke : bytes * entry) : Prop :=
  exists ref off, ref_for b x ref /\ In (awd x, t_offset ref, off) (ec_list (eb_classes b)) /\
    ke = (to_small (a_stem x), Entry (t_lower ref) (t_upper ref) (a_id x) off (a_post x)).
Lemma erecord_grows b b' x ke : eb_grows b b' -> erecord_rel b x ke -> erecord_rel b' x ke.
Proof.
  intros [G1 G2] (ref & off & H1 & H2 & H3). exists ref, off. split; [|split; [apply G2, H2|exact H3]]. unfold ref_for in *. destruct (a_forms x); [|exact H1].
  destruct H1 as (t & H1 & E). exists t. split; [apply G1, H1|exact E].
Qed.

(** the texts of the lines *)
Definition fits (x : article) : Prop := (length (put_forms (a_forms x)) < 256)%nat /\ (length (a_post x) < 128)%nat /\ a_part x < 20.
Lemma skip_space_suffix s : exists a, s = a ++ skip_space s.
Proof. induction s as [|c s (a & IH)]; [exists []; reflexivity|]. cbn [skip_space]. destruct (is_space c); [exists (c :: a); cbn; congruence|exists []; reflexivity]. Qed.
Lemma trim_end_prefix s : exists b, s = trim_end s ++ b.
Proof.
  induction s as [|c s (b & IH)]; [exists []; reflexivity|]. cbn [trim_end]. destruct (trim_end s) as [|d t].
  - destruct (is_space c); [exists (c :: s); reflexivity|exists s; reflexivity].
  - exists b. cbn [app] in *. congruence.
Qed.
Lemma no_article_line line : no_article line -> dict_line line = None.
Proof.
  intros [H|[(sp & rest & H & ->)|H]]; unfold dict_line.
  - rewrite skip_space_all; [reflexivity|]. eapply Forall_impl; [|exact H]. intros c Hc. apply N.leb_le, Hc.
  - change (text "//" ++ rest) with (47 :: 47 :: rest). rewrite skip_space_app by (try reflexivity; apply blank_spaces, H).
    assert (E : exists r, trim_end (47 :: 47 :: rest) = 47 :: 47 :: r) by (cbn [trim_end]; destruct (trim_end rest); eexists; reflexivity). destruct E as (r & ->).
    assert (Es : starts (text "//") (47 :: 47 :: r) = true) by (apply starts_iff; exists r; reflexivity). cbv zeta. rewrite Es, orb_true_r. reflexivity.
  - cbv zeta. destruct (negb _ || _); [reflexivity|]. destruct (strstr (text "LID:") (trim_end (skip_space line))) as [[a b]|] eqn:E; [|reflexivity]. exfalso.
    apply strstr_some in E as (E & r & ->). destruct (skip_space_suffix line) as (p & Ep). destruct (trim_end_prefix (skip_space line)) as (q & Eq). rewrite Eq, E in Ep.
    apply (H (p ++ a) (r ++ q)). rewrite Ep at 1. rewrite <- !app_assoc. reflexivity.
Qed.

Lemma article_fits x body : article_text x body -> (length body < 256)%nat -> fits x.
Proof.
  intros [sp1 tag pc sp3 num H1 H1' Ht Hpc H3 H3' Hn] Hl. pose proof (post_short x sp1 pc sp3 num tag Hpc Hl) as Hp. rewrite !app_length in Hl.
  split; [lia|]. split; [exact Hp|]. apply part_le in Ht. lia.
Qed.

Lemma add_article x line b : written x line -> eb_inv b ->
  exists b', eadd_line b line = Ok (Some b') /\ eb_inv b' /\ eb_grows b b' /\ exists ke, erecord_rel b' x ke /\ eb_tree b' = dict_reader [ke] (eb_tree b).
Proof.
  intros (Hok & sp0 & body & sp4 & -> & H0 & H4 & Ht & Hlen) [Ifb Iec]. unfold eadd_line.
  destruct Ht as [sp1 tag pc sp3 num H1 H1' Htag Hpc H3 H3' Hn].
  rewrite (dict_line_eq x Hok sp1 pc sp3 num tag H1 H1' Htag Hpc H3 H3' Hn sp0 sp4 H0 H4).
  rewrite (resolve_eq x Hok sp1 pc sp3 num tag H1 H1' Htag Hpc H3 H3' Hn b Hlen). cbv zeta. rewrite (awd_eq x tag Hok Htag).
  rewrite (low_small_map (a_stem x)) by (apply word_low, (ao_stem x Hok)).
  set (flex := map (tab eng_toLoCaseMatrix) (put_forms (a_forms x))).
  assert (Hfb : exists fb ref, match flex with [] => (eb_flex b, TableRef 0 0 0) | _ => add_inflex (eb_flex b) flex end = (fb, ref) /\ fb_inv fb /\ incl (fb_tables (eb_flex b)) (fb_tables fb) /\
            match a_forms x with None => ref = TableRef 0 0 0 | Some forms => exists t, In (put_forms (Some (map (map to_small) forms)), t) (fb_tables fb) /\ ref = t_ref t end).
  { destruct (a_forms x) as [forms|] eqn:Ef.
    - destruct (ao_forms x Hok forms Ef) as [Hne Hfo]. assert (Efl : flex = put_forms (Some (map (map to_small) forms))) by (apply low_put_forms, Hfo).
      assert (Hc : exists q, flex = 124 :: q) by (rewrite Efl; destruct forms as [|l forms]; [contradiction|]; eexists; reflexivity). destruct Hc as (q & Hc).
      destruct (add_inflex (eb_flex b) flex) as [fb ref] eqn:Ea. exists fb, ref. rewrite Hc at 1. cbv iota beta.
      destruct (add_inflex_inv _ _ _ _ Ifb Ea) as (A1 & A2 & A3). split; [reflexivity|]. split; [exact A1|]. split; [exact A2|]. rewrite <- Efl. exact A3.
    - exists (eb_flex b), (TableRef 0 0 0). split; [reflexivity|]. split; [exact Ifb|]. split; [apply incl_refl|reflexivity]. }
  destruct Hfb as (fb & ref & Efb & Fi & Fg & Fr). rewrite Efb.
  destruct (eclass_add (eb_classes b) (awd x) (t_offset ref)) as [cls off] eqn:Ec. destruct (eclass_add_inv _ _ _ _ _ Iec Ec) as (C1 & C2 & C3).
  cbn [bind]. cbv iota beta zeta. cbn [eb_flex eb_classes eb_tree chrmin chrmax oclass stpost].
  eexists. split; [reflexivity|]. split; [constructor; assumption|]. split; [split; assumption|].
  exists (to_small (a_stem x), Entry (t_lower ref) (t_upper ref) (a_id x) off (a_post x)). split; [|reflexivity].
  exists ref, off. split; [exact Fr|]. split; [exact C3|reflexivity].
Qed.

Lemma add_articles lines xs : lists lines xs -> forall b, eb_inv b ->
  exists b', eadd_lines b lines = Ok (Some b') /\ eb_inv b' /\ eb_grows b b' /\ exists items, Forall2 (erecord_rel b') xs items /\ eb_tree b' = dict_reader items (eb_tree b).
Proof.
  induction 1 as [|line lines xs Hno Hl IH|line lines x xs Hw Hl IH]; intros b Hb; cbn [eadd_lines].
  - exists b. split; [reflexivity|]. split; [exact Hb|]. split; [apply eb_grows_refl|]. exists []. split; [constructor|reflexivity].
  - unfold eadd_line. rewrite (no_article_line _ Hno). cbn [bind]. apply IH, Hb.
  - destruct (add_article x line b Hw Hb) as (b1 & E1 & I1 & G1 & ke & R1 & T1). rewrite E1. cbn [bind]. destruct (IH b1 I1) as (b' & E2 & I2 & G2 & items & R2 & T2).
    exists b'. split; [exact E2|]. split; [exact I2|]. split; [eapply eb_grows_trans; eassumption|]. exists (ke :: items). split; [constructor; [eapply erecord_grows; eassumption|exact R2]|].
    rewrite T2, T1. reflexivity.
Qed.

Lemma lists_facts lines xs : lists lines xs -> Forall (fun x => article_ok x /\ fits x) xs.
Proof.
  induction 1 as [|line lines xs _ _ IH|line lines x xs Hw _ IH]; [constructor|exact IH|]. constructor; [|exact IH].
  destruct Hw as (Hok & sp0 & body & sp4 & _ & _ & _ & Ht & Hlen). split; [exact Hok|eapply article_fits; eassumption].
Qed.
