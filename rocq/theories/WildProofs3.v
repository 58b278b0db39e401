(** * WildProofs3: the pattern search over a class, a stem list, the stem tree. *)
From Verif Require Import Base Serial SerialProofs WordTree TreeSpec WordTreeProofs FlatScan FlatScanProofs TreeWalk Stems StemSpec StemsProofs GramMap
  RusRuntime RusBuild LevelSpec LevelProofs RusSpec RusProofs RusProofs2 Wild WildSpec WildProofs WildProofs2.
Local Open Scope N_scope.

Lemma lookup_length {A} w (ser : A -> bytes) len key : forall t a, lookup key t = Some a -> (length key <= length (serialize w ser len t))%nat.
Proof.
  induction key as [|c key IH]; intros t a H; [cbn; lia|]. destruct t as [l d]. cbn [lookup nested] in H.
  destruct (assoc c l) as [t'|] eqn:E; [|discriminate]. apply IH in H. apply assoc_in in E.
  rewrite (serialize_eq w ser len), !app_length.
  enough (length (serialize w ser len t') < length (serializes w ser len l))%nat by (cbn [length]; lia).
  clear H IH. induction l as [|[c0 t0] l IHl]; [destruct E|]. unfold serializes. cbn [flat_map fst snd]. rewrite app_length. cbn [length]. rewrite app_length.
  destruct E as [[= -> ->]|E]; [lia|]. specialize (IHl E). unfold serializes in IHl. lia.
Qed.

(** ** A class *)
Lemma asterisks_glob p : negb (nonempty p) || is_asterisk p = true <-> glob p [].
Proof.
  split.
  - destruct p as [|a p]; [constructor|]. cbn [nonempty negb orb]. unfold is_asterisk. cbn [nonempty andb].
    intros H. assert (K : forallb (fun c => c =? 42) (a :: p) = true) by exact H. clear H. revert K.
    generalize (a :: p) as q. induction q as [|b q IH]; [constructor|]. cbn [forallb]. rewrite andb_true_iff. intros [E H].
    apply N.eqb_eq in E. subst b. apply glob_none. auto.
  - intros G. remember [] as s eqn:E. assert (K : forallb (fun c => c =? 42) p = true).
    { induction G; try discriminate; [reflexivity|]. cbn [forallb]. rewrite IHG by assumption. reflexivity. }
    destruct p; [reflexivity|]. cbn [nonempty negb orb]. unfold is_asterisk. cbn [nonempty andb]. exact K.
Qed.

(** Room of a class: the longest alternation and the height of the endings. *)
Definition class_room (c : aclass) (n : nat) : Prop :=
  forall ft, c_flex c = Some ft -> exists h a, within h ft /\
    (forall mx, c_mix c = Some mx -> Forall (fun ma => (length (snd ma) <= a)%nat) mx) /\ (a + h <= n)%nat.

Lemma nibbles a b : a < 16 -> b < 16 -> N.land (a * 16 + b) 0x0f = b /\ N.shiftr (a * 16 + b) 4 = a.
Proof.
  intros Ha Hb. change 0x0f with (N.ones 4). rewrite N.land_ones, N.shiftr_div_pow2. change (2 ^ 4) with 16. split.
  - rewrite N.add_comm, N.mod_add by discriminate. apply N.mod_small, Hb.
  - rewrite N.div_add_l by discriminate. rewrite N.div_small by assumption. lia.
Qed.

Lemma mixes_ev lid st ft rest1 pat suffix h a
    (filt : N -> N -> N -> bool) (Hfilt : forall mask, filt mask = (fun g f => altlevel (wdinfo st) mask g f && any_or_multiple (wdinfo st) g)) :
  flex_dump ft -> within h ft -> forall mx : list (N * bytes),
  Forall (fun ma => fst ma < 16 /\ (length (snd ma) < 16)%nat) mx -> Forall (fun ma => (length (snd ma) <= a)%nat) mx ->
  forall St (target : N -> bytes -> gram -> St -> res (St * Z)) rest mem n s,
  (n + a + h + length suffix <= length mem)%nat ->
  does (wild_mixes target (length mx) (flat_map (fun ma => fst ma * 16 + N.of_nat (length (snd ma)) :: snd ma) mx ++ rest) lid st
          (serialize C8 flex_ser flex_len ft ++ rest1) pat suffix mem n s) n mem
    (until_nonzero (fun s (x : bytes * gram) => target lid (fst x) (wild_gram st (snd x)) s)
       (flat_map (fun ma => swap_ev (filt (fst ma)) ft rest1 suffix (snd ma) pat (firstn n mem)) mx) s).
Proof.
  intros Hd Hh. induction mx as [|[mask alt] mx IH]; intros Hmx Ha St target rest mem n s Hm; [apply does_ok|].
  inversion Hmx as [|? ? [H1 H2] Hmx']; subst. inversion Ha as [|? ? H3 Ha']; subst. cbn [fst snd] in H1, H2, H3.
  cbn [length wild_mixes flat_map fst snd app rd bind].
  rewrite <- app_assoc. destruct (nibbles mask (N.of_nat (length alt)) H1 ltac:(lia)) as [-> ->].
  rewrite (advance_app alt) by reflexivity. cbn [bind]. rewrite Nnat.Nat2N.id.
  rewrite firstn_app, Nat.sub_diag, firstn_all. cbn [firstn]. rewrite app_nil_r.
  apply does_app.
  - rewrite Hfilt. apply (swap_search_does (fun str gr s => target lid str (wild_gram st gr) s)
             (fun g f => altlevel (wdinfo st) mask g f && any_or_multiple (wdinfo st) g) ft rest1 suffix Hd h Hh alt pat mem n s). lia.
  - intros mem' s' L F. rewrite <- F. apply IH; try assumption. lia.
Qed.

Lemma flex_ok_dump ft : flex_ok ft -> flex_dump ft.
Proof. intros (H1 & _ & H2). split; assumption. Qed.

(** The bytes after the inflexion table of a class. *)
Definition after_flex (A : arrays) (st : steminfo) (ft : wtree (list (N * N))) : bytes :=
  match GetFlexTable A st with Ok (Some p) => skipn (length (serialize C8 flex_ser flex_len ft)) p | _ => [] end.

(** The matches of a class, in order. *)
Definition class_ev (A : arrays) (st : steminfo) (c : aclass) (pat suffix path : bytes) : list (bytes * gram) :=
  match c_flex c with
  | None => if negb (nonempty pat) || is_asterisk pat then [(path, wild_gram st (Gram 0 255 0 0))] else []
  | Some ft =>
      map (fun x : bytes * gram => (fst x, wild_gram st (snd x)))
        (match c_mix c with
         | Some mx => flat_map (fun ma => swap_ev (fun g f => altlevel (wdinfo st) (fst ma) g f && any_or_multiple (wdinfo st) g) ft
                                            (after_flex A st ft) suffix (snd ma) pat path) mx
         | None => flex_ev (fun g _ => any_or_multiple (wdinfo st) g)
                     (S (length (serialize C8 flex_ser flex_len ft ++ after_flex A st ft) + length pat)) ft pat suffix true path
         end)
  end.

Lemma match_model_ev A st c off lid pat suffix path room : class_at A off st -> class_repr A st c -> off < 2 ^ 15 ->
  (c_flex c = None -> suffix = []) -> class_room c room ->
    (forall St (target : N -> bytes -> gram -> St -> res (St * Z)) mem s,
       firstn (length path) mem = path -> (length path <= length mem)%nat -> (c_flex c <> None -> length path + room + length suffix <= length mem)%nat ->
       does (match_model A target lid off pat suffix mem (length path) s) (length path) mem
         (until_nonzero (fun s (x : bytes * gram) => target lid (fst x) (snd x) s) (class_ev A st c pat suffix path) s)) /\
    (forall str gr, In (str, gr) (class_ev A st c pat suffix path) -> exists part g f, form_part c part g f /\ str = path ++ part ++ suffix /\
       gidForm gr = form_id c g f /\ glob pat (part ++ suffix)) /\
    (forall part g f, form_part c part g f -> glob pat (part ++ suffix) -> ~ In 42 (part ++ suffix) ->
       exists gr, In (path ++ part ++ suffix, gr) (class_ev A st c pat suffix path) /\ gidForm gr = form_id c g f).
Proof.
  intros Hat Hrep Hoff Hfix Hroom.
  pose proof (load_class A off st c Hat Hrep Hoff) as Hload.
  assert (Hword : wdinfo st = c_word c) by apply Hrep.
  destruct (c_flex c) as [ft|] eqn:Eflex.
  - destruct (flex_table A st c ft Hrep Eflex) as (rest1 & Eft & Hok).
    assert (Haft : after_flex A st ft = rest1).
    { unfold after_flex. rewrite Eft. rewrite skipn_app, Nat.sub_diag, skipn_all. reflexivity. }
    destruct (Hroom ft Eflex) as (h & a & Hh & Ha & Hsum).
    assert (Hord : ordered ft) by (destruct Hok as [Hd _]; eapply dumpable_ordered; exact Hd).
    pose proof (swap_table A st c Hrep) as Hswap. destruct (c_mix c) as [mx|] eqn:Emix.
    + destruct Hswap as [Hmx (rest & Eswap)]. specialize (Ha mx eq_refl).
      destruct Hmx as (Hcnt & Hbnd & Hasc).
      pose (filt := fun mask g f => altlevel (wdinfo st) mask g f && any_or_multiple (wdinfo st) g).
      pose (wg := fun x : bytes * gram => (fst x, wild_gram st (snd x))).
      assert (Eev : class_ev A st c pat suffix path = map wg (flat_map (fun ma => swap_ev (filt (fst ma)) ft rest1 suffix (snd ma) pat path) mx))
        by (unfold class_ev; rewrite Eflex, Emix, Haft; reflexivity).
      rewrite Eev.
      split; [|split].
      * intros St target mem s Hp _ Hlen. unfold match_model. rewrite Hload. cbn [bind]. rewrite Eft. cbn [bind]. rewrite Eswap. cbn [bind].
        unfold mix_ser. cbn [app rd bind]. rewrite Nnat.Nat2N.id. rewrite until_map. cbn [fst snd].
        specialize (Hlen ltac:(discriminate)).
        pose proof (mixes_ev lid st ft rest1 pat suffix h a filt (fun _ => eq_refl) (flex_ok_dump _ Hok) Hh mx Hbnd Ha St target rest mem (length path) s ltac:(lia)) as K.
        rewrite Hp in K. exact K.
      * intros str gr Hin. apply in_map_iff in Hin. destruct Hin as ([str' gr'] & E & Hin). unfold wg in E. cbn [fst snd] in E. injection E as -> <-.
        apply in_flat_map in Hin. destruct Hin as ([mask alt] & Hma & Hin). cbn [fst snd] in Hin.
        apply swap_ev_sound in Hin; [|assumption]. destruct Hin as (e & g & f & H1 & H2 & H3 & H4). injection H3 as -> ->.
        unfold filt in H2. apply andb_true_iff in H2. destruct H2 as [H2 H2'].
        exists (alt ++ e), g, f. split; [|split; [rewrite <- app_assoc; reflexivity|split]].
        -- eapply form_mixed; try eassumption; [rewrite <- Hword, <- level_eq; exact H2|]. apply number_okb_ok. unfold number_okb. rewrite <- Hword. exact H2'.
        -- unfold wild_gram, form_id. rewrite Eflex. cbn [gidForm ggrInfo gbFlags]. rewrite Hword. reflexivity.
        -- rewrite <- app_assoc. exact H4.
      * intros part g f Hform G H42. inversion Hform as [E|? ? ? ? E1 E2 ? ?|ft' mx' mask alt e ? ? E1 E2 Hin Hlev Hl Hnum]; subst; try congruence.
        assert (ft' = ft) by congruence. assert (mx' = mx) by congruence. subst ft' mx'.
        exists (wild_gram st (Gram 0 0 g f)). split.
        -- apply in_map_iff. exists (path ++ (alt ++ e) ++ suffix, Gram 0 0 g f). split; [reflexivity|].
           apply in_flat_map. exists (mask, alt). split; [assumption|]. cbn [fst snd]. rewrite <- app_assoc.
           rewrite <- app_assoc in G, H42. apply (@swap_ev_complete unit (fun _ _ _ => Ub)); try assumption.
           ++ unfold filt. apply andb_true_iff. split; [unfold altlevel; rewrite Hword, level_eq; exact Hlev|].
              rewrite Hword. apply number_okb_ok. exact Hnum.
           ++ destruct Hl as (dl & Hl & _). rewrite app_length. pose proof (lookup_length C8 flex_ser flex_len e ft dl Hl). lia.
        -- unfold wild_gram, form_id. rewrite Eflex. cbn [gidForm ggrInfo gbFlags]. rewrite Hword. reflexivity.
    + pose (filt := fun g (_ : N) => any_or_multiple (wdinfo st) g).
      pose (wg := fun x : bytes * gram => (fst x, wild_gram st (snd x))).
      assert (Eev : class_ev A st c pat suffix path =
                    map wg (flex_ev filt (S (length (serialize C8 flex_ser flex_len ft ++ rest1) + length pat)) ft pat suffix true path))
        by (unfold class_ev; rewrite Eflex, Emix, Haft; reflexivity).
      rewrite Eev.
      split; [|split].
      * intros St target mem s Hp _ Hlen. unfold match_model. rewrite Hload. cbn [bind]. rewrite Eft. cbn [bind]. rewrite Hswap. cbn [bind].
        rewrite until_map. cbn [fst snd]. specialize (Hlen ltac:(discriminate)). pose proof (flex_search_does (fun str gr s => target lid str (wild_gram st gr) s) filt
          (S (length (serialize C8 flex_ser flex_len ft ++ rest1) + length pat)) ft pat suffix true h rest1 mem (length path) s
          (flex_ok_dump _ Hok) Hh ltac:(rewrite app_length; lia) ltac:(lia)) as K.
        rewrite Hp in K. exact K.
      * intros str gr Hin. apply in_map_iff in Hin. destruct Hin as ([str' gr'] & E & Hin). unfold wg in E. cbn [fst snd] in E. injection E as -> <-.
        apply flex_ev_sound in Hin; [|assumption]. destruct Hin as (e & g & f & H1 & H2 & H3 & H4). injection H3 as -> ->.
        exists e, g, f. split; [|split; [reflexivity|split; [|assumption]]].
        -- eapply form_plain; try eassumption. apply number_okb_ok. unfold number_okb. rewrite <- Hword. exact H2.
        -- unfold wild_gram, form_id. rewrite Eflex. cbn [gidForm ggrInfo gbFlags]. rewrite Hword. reflexivity.
      * intros part g f Hform G H42. inversion Hform as [E|ft' e ? ? E1 E2 Hl Hnum|? ? ? ? ? ? ? E1 E2]; subst; try congruence.
        assert (ft' = ft) by congruence. subst ft'.
        exists (wild_gram st (Gram 0 0 g f)). split.
        -- apply in_map_iff. exists (path ++ part ++ suffix, Gram 0 0 g f). split; [reflexivity|].
           apply flex_ev_complete; try assumption.
           ++ unfold filt. rewrite Hword. apply number_okb_ok. exact Hnum.
           ++ destruct Hl as (dl & Hl & _). rewrite app_length. pose proof (lookup_length C8 flex_ser flex_len part ft dl Hl). lia.
        -- unfold wild_gram, form_id. rewrite Eflex. cbn [gidForm ggrInfo gbFlags]. rewrite Hword. reflexivity.
  - destruct (no_flex_table A st c Hrep Eflex) as [Eft _]. rewrite (Hfix eq_refl).
    unfold class_ev. rewrite Eflex. split; [|split].
    + intros St target mem s Hp Hpl _. unfold match_model. rewrite Hload. cbn [bind]. rewrite Eft. cbn [bind].
      destruct (negb (nonempty pat) || is_asterisk pat); [|apply does_ok].
      unfold wild_call. destruct (Nat.ltb_spec (length mem) (length path)); [lia|]. rewrite Hp. cbn [until_nonzero fst snd].
      destruct (target lid path (wild_gram st (Gram 0 255 0 0)) s) as [[s' r]|]; cbn; [|reflexivity].
      destruct (Z.eqb_spec r 0) as [->|]; exists mem; auto.
    + intros str gr. destruct (negb (nonempty pat) || is_asterisk pat) eqn:E; [|intros []]. intros [[= <- <-]|[]].
      exists [], (c_case c), 0. split; [constructor; assumption|]. split; [rewrite app_nil_r; reflexivity|].
      split; [unfold form_id; rewrite Eflex; reflexivity|]. apply asterisks_glob. exact E.
    + intros part g f Hform G H42. inversion Hform as [E|? ? ? ? E1 E2|? ? ? ? ? ? ? E1 E2]; subst; try congruence.
      cbn [app] in *. apply asterisks_glob in G. rewrite G. exists (wild_gram st (Gram 0 255 0 0)). rewrite app_nil_r. split; [left; reflexivity|].
      unfold form_id. rewrite Eflex. reflexivity.
Qed.

(** ** A list of stems *)
Fixpoint stems_sel (pat : bytes) (l : list entry) : list entry :=
  match l with
  | [] => []
  | e :: l' =>
      match pat with
      | [] => e :: stems_sel pat l'
      | c :: _ =>
          if is_wildcard c then e :: stems_sel pat l'
          else if chrmax e <? c then []
          else if c <? chrmin e then stems_sel pat l' else e :: stems_sel pat l'
      end
  end.

Lemma stems_sel_in pat l e : In e (stems_sel pat l) -> In e l.
Proof.
  induction l as [|e' l IH]; [auto|]. cbn [stems_sel]. destruct pat as [|c pat]; [cbn; tauto|].
  destruct (is_wildcard c); [cbn; tauto|]. destruct (chrmax e' <? c); [intros []|]. destruct (c <? chrmin e'); cbn; tauto.
Qed.

Lemma stems_sel_complete pat l e r : In e l -> max_descending l -> glob pat r -> admits e r -> In e (stems_sel pat l).
Proof.
  intros Hin Hmax G Had. induction l as [|e' l IH]; [destruct Hin|]. cbn [max_descending] in Hmax. destruct Hmax as [H1 H2].
  cbn [stems_sel]. destruct pat as [|c pat]; [destruct Hin as [->|Hin]; [left; reflexivity|right; auto]|].
  destruct (is_wildcard c) eqn:Ew; [destruct Hin as [->|Hin]; [left; reflexivity|right; auto]|].
  assert (Hb : chrmin e <= c <= chrmax e).
  { unfold is_wildcard in Ew. apply orb_false_iff in Ew. destruct Ew as [E1 E2]. apply N.eqb_neq in E1, E2.
    inversion G; subst; try congruence. eapply Had. reflexivity. }
  assert (Hmx : chrmax e <= chrmax e').
  { destruct Hin as [->|Hin]; [lia|]. rewrite Forall_forall in H1. apply H1. assumption. }
  destruct (N.ltb_spec (chrmax e') c); [lia|].
  destruct (N.ltb_spec c (chrmin e')).
  - destruct Hin as [->|Hin]; [lia|auto].
  - destruct Hin as [->|Hin]; [left; reflexivity|right; auto].
Qed.

Section Lists.
  Context {St X : Type}.
  Variable target : N -> N -> bytes -> bytes -> bytes -> nat -> St -> wres St.
  Variable tgt : St -> X -> res (St * Z).
  Variable ev : entry -> list X.

  Lemma wild_list_does pt l junk mem n s : stems_ok l ->
    (forall e mem' s, In e l -> length mem' = length mem -> firstn n mem' = firstn n mem ->
       does (target (nlexid e) (oclass e) pt (stpost e) mem' n s) n mem' (until_nonzero tgt (ev e) s)) ->
    does (wild_list target (stems_ser l ++ junk) pt mem n s) n mem (until_nonzero tgt (flat_map ev (stems_sel pt l)) s).
  Proof.
    intros [Hl Hn] Ht. unfold wild_list, stems_ser. rewrite <- app_assoc, getserial_putserial by assumption. cbn [bind]. rewrite Nnat.Nat2N.id.
    clear Hn. revert mem s Ht. induction l as [|e l IH]; intros mem s Ht; [apply does_ok|].
    inversion Hl as [|? ? He Hl']; subst.
    cbn [length wild_list_loop flat_map]. rewrite <- app_assoc.
    destruct (entry_read e (flat_map entry_ser l ++ junk) He) as (p & -> & Hp & Hbit & Hcl & Hw).
    cbn [rd bind]. rewrite getserial_putserial by apply He. cbn [bind]. rewrite getword16_put by assumption. cbn [bind].
    assert (Hsuf : (if N.testbit (wstore e) 15
                             then let! (k, q) := rd p in let! p' := advance k q in Ok (firstn (N.to_nat k) q, p')
                             else Ok ([], p)) = Ok (stpost e, flat_map entry_ser l ++ junk)).
    { unfold getpostfix in Hp. rewrite Hbit in *. unfold post_frag in Hp. destruct (stpost e) as [|b post] eqn:Epost; cbn [nonempty] in *.
      - injection Hp as ->. reflexivity.
      - destruct p as [|k q]; [discriminate|]. cbn [rd bind] in *. destruct (advance k q) as [p'|] eqn:Ea; [|discriminate]. cbn [bind] in *.
        injection Hp as -> -> ->. change (N.pos (Pos.of_succ_nat (length post))) with (N.of_nat (length (b :: post))). rewrite Nnat.Nat2N.id.
        change (b :: post ++ flat_map entry_ser l ++ junk) with ((b :: post) ++ flat_map entry_ser l ++ junk).
        rewrite (firstn_app (length (b :: post)) (b :: post)), Nat.sub_diag, firstn_all. cbn [firstn]. rewrite app_nil_r. reflexivity. }
    match goal with |- context [if N.testbit (wstore e) 15 then ?a else ?b] =>
      change (if N.testbit (wstore e) 15 then a else b) with (if N.testbit (wstore e) 15
                             then let! (k, q) := rd p in let! p' := advance k q in Ok (firstn (N.to_nat k) q, p')
                             else Ok ([], p)) end.
    rewrite Hsuf. cbn [bind]. rewrite Hcl. clear Hsuf Hp.
    assert (IH' : forall mem' s, length mem' = length mem -> firstn n mem' = firstn n mem ->
      does (wild_list_loop target (length l) (flat_map entry_ser l ++ junk) pt mem' n s) n mem' (until_nonzero tgt (flat_map ev (stems_sel pt l)) s)).
    { intros mem' s' L F. apply IH; [assumption|]. intros e' mem2 s2 Hin L2 F2. apply Ht; [right; assumption|congruence|congruence]. }
    assert (Hcall : does (let! (mem, s, r) := target (nlexid e) (oclass e) pt (stpost e) mem n s in
                    if Z.eqb r 0 then wild_list_loop target (length l) (flat_map entry_ser l ++ junk) pt mem n s else Ok (mem, s, r)) n mem
                    (until_nonzero tgt (flat_map ev (e :: stems_sel pt l)) s)).
    { cbn [flat_map]. apply does_app; [apply Ht; [left|..]; reflexivity|]. intros mem' s' L F. apply IH'; assumption. }
    cbn [stems_sel]. destruct pt as [|c pt]; [exact Hcall|].
    destruct (is_wildcard c); [exact Hcall|]. destruct (chrmax e <? c); [apply does_ok|].
    destruct (c <? chrmin e); [apply IH'; reflexivity|exact Hcall].
  Qed.
End Lists.

(** ** The stem tree *)
Fixpoint tree_ev {A} (fuel : nat) (t : wtree A) (pat path : bytes) : list (bytes * A * bytes) :=
  match fuel with
  | O => []
  | S fuel' =>
      match pat with
      | [] => []
      | ch :: next =>
          if ch =? 63 then flat_map (fun ct => tree_ev fuel' (snd ct) next (path ++ [fst ct])) (nested t)
          else if ch =? 42 then
            (match next with [] => [] | _ => tree_ev fuel' t next path end)
            ++ flat_map (fun ct => tree_ev fuel' (snd ct) pat (path ++ [fst ct])) (nested t)
          else flat_map (fun ct => if fst ct =? ch then tree_ev fuel' (snd ct) next (path ++ [fst ct]) else []) (nested t)
      end
      ++ match p_data t with Some a => [(path, a, pat)] | None => [] end
  end.

Lemma assoc_first {A} c (t : wtree A) l : descending (map fst l) -> In (c, t) l -> assoc c l = Some t.
Proof.
  intros Hdesc Hin. induction l as [|[c0 t0] l IHl]; [destruct Hin|]. cbn [assoc]. cbn [map fst descending] in Hdesc. destruct Hdesc as [H1 H2].
  destruct Hin as [[= -> ->]|Hin]; [rewrite N.eqb_refl; reflexivity|].
  destruct (N.eqb_spec c0 c) as [->|]; [|apply IHl; assumption].
  rewrite Forall_forall in H1. specialize (H1 c (in_map fst _ _ Hin)). cbn in H1. lia.
Qed.

Lemma tree_ev_sound {A} fuel : forall (t : wtree A) pat path k a p', ordered t -> In (k, a, p') (tree_ev fuel t pat path) ->
  exists k0, k = path ++ k0 /\ lookup k0 t = Some a /\ forall r, glob p' r -> glob pat (k0 ++ r).
Proof.
  induction fuel as [|fuel IH]; intros t pat path k a p' Ho H; [destruct H|]. destruct t as [l d].
  inversion Ho as [? ? Hdesc _ Hsub]; subst. cbn [tree_ev nested p_data] in H. apply in_app_or in H. destruct H as [H|H].
  - assert (Hc : forall c t' q, In (c, t') l -> In (k, a, p') (tree_ev fuel t' q (path ++ [c])) ->
       exists k0, k = path ++ c :: k0 /\ lookup (c :: k0) (WNode l d) = Some a /\ forall r, glob p' r -> glob q (k0 ++ r)).
    { intros c t' q Hin Hx. destruct (IH _ _ _ _ _ _ (Hsub c t' Hin) Hx) as (k0 & -> & Hl & Hg). exists k0.
      split; [rewrite <- app_assoc; reflexivity|]. split; [|assumption]. cbn [lookup nested]. rewrite (assoc_first c t') by assumption. assumption. }
    destruct pat as [|ch next]; [destruct H|]. destruct (N.eqb_spec ch 63) as [->|H63].
    + apply in_flat_map in H. destruct H as ([c t'] & Hin & Hx). destruct (Hc _ _ _ Hin Hx) as (k0 & H1 & H2 & H3).
      exists (c :: k0). repeat split; try assumption. intros r Hr. apply glob_one. apply H3. assumption.
    + destruct (N.eqb_spec ch 42) as [->|H42].
      * apply in_app_or in H. destruct H as [H|H].
        -- destruct next as [|b next]; [destruct H|]. destruct (IH _ _ _ _ _ _ Ho H) as (k0 & H1 & H2 & H3). exists k0.
           repeat split; try assumption. intros r Hr. apply glob_none. apply H3. assumption.
        -- apply in_flat_map in H. destruct H as ([c t'] & Hin & Hx). destruct (Hc _ _ _ Hin Hx) as (k0 & H1 & H2 & H3).
           exists (c :: k0). repeat split; try assumption. intros r Hr. cbn [app]. apply glob_more. apply H3. assumption.
      * apply in_flat_map in H. destruct H as ([c t'] & Hin & Hx). cbn [fst snd] in Hx. destruct (N.eqb_spec c ch) as [->|]; [|destruct Hx].
        destruct (Hc _ _ _ Hin Hx) as (k0 & H1 & H2 & H3).
        exists (ch :: k0). repeat split; try assumption. intros r Hr. apply glob_same; try assumption. apply H3. assumption.
  - destruct d as [a'|]; [|destruct H]. destruct H as [[= <- <- <-]|[]]. exists []. rewrite app_nil_r. auto.
Qed.

Lemma tree_ev_complete {A} m : forall fuel (t : wtree A) pat path k a r, (length k + length pat <= m)%nat -> (m < fuel)%nat ->
  lookup k t = Some a -> glob pat (k ++ r) ->
  exists p', In (path ++ k, a, p') (tree_ev fuel t pat path) /\ glob p' r.
Proof.
  induction m as [m IH] using lt_wf_ind. intros fuel t pat path k a r Hm Hf Hl G. destruct fuel as [|fuel]; [lia|]. destruct t as [l d].
  destruct k as [|c k].
  - exists pat. cbn [app] in G. split; [|assumption]. cbn [lookup p_data] in Hl. cbn [tree_ev p_data]. apply in_or_app. right. rewrite Hl, app_nil_r. left. reflexivity.
  - cbn [lookup nested] in Hl. destruct (assoc c l) as [t'|] eqn:E; [|discriminate]. pose proof (assoc_in _ _ _ E) as Hin.
    assert (Hgo : forall q, (length k + length q < m)%nat -> glob q (k ++ r) -> exists p', In (path ++ c :: k, a, p') (tree_ev fuel t' q (path ++ [c])) /\ glob p' r).
    { intros q Hq Gq. destruct (IH (length k + length q)%nat Hq fuel t' q (path ++ [c]) k a r (le_n _) ltac:(lia) Hl Gq) as (p' & H1 & H2).
      exists p'. rewrite <- app_assoc in H1. auto. }
    cbn [length] in Hm. cbn [app] in G. inversion G as [|c0 p s Hc1 Hc2 G' E1 E2|c0 p s G' E1 E2|p s G' E1 E2|c0 p s G' E1 E2]; subst; cbn [length] in Hm.
    + destruct (Hgo p ltac:(lia) G') as (p' & H1 & H2). exists p'. split; [|assumption]. cbn [tree_ev nested]. apply in_or_app. left.
      destruct (N.eqb_spec c 63); [contradiction|]. destruct (N.eqb_spec c 42); [contradiction|].
      apply in_flat_map. exists (c, t'). split; [assumption|]. cbn [fst snd]. rewrite N.eqb_refl. assumption.
    + destruct (Hgo p ltac:(lia) G') as (p' & H1 & H2). exists p'. split; [|assumption]. cbn [tree_ev nested]. apply in_or_app. left.
      change (63 =? 63) with true. cbn iota. apply in_flat_map. exists (c, t'). auto.
    + destruct p as [|b p]; [inversion G'|].
      destruct (IH (length (c :: k) + length (b :: p))%nat ltac:(cbn [length] in *; lia) fuel (WNode l d) (b :: p) path (c :: k) a r (le_n _) ltac:(cbn [length] in *; lia)) as (p' & H1 & H2).
      * cbn [lookup nested]. rewrite E. assumption.
      * assumption.
      * exists p'. split; [|assumption]. cbn [tree_ev]. apply in_or_app. left. change (42 =? 63) with false. change (42 =? 42) with true. cbn iota.
        apply in_or_app. left. assumption.
    + destruct (Hgo (42 :: p) ltac:(cbn [length]; lia) G') as (p' & H1 & H2). exists p'. split; [|assumption]. cbn [tree_ev nested]. apply in_or_app. left.
      change (42 =? 63) with false. change (42 =? 42) with true. cbn iota. apply in_or_app. right. apply in_flat_map. exists (c, t'). auto.
Qed.

Lemma putserial_ne n : putserial n <> [].
Proof. unfold putserial. cbn [putserial_loop]. destruct (n <? 128); discriminate. Qed.

Section Tree.
  Context {St X : Type}.
  Variable target : N -> N -> bytes -> bytes -> bytes -> nat -> St -> wres St.
  Variable tgt : St -> X -> res (St * Z).
  Variable hit : bytes -> list entry -> bytes -> list X.
  Variable size : nat.
  Variable P : bytes -> list entry -> Prop.
  Hypothesis Hitem : forall path l pat junk mem s, P path l -> length mem = size -> firstn (length path) mem = path -> (length path <= size)%nat ->
    does (wild_list target (stems_ser l ++ junk) pat mem (length path) s) (length path) mem (until_nonzero tgt (hit path l pat) s).
  Notation sser t := (serialize C8 stems_ser stems_len t).

  Definition hits (v : bytes * list entry * bytes) : list X := hit (fst (fst v)) (snd (fst v)) (snd v).

  Lemma sser_shorter c t (l : list (N * wtree (list entry))) d : In (c, t) l -> (length (sser t) < length (sser (WNode l d)))%nat.
  Proof.
    intros H. rewrite (serialize_eq C8 stems_ser stems_len). rewrite !app_length.
    enough (length (sser t) < length (serializes C8 stems_ser stems_len l))%nat by lia.
    induction l as [|[c' t'] l IH]; [destruct H|]. unfold serializes. cbn [flat_map fst snd]. rewrite app_length. cbn [length]. rewrite app_length.
    destruct H as [[= -> ->]|H]; [lia|]. specialize (IH H). unfold serializes in IH. lia.
  Qed.

  Lemma getsub c t rest : all_data (sized stems_ser stems_len) t -> getbuflen C8 stems_len t < 2 ^ 32 ->
    getchild (c :: putserial (getbuflen C8 stems_len t) ++ sser t ++ rest) = Ok (c, sser t ++ rest, rest).
  Proof. intros H1 H2. apply getchild_put; [symmetry; apply sized_len; assumption|assumption]. Qed.

  Lemma wild_skip_stems (l : list (N * wtree (list entry))) rest :
    (forall c t, In (c, t) l -> getbuflen C8 stems_len t < 2 ^ 32 /\ all_data (sized stems_ser stems_len) t) ->
    wild_skip (length l) (serializes C8 stems_ser stems_len l ++ rest) = Ok rest.
  Proof.
    induction l as [|[c t] l IH]; intros H; [reflexivity|]. cbn [length wild_skip]. unfold serializes. cbn [flat_map fst snd].
    cbn [app]. rewrite <- !app_assoc. destruct (H c t (or_introl eq_refl)) as [H1 H2].
    rewrite getsub by assumption. cbn [bind]. apply IH. intros c' t' Hin. apply (H c'). right. exact Hin.
  Qed.

  Lemma wild_tree_does fuel : forall t pat path h rest mem s,
    dumpable C8 stems_len t -> all_data (sized stems_ser stems_len) t -> within h t -> (length (sser t) + length pat < fuel)%nat ->
    rest <> [] \/ lookup [] t <> None -> length mem = size -> firstn (length path) mem = path -> (length path + h < size)%nat ->
    (forall k l, lookup k t = Some l -> P (path ++ k) l) ->
    does (wild_tree target fuel (sser t ++ rest) pat mem (length path) s) (length path) mem
         (until_nonzero tgt (flat_map hits (tree_ev fuel t pat path)) s).
  Proof.
    induction fuel as [|fuel IH]; intros t pat path h rest mem s Hdump Hdata; [intros; lia|].
    destruct t as [l d]. inversion Hdump as [? ? Hdesc _ Hcnt Hsub]; subst. inversion Hdata as [? ? Hd1 Hd2]; subst.
    intros Hh Hf Hrest Hsz Hpath Hroom HP.
    cbn [wild_tree tree_ev nested p_data]. remember (length path) as n eqn:En.
    pose proof (serialize_eq C8 stems_ser stems_len l d) as Eser.
    rewrite Eser at 1. rewrite <- !app_assoc.
    destruct (getcounter_store C8 (length l) (is_some d) (serializes C8 stems_ser stems_len l ++ ser_opt stems_ser d ++ rest) Hcnt) as (a & -> & Eup & Elow).
    cbn [bind]. rewrite Eup, Elow.
    assert (Hchild : forall c t', In (c, t') l -> exists h', h = S h' /\ dumpable C8 stems_len t' /\ all_data (sized stems_ser stems_len) t' /\ within h' t' /\
              (length (sser t') < length (sser (WNode l d)))%nat /\ getbuflen C8 stems_len t' < 2 ^ 32 /\
              forall k el, lookup k t' = Some el -> P ((path ++ [c]) ++ k) el).
    { intros c t' Hin. destruct h as [|h']; [cbn in Hh; rewrite Hh in Hin; destruct Hin|].
      exists h'. split; [reflexivity|]. split; [apply (Hsub c); assumption|]. split; [apply (Hd2 c); assumption|].
      split; [apply (Hh c); assumption|]. split; [apply (sser_shorter c); assumption|]. split; [apply (Hsub c); assumption|].
      intros k el Hk. rewrite <- app_assoc. apply HP. cbn [app lookup nested]. rewrite (assoc_first c t') by assumption. assumption. }
    set (q := ser_opt stems_ser d ++ rest).
    assert (Hq : exists b q', q = b :: q').
    { destruct q as [|b q'] eqn:E; [|eauto]. apply app_eq_nil in E. destruct E as [E' E]. destruct Hrest as [Hr|Hr]; [contradiction|].
      destruct d as [el|]; [|cbn in Hr; congruence]. cbn [ser_opt] in E'. unfold stems_ser in E'. apply app_eq_nil in E'. destruct E' as [E' _].
      exfalso. exact (putserial_ne _ E'). }
    assert (Hgo : forall c t' junk mem' s inf, In (c, t') l -> junk <> [] -> (length inf <= length pat)%nat -> length mem' = size ->
      firstn (S n) mem' = path ++ [c] ->
      does (wild_tree target fuel (sser t' ++ junk) inf mem' (S n) s) (S n) mem'
        (until_nonzero tgt (flat_map hits (tree_ev fuel t' inf (path ++ [c]))) s)).
    { intros c t' junk mem' s' inf Hin Hj Hinf L F. destruct (Hchild c t' Hin) as (h' & -> & H1 & H2 & H3 & H4 & H5 & H6).
      replace (S n) with (length (path ++ [c])) in * by (rewrite app_length; cbn [length]; lia).
      apply IH with h'; try assumption; [lia|left; assumption|]. rewrite app_length. cbn [length]. lia. }
    assert (Hne : forall k, serializes C8 stems_ser stems_len k ++ q <> []).
    { intros k E. apply app_eq_nil in E. destruct E as [_ E]. destruct Hq as (b & q' & Hq). congruence. }
    rewrite flat_map_app.
    apply does_appp with (p := q).
    - destruct pat as [|ch next].
      + rewrite wild_skip_stems.
        * cbn. exists q, mem. auto.
        * intros c t' Hin. destruct (Hchild c t' Hin) as (? & _ & _ & ? & _ & _ & ? & _). auto.
      + cbn [length] in Hf, Hgo.
        (* loop over all children with continuation pattern [inf] *)
        assert (Hall : forall inf, (length inf <= S (length next))%nat -> forall k, (forall c t', In (c, t') k -> In (c, t') l) -> forall mem s, length mem = size -> firstn n mem = path ->
          doesp (wild_all (fun subdic mem s => wild_tree target fuel subdic inf mem (S n) s) n (length k)
                   (serializes C8 stems_ser stems_len k ++ q) mem s) n mem q
            (until_nonzero tgt (flat_map hits (flat_map (fun ct => tree_ev fuel (snd ct) inf (path ++ [fst ct])) k)) s)).
        { intros inf Hinf k. induction k as [|[c t'] k IHk]; intros Hk mem0 s0 L F.
          - cbn [length wild_all serializes flat_map app until_nonzero]. destruct Hq as (b & q' & ->). cbn [rd bind].
            destruct (write_facts mem0 n b) as (mem1 & -> & L1 & F1 & F1'); [lia|]. cbn [bind].
            exists (b :: q'), mem1. auto.
          - cbn [length wild_all]. unfold serializes. cbn [flat_map fst snd]. fold (serializes C8 stems_ser stems_len k).
            cbn [app rd bind]. rewrite <- !app_assoc.
            destruct (write_facts mem0 n c) as (mem1 & -> & L1 & F1 & F1'); [lia|]. cbn [bind].
            destruct (Hchild c t' (Hk c t' (or_introl eq_refl))) as (h' & Eh & H1 & H2 & H3 & H4 & H5 & H6).
            rewrite getsub by assumption. cbn [bind]. rewrite flat_map_app.
            apply doesp_from with mem1; [|assumption|assumption].
            apply doesp_app.
            + apply does_less. apply Hgo; [apply Hk; left; reflexivity|apply Hne|assumption|congruence|congruence].
            + intros mem2 s2 L2 F2. apply IHk; [intros; apply Hk; right; assumption|congruence|congruence]. }
        destruct (ch =? 63); [|destruct (ch =? 42)].
        * apply Hall; [lia|auto|assumption|assumption].
        * rewrite flat_map_app. apply doesp_app.
          -- destruct next as [|b next]; [apply does_ok|]. rewrite En. apply IH with h; try assumption; try lia; rewrite <- En; assumption.
          -- intros mem1 s1 L1 F1. apply Hall; [cbn [length]; lia|auto|congruence|congruence].
        * enough (G : forall k, (forall c t', In (c, t') k -> In (c, t') l) -> forall mem s, length mem = size -> firstn n mem = path ->
            doesp (wild_one (fun subdic mem s => wild_tree target fuel subdic next mem (S n) s) n ch (length k)
                   (serializes C8 stems_ser stems_len k ++ q) mem s) n mem q
              (until_nonzero tgt (flat_map hits (flat_map (fun ct => if fst ct =? ch then tree_ev fuel (snd ct) next (path ++ [fst ct]) else []) k)) s))
            by (apply G; auto).
          intros k. induction k as [|[c t'] k IHk]; intros Hk mem0 s0 L F.
          -- cbn. exists q, mem0. auto.
          -- cbn [length wild_one]. unfold serializes. cbn [flat_map fst snd]. fold (serializes C8 stems_ser stems_len k). cbn [app]. rewrite <- !app_assoc.
             destruct (Hchild c t' (Hk c t' (or_introl eq_refl))) as (h' & Eh & H1 & H2 & H3 & H4 & H5 & H6).
             rewrite getsub by assumption. cbn [bind].
             destruct (write_facts mem0 n c) as (mem1 & -> & L1 & F1 & F1'); [lia|]. cbn [bind].
             apply doesp_from with mem1; [|assumption|assumption].
             destruct (c =? ch); cbn [negb].
             ++ rewrite flat_map_app. apply doesp_app.
                ** apply does_less. apply Hgo; [apply Hk; left; reflexivity|apply Hne|lia|congruence|congruence].
                ** intros mem2 s2 L2 F2. apply IHk; [intros; apply Hk; right; assumption|congruence|congruence].
             ++ cbn [app]. apply IHk; [intros; apply Hk; right; assumption|congruence|congruence].
    - intros mem1 s1 L1 F1. destruct d as [el|]; cbn [is_some]; [|apply does_ok].
      cbn [flat_map]. rewrite app_nil_r. unfold hits at 1. cbn [fst snd]. unfold q. cbn [ser_opt]. rewrite En.
      apply Hitem; [|congruence|congruence|lia].
      replace path with (path ++ []) by apply app_nil_r. apply HP. reflexivity.
  Qed.
End Tree.
