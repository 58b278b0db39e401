(** * WildProofs4: the whole search by pattern. *)
From Verif Require Import Base Serial SerialProofs WordTree TreeSpec WordTreeProofs FlatScan FlatScanProofs TreeWalk Stems StemSpec StemsProofs GramMap
  CharTables CapScheme CapSpec CapProofs CapProofs2 RusRuntime RusBuild RusSpec RusProofs RusProofs2 RusProofs3 Wild WildSpec WildProofs WildProofs2 WildProofs3.
Local Open Scope N_scope.

(** ** Delivering the matches *)
Lemma runs_started evs : forall lid m (ms : list (bytes * N)),
  exists more rest, runs (map (fun x => (lid, fst x, snd x)) (m :: ms) ++ evs) = (lid, m :: ms ++ more) :: rest /\
    (match evs with [] => True | (lid', _, _) :: _ => lid' <> lid end -> more = [] /\ rest = runs evs).
Proof.
  intros lid m ms. revert m. induction ms as [|m' ms IH]; intros m.
  - cbn [map app fst snd]. destruct m as [str id]. cbn [fst snd runs]. destruct evs as [|[[lid' str'] id'] evs].
    + exists [], []. cbn. auto.
    + assert (K : exists ms' rest', runs ((lid', str', id') :: evs) = (lid', ms') :: rest').
      { cbn [runs]. destruct (runs evs) as [|[l2 m2] r2]; [eauto|]. destruct (lid' =? l2); eauto. }
      destruct K as (ms' & rest' & K). rewrite K. destruct (N.eqb_spec lid lid') as [->|Hne].
      * exists ms', rest'. split; [reflexivity|]. intros H. contradiction.
      * exists [], ((lid', ms') :: rest'). split; [reflexivity|]. auto.
  - destruct (IH m') as (more & rest & E & H). destruct m as [str id]. exists more, rest.
    change (map (fun x : bytes * N => (lid, fst x, snd x)) ((str, id) :: m' :: ms) ++ evs)
      with ((lid, str, id) :: (map (fun x : bytes * N => (lid, fst x, snd x)) (m' :: ms) ++ evs)).
    cbn [runs]. rewrite E. rewrite N.eqb_refl. auto.
Qed.

Definition room_of (ms : list (bytes * N)) : N := fold_right (fun m n => N.of_nat (length (fst m)) + 1 + n) 0 ms.
Lemma room_app a b : room_of (a ++ b) = room_of a + room_of b.
Proof. induction a as [|x a IH]; [reflexivity|]. cbn [app room_of fold_right]. fold (room_of (a ++ b)) (room_of a). rewrite IH. lia. Qed.

Section Deliver.
  Context {U : Type}.
  Variable add : U -> N -> list (bytes * N) -> U * Z.
  Definition tgt (s : reglex_state) (x : N * bytes * gram) : res (reglex_state * Z) :=
    reglex add (fst (fst x)) (snd (fst x)) (snd x) s.
  Definition told (x : N * bytes * gram) : N * bytes * N := (fst x, gidForm (snd x)).

  Lemma deliver_cons c calls (u : U) : calls <> [] -> deliver add (c :: calls) u = deliver add calls (fst (add u (fst c) (snd c))).
  Proof. destruct c as [lid ms]. destruct calls; [contradiction|reflexivity]. Qed.

  Lemma runs_nonempty x evs : runs (x :: evs) <> [].
  Proof. destruct x as [[lid str] id]. cbn [runs]. destruct (runs evs) as [|[l2 m2] r2]; [discriminate|]. destruct (lid =? l2); discriminate. Qed.

  Lemma tgt_run (xs : list (N * bytes * gram)) : Forall (fun x => fst (fst x) <> 0) xs -> forall lid m ms u,
    lid <> 0 -> Forall call_fits (runs (map (fun x => (lid, fst x, snd x)) (m :: ms) ++ map told xs)) ->
    exists lid' ms' used' u', lid' <> 0 /\
      until_nonzero tgt xs (Reglex lid (m :: ms) (Some (room_of (m :: ms))) u) = Ok (Reglex lid' ms' (Some used') u', 0%Z) /\
      deliver add (runs (map (fun x => (lid, fst x, snd x)) (m :: ms) ++ map told xs)) u = add u' lid' ms'.
  Proof.
    induction xs as [|[[l str] gr] xs IH]; intros Hid lid m ms u Hlid Hfit.
    - exists lid, (m :: ms), (room_of (m :: ms)), u. split; [assumption|]. split; [reflexivity|].
      destruct (runs_started [] lid m ms) as (more & rest & E & H). destruct (H I) as [-> ->].
      change (map told []) with (@nil (N * bytes * N)). rewrite E. cbn [runs deliver]. rewrite app_nil_r. reflexivity.
    - inversion Hid as [|? ? Hl Hid']; subst. cbn [fst] in Hl.
      change (map told ((l, str, gr) :: xs)) with ((l, str, gidForm gr) :: map told xs) in *.
      cbn [until_nonzero]. unfold tgt at 1. cbn [fst snd]. unfold reglex at 1. cbn [rg_last].
      destruct (N.eqb_spec l lid) as [->|Hne].
      + assert (E : (map (fun x : bytes * N => (lid, fst x, snd x)) (m :: ms) ++ (lid, str, gidForm gr) :: map told xs)
                    = map (fun x : bytes * N => (lid, fst x, snd x)) (m :: ms ++ [(str, gidForm gr)]) ++ map told xs).
        { cbn [map app]. rewrite map_app, <- app_assoc. reflexivity. }
        assert (F : (length (m :: ms ++ [(str, gidForm gr)]) <= 512)%nat /\ room_of (m :: ms ++ [(str, gidForm gr)]) <= 24576).
        { rewrite E in Hfit. destruct (runs_started (map told xs) lid m (ms ++ [(str, gidForm gr)])) as (more & rest & E' & _).
          rewrite E' in Hfit. inversion Hfit as [|? ? [F1 F2] _]; subst. cbn [snd] in F1, F2.
          change (m :: (ms ++ [(str, gidForm gr)]) ++ more) with ((m :: ms ++ [(str, gidForm gr)]) ++ more) in F1, F2.
          rewrite app_length in F1. fold (room_of ((m :: ms ++ [(str, gidForm gr)]) ++ more)) in F2. rewrite room_app in F2. split; lia. }
        cbn [rg_forms rg_match rg_user rg_last].
        change (m :: ms ++ [(str, gidForm gr)]) with ((m :: ms) ++ [(str, gidForm gr)]) in F.
        rewrite app_length, room_app in F. cbn [length] in F.
        assert (R : room_of [(str, gidForm gr)] = N.of_nat (length str) + 1) by (cbn [room_of fold_right fst]; lia).
        rewrite R in F. destruct F as [F1 F2].
        destruct (N.leb_spec 512 (N.of_nat (length (m :: ms)))); [cbn [length] in *; lia|].
        destruct (N.ltb_spec 24576 (room_of (m :: ms) + N.of_nat (length str) + 1)); [lia|]. cbn [orb bind].
        change (Z.eqb 0 0) with true. cbn iota.
        destruct (IH Hid' lid m (ms ++ [(str, gidForm gr)]) u Hlid) as (lid' & ms' & used' & u' & H1 & H2 & H3); [rewrite <- E; exact Hfit|].
        exists lid', ms', used', u'. split; [assumption|]. split; [|rewrite E; exact H3].
        rewrite <- H2. f_equal. f_equal. f_equal. change (m :: ms ++ [(str, gidForm gr)]) with ((m :: ms) ++ [(str, gidForm gr)]). rewrite room_app, R. lia.
      + destruct (N.eqb_spec lid 0); [contradiction|]. cbn [rg_forms rg_match rg_user rg_last length].
        destruct (runs_started ((l, str, gidForm gr) :: map told xs) lid m ms) as (more & rest & E & H). destruct (H Hne) as [-> ->].
        rewrite app_nil_r in E. rewrite E in Hfit. pose proof (Forall_inv_tail Hfit) as Hfit'.
        assert (F : N.of_nat (length str) + 1 <= 24576).
        { destruct (runs_started (map told xs) l (str, gidForm gr) []) as (more & rest & E' & _). cbn [map app fst snd] in E'. rewrite E' in Hfit'.
          inversion Hfit' as [|? ? [_ F] _]; subst. cbn [snd fold_right fst] in F. lia. }
        change (512 <=? N.of_nat 0) with false. destruct (N.ltb_spec 24576 (0 + N.of_nat (length str) + 1)); [lia|]. cbn [orb bind app].
        change (Z.eqb 0 0) with true. cbn iota.
        destruct (IH Hid' l (str, gidForm gr) [] (fst (add u lid (m :: ms))) Hl Hfit') as (lid' & ms' & used' & u' & H1 & H2 & H3).
        exists lid', ms', used', u'. split; [assumption|]. split.
        * rewrite <- H2. f_equal. f_equal. f_equal. cbn [room_of fold_right fst]. lia.
        * rewrite E, deliver_cons by apply runs_nonempty. cbn [fst snd]. exact H3.
  Qed.

  Lemma tgt_all (xs : list (N * bytes * gram)) u : Forall (fun x => fst (fst x) <> 0) xs -> Forall call_fits (runs (map told xs)) ->
    exists s, until_nonzero tgt xs (Reglex 0 [] None u) = Ok (s, 0%Z) /\
      (if rg_last s =? 0 then Ok (rg_user s, 0%Z) else Ok (add (rg_user s) (rg_last s) (rg_match s))) = Ok (deliver add (runs (map told xs)) u).
  Proof.
    destruct xs as [|[[l str] gr] xs]; intros Hid Hfit; [exists (Reglex 0 [] None u); auto|].
    inversion Hid as [|? ? Hl Hid']; subst. cbn [fst] in Hl. cbn [map] in *. change (told (l, str, gr)) with (l, str, gidForm gr) in *.
    cbn [until_nonzero]. unfold tgt at 1. cbn [fst snd]. unfold reglex at 1. cbn [rg_last].
    destruct (N.eqb_spec l 0); [contradiction|]. change (0 =? 0) with true. cbn iota. cbn [rg_forms rg_match rg_user rg_last length].
    assert (F : N.of_nat (length str) + 1 <= 24576).
    { destruct (runs_started (map told xs) l (str, gidForm gr) []) as (more & rest & E' & _). cbn [map app fst snd] in E'. rewrite E' in Hfit.
      inversion Hfit as [|? ? [_ F] _]; subst. cbn [snd fold_right fst] in F. lia. }
    change (512 <=? N.of_nat 0) with false. destruct (N.ltb_spec 24576 (0 + N.of_nat (length str) + 1)); [lia|]. cbn [orb bind app].
    change (Z.eqb 0 0) with true. cbn iota.
    destruct (tgt_run xs Hid' l (str, gidForm gr) [] u Hl Hfit) as (lid' & ms' & used' & u' & H1 & H2 & H3).
    exists (Reglex lid' ms' (Some used') u'). split.
    - rewrite <- H2. f_equal. f_equal. f_equal. cbn [room_of fold_right fst]. lia.
    - cbn [rg_last rg_user rg_match]. destruct (N.eqb_spec lid' 0); [contradiction|]. f_equal. symmetry. exact H3.
  Qed.

  Lemma fits_dec call : {call_fits call} + {~ call_fits call}.
  Proof.
    unfold call_fits. destruct (le_dec (length (snd call)) 512) as [H|H]; [|right; tauto].
destruct (N.leb_spec0 (fold_right (fun m n => N.of_nat (length (fst m)) + 1 + n) 0 (snd call)) 24576) as [K'|K']; [left; tauto|right; tauto].
  Qed.

  (** one more match for the lexeme being collected *)
  Lemma reglex_more lid (m : bytes * N) ms str gr u :
    reglex add lid str gr (Reglex lid (m :: ms) (Some (room_of (m :: ms))) u) =
    if fits_dec (lid, m :: ms ++ [(str, gidForm gr)])
    then Ok (Reglex lid (m :: ms ++ [(str, gidForm gr)]) (Some (room_of (m :: ms ++ [(str, gidForm gr)]))) u, 0%Z) else Ub.
  Proof.
    unfold reglex. cbn [rg_last]. rewrite N.eqb_refl. cbn [rg_forms rg_match rg_user rg_last].
    assert (R : room_of (m :: ms ++ [(str, gidForm gr)]) = room_of (m :: ms) + N.of_nat (length str) + 1).
    { change (m :: ms ++ [(str, gidForm gr)]) with ((m :: ms) ++ [(str, gidForm gr)]). rewrite room_app. cbn [room_of fold_right fst]. lia. }
    assert (Q : length (m :: ms ++ [(str, gidForm gr)]) = S (length (m :: ms))) by (cbn [length]; rewrite app_length; cbn [length]; lia).
    rewrite R.
    destruct (fits_dec (lid, m :: ms ++ [(str, gidForm gr)])) as [[F1 F2]|F]; cbn [snd] in *.
    - fold (room_of (m :: ms ++ [(str, gidForm gr)])) in F2. rewrite R in F2. rewrite Q in F1.
      destruct (N.leb_spec 512 (N.of_nat (length (m :: ms)))); [lia|].
      destruct (N.ltb_spec 24576 (room_of (m :: ms) + N.of_nat (length str) + 1)); [lia|]. reflexivity.
    - destruct (N.leb_spec 512 (N.of_nat (length (m :: ms)))); [reflexivity|].
      destruct (N.ltb_spec 24576 (room_of (m :: ms) + N.of_nat (length str) + 1)); [reflexivity|].
      exfalso. apply F. split; cbn [snd]; [rewrite Q; lia|]. fold (room_of (m :: ms ++ [(str, gidForm gr)])). rewrite R. lia.
  Qed.

  Lemma tgt_over (xs : list (N * bytes * gram)) : Forall (fun x => fst (fst x) <> 0) xs -> forall lid m ms u,
    lid <> 0 -> call_fits (lid, m :: ms) -> ~ Forall call_fits (runs (map (fun x => (lid, fst x, snd x)) (m :: ms) ++ map told xs)) ->
    until_nonzero tgt xs (Reglex lid (m :: ms) (Some (room_of (m :: ms))) u) = Ub.
  Proof.
    induction xs as [|[[l str] gr] xs IH]; intros Hid lid m ms u Hlid Hnow Hfit.
    - exfalso. apply Hfit. destruct (runs_started [] lid m ms) as (more & rest & E & H). destruct (H I) as [-> ->].
      change (map told []) with (@nil (N * bytes * N)). rewrite E. rewrite app_nil_r. constructor; [assumption|constructor].
    - inversion Hid as [|? ? Hl Hid']; subst. cbn [fst] in Hl.
      change (map told ((l, str, gr) :: xs)) with ((l, str, gidForm gr) :: map told xs) in *.
      cbn [until_nonzero]. unfold tgt at 1. cbn [fst snd].
      destruct (N.eq_dec l lid) as [->|Hne].
      + rewrite reglex_more. destruct (fits_dec (lid, m :: ms ++ [(str, gidForm gr)])) as [F|F]; [|reflexivity]. cbn [bind].
        change (Z.eqb 0 0) with true. cbn iota. apply IH; try assumption.
        replace (map (fun x : bytes * N => (lid, fst x, snd x)) (m :: ms ++ [(str, gidForm gr)]) ++ map told xs)
          with (map (fun x : bytes * N => (lid, fst x, snd x)) (m :: ms) ++ (lid, str, gidForm gr) :: map told xs); [exact Hfit|].
        cbn [map app]. rewrite map_app, <- app_assoc. reflexivity.
      + unfold reglex at 1. cbn [rg_last]. destruct (N.eqb_spec l lid); [contradiction|]. destruct (N.eqb_spec lid 0); [contradiction|].
        cbn [rg_forms rg_match rg_user rg_last length].
        destruct (runs_started ((l, str, gidForm gr) :: map told xs) lid m ms) as (more & rest & E & H). destruct (H Hne) as [-> ->].
        rewrite app_nil_r in E. rewrite E in Hfit.
        change (512 <=? N.of_nat 0) with false. destruct (N.ltb_spec 24576 (0 + N.of_nat (length str) + 1)) as [|Hroom]; [reflexivity|]. cbn [orb bind app].
        change (Z.eqb 0 0) with true. cbn iota.
        replace (0 + N.of_nat (length str) + 1) with (room_of [(str, gidForm gr)]) by (cbn [room_of fold_right fst]; lia).
        apply IH; try assumption.
        * split; cbn [snd length fold_right fst]; lia.
        * intros F. apply Hfit. constructor; assumption.
  Qed.

  Lemma tgt_all_over (xs : list (N * bytes * gram)) u : Forall (fun x => fst (fst x) <> 0) xs -> ~ Forall call_fits (runs (map told xs)) ->
    until_nonzero tgt xs (Reglex 0 [] None u) = Ub.
  Proof.
    destruct xs as [|[[l str] gr] xs]; intros Hid Hfit; [exfalso; apply Hfit; constructor|].
    inversion Hid as [|? ? Hl Hid']; subst. cbn [fst] in Hl. change (map told ((l, str, gr) :: xs)) with ((l, str, gidForm gr) :: map told xs) in *.
    cbn [until_nonzero]. unfold tgt at 1. cbn [fst snd]. unfold reglex at 1. cbn [rg_last].
    destruct (N.eqb_spec l 0); [contradiction|]. change (0 =? 0) with true. cbn iota. cbn [rg_forms rg_match rg_user rg_last length].
    change (512 <=? N.of_nat 0) with false. destruct (N.ltb_spec 24576 (0 + N.of_nat (length str) + 1)) as [|Hroom]; [reflexivity|]. cbn [orb bind app].
    change (Z.eqb 0 0) with true. cbn iota.
    replace (0 + N.of_nat (length str) + 1) with (room_of [(str, gidForm gr)]) by (cbn [room_of fold_right fst]; lia).
    apply tgt_over; try assumption. split; cbn [snd length fold_right fst]; lia.
  Qed.
End Deliver.

(** ** The matches of a dictionary *)
Definition entry_ev (A : arrays) (L : lexicon) (pat path : bytes) (e : entry) : list (N * bytes * gram) :=
  match class_of L (oclass e) with
  | Some (st, c) => map (fun x : bytes * gram => (nlexid e, fst x, snd x)) (class_ev A st c pat (stpost e) path)
  | None => []
  end.
Definition list_ev (A : arrays) (L : lexicon) (path : bytes) (l : list entry) (pat : bytes) : list (N * bytes * gram) :=
  flat_map (entry_ev A L pat path) (stems_sel pat l).
Definition dict_ev (A : arrays) (L : lexicon) (fuel : nat) (pat : bytes) : list (N * bytes * gram) :=
  flat_map (hits (list_ev A L)) (tree_ev fuel (words L) pat []).

Section Dict.
  Variable A : arrays.
  Variable L : lexicon.
  Hypothesis HL : holds A L.
  Hypothesis Hfix : fixed_plain L.
  Hypothesis Hroom : strings_within 47 L.

  Lemma class_here key e : has_record (words L) key e -> exists st c room, class_of L (oclass e) = Some (st, c) /\ class_at A (oclass e) st /\
    class_repr A st c /\ oclass e < 2 ^ 15 /\ (c_flex c = None -> stpost e = []) /\ class_room c room /\
    (c_flex c <> None -> length key + room + length (stpost e) <= 47)%nat.
  Proof.
    intros Hr. destruct (holds_classes A L HL key e Hr) as (st & c & E & H1 & H2).
    assert (He : entry_ok e).
    { destruct Hr as (l & Hl & Hin). destruct (holds_lists A L HL key l Hl) as [[Hok _] _]. rewrite Forall_forall in Hok. apply Hok. assumption. }
    destruct (c_flex c) as [ft|] eqn:Eflex.
    - destruct (proj2 Hroom key e st c ft Hr E Eflex) as (h & a & G1 & G2 & G3).
      exists st, c, (a + h)%nat. repeat (split; [first [assumption | apply He | discriminate]|]). split; [intros Hn; congruence|]. split; [|intros _; lia].
      intros ft' E'. assert (ft' = ft) by congruence. subst ft'. exists h, a. auto.
    - exists st, c, 0%nat. repeat (split; [first [assumption | apply He]|]). split; [intros _; eapply Hfix; eassumption|].
      split; [|intros C; congruence]. intros ft' E'. congruence.
  Qed.

  Lemma list_does {U} (add : U -> N -> list (bytes * N) -> U * Z) path l pt junk mem s : lookup path (words L) = Some l -> length mem = 48%nat -> firstn (length path) mem = path ->
    (length path <= 48)%nat ->
    does (wild_list (match_model A (reglex add)) (stems_ser l ++ junk) pt mem (length path) s) (length path) mem
         (until_nonzero (tgt add) (list_ev A L path l pt) s).
  Proof.
    intros Hl Hmem Hpath Hlen. unfold list_ev. apply wild_list_does; [apply (holds_lists A L HL path l Hl)|].
    intros e mem' s' Hin L' F'. assert (Hr : has_record (words L) path e) by (exists l; auto).
    destruct (class_here path e Hr) as (st & c & room & E & H1 & H2 & H3 & H4 & H5 & H6). unfold entry_ev. rewrite E. rewrite until_map.
    destruct (match_model_ev A st c (oclass e) (nlexid e) pt (stpost e) path room H1 H2 H3 H4 H5) as [H _].
    apply (H reglex_state (reglex add)).
    - congruence.
    - congruence.
    - intros Hne. specialize (H6 Hne). rewrite L', Hmem. lia.
  Qed.

  Lemma dict_does {U} (add : U -> N -> list (bytes * N) -> U * Z) pt rest mem s : stemtree A = stemtree_bytes (words L) ++ rest -> rest <> [] \/ lookup [] (words L) <> None -> length mem = 48%nat ->
    does (wild_tree (match_model A (reglex add)) (S (length (stemtree A) + length pt)) (stemtree A) pt mem 0 s) 0 mem
         (until_nonzero (tgt add) (dict_ev A L (S (length (stemtree A) + length pt)) pt) s).
  Proof.
    intros E Hne Hmem. rewrite E at 2. unfold stemtree_bytes, dict_ev.
    apply (wild_tree_does (match_model A (reglex add)) (tgt add) (list_ev A L) 48
             (fun path l => lookup path (words L) = Some l)) with (h := 47%nat) (path := []); try assumption.
    - intros path l pat junk mem' s' Hl Hm Hp Hle. apply list_does; assumption.
    - apply (holds_dump A L HL).
    - apply lookup_all_data; [apply (holds_ordered A L HL)|]. intros key l Hl. apply stems_ser_len. apply (holds_lists A L HL key l Hl).
    - apply (proj1 Hroom).
    - rewrite E, app_length. unfold stemtree_bytes. lia.
    - reflexivity.
    - cbn [length]. lia.
    - intros k l Hl. exact Hl.
  Qed.

  Lemma dict_ev_sound fuel pt lid str gr : In (lid, str, gr) (dict_ev A L fuel pt) ->
    exists key e part, has_form L key e part str (gidForm gr) /\ nlexid e = lid /\ glob pt str.
  Proof.
    intros H. apply in_flat_map in H. destruct H as ([[k l] p'] & Hk & H). unfold hits, list_ev in H. cbn [fst snd] in H.
    apply in_flat_map in H. destruct H as (e & He & H). apply stems_sel_in in He.
    apply tree_ev_sound in Hk; [|apply (holds_ordered A L HL)]. destruct Hk as (k0 & -> & Hl & Hg). cbn [app] in *.
    assert (Hr : has_record (words L) k0 e) by (exists l; auto).
    destruct (class_here k0 e Hr) as (st & c & room & E & H1 & H2 & H3 & H4 & H5 & H6). unfold entry_ev in H. rewrite E in H.
    apply in_map_iff in H. destruct H as ([str' gr'] & Eq & H). cbn [fst snd] in Eq. injection Eq as <- -> ->.
    destruct (match_model_ev A st c (oclass e) (nlexid e) p' (stpost e) k0 room H1 H2 H3 H4 H5) as (_ & Hs & _).
    destruct (Hs str gr H) as (part & g & f & G1 & -> & G3 & G4).
    exists k0, e, part. split; [|split; [reflexivity|]].
    - split; [assumption|]. exists st, c, g, f. auto.
    - apply Hg. exact G4.
  Qed.

  Lemma dict_ev_complete pt key e part str id : bounds_ok L -> has_form L key e part str id -> glob pt str -> ~ In 42 str -> part <> [] \/ match stpost e with [] => True | b :: _ => chrmin e <= b <= chrmax e end ->
    exists gr, In (nlexid e, str, gr) (dict_ev A L (S (length (stemtree A) + length pt)) pt) /\ gidForm gr = id.
  Proof.
    intros Hb [Hr (st & c & g & f & Ec & Hform & -> & ->)] G H42 Hpart.
    destruct (class_here key e Hr) as (st' & c' & room & E & H1 & H2 & H3 & H4 & H5 & H6).
    assert (st' = st /\ c' = c) as [-> ->] by (rewrite E in Ec; injection Ec; auto).
    pose proof Hr as (l & Hl & Hin).
    destruct (tree_ev_complete (length key + length pt) (S (length (stemtree A) + length pt)) (words L) pt [] key l (part ++ stpost e) (le_n _)) as (p' & Hk & Gp).
    - destruct (holds_stems A L HL) as (rest & ->). rewrite app_length. unfold stemtree_bytes.
      pose proof (lookup_length C8 stems_ser stems_len key (words L) l Hl). lia.
    - exact Hl.
    - exact G.
    - destruct (match_model_ev A st c (oclass e) (nlexid e) p' (stpost e) key room H1 H2 H3 H4 H5) as (_ & _ & Hc).
      destruct (Hc part g f Hform Gp) as (gr & Hgr & Eid).
      { intros C. apply H42. apply in_or_app. right. exact C. }
      exists gr. split; [|exact Eid]. apply in_flat_map. exists (key, l, p'). split; [exact Hk|].
      unfold hits, list_ev. cbn [fst snd]. apply in_flat_map. exists e. split.
      + eapply stems_sel_complete; [assumption|apply (holds_lists A L HL key l Hl)|exact Gp|].
        assert (Ha : admits e part) by (eapply Hb; eassumption).
        intros ch r Er. destruct part as [|b part].
        * destruct Hpart as [C|C]; [contradiction|]. cbn [app] in Er. rewrite Er in C. exact C.
        * injection Er as -> _. eapply Ha. reflexivity.
      + unfold entry_ev. rewrite E. apply in_map_iff. exists (key ++ part ++ stpost e, gr). auto.
  Qed.
End Dict.

(** ** FindMatch *)
Lemma find_match_start {U} (add : U -> N -> list (bytes * N) -> U * Z) A w psz cch junk buf u :
  given w psz cch -> is_bytes w -> w <> [] -> (length w < 48)%nat -> (length (parts rus_casing w) <= 16)%nat -> length junk = 48%nat ->
  find_match add A junk buf psz cch u =
    (let! (_, s, nerror) := wild_tree (match_model A (reglex add)) (S (length (stemtree A) + length (map (locase rus_casing) w))) (stemtree A)
                              (map (locase rus_casing) w) buf 0 (Reglex 0 [] None u) in
     if negb (Z.eqb nerror 0) then Ok (rg_user s, nerror)
     else if rg_last s =? 0 then Ok (rg_user s, 0%Z) else Ok (add (rg_user s) (rg_last s) (rg_match s))).
Proof.
  intros Hg Hb Hne Hlen Hp Hj.
  assert (K : exists p, psz = Some p /\ firstn (length w) p = w /\ (length w <= length p)%nat /\
    (if cch =? 2 ^ 64 - 1 then let! w := cstr p in Ok (N.of_nat (length w)) else Ok cch) = Ok (N.of_nat (length w))).
  { destruct Hg as [w after Hw|w after Hz].
    - exists (w ++ after). split; [reflexivity|]. rewrite firstn_app, Nat.sub_diag, firstn_all. cbn [firstn]. rewrite app_nil_r, app_length. split; [reflexivity|]. split; [lia|].
      destruct (N.eqb_spec (N.of_nat (length w)) (2 ^ 64 - 1)); [lia|reflexivity].
    - exists (w ++ 0 :: after). split; [reflexivity|]. rewrite firstn_app, Nat.sub_diag, firstn_all. cbn [firstn]. rewrite app_nil_r, app_length. split; [reflexivity|]. split; [lia|].
      rewrite N.eqb_refl. rewrite cstr_app by assumption. reflexivity. }
  destruct K as (p & -> & Hw & Hpl & Hn). unfold find_match. rewrite Hn. cbn [bind].
  assert (length w <> 0)%nat by (destruct w; [contradiction|discriminate]).
  destruct (N.eqb_spec (N.of_nat (length w)) 0); [lia|]. destruct (N.leb_spec 48 (N.of_nat (length w))); [lia|].
  destruct (N.ltb_spec (N.of_nat (length p)) (N.of_nat (length w))); [lia|]. rewrite Nnat.Nat2N.id, Hw.
  rewrite cap_get_eq; [|apply rus_dlm|assumption|assumption|assumption]. cbn [bind].
  set (low := map (locase rus_casing) w). assert (Hlow : length low = length w) by apply map_length.
  assert (E : mem_write (overwrite (low ++ [0]) junk) (length w) 0 = Ok (low ++ 0 :: skipn (S (length w)) junk)).
  { unfold overwrite. rewrite app_length, Hlow. cbn [length]. replace (length w + 1)%nat with (S (length w)) by lia.
    rewrite <- app_assoc. cbn [app]. unfold mem_write. rewrite app_length, Hlow. cbn [length].
    destruct (Nat.ltb_spec (length w) (length w + S (length (skipn (S (length w)) junk)))); [|lia].
    rewrite <- Hlow, firstn_app, firstn_all, Nat.sub_diag, firstn_O, app_nil_r.
    rewrite skipn_app, skipn_all2 by lia. replace (S (length low) - length low)%nat with 1%nat by lia. reflexivity. }
  rewrite E. cbn [bind]. rewrite <- Hlow at 2. rewrite firstn_app, firstn_all, Nat.sub_diag, firstn_O, app_nil_r, Hlow. reflexivity.
Qed.

Lemma find_match_eq A L w psz cch rest : holds A L -> fixed_plain L -> strings_within 47 L ->
  stemtree A = stemtree_bytes (words L) ++ rest -> rest <> [] \/ lookup [] (words L) <> None ->
  (forall key e, has_record (words L) key e -> nlexid e <> 0) ->
  given w psz cch -> is_bytes w -> w <> [] -> (length w < 48)%nat -> (length (parts rus_casing w) <= 16)%nat ->
  exists evs : list (N * bytes * N),
    (forall U (add : U -> N -> list (bytes * N) -> U * Z) junk buf u, length junk = 48%nat -> length buf = 48%nat ->
       (Forall call_fits (runs evs) -> find_match add A junk buf psz cch u = Ok (deliver add (runs evs) u)) /\
       (~ Forall call_fits (runs evs) -> find_match add A junk buf psz cch u = Ub)) /\
    (forall lid str id, In (lid, str, id) evs -> matching L (map (locase rus_casing) w) lid str id) /\
    (bounds_ok L -> forall key e part str id, has_form L key e part str id -> glob (map (locase rus_casing) w) str -> ~ In 42 str ->
       part <> [] \/ match stpost e with [] => True | b :: _ => chrmin e <= b <= chrmax e end -> In (nlexid e, str, id) evs).
Proof.
  intros HL Hfix Hroom Erest Hne Hids Hg Hb Hw Hlen Hp.
  set (low := map (locase rus_casing) w). set (xs := dict_ev A L (S (length (stemtree A) + length low)) low).
  exists (map told xs). split; [|split].
  - intros U add junk buf u Hj Hbuf. rewrite find_match_start with (w := w) by assumption. fold low.
    pose proof (dict_does A L HL Hfix Hroom add low rest buf (Reglex 0 [] None u) Erest Hne Hbuf) as D. fold xs in D.
    assert (Hz : Forall (fun x : N * bytes * gram => fst (fst x) <> 0) xs).
    { apply Forall_forall. intros [[lid str] gr] Hin. cbn [fst]. destruct (dict_ev_sound A L HL Hfix Hroom _ _ _ _ _ Hin) as (key & e & part & [Hr _] & <- & _). apply (Hids key e Hr). }
    split; intros Hfit.
    + destruct (tgt_all add xs u Hz Hfit) as (s & E1 & E2). rewrite E1 in D. destruct D as (mem' & -> & _). cbn [bind]. exact E2.
    + rewrite (tgt_all_over add xs u Hz Hfit) in D. unfold does in D. rewrite D. reflexivity.
  - intros lid str id Hin. apply in_map_iff in Hin. destruct Hin as ([[lid' str'] gr] & Eq & Hin). unfold told in Eq. cbn [fst snd] in Eq. injection Eq as -> -> <-.
    apply dict_ev_sound in Hin; assumption.
  - intros Hbo key e part str id Hf G H42 Hpart. destruct (dict_ev_complete A L HL Hfix Hroom low key e part str id Hbo Hf G H42 Hpart) as (gr & Hin & <-).
    apply in_map_iff. exists (nlexid e, str, gr). auto.
Qed.

Lemma find_match_degenerate {U} (add : U -> N -> list (bytes * N) -> U * Z) A junk buf u cch :
  find_match add A junk buf None cch u = Ok (u, (-5)%Z) /\
  (forall psz, given [] psz cch -> find_match add A junk buf psz cch u = Ok (u, 0%Z)) /\
  (forall w psz, given w psz cch -> (48 <= length w)%nat -> find_match add A junk buf psz cch u = Ok (u, (-4)%Z)).
Proof.
  split; [reflexivity|]. split.
  - intros psz Hg. remember [] as w eqn:E. destruct Hg as [w after Hw|w after Hz]; subst w; unfold find_match; cbn [app length].
    + change (N.of_nat 0 =? 2 ^ 64 - 1) with false. reflexivity.
    + rewrite N.eqb_refl. reflexivity.
  - intros w psz Hg Hlen. destruct Hg as [w after Hw|w after Hz]; unfold find_match.
    + destruct (N.eqb_spec (N.of_nat (length w)) (2 ^ 64 - 1)); [lia|]. cbn [bind]. destruct (N.eqb_spec (N.of_nat (length w)) 0); [lia|].
      destruct (N.leb_spec 48 (N.of_nat (length w))); [reflexivity|lia].
    + rewrite N.eqb_refl, cstr_app by assumption. cbn [bind]. destruct (N.eqb_spec (N.of_nat (length w)) 0); [lia|].
      destruct (N.leb_spec 48 (N.of_nat (length w))); [reflexivity|lia].
Qed.
