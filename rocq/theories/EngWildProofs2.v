(** * EngWildProofs2: the calls made by the English search by pattern.  PROOFS. *)
From Verif Require Import Base Serial SerialProofs WordTree TreeSpec WordTreeProofs FlatScan FlatScanProofs LidsProofs TrackProofs
  TreeWalk Stems StemSpec StemsProofs DictProofs CharTables CapScheme CapSpec CapProofs CapProofs2 CapProofs3 PropCaseLemmas PropTreesLemmas
  GramMap RusRuntime RusBuild RusSpec RusProofs RusProofs2 RusProofs3 RusBuildSpec RusBuildProofs2 Wild WildSpec WildProofs WildProofs2 WildProofs3 WildProofs4
  EngRuntime EngSpec EngFormsSpec EngProofs EngProofs2 EngWild EngWildSpec EngWildProofs.
Local Open Scope N_scope.

Lemma strncpy_plain s : ~ In 0 s -> strncpy_of s = s.
Proof.
  induction s as [|c s IH]; intros H; [reflexivity|]. cbn [strncpy_of]. destruct (N.eqb_spec c 0) as [->|]; [exfalso; apply H; left; reflexivity|].
  rewrite IH; [reflexivity|]. intros K. apply H. right. exact K.
Qed.

Definition has_match (ms : list (bytes * N)) (m : bytes * N) : bool :=
  existsb (fun x => (snd x =? snd m) && (if list_eq_dec N.eq_dec (fst x) (fst m) then true else false)) ms.
Lemma has_match_iff ms m : has_match ms m = true <-> In m ms.
Proof.
  unfold has_match. rewrite existsb_exists. split.
  - intros ([a b] & Hin & H). cbn [fst snd] in H. apply andb_true_iff in H as [H1 H2]. apply N.eqb_eq in H1. destruct m as [c d]. cbn [fst snd] in *. subst d.
    destruct (list_eq_dec N.eq_dec a c) as [->|]; [exact Hin|discriminate].
  - intros H. exists m. split; [exact H|]. rewrite N.eqb_refl. unfold bytes in *. destruct (list_eq_dec N.eq_dec (fst m) (fst m)); [reflexivity|congruence].
Qed.
Definition note1 (m : bytes * N) (ms : list (bytes * N)) : list (bytes * N) := if has_match ms m then ms else ms ++ [m].

(** The calls for the events [xs] when [ms] is already collected for [lid]. *)
Fixpoint ecalls (lid : N) (ms : list (bytes * N)) (xs : list (N * bytes * N)) : list (N * list (bytes * N)) :=
  match xs with
  | [] => [(lid, ms)]
  | (l, str, id) :: xs' => if l =? lid then ecalls lid (note1 (str, id) ms) xs' else (lid, ms) :: ecalls l [(str, id)] xs'
  end.
Definition calls_of (xs : list (N * bytes * N)) : list (N * list (bytes * N)) :=
  match xs with [] => [] | (l, str, id) :: xs' => ecalls l [(str, id)] xs' end.

Lemma note1_in m ms x : In x (note1 m ms) <-> x = m \/ In x ms.
Proof.
  unfold note1. destruct (has_match ms m) eqn:E.
  - apply has_match_iff in E. split; [auto|]. intros [->|H]; assumption.
  - rewrite in_app_iff. cbn [In]. intuition congruence.
Qed.
Lemma note1_nodup m ms : NoDup ms -> NoDup (note1 m ms).
Proof.
  intros H. unfold note1. destruct (has_match ms m) eqn:E; [exact H|].
  assert (Hn : ~ In m ms) by (intros K; apply has_match_iff in K; congruence).
  apply (Permutation.Permutation_NoDup (l := m :: ms)); [apply Permutation.Permutation_cons_append|constructor; assumption].
Qed.

Lemma ecalls_in xs : forall lid ms lid' str id,
  (exists ms', In (lid', ms') (ecalls lid ms xs) /\ In (str, id) ms') <-> (lid' = lid /\ In (str, id) ms) \/ In (lid', str, id) xs.
Proof.
  induction xs as [|[[l s0] i0] xs IH]; intros lid ms lid' str id; cbn [ecalls].
  - split.
    + intros (ms' & [Q|[]] & H). injection Q as <- <-. auto.
    + intros [[E H]|[]]. rewrite E. exists ms. split; [left; reflexivity|exact H].
  - destruct (N.eqb_spec l lid) as [->|Hne].
    + rewrite IH, note1_in. cbn [In]. split.
      * intros [(E & [Q|H])|H]; [injection Q as -> ->; subst lid'|..]; auto.
      * intros [(E & H)|[Q|H]]; [| injection Q as -> -> ->|]; auto.
    + cbn [In]. split.
      * intros (ms' & [Q|H] & H'); [injection Q as <- <-|].
        -- auto.
        -- destruct (proj1 (IH l [(s0, i0)] lid' str id)) as [(E & K)|K]; [exists ms'; auto| |auto].
           cbn [In] in K. destruct K as [Q|[]]. injection Q as -> ->. rewrite E. auto.
      * intros [(E & H)|H]; [exists ms; rewrite E; auto|].
        destruct (proj2 (IH l [(s0, i0)] lid' str id)) as (ms' & K1 & K2); [|exists ms'; auto].
        destruct H as [Q|H]; [injection Q as -> -> ->; left; split; [reflexivity|left; reflexivity]|right; exact H].
Qed.
Lemma ecalls_nodup xs : forall lid ms, NoDup ms -> Forall (fun call => NoDup (snd call)) (ecalls lid ms xs).
Proof.
  induction xs as [|[[l s0] i0] xs IH]; intros lid ms H; cbn [ecalls]; [constructor; [exact H|constructor]|].
  destruct (l =? lid); [apply IH, note1_nodup, H|]. constructor; [exact H|]. apply IH. constructor; [intros []|constructor].
Qed.
Lemma ecalls_head xs : forall lid ms, exists ms' rest, ecalls lid ms xs = (lid, ms') :: rest.
Proof.
  induction xs as [|[[l s0] i0] xs IH]; intros lid ms; cbn [ecalls]; [eauto|]. destruct (l =? lid); [apply IH|eauto].
Qed.
Lemma ecalls_differ xs : forall lid ms, neighbours_differ (ecalls lid ms xs).
Proof.
  induction xs as [|[[l s0] i0] xs IH]; intros lid ms; cbn [ecalls]; [exact I|]. destruct (N.eqb_spec l lid) as [->|Hne]; [apply IH|].
  destruct (ecalls_head xs l [(s0, i0)]) as (ms' & rest & E). specialize (IH l [(s0, i0)]). rewrite E in *. cbn [neighbours_differ fst] in *. auto.
Qed.
Lemma ecalls_nonempty xs : forall lid ms, ms <> [] -> Forall (fun call => snd call <> []) (ecalls lid ms xs).
Proof.
  induction xs as [|[[l s0] i0] xs IH]; intros lid ms H; cbn [ecalls]; [constructor; [exact H|constructor]|].
  destruct (l =? lid).
  - apply IH. unfold note1. destruct (has_match ms (s0, i0)); [exact H|]. destruct ms; discriminate.
  - constructor; [exact H|]. apply IH. discriminate.
Qed.

(** ** Running the collector *)
Section Collect.
  Context {U : Type}.
  Variable add : U -> N -> list (bytes * N) -> U * Z.
  (** What may be collected for a lexeme. *)
  Variable P : N -> bytes -> N -> Prop.
  Hypothesis Pid : forall lid str id, P lid str id -> lid <> 0.
  Hypothesis Pnul : forall lid str id, P lid str id -> ~ In 0 str.
  Hypothesis Plen : forall lid str id, P lid str id -> (length str <= 47)%nat.
  Hypothesis Pfew : forall lid ms, NoDup ms -> (forall str id, In (str, id) ms -> P lid str id) -> (length ms <= 256)%nat.

  Lemma room_small lid ms : (forall str id, In (str, id) ms -> P lid str id) -> room_of ms <= 48 * N.of_nat (length ms).
  Proof.
    induction ms as [|[str id] ms IH]; intros H; [cbn; lia|]. cbn [room_of fold_right fst length]. fold (room_of ms).
    assert (room_of ms <= 48 * N.of_nat (length ms)) by (apply IH; intros s i Hi; apply H; right; exact Hi).
    pose proof (Plen lid str id (H str id (or_introl eq_refl))). lia.
  Qed.

  Lemma etgt_run xs : forall lid ms u, lid <> 0 -> NoDup ms -> (forall str id, In (str, id) ms -> P lid str id) ->
    Forall (fun x => P (fst (fst x)) (snd (fst x)) (gidForm (snd x))) xs ->
    exists lid' ms' u', lid' <> 0 /\
      until_nonzero (etgt add) xs (Reglex lid ms (Some (room_of ms)) u) = Ok (Reglex lid' ms' (Some (room_of ms')) u', 0%Z) /\
      deliver add (ecalls lid ms (map told xs)) u = add u' lid' ms'.
  Proof.
    induction xs as [|[[l str] gr] xs IH]; intros lid ms u Hlid Hnd HP Hxs.
    - exists lid, ms, u. split; [exact Hlid|]. split; reflexivity.
    - pose proof (Forall_inv Hxs) as Hx. cbn [fst snd] in Hx. pose proof (Forall_inv_tail Hxs) as Hxs'.
      cbn [map]. change (told (l, str, gr)) with (l, str, gidForm gr). cbn [ecalls until_nonzero]. unfold etgt at 1. cbn [fst snd]. unfold ereglex at 1. cbn [rg_last].
      rewrite (strncpy_plain str) by (eapply Pnul; exact Hx).
      destruct (N.eqb_spec l lid) as [->|Hne].
      + cbn [rg_match rg_forms rg_last rg_user].
        change (existsb _ ms) with (has_match ms (str, gidForm gr)). 
        assert (HP' : forall s i, In (s, i) (note1 (str, gidForm gr) ms) -> P lid s i) by (intros s i Hi; apply note1_in in Hi as [[= -> ->]|Hi]; [exact Hx|apply HP, Hi]).
        pose proof (note1_nodup (str, gidForm gr) ms Hnd) as Hnd'.
        destruct (IH lid (note1 (str, gidForm gr) ms) u Hlid Hnd' HP' Hxs') as (lid' & ms' & u' & K1 & K2 & K3).
        exists lid', ms', u'. split; [exact K1|]. split; [|exact K3]. rewrite <- K2. clear K1 K2 K3.
        pose proof (Pfew lid _ Hnd' HP') as Hfew. pose proof (room_small lid _ HP') as Hrm. unfold note1 in *.
        destruct (has_match ms (str, gidForm gr)) eqn:E; [reflexivity|].
        rewrite app_length in Hfew, Hrm. cbn [length] in Hfew, Hrm. rewrite room_app in Hrm |- *.
        assert (R : room_of [(str, gidForm gr)] = N.of_nat (length str) + 1) by (cbn [room_of fold_right fst]; lia). rewrite R in *.
        destruct (N.leb_spec 256 (N.of_nat (length ms))); [lia|]. destruct (N.ltb_spec 24576 (room_of ms + N.of_nat (length str) + 1)); [lia|].
        cbn [orb bind]. change (Z.eqb 0 0) with true. cbn iota. rewrite N.add_assoc. reflexivity.
      + cbn [rg_match rg_forms rg_last rg_user existsb length app]. destruct (N.eqb_spec lid 0); [contradiction|].
        change (256 <=? N.of_nat 0) with false. pose proof (Plen _ _ _ Hx) as Hl. destruct (N.ltb_spec 24576 (0 + N.of_nat (length str) + 1)); [lia|].
        cbn [orb bind]. change (Z.eqb 0 0) with true. cbn iota.
        destruct (IH l [(str, gidForm gr)] (fst (add u lid ms))) as (lid' & ms' & u' & K1 & K2 & K3).
        * eapply Pid, Hx.
        * constructor; [intros []|constructor].
        * intros s i [[= <- <-]|[]]. exact Hx.
        * exact Hxs'.
        * exists lid', ms', u'. split; [exact K1|]. split.
          -- rewrite <- K2. replace (room_of [(str, gidForm gr)]) with (0 + N.of_nat (length str) + 1) by (cbn [room_of fold_right fst]; lia). reflexivity.
          -- destruct (ecalls_head (map told xs) l [(str, gidForm gr)]) as (ms2 & rest & E). rewrite E in K3 |- *.
             rewrite deliver_cons by discriminate. cbn [fst snd]. exact K3.
  Qed.

  Lemma etgt_all xs u : Forall (fun x => P (fst (fst x)) (snd (fst x)) (gidForm (snd x))) xs ->
    exists s, until_nonzero (etgt add) xs (Reglex 0 [] None u) = Ok (s, 0%Z) /\
      (if rg_last s =? 0 then Ok (rg_user s, 0%Z) else Ok (add (rg_user s) (rg_last s) (rg_match s))) = Ok (deliver add (calls_of (map told xs)) u).
  Proof.
    destruct xs as [|[[l str] gr] xs]; intros Hxs; [exists (Reglex 0 [] None u); auto|].
    pose proof (Forall_inv Hxs) as Hx. cbn [fst snd] in Hx. pose proof (Forall_inv_tail Hxs) as Hxs'.
    cbn [map]. change (told (l, str, gr)) with (l, str, gidForm gr). cbn [calls_of until_nonzero]. unfold etgt at 1. cbn [fst snd]. unfold ereglex at 1. cbn [rg_last].
    rewrite (strncpy_plain str) by (eapply Pnul; exact Hx). pose proof (Pid _ _ _ Hx) as Hl0.
    destruct (N.eqb_spec l 0); [contradiction|]. change (0 =? 0) with true. cbn iota. cbn [rg_match rg_forms rg_last rg_user existsb length app].
    change (256 <=? N.of_nat 0) with false. pose proof (Plen _ _ _ Hx) as Hl. destruct (N.ltb_spec 24576 (0 + N.of_nat (length str) + 1)); [lia|].
    cbn [orb bind]. change (Z.eqb 0 0) with true. cbn iota.
    destruct (etgt_run xs l [(str, gidForm gr)] u Hl0) as (lid' & ms' & u' & K1 & K2 & K3).
    - constructor; [intros []|constructor].
    - intros s i [[= <- <-]|[]]. exact Hx.
    - exact Hxs'.
    - exists (Reglex lid' ms' (Some (room_of ms')) u'). split.
      + rewrite <- K2. replace (room_of [(str, gidForm gr)]) with (0 + N.of_nat (length str) + 1) by (cbn [room_of fold_right fst]; lia). reflexivity.
      + cbn [rg_last rg_user rg_match]. destruct (N.eqb_spec lid' 0); [contradiction|]. rewrite K3. reflexivity.
  Qed.
End Collect.

(** ** FindMatch *)
Lemma efind_match_start {U} (add : U -> N -> list (bytes * N) -> U * Z) A w psz cch junk buf u :
  given w psz cch -> is_bytes w -> w <> [] -> (length w < 48)%nat -> (length (parts eng_casing w) <= 16)%nat -> length junk = 48%nat ->
  efind_match add A junk buf psz cch u =
    (let! (_, s, nerror) := wild_tree (ematch_model A (ereglex add)) (S (length (e_stems A) + length (map (locase eng_casing) w))) (e_stems A)
                              (map (locase eng_casing) w) buf 0 (Reglex 0 [] None u) in
     if negb (Z.eqb nerror 0) then Ok (rg_user s, nerror)
     else if rg_last s =? 0 then Ok (rg_user s, 0%Z) else Ok (add (rg_user s) (rg_last s) (rg_match s))).
Proof.
  intros Hg Hb Hne Hlen Hp Hj.
  assert (K : exists p, psz = Some p /\ firstn (length w) p = w /\ (length w <= length p)%nat /\
    (if cch =? 2 ^ 64 - 1 then let! w := cstr p in Ok (N.of_nat (length w)) else Ok cch) = Ok (N.of_nat (length w))).
  { destruct Hg as [w after Hw|w after Hz].
    - exists (w ++ after). split; [reflexivity|]. rewrite firstn_app, Nat.sub_diag, firstn_all. cbn [firstn]. rewrite app_nil_r, app_length. split; [reflexivity|]. split; [lia|].
      destruct (N.eqb_spec (N.of_nat (length w)) (2 ^ 64 - 1)); [lia|reflexivity].
    - exists (w ++ 0 :: after). split; [reflexivity|]. rewrite firstn_app, Nat.sub_diag, firstn_all. cbn [firstn]. rewrite app_nil_r, app_length. split; [reflexivity|]. split; [lia|].
      rewrite N.eqb_refl. rewrite cstr_app by assumption. reflexivity. }
  destruct K as (p & -> & Hw & Hpl & Hn). unfold efind_match. rewrite Hn. cbn [bind].
  assert (length w <> 0)%nat by (destruct w; [contradiction|discriminate]).
  destruct (N.eqb_spec (N.of_nat (length w)) 0); [lia|]. destruct (N.leb_spec 48 (N.of_nat (length w))); [lia|].
  destruct (N.ltb_spec (N.of_nat (length p)) (N.of_nat (length w))); [lia|]. rewrite Nnat.Nat2N.id, Hw.
  rewrite cap_get_eq; [|apply eng_dlm|assumption|assumption|assumption]. cbn [bind].
  set (low := map (locase eng_casing) w). assert (Hlow : length low = length w) by apply map_length.
  assert (E : mem_write (overwrite (low ++ [0]) junk) (length w) 0 = Ok (low ++ 0 :: skipn (S (length w)) junk)).
  { unfold overwrite. rewrite app_length, Hlow. cbn [length]. replace (length w + 1)%nat with (S (length w)) by lia.
    rewrite <- app_assoc. cbn [app]. unfold mem_write. rewrite app_length, Hlow. cbn [length].
    destruct (Nat.ltb_spec (length w) (length w + S (length (skipn (S (length w)) junk)))); [|lia].
    rewrite <- Hlow, firstn_app, firstn_all, Nat.sub_diag, firstn_O, app_nil_r.
    rewrite skipn_app, skipn_all2 by lia. replace (S (length low) - length low)%nat with 1%nat by lia. reflexivity. }
  rewrite E. cbn [bind]. rewrite <- Hlow at 2. rewrite firstn_app, firstn_all, Nat.sub_diag, firstn_O, app_nil_r, Hlow. reflexivity.
Qed.

Lemma record_nonzero A L key e : eholds A L -> has_record (ewords L) key e -> ~ In 0 key.
Proof. intros HL (l & Hl & _). exact (lookup_nonzero _ _ _ (eh_nonzero A L HL) Hl). Qed.

Lemma efind_match_eq A L w psz cch rest : eholds A L -> ebuildable L -> estrings_within 47 L -> eforms_at_most 256 L ->
  e_stems A = stemtree_bytes (ewords L) ++ rest -> rest <> [] \/ lookup [] (ewords L) <> None ->
  (forall key e, has_record (ewords L) key e -> nlexid e <> 0) ->
  given w psz cch -> is_bytes w -> w <> [] -> (length w < 48)%nat -> (length (parts eng_casing w) <= 16)%nat ->
  exists calls : list (N * list (bytes * N)),
    (forall U (add : U -> N -> list (bytes * N) -> U * Z) junk buf u, length junk = 48%nat -> length buf = 48%nat ->
       efind_match add A junk buf psz cch u = Ok (deliver add calls u)) /\
    (forall lid ms str id, In (lid, ms) calls -> In (str, id) ms -> elexeme_form L lid str id /\ glob (map (locase eng_casing) w) str) /\
    (ebounds_ok L -> forall key e part str id, ehas_form L key e part str id -> glob (map (locase eng_casing) w) str -> ~ In 42 str ->
       part <> [] \/ match stpost e with [] => True | b :: _ => chrmin e <= b <= chrmax e end ->
       exists ms, In (nlexid e, ms) calls /\ In (str, id) ms) /\
    Forall (fun call => NoDup (snd call) /\ snd call <> []) calls /\ neighbours_differ calls.
Proof.
  intros HL HB Hroom Hfew Erest Hne Hids Hg Hb Hw Hlen Hp.
  set (low := map (locase eng_casing) w). set (xs := edict_ev L (S (length (e_stems A) + length low)) low).
  assert (Hin : forall lid str id, (exists ms, In (lid, ms) (calls_of (map told xs)) /\ In (str, id) ms) <-> In (lid, str, id) (map told xs)).
  { intros lid str id. destruct (map told xs) as [|[[l0 s0] i0] ys]; cbn [calls_of].
    - split; [intros (ms & [] & _)|intros []].
    - rewrite ecalls_in. cbn [In]. split.
      + intros [[-> [[= -> ->]|[]]]|H]; auto.
      + intros [[= -> -> ->]|H]; auto. }
  assert (Hsound : forall lid str gr, In (lid, str, gr) xs -> elexeme_form L lid str (gidForm gr) /\ glob low str).
  { intros lid str gr. apply edict_ev_sound with A; assumption. }
  assert (Htold : forall lid str id, In (lid, str, id) (map told xs) -> elexeme_form L lid str id /\ glob low str).
  { intros lid str id H. apply in_map_iff in H as ([[l s] gr] & [= -> -> <-] & H). apply Hsound, H. }
  exists (calls_of (map told xs)). split; [|split; [|split; [|split]]].
  - intros U add junk buf u Hj Hbuf. rewrite efind_match_start with (w := w) by assumption. fold low.
    pose proof (edict_does A L HL HB Hroom add low rest buf (Reglex 0 [] None u) Erest Hne Hbuf) as D. fold xs in D.
    destruct (etgt_all add (elexeme_form L)) with (xs := xs) (u := u) as (s & E1 & E2).
    + intros lid str id (key & e & part & [Hr _] & <-). exact (Hids key e Hr).
    + intros lid str id (key & e & part & [Hr (st & c & Ec & Hf & ->)] & <-) K. apply in_app_or in K as [K|K]; [exact (record_nonzero A L key e HL Hr K)|].
      apply in_app_or in K as [K|K]; [|exact (eb_post L HB key e Hr K)]. destruct Hf as [Ek|t part id Ek Hi]; [destruct K|exact (eb_ends L HB key e st c t id part Hr Ec Ek Hi K)].
    + intros lid str id (key & e & part & Hf & _). exact (proj2 Hroom key e part str id Hf).
    + exact Hfew.
    + apply Forall_forall. intros [[lid str] gr] Hx. cbn [fst snd]. apply Hsound, Hx.
    + rewrite E1 in D. destruct D as (mem' & -> & _). cbn [bind]. exact E2.
  - intros lid ms str id H1 H2. apply Htold, Hin. exists ms. auto.
  - intros Hbo key e part str id Hf G H42 Hpart. destruct (edict_ev_complete A L HL HB Hroom low key e part str id Hbo Hf G H42 Hpart) as (gr & Hi & <-).
    apply Hin. apply in_map_iff. exists (nlexid e, str, gr). auto.
  - apply Forall_forall. intros call Hc. destruct (map told xs) as [|[[l0 s0] i0] ys]; [destruct Hc|]. cbn [calls_of] in Hc. split.
    + pose proof (ecalls_nodup ys l0 [(s0, i0)] ltac:(constructor; [intros []|constructor])) as K. rewrite Forall_forall in K. exact (K call Hc).
    + pose proof (ecalls_nonempty ys l0 [(s0, i0)] ltac:(discriminate)) as K. rewrite Forall_forall in K. exact (K call Hc).
  - destruct (map told xs) as [|[[l0 s0] i0] ys]; [exact I|]. apply ecalls_differ.
Qed.

(** A lexeme with one record has at most as many forms as its table. *)
Lemma single_few A L : eholds A L -> single_records L -> eforms_at_most 256 L.
Proof.
  intros HL Hs lid ms Hnd Hms. destruct ms as [|[s0 i0] ms0]; [cbn; lia|]. set (ms := (s0, i0) :: ms0) in *.
  destruct (Hms s0 i0 (or_introl eq_refl)) as (key & e & part0 & [Hr _] & Hl).
  destruct (eh_classes A L HL key e Hr) as (st & c & Ec & Hat & Hrep).
  assert (Hall : forall str id, In (str, id) ms -> exists part, eform_part c part id /\ str = key ++ part ++ stpost e).
  { intros str id Hi. destruct (Hms str id Hi) as (key' & e' & part & [Hr' (st' & c' & Ec' & Hf & ->)] & Hl').
    destruct (Hs key e key' e' Hr Hr' ltac:(congruence)) as [<- <-]. rewrite Ec in Ec'. injection Ec' as <- <-. eauto. }
  destruct (k_ends c) as [t|] eqn:Ek.
  - destruct (etable A st c t Hrep Ek) as (_ & _ & (Ht & _)).
    assert (Hincl : incl ms (map (fun ie => (key ++ snd ie ++ stpost e, fst ie)) t)).
    { intros [str id] Hi. destruct (Hall str id Hi) as (part & Hf & ->). destruct Hf as [Ek'|t' part id Ek' Hin]; [congruence|]. rewrite Ek in Ek'. injection Ek' as <-.
      apply in_map_iff. exists (id, part). auto. }
    pose proof (NoDup_incl_length Hnd Hincl) as K. rewrite map_length in K. unfold bytes in *. lia.
  - assert (Hincl : incl ms [(key ++ [] ++ stpost e, 255)]).
    { intros [str id] Hi. destruct (Hall str id Hi) as (part & Hf & ->). destruct Hf as [Ek'|t' part id Ek' Hin]; [left; reflexivity|congruence]. }
    pose proof (NoDup_incl_length Hnd Hincl) as K. cbn [length] in K. unfold bytes in *. lia.
Qed.

Lemma efind_match_degenerate {U} (add : U -> N -> list (bytes * N) -> U * Z) A junk buf u cch :
  efind_match add A junk buf None cch u = Ok (u, (-5)%Z) /\
  (forall psz, given [] psz cch -> efind_match add A junk buf psz cch u = Ok (u, 0%Z)) /\
  (forall w psz, given w psz cch -> (48 <= length w)%nat -> efind_match add A junk buf psz cch u = Ok (u, (-4)%Z)).
Proof.
  split; [reflexivity|]. split.
  - intros psz Hg. remember [] as w eqn:E. destruct Hg as [w after Hw|w after Hz]; subst w; unfold efind_match; cbn [app length].
    + change (N.of_nat 0 =? 2 ^ 64 - 1) with false. reflexivity.
    + rewrite N.eqb_refl. reflexivity.
  - intros w psz Hg Hlen. destruct Hg as [w after Hw|w after Hz]; unfold efind_match.
    + destruct (N.eqb_spec (N.of_nat (length w)) (2 ^ 64 - 1)); [lia|]. cbn [bind]. destruct (N.eqb_spec (N.of_nat (length w)) 0); [lia|].
      destruct (N.leb_spec 48 (N.of_nat (length w))); [reflexivity|lia].
    + rewrite N.eqb_refl, cstr_app by assumption. cbn [bind]. destruct (N.eqb_spec (N.of_nat (length w)) 0); [lia|].
      destruct (N.leb_spec 48 (N.of_nat (length w))); [reflexivity|lia].
Qed.
