(** * Lemmas behind Prop_Rus.  PROOFS. *)
From Verif Require Import Base Serial SerialProofs WordTree TreeSpec WordTreeProofs FlatScan FlatScanProofs LidsProofs TrackProofs
  TreeWalk Stems StemSpec StemsProofs DictProofs CharTables CapScheme CapSpec CapProofs CapProofs2 PropCaseLemmas PropTreesLemmas
  GramMap GramSpec RusRuntime RusSpec RusProofs RusProofs2 RusProofs3 RusDemo.
Local Open Scope N_scope.

(** ** C18 *)
Lemma forall_below (P : N -> bool) (n : nat) : forallb (fun k => P (N.of_nat k)) (seq 0 n) = true ->
  forall id, id < N.of_nat n -> P id = true.
Proof.
  intros H id Hid. rewrite forallb_forall in H. specialize (H (N.to_nat id)). rewrite Nnat.N2Nat.id in H. apply H.
  apply in_seq. lia.
Qed.

Definition verb_back (id : N) : bool :=
  let fi := GetVerbInfo id in (MapVerbInfo (N.lor (N.shiftl (flags fi) 16) (gramm fi)) =? id) && negb (flexinfo_eq fi noflex).
Definition defs_back (id : N) : bool :=
  let fi := GetDefsInfo id in (MapDefsInfo (N.lor (N.shiftl (flags fi) 16) (gramm fi)) =? id) && negb (flexinfo_eq fi noflex).
Definition noun_back (id : N) : bool :=
  let fi := GetNounInfo id in (MapNounInfo (N.lor (N.shiftl (flags fi) 16) (gramm fi)) =? id) && negb (flexinfo_eq fi noflex).

Lemma u8_land63 w : N.land (u8 w) 0x3f = N.land w 0x3f.
Proof. unfold u8. change 256 with (2 ^ 8). rewrite <- N.land_ones, <- N.land_assoc. reflexivity. Qed.
Lemma u8_bit6 w : N.testbit (u8 w) 6 = N.testbit w 6.
Proof. unfold u8. change 256 with (2 ^ 8). apply N.mod_pow2_bits_low. reflexivity. Qed.
Lemma u8_verb w : IsVerb (u8 w) = IsVerb w.
Proof. unfold IsVerb. rewrite u8_land63. reflexivity. Qed.
Lemma u8_adj w : IsAdjective (u8 w) = IsAdjective w.
Proof. unfold IsAdjective. rewrite u8_land63. reflexivity. Qed.

Lemma form_round_trip wd id : proper_form wd id ->
  let fi := GetGramInfo wd id in MapWordInfo wd (gramm fi) (flags fi) = id /\ fi <> noflex.
Proof.
  unfold proper_form, GetGramInfo, MapWordInfo. rewrite u8_verb, u8_adj, bit_testbit, u8_bit6.
  assert (Hne : forall fi, negb (flexinfo_eq fi noflex) = true -> fi <> noflex) by (intros fi H ->; discriminate).
  destruct (IsVerb wd).
  - intros H. assert (Hb : verb_back id = true) by (apply (forall_below verb_back 234); [vm_compute; reflexivity|exact H]).
    unfold verb_back in Hb. apply andb_true_iff in Hb as [H1 H2]. apply N.eqb_eq in H1. cbn zeta in *. split; [exact H1|apply Hne, H2].
  - destruct (IsAdjective wd).
    + intros H. assert (Hb : defs_back id = true) by (apply (forall_below defs_back 66); [vm_compute; reflexivity|exact H]).
      unfold defs_back in Hb. apply andb_true_iff in Hb as [H1 H2]. apply N.eqb_eq in H1. cbn zeta in *. split; [exact H1|apply Hne, H2].
    + intros H. assert (Hb : noun_back id = true).
      { pose proof (forall_below (fun i => (i =? 9) || noun_back i) 18 ltac:(vm_compute; reflexivity) id ltac:(lia)) as Hb.
        apply orb_true_iff in Hb as [Hb|Hb]; [apply N.eqb_eq in Hb; lia|exact Hb]. }
      unfold noun_back in Hb. apply andb_true_iff in Hb as [H1 H2]. apply N.eqb_eq in H1.
      replace (N.testbit wd 6 && (id <? 10)) with false.
      * cbn zeta in *. split; [exact H1|apply Hne, H2].
      * symmetry. destruct H as [[_ H]|H]; [rewrite H; reflexivity|]. destruct (N.ltb_spec id 10); [lia|]. apply andb_false_r.
Qed.

Lemma form_distinct wd id id' : proper_form wd id -> proper_form wd id' -> GetGramInfo wd id = GetGramInfo wd id' -> id = id'.
Proof.
  intros H H' E. destruct (form_round_trip wd id H) as [H1 _]. destruct (form_round_trip wd id' H') as [H2 _].
  rewrite <- E in H2. cbn zeta in *. congruence.
Qed.

Lemma form_alias : exists wd id id', id < 256 /\ id' < 256 /\ id <> id' /\ IsAdjective wd = true /\ GetGramInfo wd id = GetGramInfo wd id' /\
  GetGramInfo wd id <> noflex.
Proof. exists 25, 66, 34. repeat match goal with |- _ /\ _ => split end; (reflexivity || discriminate). Qed.

(** ** C19 *)
Lemma check_postfix_lost : exists A L w key e g f,
  holds A L /\ bounds_ok L /\ word_of L true w key e [] g f /\ word_of L false w key e [] g f /\ is_bytes w /\ (length w < 48)%nat /\
  length (parts rus_casing w) = 2%nat /\
  forall junk dwsets, check_word A junk (Some w) (N.of_nat (length w)) dwsets = Ok 0%Z.
Proof.
  exists demo_arrays, demo_lexicon, [234; 224; 234; 45; 242; 238], [234; 224; 234], (Entry 0 0 4 10 [45; 242; 238]), 0, 0.
  assert (Han : analysis_of demo_lexicon [234; 224; 234; 45; 242; 238] [234; 224; 234] (Entry 0 0 4 10 [45; 242; 238]) [] 0 0).
  { split; [reflexivity|]. split.
    - eexists. split; [vm_compute; reflexivity|]. right. left. reflexivity.
    - exists st_fixed, cl_fixed. split; [reflexivity|]. apply (form_fixed cl_fixed). reflexivity. }
  assert (Hsuits : suits [234; 224; 234; 45; 242; 238] (min_case cl_fixed)).
  { exists [0; 0]. split; [|right; left; reflexivity].
    cbn. apply parts_more; [|apply parts_last]; apply part_small; try discriminate; repeat constructor. }
  assert (Hgood : Forall (fun b => b < 256) [234; 224; 234; 45; 242; 238]) by (repeat constructor).
  repeat match goal with |- _ /\ _ => split end; try reflexivity; try assumption; try discriminate.
  - apply demo_holds.
  - apply demo_bounds.
  - split; [exact Han|discriminate].
  - split; [exact Han|]. intros _. exists st_fixed, cl_fixed. split; [reflexivity|exact Hsuits].
  - cbn. lia.
Qed.

Lemma check_many_parts : exists w, is_bytes w /\ (length w < 48)%nat /\ forall A junk dwsets,
  check_word A junk (Some w) (N.of_nat (length w)) dwsets = Ub.
Proof.
  exists (flat_map (fun _ => [224; 45]) (seq 0 16) ++ [224]). split; [|split].
  - repeat constructor.
  - cbn. lia.
  - intros A junk dwsets. reflexivity.
Qed.

(** ** C17 *)
Lemma check_case_blind A L w w' psz cch psz' cch' dwsets junk junk' :
  holds A L -> given w psz cch -> given w' psz' cch' -> is_bytes w -> is_bytes w' ->
  map (locase rus_casing) w = map (locase rus_casing) w' -> bit 1 dwsets = true -> (length (parts rus_casing w) <= 8)%nat ->
  check_word A junk psz cch dwsets = check_word A junk' psz' cch' dwsets.
Proof.
  intros HL Hg Hg' Hb Hb' E Hi Hp.
  assert (El : length w = length w') by (rewrite <- (map_length (locase rus_casing) w), E; apply map_length).
  assert (Ep : length (rparts w) = length (rparts w')) by (rewrite <- (lower_parts w Hb), E; apply lower_parts, Hb').
  destruct w as [|c w].
  - destruct w' as [|c' w']; [|discriminate].
    rewrite !(check_word_empty A) by (right; assumption). reflexivity.
  - destruct w' as [|c' w']; [discriminate|].
    destruct (Nat.lt_ge_cases (length (c :: w)) 48) as [Hlt|Hge].
    + destruct (check_word_eq A L HL (c :: w) psz cch dwsets junk Hg Hb ltac:(discriminate) Hlt Hp) as (s & _ & ->).
      destruct (check_word_eq A L HL (c' :: w') psz' cch' dwsets junk' Hg' Hb' ltac:(discriminate) ltac:(lia) ltac:(lia)) as (s' & _ & ->).
      rewrite E, (analyses_blind L s s' dwsets _ Hi). reflexivity.
    + unfold check_word. rewrite (prologue_long (c :: w)), (prologue_long (c' :: w')) by (assumption || lia). reflexivity.
Qed.

(** ** C19, as one statement *)
Lemma check_exact A L w psz cch dwsets junk :
  holds A L -> bounds_ok L -> given w psz cch -> is_bytes w -> w <> [] -> (length w < 48)%nat -> (length (parts rus_casing w) <= 8)%nat ->
  (forall key e part g f, word_of L (bit 1 dwsets) w key e part g f -> reachable e part) ->
  check_word A junk psz cch dwsets = Ok 1%Z /\ (exists key e part g f, word_of L (bit 1 dwsets) w key e part g f) \/
  check_word A junk psz cch dwsets = Ok 0%Z /\ ~ (exists key e part g f, word_of L (bit 1 dwsets) w key e part g f).
Proof.
  intros HL Hbo Hg Hb Hne Hlen Hp Hside.
  destruct (check_word_sound A L HL w psz cch dwsets junk Hg Hb Hne Hlen Hp) as (r & E & [-> | ->] & Hs).
  - right. split; [exact E|]. intros (key & e & part & g & f & Hw).
    pose proof (Hside _ _ _ _ _ Hw) as Hc.
    rewrite (check_word_complete A L HL w psz cch dwsets junk key e part g f Hg Hb Hne Hlen Hp Hbo Hw Hc) in E. discriminate.
  - left. split; [exact E|apply Hs; reflexivity].
Qed.

Lemma check_word_long A w psz cch dwsets junk :
  given w psz cch -> (48 <= length w)%nat -> (length (parts rus_casing w) <= 16)%nat -> check_word A junk psz cch dwsets = Ok (-4)%Z.
Proof. intros. unfold check_word. eapply prologue_long; eassumption. Qed.

(** ** C09 *)
Lemma wd_info_found A L key e st c junk :
  holds A L -> indexed A L -> has_record (words L) key e -> class_of L (oclass e) = Some (st, c) ->
  (forall key' e' st' c', has_record (words L) key' e' -> nlexid e' = nlexid e -> class_of L (oclass e') = Some (st', c') ->
     N.land (c_word c') 63 = N.land (c_word c) 63) ->
  (length (lexkeylen (nlexid e) ++ junk) = 16)%nat ->
  get_wd_info A junk (nlexid e) = Ok (1%Z, Some (N.land (c_word c) 63)).
Proof.
  intros HL HI Hr Ec Hone Hj. assert (Hid : nlexid e < 2 ^ 32) by (pose proof (idx_ids A L HI key e Hr); lia).
  destruct (get_wd_info_eq A L HL HI (nlexid e) junk Hid Hj) as [(_ & Hn)|(key' & e' & st' & c' & Hr' & He' & Ec' & ->)].
  - exfalso. apply (Hn key e Hr). reflexivity.
  - rewrite (Hone key' e' st' c' Hr' He' Ec'). reflexivity.
Qed.

Lemma wd_info_none A L id junk :
  holds A L -> indexed A L -> id < 2 ^ 32 -> (forall key e, has_record (words L) key e -> nlexid e <> id) ->
  (length (lexkeylen id ++ junk) = 16)%nat -> get_wd_info A junk id = Ok (0%Z, None).
Proof.
  intros HL HI Hid Hn Hj.
  destruct (get_wd_info_eq A L HL HI id junk Hid Hj) as [(E & _)|(key & e & st & c & Hr & He & _)]; [exact E|].
  exfalso. eapply Hn; eassumption.
Qed.

(** ** C38 *)
Lemma scan_tables_exact ft filter infl tail rest : flex_ok ft -> (length infl < 64)%nat ->
  exists gs, scan_tables (serialize C8 flex_ser flex_len ft ++ rest) filter (Frag (infl ++ tail) (N.of_nat (length infl)))
             = Ok (gs, Z.of_nat (length gs)) /\
    (forall l, lookup infl ft = Some l ->
       gs = map (fun gf => Gram 0 0 (fst gf) (snd gf)) (List.filter (fun gf => filter (fst gf) (snd gf)) l)) /\
    (lookup infl ft = None -> gs = []).
Proof.
  intros Hok Hlen. rewrite scan_tables_eq by assumption. eexists. split; [reflexivity|]. split.
  - intros l ->. reflexivity.
  - intros ->. reflexivity.
Qed.
