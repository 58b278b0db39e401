(** * Lemmas behind Prop_Build.  PROOFS. *)
From Verif Require Import Base Serial SerialProofs WordTree TreeSpec WordTreeProofs FlatScan FlatScanProofs LidsProofs TrackProofs
  TreeWalk Stems StemSpec StemsProofs DictProofs CharTables CapScheme CapSpec CapProofs CapProofs2 PropCaseLemmas GramMap RusRuntime RusSpec
  RusProofs RusProofs2 RusProofs3 RusDemo RusBuild RusBuildSpec RusBuildProofs RusBuildProofs2 RusBuildProofs3 RusBuildProofs4 RusReadings RusReadingsProofs.
Local Open Scope N_scope.

(** ** C23 *)
Lemma answered_delivered mem fs n mem' r : r = Ok (n, Some mem') -> answered mem fs n mem' -> delivered mem fs (small fs) r.
Proof.
  intros -> [(H1 & H2 & -> & ->)|(H1 & -> & H2)]; split.
  - reflexivity.
  - intros H. exfalso. apply H. split; assumption.
  - intros H. contradiction.
  - intros _. exists mem'. split; [exact H2|reflexivity].
Qed.

Lemma build_some A L : holds A L -> buildable L -> indexed A L -> forall junk mem id idform,
  mem <> [] -> id < 2 ^ 32 -> (length (lexkeylen id ++ junk) = 16)%nat ->
  (exists key e, has_record (words L) key e /\ nlexid e = id) ->
  exists key e st c, has_record (words L) key e /\ nlexid e = id /\ class_of L (oclass e) = Some (st, c) /\
    let fs := requested c key (stpost e) idform in delivered mem fs (small fs) (build_form A junk (Some mem) id idform).
Proof.
  intros HL HB HI junk mem id idform Hm Hid Hj (key0 & e0 & Hr0 & He0).
  destruct (build_form_eq A L HL HB HI junk mem id idform Hm Hid Hj) as [(_ & H)|(key & e & st & c & n & mem' & Hr & He & Ec & E & Ha)].
  - exfalso. exact (H key0 e0 Hr0 He0).
  - exists key, e, st, c. repeat match goal with |- _ /\ _ => split end; try assumption. eapply answered_delivered; eassumption.
Qed.

Lemma build_exact A L : holds A L -> buildable L -> indexed A L -> forall junk mem key e st c idform,
  mem <> [] -> has_record (words L) key e -> class_of L (oclass e) = Some (st, c) ->
  (forall key' e', has_record (words L) key' e' -> nlexid e' = nlexid e -> key' = key /\ e' = e) ->
  (length (lexkeylen (nlexid e) ++ junk) = 16)%nat ->
  let fs := requested c key (stpost e) idform in delivered mem fs (small fs) (build_form A junk (Some mem) (nlexid e) idform).
Proof.
  intros HL HB HI junk mem key e st c idform Hm Hr Ec Hu Hj.
  assert (Hid : nlexid e < 2 ^ 32) by (pose proof (idx_ids A L HI key e Hr); lia).
  destruct (build_some A L HL HB HI junk mem (nlexid e) idform Hm Hid Hj) as (key' & e' & st' & c' & Hr' & He' & Ec' & Hd); [exists key, e; split; [assumption|reflexivity]|].
  destruct (Hu key' e' Hr' He') as [-> ->]. rewrite Ec in Ec'. injection Ec' as <- <-. exact Hd.
Qed.

Lemma build_unknown A L : holds A L -> buildable L -> indexed A L -> forall junk mem id idform,
  mem <> [] -> id < 2 ^ 32 -> (length (lexkeylen id ++ junk) = 16)%nat ->
  (forall key e, has_record (words L) key e -> nlexid e <> id) ->
  build_form A junk (Some mem) id idform = Ok (0%Z, Some mem).
Proof.
  intros HL HB HI junk mem id idform Hm Hid Hj Hn.
  destruct (build_form_eq A L HL HB HI junk mem id idform Hm Hid Hj) as [(E & _)|(key & e & st & c & n & mem' & Hr & He & _)]; [exact E|].
  exfalso. exact (Hn key e Hr He).
Qed.

Lemma build_nowhere A junk id idform :
  build_form A junk None id idform = Ok ((-5)%Z, None) /\ build_form A junk (Some []) id idform = Ok ((-5)%Z, Some []).
Proof. split; reflexivity. Qed.

(** ** C24 *)
Lemma entry_hits_class L scheme dwsets key ei r : In r (entry_hits L scheme dwsets key ei) ->
  exists st, class_of L (oclass (rd_entry r)) = Some (st, rd_class r).
Proof.
  unfold entry_hits. destruct (class_of L (oclass (fst ei))) as [[st c]|] eqn:Ec; [|intros []]. destruct (cap_ok scheme dwsets c); [|intros []].
  intros H. apply in_map_iff in H as (ds & <- & _). exists st. exact Ec.
Qed.
Lemma hits_class L scheme dwsets w r : In r (hits L scheme dwsets w) -> exists st, class_of L (oclass (rd_entry r)) = Some (st, rd_class r).
Proof.
  unfold hits. intros H. apply in_flat_map in H as (n & _ & H). apply in_flat_map in H as (ei & _ & H). eapply entry_hits_class, H.
Qed.
Lemma an_forms_reading L id scheme dwsets w r : In r (hits L scheme dwsets w) -> an_forms L id (to_analysis L r) = reading_forms id r.
Proof.
  intros H. destruct (hits_class _ _ _ _ _ H) as (st & Ec). unfold an_forms, reading_forms, an_class, to_analysis. cbn [an_entry an_key]. rewrite Ec. reflexivity.
Qed.

Lemma find_found A L : holds A L -> buildable L -> forall w dwsets,
  is_bytes w -> w <> [] -> (length w < 48)%nat -> (length (rparts w) <= 8)%nat ->
  exists hs, found L (bit 1 dwsets) w hs /\
    forall psz cch mem idform junk, given w psz cch -> mem <> [] ->
      delivered mem (flat_map (reading_forms idform) hs) (Forall (fun r => small (reading_forms idform r)) hs)
        (find_forms A junk (Some mem) psz cch idform dwsets).
Proof.
  intros HL HB w dwsets Hb Hw Hlen Hp. destruct (scheme_exists w Hb Hw Hlen Hp) as (scheme & Hs).
  exists (hits L scheme dwsets (rlow w)). split; [apply hits_found with A; assumption|].
  intros psz cch mem idform junk Hg Hm.
  destruct (find_forms_eq A L HL HB junk mem w psz cch idform dwsets Hm Hg Hb Hw Hlen Hp) as (scheme' & Hs' & H).
  cbn zeta in H. rewrite analyses_hits in H. rewrite (hits_scheme L scheme' scheme) in H by (intros m; rewrite Hs, Hs'; reflexivity).
  set (hs := hits L scheme dwsets (rlow w)) in *.
  assert (E1 : all_forms L idform (map (to_analysis L) hs) = flat_map (reading_forms idform) hs).
  { unfold all_forms. rewrite flat_map_concat_map, map_map, <- flat_map_concat_map. apply flat_map_ext_in. intros r Hr. eapply an_forms_reading, Hr. }
  assert (E2 : Forall (fun a => small (an_forms L idform a)) (map (to_analysis L) hs) <-> Forall (fun r => small (reading_forms idform r)) hs).
  { rewrite Forall_map, !Forall_forall. split; intros H0 r Hr; specialize (H0 r Hr); rewrite (an_forms_reading L idform scheme dwsets (rlow w) r Hr) in *; exact H0. }
  rewrite E1, E2 in H. destruct H as [(H1 & H2 & H3)|(H1 & mem' & H2 & H3)]; split.
  - intros _. exact H3.
  - intros H. exfalso. apply H. split; assumption.
  - intros H. contradiction.
  - intros _. exists mem'. split; assumption.
Qed.

(** ** C31 *)
Fixpoint append_all (c : coder) (ss : list bytes) : res (option coder) :=
  match ss with
  | [] => Ok (Some c)
  | s :: ss' => let! r := coder_append c s in match r with None => Ok None | Some c' => append_all c' ss' end
  end.

Lemma append_one mem pos s : (pos <= length mem)%nat ->
  coder_append (Coder mem pos) s =
  Ok (if Nat.ltb (pos + length s) (length mem)
      then Some (Coder (firstn pos mem ++ s ++ 0 :: skipn (pos + length s + 1) mem) (pos + length s)) else None).
Proof.
  intros Hp. assert (Hl : length (firstn pos mem) = pos) by (rewrite firstn_length; lia).
  assert (E : coder_append (Coder mem pos) s = coder_append (Coder (firstn pos mem ++ skipn pos mem) (length (firstn pos mem))) s)
    by (rewrite firstn_skipn, Hl; reflexivity).
  rewrite E, append_eq, Hl, skipn_length.
  destruct (Nat.ltb_spec (length s) (length mem - pos)); destruct (Nat.ltb_spec (pos + length s) (length mem)); try lia; [|reflexivity].
  rewrite skipn_skipn'. do 5 f_equal. f_equal. f_equal. lia.
Qed.

Lemma append_seq ss : forall done rest,
  append_all (Coder (done ++ rest) (length done)) ss =
  Ok (match ss with
      | [] => Some (Coder (done ++ rest) (length done))
      | _ => if Nat.ltb (length (concat ss)) (length rest)
             then Some (Coder ((done ++ concat ss) ++ 0 :: skipn (S (length (concat ss))) rest) (length (done ++ concat ss))) else None
      end).
Proof.
  induction ss as [|s ss IH]; intros done rest; cbn [append_all]; [reflexivity|]. rewrite append_eq. cbn [concat]. rewrite app_length.
  destruct (Nat.ltb_spec (length s) (length rest)) as [Hs|Hs]; cbn [bind].
  - replace (done ++ s ++ 0 :: skipn (S (length s)) rest) with ((done ++ s) ++ 0 :: skipn (S (length s)) rest) by (rewrite <- app_assoc; reflexivity).
    rewrite <- (app_length done s), IH. destruct ss as [|s' ss].
    + cbn [concat length]. rewrite Nat.add_0_r, !app_nil_r. destruct (Nat.ltb_spec (length s) (length rest)); [reflexivity|lia].
    + set (t := concat (s' :: ss)). cbn [length]. rewrite skipn_length.
      destruct (Nat.ltb_spec (length t) (S (length rest - S (length s)))); destruct (Nat.ltb_spec (length s + length t) (length rest)); try lia; [|reflexivity].
      assert (Es : skipn (S (length t)) (0 :: skipn (S (length s)) rest) = skipn (S (length s + length t)) rest).
      { change (skipn (S (length t)) (0 :: skipn (S (length s)) rest)) with (skipn (length t) (skipn (S (length s)) rest)).
        rewrite skipn_skipn', Nat.add_succ_r, (Nat.add_comm (length t)). reflexivity. }
      rewrite Es, <- !app_assoc. reflexivity.
  - destruct (Nat.ltb_spec (length s + length (concat ss)) (length rest)); [lia|reflexivity].
Qed.

Lemma append_sequence mem ss : ss <> [] ->
  append_all (Coder mem 0) ss =
  Ok (if Nat.ltb (length (concat ss)) (length mem)
      then Some (Coder (concat ss ++ 0 :: skipn (S (length (concat ss))) mem) (length (concat ss))) else None).
Proof. intros H. pose proof (append_seq ss [] mem) as E. cbn [app length] in E. rewrite E. destruct ss; [congruence|reflexivity]. Qed.
