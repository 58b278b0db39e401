(** * DicdumpProofs5: the dictionary answers. *)
From Verif Require Import Base Serial WordTree TreeSpec Stems StemSpec GramMap RusRuntime RusSpec RusProofs3 RusBuild RusBuildSpec PropRusLemmas PropBuildLemmas CxxApi CxxProofs
  Dump DumpSpec Dicdump DicdumpSpec DicdumpBuild DicdumpBuildSpec.
Local Open Scope N_scope.

Lemma joined_len fs : length (joined fs) = total fs.
Proof. induction fs as [|f fs IH]; [reflexivity|]. unfold joined in *. cbn [flat_map total fold_right]. rewrite !app_length, IH. cbn [length]. reflexivity. Qed.
Lemma filled_len fs mem : fit (length mem) fs -> length (filled fs mem) = length mem.
Proof.
  intros H. unfold filled. rewrite app_length, joined_len. destruct fs as [|f fs]; [reflexivity|]. destruct H as [H|H]; [discriminate|]. cbn [after length]. rewrite skipn_length. lia.
Qed.

Section Instance.
  Variables (A : arrays) (L : lexicon) (junk : N -> bytes).
  Hypotheses (HL : holds A L) (HB : buildable L) (HI : indexed A L) (HU : unique_ids L) (HP : plain_forms L).
  Hypothesis Hj : forall n, n <= 0x3ffff -> (length (lexkeylen n ++ junk n) = 16)%nat.

  Definition blank : bytes := repeat 0 256.
  Definition called (n fid : N) : list bytes :=
    if n <=? 0x3ffff then
      match dict_build A junk blank n fid with Ok (z, mem') => match take_strings (Z.to_nat z) mem' with Ok fs => fs | Ub => [] end | Ub => [] end
    else [].

  Lemma found_or_not n : n <= 0x3ffff ->
    (get_wd_info A (junk n) n = Ok (0%Z, None) /\ forall key e, has_record (words L) key e -> nlexid e <> n) \/
    (exists key e st c, has_record (words L) key e /\ nlexid e = n /\ class_of L (oclass e) = Some (st, c) /\ exists b, get_wd_info A (junk n) n = Ok (1%Z, Some b)).
  Proof.
    intros Hn. destruct (get_wd_info_eq A L HL HI n (junk n) ltac:(lia) (Hj n Hn)) as [H|(key & e & st & c & H1 & H2 & H3 & H4)]; [left; exact H|right; exists key, e, st, c; eauto 6].
  Qed.
  Lemma built mem n key e st c fid : length mem = 256%nat -> n <= 0x3ffff -> has_record (words L) key e -> nlexid e = n -> class_of L (oclass e) = Some (st, c) ->
    let fs := requested c key (stpost e) fid in
    ((total fs < 256)%nat -> dict_build A junk mem n fid = Ok (Z.of_nat (length fs), filled fs mem)) /\
    ((256 <= total fs)%nat -> exists mem', length mem' = 256%nat /\ dict_build A junk mem n fid = Ok ((-1)%Z, mem')).
  Proof.
    intros Hm Hn Hr <- Hc fs. assert (Hne : mem <> []) by (intros ->; discriminate).
    destruct (build_exact A L HL HB HI (junk (nlexid e)) mem key e st c fid Hne Hr Hc (fun k x H E => HU key e k x Hr H E) (Hj _ Hn)) as (D1 & D2).
    change (requested c key (stpost e) fid) with fs in D1, D2. unfold dict_build, small, fit in *. rewrite Hm in D1, D2. split; intros Ht.
    - refine (eq_trans (f_equal (fun r : res (Z * option bytes) => let! (z, out) := r in match out with Some mem' => Ok (z, mem') | None => Ok (z, mem) end) (D1 _)) _); [split; [lia|right; lia]|reflexivity].
    - destruct D2 as (mem' & Hl & E); [|exists mem'; split; [exact Hl|refine (eq_trans (f_equal (fun r : res (Z * option bytes) => let! (z, out) := r in match out with Some mem' => Ok (z, mem') | None => Ok (z, mem) end) E) _); reflexivity]]. intros (A1 & [A2|A2]); [|lia]. rewrite A2 in Ht. cbn in Ht. lia.
  Qed.
  Lemma called_found n key e st c fid : n <= 0x3ffff -> fid < 256 -> has_record (words L) key e -> nlexid e = n -> class_of L (oclass e) = Some (st, c) ->
    let fs := requested c key (stpost e) fid in ((total fs < 256)%nat -> called n fid = fs) /\ ((256 <= total fs)%nat -> called n fid = []).
  Proof.
    intros Hn Hfid Hr He Hc fs. destruct (built blank n key e st c fid (repeat_length 0 256) Hn Hr He Hc) as (B1 & B2). unfold called. rewrite (proj2 (N.leb_le _ _) Hn). split; intros Ht.
    - rewrite B1 by exact Ht. rewrite Nat2Z.id. unfold filled. rewrite take_strings_ok; [reflexivity|]. apply Forall_forall. intros f Hf. exact (proj1 (HP key e st c fid f Hr Hc Hfid Hf)).
    - destruct (B2 Ht) as (mem' & _ & ->). reflexivity.
  Qed.
  Lemma called_unknown n fid mem : n <= 0x3ffff -> (forall key e, has_record (words L) key e -> nlexid e <> n) -> length mem = 256%nat ->
    called n fid = [] /\ dict_build A junk mem n fid = Ok (0%Z, mem).
  Proof.
    intros Hn Hno Hm. assert (G : forall m, length m = 256%nat -> dict_build A junk m n fid = Ok (0%Z, m)).
    { intros m Hl. refine (eq_trans (f_equal (fun r : res (Z * option bytes) => let! (z, out) := r in match out with Some mem' => Ok (z, mem') | None => Ok (z, m) end) (build_unknown A L HL HB HI (junk n) m n fid _ _ (Hj n Hn) Hno)) _); [intros ->; discriminate|lia|reflexivity]. }
    split; [|apply G; exact Hm]. unfold called. rewrite (proj2 (N.leb_le _ _) Hn), G by apply (repeat_length 0 256). reflexivity.
  Qed.

  Lemma dict_answers :
    describes L called /\ answers (dict_build A junk) (dict_info A junk) called.
  Proof.
    split; [split|].
    - intros key e st c fid Hr Ht Hfid Hc. exact (called_found (nlexid e) key e st c fid Ht Hfid Hr eq_refl Hc).
    - intros n fid Hn Hno. exact (proj1 (called_unknown n fid blank Hn Hno (repeat_length 0 256))).
    - split.
      + intros mem n fid Hm Hn Hf. destruct (found_or_not n Hn) as [(_ & Hno)|(key & e & st & c & Hr & He & Hc & _)].
        * destruct (called_unknown n fid mem Hn Hno Hm) as (E1 & E2). exists 0%Z, mem. split; [exact E2|]. split; [exact Hm|]. split; [lia|congruence].
        * destruct (built mem n key e st c fid Hm Hn Hr He Hc) as (B1 & B2). destruct (called_found n key e st c fid Hn Hf Hr He Hc) as (C1 & C2). set (fs := requested c key (stpost e) fid) in *.
          destruct (Nat.lt_ge_cases (total fs) 256) as [Ht|Ht].
          -- rewrite (C1 Ht). exists (Z.of_nat (length fs)), (filled fs mem). split; [exact (B1 Ht)|]. split; [rewrite filled_len; [exact Hm|rewrite Hm; right; lia]|]. split; [intros ->; cbn; lia|].
             intros _. split; [reflexivity|]. exists (after fs mem). reflexivity.
          -- rewrite (C2 Ht). destruct (B2 Ht) as (mem' & Hl & E). exists (-1)%Z, mem'. split; [exact E|]. split; [exact Hl|]. split; [lia|congruence].
      + intros n fid f Hfid Hf. destruct (n <=? 0x3ffff) eqn:En; [|unfold called in Hf; rewrite En in Hf; destruct Hf]. apply N.leb_le in En.
        destruct (found_or_not n En) as [(_ & Hno)|(key & e & st & c & Hr & He & Hc & _)].
        * rewrite (proj1 (called_unknown n fid blank En Hno (repeat_length 0 256))) in Hf. destruct Hf.
        * destruct (called_found n key e st c fid En Hfid Hr He Hc) as (C1 & C2). destruct (Nat.lt_ge_cases (total (requested c key (stpost e) fid)) 256) as [Ht|Ht].
          -- rewrite (C1 Ht) in Hf. exact (HP key e st c fid f Hr Hc Hfid Hf).
          -- rewrite (C2 Ht) in Hf. destruct Hf.
      + intros n Hn. unfold dict_info. destruct (found_or_not n Hn) as [(E & Hno)|(key & e & st & c & _ & _ & _ & b & E)]; rewrite E; cbn [bind].
        * exists 0%Z. split; [reflexivity|]. intros _ fid _. exact (proj1 (called_unknown n fid blank Hn Hno (repeat_length 0 256))).
        * exists 1%Z. split; [reflexivity|discriminate].
  Qed.
End Instance.
