(** * PyProofs3: find_match of the Python modules. *)
From Verif Require Import Base Serial WordTree TreeSpec FlatScan Stems StemSpec CharTables CapScheme CapSpec CapProofs GramMap RusRuntime LevelSpec RusSpec RusProofs
  RusBuild RusBuildSpec RusReadings RusLemmaSpec Wild WildSpec WildProofs4 PropWildLemmas EngRuntime EngSpec EngFormsSpec EngLemmaSpec EngWild EngWildSpec EngWildProofs2
  Fuzzy FuzzySpec Codepage CodepageSpec PropCodepageLemmas WideApi WideSpec Guess GuessSpec GuessProofs CxxProofs CxxProofs3 PyApi PySpec PyProofs PyProofs2.
Local Open Scope N_scope.
Notation runs := WildSpec.runs.

Definition laid (ms : list (bytes * N)) : bytes := flat_map (fun m => fst m ++ [0]) ms.
Lemma texts_from sforms : forall ms pre post, sforms = pre ++ laid ms ++ post ->
  map (fun m => (py_match_text sforms m, pm_form m)) (py_matches (length pre) ms) = map (fun m => (Ok (fst m), snd m)) ms.
Proof.
  induction ms as [|[s id] ms IH]; intros pre post E; [reflexivity|]. cbn [py_matches map fst snd pm_form]. f_equal.
  - f_equal. unfold py_match_text. cbn [pm_at pm_len]. rewrite E. cbn [laid flat_map fst]. rewrite <- !app_assoc. rewrite !app_length.
    destruct (Nat.ltb_spec (length pre + (length s + (length [0] + (length (flat_map (fun m => fst m ++ [0]) ms) + length post)))) (length pre + length s)); [lia|].
    rewrite skipn_app, skipn_all, Nat.sub_diag. cbn [skipn app]. rewrite firstn_app, firstn_all, Nat.sub_diag. cbn [firstn]. rewrite app_nil_r. reflexivity.
  - replace (length pre + (length s + 1))%nat with (length (pre ++ s ++ [0])) by (rewrite !app_length; cbn [length]; lia).
    apply (IH _ post). rewrite E. cbn [laid flat_map fst]. rewrite <- !app_assoc. reflexivity.
Qed.
Lemma texts_read ms sforms : map (fun m => (py_match_text (py_stored ms sforms) m, pm_form m)) (py_matches 0 ms) = map (fun m => (Ok (fst m), snd m)) ms.
Proof. apply (texts_from _ ms [] (skipn (length (laid ms)) sforms)). reflexivity. Qed.

Section Session.
  Context {U : Type} (f : U -> N -> list (res bytes * N) -> U * py_result).

  Lemma ended_stays : forall calls u sforms, fst (deliver (py_add (py_reads f)) calls (u, sforms, true)) = (u, sforms, true).
  Proof.
    induction calls as [|[lid ms] calls IH]; intros u sforms; [reflexivity|]. destruct calls as [|c calls]; [reflexivity|].
    change (deliver (py_add (py_reads f)) ((lid, ms) :: c :: calls) (u, sforms, true)) with (deliver (py_add (py_reads f)) (c :: calls) (fst (py_add (py_reads f) (u, sforms, true) lid ms))).
    cbn [py_add fst]. apply IH.
  Qed.

  Definition outcome_of (r : U * bytes * bool * Z) : U * Z := let '(u, _, ended, z) := r in (u, if ended then (-1)%Z else z).
  Lemma deliver_session : forall calls u sforms, outcome_of (deliver (py_add (py_reads f)) calls (u, sforms, false)) = py_session f calls u.
  Proof.
    induction calls as [|[lid ms] calls IH]; intros u sforms; [reflexivity|]. cbn [py_session].
    assert (E : py_add (py_reads f) (u, sforms, false) lid ms =
      match f u lid (map (fun m => (Ok (fst m), snd m)) ms) with
      | (u', PyInt z) => ((u', py_stored ms sforms, false), z)
      | (u', PyRaised) => ((u', py_stored ms sforms, false), (-1)%Z)
      | (u', PyOther) => ((u', py_stored ms sforms, true), (-1)%Z)
      end) by (unfold py_add, py_reads; rewrite texts_read; reflexivity).
    destruct (f u lid _) as [u' [z| |]] eqn:Ef.
    - destruct calls as [|c calls]; [cbn [deliver]; rewrite E; reflexivity|].
      change (deliver (py_add (py_reads f)) ((lid, ms) :: c :: calls) (u, sforms, false)) with (deliver (py_add (py_reads f)) (c :: calls) (fst (py_add (py_reads f) (u, sforms, false) lid ms))).
      rewrite E. apply IH.
    - destruct calls as [|c calls]; [cbn [deliver]; rewrite E; reflexivity|].
      change (deliver (py_add (py_reads f)) ((lid, ms) :: c :: calls) (u, sforms, false)) with (deliver (py_add (py_reads f)) (c :: calls) (fst (py_add (py_reads f) (u, sforms, false) lid ms))).
      rewrite E. apply IH.
    - destruct calls as [|c calls]; [cbn [deliver]; rewrite E; reflexivity|].
      change (deliver (py_add (py_reads f)) ((lid, ms) :: c :: calls) (u, sforms, false)) with (deliver (py_add (py_reads f)) (c :: calls) (fst (py_add (py_reads f) (u, sforms, false) lid ms))).
      rewrite E. cbn [fst]. pose proof (ended_stays (c :: calls) u' (py_stored ms sforms)) as K. destruct (deliver _ _ _) as [s z']. cbn [fst] in K. subst s. reflexivity.
  Qed.
End Session.

Lemma told_plain evs : map (told_in plain) evs = evs.
Proof.
  rewrite <- (map_id evs) at 2. apply map_ext. intros [[lid s] id]. unfold told_in. cbn [fst snd]. rewrite encode_plain. reflexivity.
Qed.

Theorem py_match_page P A L t rest : page_ok P -> holds A L -> fixed_plain L -> strings_within 47 L ->
  stemtree A = stemtree_bytes (words L) ++ rest -> rest <> [] \/ lookup [] (words L) <> None ->
  (forall key e, has_record (words L) key e -> nlexid e <> 0) ->
  is_bytes t -> t <> [] -> (length t < 48)%nat -> (length t + slack (coding P) <= 48)%nat -> (length (parts rus_casing t) <= 16)%nat ->
  exists evs : list (N * bytes * N),
    (forall w U (f : U -> N -> list (res bytes * N) -> U * py_result) junk buf sforms u, spells (coding P) w t -> (length w < 48)%nat ->
       length junk = 48%nat -> length buf = 48%nat ->
       Forall (fun ev => (length (encode (coding P) (snd (fst ev))) + slack (coding P) <= 96)%nat) evs -> Forall call_fits (runs (map (told_in (coding P)) evs)) ->
       py_find_match_mb (py_reads f) P A junk buf sforms w u = Ok (py_session f (runs (map (told_in (coding P)) evs)) u)) /\
    (forall lid str id, In (lid, str, id) evs -> matching L (map (locase rus_casing) t) lid str id) /\
    (bounds_ok L -> forall key e part str id, has_form L key e part str id -> glob (map (locase rus_casing) t) str -> ~ In 42 str ->
       part <> [] \/ match stpost e with [] => True | b :: _ => chrmin e <= b <= chrmax e end -> In (nlexid e, str, id) evs).
Proof.
  intros HP HL Hf Hs Er Hne Hids Hb Ht Hlt Hsl Hp.
  assert (H : exists evs : list (N * bytes * N),
    (forall w U (add : U -> N -> list (bytes * N) -> U * Z) junk buf u, spells (coding P) w t -> (length w < 48)%nat -> length junk = 48%nat -> length buf = 48%nat ->
       Forall (fun ev => (length (encode (coding P) (snd (fst ev))) + slack (coding P) <= 96)%nat) evs -> Forall call_fits (runs (map (told_in (coding P)) evs)) ->
       page_find_match P add A junk buf (py_text w) (py_count w) u = Ok (deliver add (runs (map (told_in (coding P)) evs)) u)) /\
    (forall lid str id, In (lid, str, id) evs -> matching L (map (locase rus_casing) t) lid str id) /\
    (bounds_ok L -> forall key e part str id, has_form L key e part str id -> glob (map (locase rus_casing) t) str -> ~ In 42 str ->
       part <> [] \/ match stpost e with [] => True | b :: _ => chrmin e <= b <= chrmax e end -> In (nlexid e, str, id) evs)).
  { assert (Hgiv : forall w : bytes, (length w < 48)%nat -> given w (py_text w) (py_count w)).
    { intros w Hw. apply py_given. assert (N.of_nat 48 < 2 ^ 64 - 1) by (vm_compute; reflexivity). lia. }
    assert (Hcp : forall E, (length t + slack E <= 48)%nat -> exists evs : list (N * bytes * N),
      (forall w U (add : U -> N -> list (bytes * N) -> U * Z) junk buf u, spells E w t -> (length w < 48)%nat -> length junk = 48%nat -> length buf = 48%nat ->
         Forall (fun ev => (length (encode E (snd (fst ev))) + slack E <= 96)%nat) evs -> Forall call_fits (runs (map (told_in E) evs)) ->
         cp_find_match E add A junk buf (py_text w) (py_count w) u = Ok (deliver add (runs (map (told_in E) evs)) u)) /\
      (forall lid str id, In (lid, str, id) evs -> matching L (map (locase rus_casing) t) lid str id) /\
      (bounds_ok L -> forall key e part str id, has_form L key e part str id -> glob (map (locase rus_casing) t) str -> ~ In 42 str ->
         part <> [] \/ match stpost e with [] => True | b :: _ => chrmin e <= b <= chrmax e end -> In (nlexid e, str, id) evs)).
    { intros E HE. destruct (cp_match_exact E A L t rest) as (evs & K1 & K2 & K3); try assumption. exists evs. split; [|split; assumption].
      intros w U add junk buf u Hw Hlw Hj Hbuf F1 F2. destruct (K1 w _ _ (Hgiv w Hlw) Hw Hlw U add junk buf u Hj Hbuf) as [K _]. apply K. split; assumption. }
    destruct P as [|E|E]; [|exact (Hcp E Hsl)|exact (Hcp E Hsl)].
    destruct (find_match_eq A L t (py_text t) (py_count t) rest HL Hf Hs Er Hne Hids (Hgiv t Hlt) Hb Ht Hlt Hp) as (evs & K1 & K2 & K3).
    exists evs. split; [|split; assumption]. cbn [coding]. rewrite told_plain. intros w U add junk buf u [_ Hw] _ Hj Hbuf _ F. cbn [plain dec] in Hw. subst w.
    apply (K1 U add junk buf u Hj Hbuf). exact F. }
  destruct H as (evs & K1 & K2 & K3). exists evs. split; [|split; assumption]. intros w U f junk buf sforms u Hw Hlw Hj Hbuf F1 F2.
  unfold py_find_match_mb, py_find_match. rewrite (K1 w _ (py_add (py_reads f)) junk buf (u, sforms, false) Hw Hlw Hj Hbuf F1 F2). cbn [bind].
  rewrite <- (deliver_session f _ u sforms). destruct (deliver _ _ _) as [[[u' s'] e] z]. reflexivity.
Qed.

Theorem py_ematch A L w rest :
  eholds A L -> ebuildable L -> estrings_within 47 L -> eforms_at_most 256 L ->
  e_stems A = stemtree_bytes (ewords L) ++ rest -> rest <> [] \/ lookup [] (ewords L) <> None ->
  (forall key e, has_record (ewords L) key e -> nlexid e <> 0) ->
  is_bytes w -> w <> [] -> (length w < 48)%nat -> (length (parts eng_casing w) <= 16)%nat ->
  exists calls : list (N * list (bytes * N)),
    (forall U (f : U -> N -> list (res bytes * N) -> U * py_result) junk buf sforms u, length junk = 48%nat -> length buf = 48%nat ->
       py_efind_match_mb (py_reads f) A junk buf sforms w u = Ok (py_session f calls u)) /\
    (forall lid ms str id, In (lid, ms) calls -> In (str, id) ms -> elexeme_form L lid str id /\ glob (map (locase eng_casing) w) str) /\
    (ebounds_ok L -> forall key e part str id, ehas_form L key e part str id -> glob (map (locase eng_casing) w) str -> ~ In 42 str ->
       part <> [] \/ match stpost e with [] => True | b :: _ => chrmin e <= b <= chrmax e end ->
       exists ms, In (nlexid e, ms) calls /\ In (str, id) ms) /\
    Forall (fun call => NoDup (snd call) /\ snd call <> []) calls /\ neighbours_differ calls.
Proof.
  intros HL HB H1 H2 H3 H4 H5 Hb Hw Hlen Hp.
  assert (Hcount : N.of_nat (length w) < 2 ^ 64 - 1) by (assert (N.of_nat 48 < 2 ^ 64 - 1) by (vm_compute; reflexivity); lia).
  destruct (efind_match_eq A L w (py_text w) (py_count w) rest HL HB H1 H2 H3 H4 H5 (py_given w Hcount) Hb Hw Hlen Hp) as (calls & K1 & K2). exists calls. split; [|exact K2].
  intros U f junk buf sforms u Hj Hbuf. unfold py_efind_match_mb, py_find_match. rewrite (K1 _ (py_add (py_reads f)) junk buf (u, sforms, false) Hj Hbuf). cbn [bind].
  rewrite <- (deliver_session f _ u sforms). destruct (deliver _ _ _) as [[[u' s'] e] z]. reflexivity.
Qed.
