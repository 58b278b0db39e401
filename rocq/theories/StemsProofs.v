(** Proofs about Stems.v: records and lists *)
From Verif Require Import Base Serial SerialProofs WordTree TreeSpec WordTreeProofs FlatScan FlatScanProofs Stems StemSpec.
Local Open Scope N_scope.

(** ** one record *)
Lemma testbit15_lor o b : o < 2 ^ 15 -> N.testbit (N.lor o (if b : bool then 0x8000 else 0)) 15 = b.
Proof.
  intros H. rewrite N.lor_spec, (testbit_small o 15) by assumption. destruct b; reflexivity.
Qed.

Lemma land7fff_lor o (b : bool) : o < 2 ^ 15 -> N.land (N.lor o (if b then 0x8000 else 0)) 0x7fff = o.
Proof.
  intros H. change 0x7fff with (N.ones 15). destruct b.
  - change 0x8000 with (2 ^ 15). rewrite lor_pow2, land_ones_add by assumption. reflexivity.
  - rewrite N.lor_0_r, N.land_ones. apply N.mod_small. assumption.
Qed.

Lemma lor_lt16 o (b : bool) : o < 2 ^ 15 -> N.lor o (if b then 0x8000 else 0) < 2 ^ 16.
Proof.
  intros H. destruct b.
  - change 0x8000 with (2 ^ 15). rewrite lor_pow2 by assumption.
    change (2 ^ 15) with 32768 in *. change (2 ^ 16) with 65536. lia.
  - rewrite N.lor_0_r. change (2 ^ 15) with 32768 in *. change (2 ^ 16) with 65536. lia.
Qed.

Lemma putserial_small n : n < 128 -> putserial n = [n].
Proof. intros H. unfold putserial. cbn [putserial_loop]. destruct (N.ltb_spec n 128); [reflexivity|lia]. Qed.

Lemma seriallen_small n : n < 128 -> seriallen n = 1.
Proof. intros H. unfold seriallen. cbn [seriallen_loop]. destruct (N.ltb_spec n 128); [reflexivity|lia]. Qed.

Lemma entry_ser_len e : entry_ok e -> N.of_nat (length (entry_ser e)) = entry_len e.
Proof.
  intros (_ & _ & _ & Ho & _ & Hp). unfold entry_ser, entry_len. rewrite testbit15_lor by assumption.
  cbn [app]. cbn [length]. rewrite !app_length. cbn [putword16 length].
  pose proof (putserial_len (nlexid e)).
  destruct (stpost e) as [|c p] eqn:E; cbn [nonempty].
  - cbn [length]. lia.
  - rewrite app_length, (putserial_small (N.of_nat (length (c :: p)))) by assumption. cbn [length] in *. lia.
Qed.

Lemma stems_ser_len l : stems_ok l -> N.of_nat (length (stems_ser l)) = stems_len l.
Proof.
  intros [H _]. unfold stems_ser, stems_len. rewrite app_length, Nnat.Nat2N.inj_add, putserial_len. f_equal.
  induction H as [|e l He Hl IH]; [reflexivity|].
  cbn [flat_map fold_right]. rewrite app_length, Nnat.Nat2N.inj_add, IH, entry_ser_len by assumption. reflexivity.
Qed.

(** The postfix fragment the reader reports for a stored record. *)
Lemma post_frag_len e after : flen (post_frag e after) = N.of_nat (length (stpost e)).
Proof. unfold post_frag. destruct (stpost e); reflexivity. Qed.

(** the word16 stored for a record *)
Definition wstore (e : entry) : N := N.lor (oclass e) (if nonempty (stpost e) then 0x8000 else 0).

Lemma entry_read e rest : entry_ok e ->
  exists p, entry_ser e ++ rest = chrmin e :: chrmax e :: putserial (nlexid e) ++ putword16 (wstore e) ++ p
  /\ getpostfix (wstore e) p = Ok (post_frag e rest, rest)
  /\ N.testbit (wstore e) 15 = nonempty (stpost e) /\ N.land (wstore e) 0x7fff = oclass e /\ wstore e < 2 ^ 16.
Proof.
  intros (_ & _ & _ & Ho & _ & Hp). unfold wstore.
  eexists. split; [|split; [|split; [apply testbit15_lor; assumption|split; [apply land7fff_lor; assumption|apply lor_lt16; assumption]]]].
  - unfold entry_ser. cbn [app]. rewrite <- !app_assoc. reflexivity.
  - unfold getpostfix. rewrite testbit15_lor by assumption. unfold post_frag.
    destruct (stpost e) as [|c p] eqn:E; cbn [nonempty]; [reflexivity|].
    rewrite (putserial_small (N.of_nat (length (c :: p)))) by assumption. rewrite <- !app_assoc.
    change ([N.of_nat (length (c :: p))] ++ (c :: p) ++ rest) with (N.of_nat (length (c :: p)) :: (c :: p) ++ rest).
    cbn [rd bind]. rewrite advance_app by reflexivity. reflexivity.
Qed.

(** ** what the list scanner reports *)
Definition strip_post (post rest : bytes) : option bytes :=
  if list_eq_dec N.eq_dec (skipn (length rest - length post) rest) post
  then Some (firstn (length rest - length post) rest) else None.

Lemma strip_post_some post rest infl : strip_post post rest = Some infl <-> rest = infl ++ post.
Proof.
  unfold strip_post. destruct (list_eq_dec N.eq_dec (skipn (length rest - length post) rest) post) as [E|E].
  - split.
    + intros [= <-]. rewrite <- E at 2. symmetry. apply firstn_skipn.
    + intros ->. rewrite app_length. replace (length infl + length post - length post)%nat with (length infl) by lia.
      rewrite firstn_app, firstn_all, Nat.sub_diag, firstn_O, app_nil_r. reflexivity.
  - split; [discriminate|]. intros ->. exfalso. apply E. rewrite app_length.
    replace (length infl + length post - length post)%nat with (length infl) by lia.
    rewrite skipn_app, skipn_all, Nat.sub_diag. reflexivity.
Qed.

(** The records reported for a word rest: a record whose postfix ends the rest is reported if its bounds admit the
    first letter; a record whose upper bound is too small ends the search. *)
Fixpoint candidates (rest : bytes) (l : list entry) : list (entry * bytes) :=
  match l with
  | [] => []
  | e :: l' =>
      match strip_post (stpost e) rest with
      | None => candidates rest l'
      | Some [] => (e, []) :: candidates rest l'
      | Some (c :: infl) =>
          if chrmax e <? c then []
          else if c <? chrmin e then candidates rest l'
          else (e, c :: infl) :: candidates rest l'
      end
  end.

Lemma mem_eq_split (rest post : bytes) tail after :
  (length post <= length rest)%nat ->
  (let! tl := advance (N.of_nat (length rest) - N.of_nat (length post)) (rest ++ tail) in
   mem_eq tl (post ++ after) (N.of_nat (length post))) =
  Ok (match strip_post post rest with Some _ => true | None => false end).
Proof.
  intros Hle.
  set (n := (length rest - length post)%nat).
  rewrite <- (firstn_skipn n rest) at 2. rewrite <- app_assoc.
  rewrite advance_app.
  2:{ rewrite firstn_length. lia. }
  cbn [bind]. unfold mem_eq.
  assert (Hs : length (skipn n rest) = length post) by (rewrite skipn_length; lia).
  rewrite !app_length, Hs.
  destruct (N.ltb_spec (N.of_nat (length post + length tail)) (N.of_nat (length post))); [lia|].
  destruct (N.ltb_spec (N.of_nat (length post + length after)) (N.of_nat (length post))); [lia|].
  cbn [orb]. rewrite Nnat.Nat2N.id.
  assert (E1 : firstn (length post) (skipn n rest ++ tail) = skipn n rest).
  { rewrite <- Hs. rewrite firstn_app, Nat.sub_diag, firstn_O, app_nil_r. apply firstn_all. }
  assert (E2 : firstn (length post) (post ++ after) = post).
  { rewrite firstn_app, Nat.sub_diag, firstn_O, app_nil_r. apply firstn_all. }
  rewrite E1, E2.
  unfold strip_post. fold n.
  destruct (list_eq_dec N.eq_dec (skipn n rest) post); reflexivity.
Qed.

Section Lookup.
  Context {St : Type} (output : St -> N -> N -> frag -> frag -> res (St * Z)).
  (** the handler sees the postfix only as a string: what follows it in memory does not matter *)
  Variable out : St -> N -> N -> frag -> bytes -> res (St * Z).
  Hypothesis Hout : forall s lid cl fr e after,
    output s lid cl fr (post_frag e after) = out s lid cl fr (stpost e).

  Lemma lookup_loop_eq rest tail l : forall junk s,
    Forall entry_ok l ->
    lookup_loop output (length l) (flat_map entry_ser l ++ junk) (Frag (rest ++ tail) (N.of_nat (length rest))) s =
    until_nonzero (fun s ei => out s (nlexid (fst ei)) (oclass (fst ei))
                                   (Frag (rest ++ tail) (N.of_nat (length (snd ei)))) (stpost (fst ei)))
                  (candidates rest l) s.
  Proof.
    induction l as [|e l IH]; intros junk s Hl; [reflexivity|].
    inversion Hl as [|? ? He Hl']; subst.
    cbn [length flat_map lookup_loop]. rewrite <- app_assoc.
    destruct (entry_read e (flat_map entry_ser l ++ junk) He) as (p & Hp & Hpost & Hbit & Hcl & Hlt).
    rewrite Hp. cbn [rd bind]. rewrite getserial_putserial by apply He. cbn [bind].
    rewrite getword16_put by assumption. cbn [bind]. rewrite Hpost. cbn [bind]. rewrite Hbit, Hcl.
    rewrite post_frag_len. cbn [flen fstr].
    cbn [candidates].
    destruct (strip_post (stpost e) rest) as [infl|] eqn:Es.
    - pose proof (proj1 (strip_post_some _ _ _) Es) as Hr.
      assert (Hlen : length rest = (length infl + length (stpost e))%nat) by (rewrite Hr; apply app_length).
      destruct (N.ltb_spec (N.of_nat (length rest)) (N.of_nat (length (stpost e)))); [lia|].
      rewrite andb_false_r.
      assert (Hsame : (if nonempty (stpost e) then
                 let! tl := advance (N.of_nat (length rest) - N.of_nat (length (stpost e))) (rest ++ tail) in
                 mem_eq tl (fstr (post_frag e (flat_map entry_ser l ++ junk))) (N.of_nat (length (stpost e)))
               else Ok true) = Ok true).
      { destruct (nonempty (stpost e)) eqn:En; [|reflexivity].
        unfold post_frag. rewrite En. cbn [fstr]. rewrite mem_eq_split by lia. rewrite Es. reflexivity. }
      rewrite Hsame. cbn [bind negb].
      replace (N.of_nat (length rest) - N.of_nat (length (stpost e))) with (N.of_nat (length infl)) by lia.
      destruct infl as [|c infl].
      + cbn [length N.of_nat N.ltb N.compare bind]. rewrite Hout. cbn [until_nonzero fst snd length N.of_nat].
        destruct (out _ _ _ _ _) as [[s' r]|]; cbn [bind]; [|reflexivity].
        destruct (Z.eqb r 0); [apply IH; assumption|reflexivity].
      + destruct (N.ltb_spec 0 (N.of_nat (length (c :: infl)))) as [_|?]; [|cbn in *; lia].
        rewrite Hr at 1. cbn [app rd bind].
        destruct (chrmax e <? c); [reflexivity|].
        destruct (c <? chrmin e); [apply IH; assumption|].
        rewrite Hout. cbn [until_nonzero fst snd].
        destruct (out _ _ _ _ _) as [[s' r]|]; cbn [bind]; [|reflexivity].
        destruct (Z.eqb r 0); [apply IH; assumption|reflexivity].
    - destruct (N.ltb_spec (N.of_nat (length rest)) (N.of_nat (length (stpost e)))) as [Hlt2|Hge].
      + destruct (nonempty (stpost e)) eqn:En; [cbn [andb]; apply IH; assumption|].
        destruct (stpost e); [cbn in Hlt2; lia|discriminate].
      + rewrite andb_false_r.
        assert (Hn : nonempty (stpost e) = true).
        { destruct (stpost e) as [|? ?] eqn:E; [|reflexivity]. exfalso.
          assert (strip_post [] rest = Some rest) by (apply strip_post_some; rewrite app_nil_r; reflexivity). congruence. }
        rewrite Hn. unfold post_frag. rewrite Hn. cbn [fstr]. rewrite mem_eq_split by lia. rewrite Es. cbn [bind negb].
        apply IH; assumption.
  Qed.

  Lemma lookup_list_eq rest tail l junk s :
    stems_ok l ->
    lookup_list output s (stems_ser l ++ junk) (Frag (rest ++ tail) (N.of_nat (length rest))) =
    until_nonzero (fun s ei => out s (nlexid (fst ei)) (oclass (fst ei))
                                   (Frag (rest ++ tail) (N.of_nat (length (snd ei)))) (stpost (fst ei)))
                  (candidates rest l) s.
  Proof.
    intros [Hl Hn]. unfold lookup_list, stems_ser. rewrite <- app_assoc, getserial_putserial by assumption.
    cbn [bind]. rewrite Nnat.Nat2N.id. apply lookup_loop_eq. assumption.
  Qed.
End Lookup.

(** ** soundness and completeness of [candidates] *)
Lemma candidates_sound rest l e infl :
  In (e, infl) (candidates rest l) -> In e l /\ splits rest e infl /\ admits e infl.
Proof.
  induction l as [|x l IH]; cbn [candidates]; [intros []|].
  destruct (strip_post (stpost x) rest) as [[|c inf]|] eqn:Es; intros H.
  - destruct H as [[= <- <-]|H]; [|destruct (IH H) as (? & ? & ?); split; [right; assumption|split; assumption]].
    apply strip_post_some in Es. split; [left; reflexivity|]. split; [exact Es|]. intros c i; discriminate.
  - destruct (N.ltb_spec (chrmax x) c); [destruct H|].
    destruct (N.ltb_spec c (chrmin x)).
    + destruct (IH H) as (? & ? & ?). split; [right; assumption|split; assumption].
    + destruct H as [[= <- <-]|H].
      * apply strip_post_some in Es. split; [left; reflexivity|]. split; [exact Es|]. intros c' i [= <- <-]. lia.
      * destruct (IH H) as (? & ? & ?). split; [right; assumption|split; assumption].
  - destruct (IH H) as (? & ? & ?). split; [right; assumption|split; assumption].
Qed.

Lemma candidates_complete rest l e infl :
  max_descending l -> In e l -> splits rest e infl -> admits e infl -> reachable e infl ->
  In (e, infl) (candidates rest l).
Proof.
  intros Hd Hin Hs Ha Hne. induction l as [|x l IH]; [destruct Hin|].
  cbn [max_descending] in Hd. destruct Hd as [Hall Hd].
  cbn [candidates]. destruct Hin as [->|Hin].
  - pose proof (proj2 (strip_post_some _ _ _) Hs) as Es. rewrite Es.
    destruct infl as [|c inf]; [left; reflexivity|].
    specialize (Ha c inf eq_refl).
    destruct (N.ltb_spec (chrmax e) c); [lia|]. destruct (N.ltb_spec c (chrmin e)); [lia|]. left; reflexivity.
  - specialize (IH Hd Hin).
    destruct (strip_post (stpost x) rest) as [[|c inf]|] eqn:Es; [right; assumption| |assumption].
    destruct (N.ltb_spec (chrmax x) c) as [Hlt|Hge].
    + exfalso. apply strip_post_some in Es. unfold splits in Hs. destruct infl as [|c' inf'].
      * cbn [app] in Hs. destruct Hne as [Hne|Hne]; [congruence|]. rewrite <- Hs, Es in Hne. cbn [app] in Hne.
        rewrite Forall_forall in Hall. specialize (Hall e Hin). lia.
      * specialize (Ha c' inf' eq_refl).
        assert (c' = c) by (rewrite Hs in Es; cbn in Es; congruence). subst c'.
        rewrite Forall_forall in Hall. specialize (Hall e Hin). lia.
    + destruct (c <? chrmin x); [assumption|right; assumption].
Qed.

(** every candidate appears once: the candidates are a sublist of the list *)
Lemma candidates_sublist rest l : sublist (map fst (candidates rest l)) l.
Proof.
  induction l as [|e l IH]; [constructor|]. cbn [candidates].
  destruct (strip_post (stpost e) rest) as [[|c inf]|]; cbn [map fst]; try (constructor; assumption).
  destruct (chrmax e <? c); [constructor|]. destruct (c <? chrmin e); cbn [map fst]; constructor; assumption.
Qed.
