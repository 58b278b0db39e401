(** * PspTabProofs3: the call in make-psp-tab. *)
From Coq Require Import QArith.
From Verif Require Import Base Serial WordTree TreeSpec FlatScan Stems StemSpec CharTables CapScheme CapSpec GramMap RusRuntime LevelSpec RusSpec
  RusBuild RusBuildSpec RusReadings RusReadingsProofs RusLemmaSpec RusLemmaProofs5 PropLemmasLemmas EngRuntime EngSpec EngFormsSpec EngReadingsProofs EngLemmaSpec PropEngLemmas PropEngLemmas2
  Codepage CodepageSpec CodepageProofs3 PropCodepageLemmas Guess GuessSpec GuessProofs CxxApi CxxSpec CxxProofs CxxProofs2 CxxProofs3
  PyApi PySpec PyProofs PyProofs2 LemmTool LemmToolSpec LemmToolProofs3 PspTab PspTabSpec PspTabProofs PspTabProofs2.
Local Open Scope N_scope.
Local Open Scope list_scope.
Notation length := List.length.

Lemma called_ok (shown block : nat -> list gram) : forall n pre gr k lx rest,
  (forall i, (k <= i < k + n)%nat -> shown i <> [] /\ exists more, block i = shown i ++ more) ->
  (forall i, (i < n)%nat -> exists x, nth_error lx i = Some x /\ lm_grams x = N.of_nat (length pre + length (concat (map block (seq k i)))) /\ lm_ngrams x = N.of_nat (length (shown (k + i)%nat))) ->
  gr = pre ++ concat (map block (seq k n)) ++ rest ->
  called gr lx n = Ok (map (fun i => with_first (shown i)) (seq k n)).
Proof.
  induction n as [|n IH]; intros pre gr k lx rest Hs Hc Hg; [destruct lx; reflexivity|].
  destruct (Hc 0%nat ltac:(lia)) as (x & Ex & Ea & En). destruct lx as [|x0 lx]; [discriminate|]. injection Ex as ->. cbn [called].
  cbn [seq map concat length] in Ea. rewrite Nat.add_0_r in Ea, En. rewrite Ea, En, !Nnat.Nat2N.id. cbn [seq map concat] in Hg.
  destruct (Hs k ltac:(lia)) as (Hne & more & Eb). rewrite Eb in Hg. rewrite <- !app_assoc in Hg.
  destruct (shown k) as [|g gs] eqn:Ek; [congruence|]. rewrite Hg at 1. rewrite nth_error_app2 by lia. rewrite Nat.sub_diag. cbn [app nth_error].
  destruct (Nat.ltb_spec (length gr) (length pre + length (g :: gs))) as [Hl|_]; [exfalso; rewrite Hg, !app_length in Hl; lia|].
  assert (E : firstn (length (g :: gs)) (skipn (length pre) gr) = g :: gs).
  { rewrite Hg, skipn_app, skipn_all, Nat.sub_diag. cbn [app skipn]. rewrite app_comm_cons, firstn_app, firstn_all, Nat.sub_diag, app_nil_r. reflexivity. }
  rewrite E. rewrite (IH (pre ++ block k) gr (S k) lx rest).
  - cbn [bind seq map]. rewrite Ek. reflexivity.
  - intros i Hi. apply Hs. lia.
  - intros i Hi. destruct (Hc (S i) ltac:(lia)) as (y & Ey & Ya & Yn). exists y. split; [exact Ey|]. split; [|rewrite Yn; f_equal; f_equal; f_equal; lia].
    rewrite Ya. cbn [seq map concat]. rewrite !app_length. f_equal. lia.
  - rewrite Hg, Eb, <- !app_assoc. reflexivity.
Qed.

Section Called.
  Context {G : Type} (shown block : G -> list gram).
  Lemma called_rows (gs : list G) (gr : list gram) (lx : list lemm) :
    (forall g, In g gs -> shown g <> [] /\ exists more, block g = shown g ++ more) ->
    (forall i g, nth_error gs i = Some g -> exists x, nth_error lx i = Some x /\ lm_grams x = N.of_nat (length (concat (map block (firstn i gs)))) /\ lm_ngrams x = N.of_nat (length (shown g))) ->
    (exists rest, gr = concat (map block gs) ++ rest) -> called gr lx (length gs) = Ok (map (fun g => with_first (shown g)) gs).
  Proof.
    intros Hs Hc (rest & Hg). destruct gs as [|g0 gs0] eqn:Egs; [destruct lx; reflexivity|]. rewrite <- Egs in *. clear gs0 Egs.
    assert (Hmap : forall X (f : G -> X) l, map (fun i => f (nth i l g0)) (seq 0 (length l)) = map f l).
    { clear. intros X f l. induction l as [|a l IH]; [reflexivity|]. cbn [length seq map]. f_equal. rewrite <- seq_shift, map_map. exact IH. }
    rewrite (called_ok (fun i => shown (nth i gs g0)) (fun i => block (nth i gs g0)) (length gs) [] gr 0 lx rest).
    - f_equal. apply (Hmap _ (fun g => with_first (shown g))).
    - intros i Hi. apply Hs, nth_In. lia.
    - intros i Hi. destruct (Hc i (nth i gs g0) (nth_error_nth' gs g0 Hi)) as (x & E1 & E2 & E3). exists x. split; [exact E1|]. split; [|exact E3]. rewrite E2. cbn [length Nat.add].
      f_equal. f_equal. f_equal. rewrite <- (Hmap _ block (firstn i gs)). rewrite firstn_length, Nat.min_l by lia. apply map_ext_in. intros j Hj. apply in_seq in Hj.
      f_equal. rewrite <- (firstn_skipn i gs) at 2. rewrite app_nth1 by (rewrite firstn_length; lia). reflexivity.
    - rewrite (Hmap _ block gs). exact Hg.
  Qed.
End Called.

Lemma rus_look_ok A L : holds A L -> buildable L -> forall w, is_bytes w -> w <> [] -> (length w < 48)%nat -> (length (parts rus_casing w) <= 8)%nat ->
  exists hs, found L true w hs /\ forall after junk lemmas gramma, length lemmas = 32%nat -> length gramma = 64%nat -> (forall g, nth_error (grouped hs) 31 = Some g -> lx_more g = []) ->
    looks_up (map (fun g => rd_shown (lx_first g)) (grouped hs)) ((length (grouped hs) <= 32)%nat /\ grams_fit 64 (flat_map stored (grouped hs))) (rus_look A junk lemmas gramma (w, after)).
Proof.
  intros HL HB w Hb Hne Hl Hp. destruct (lemmatize_answer A L HL HB w 2 Hb Hne Hl Hp) as (hs & Hf & _ & H). change (bit 1 2) with true in Hf.
  exists hs. split; [exact Hf|]. intros after junk lemmas gramma L1 L3 Safe.
  assert (Hsafe : safe_call 2 (lexemes_of (Some lemmas) hs) (Some lemmas) None (Some gramma)).
  { split; [intros K; exfalso; apply K; reflexivity|]. intros mem g [= <-] _ _ Hg. rewrite L1 in Hg. exact (Safe g Hg). }
  assert (Hcount : N.of_nat (length w) < 2 ^ 64 - 1) by (assert (N.of_nat 48 < 2 ^ 64 - 1) by (vm_compute; reflexivity); lia).
  destruct (H (Some (w ++ after)) (N.of_nat (length w)) (Some lemmas) None (Some gramma) junk (given_counted w after Hcount) Hsafe) as (ls & z & p1 & p2 & p3 & Hlen & Hls & Hr & S1 & S2 & S3 & Hy & Hn).
  cbn [lexemes_of] in *. remember (grouped hs) as gs eqn:Egs.
  assert (Hfit : all_fit 2 gs ls (Some lemmas) None (Some gramma) <-> (length gs <= 32)%nat /\ grams_fit 64 (flat_map stored gs)).
  { unfold all_fit. split.
    - intros (F1 & _ & F3). specialize (F1 _ eq_refl). rewrite L1 in F1. split; [exact F1|]. rewrite <- L3. apply F3; [discriminate|reflexivity].
    - intros (F1 & F3). split; [intros m [= <-]; rewrite L1; exact F1|]. split; [intros m K; discriminate K|intros m _ [= <-]; rewrite L3; exact F3]. }
  rewrite Hfit in Hy, Hn. clear Hfit. destruct (same_some _ _ S1) as (lx & ->). destruct (same_some _ _ S3) as (gr & ->).
  unfold rus_look, look_up. cbn [fst snd]. unfold bytes in *. rewrite Hr. cbn [bind]. split.
  - intros Hroom. destruct (Hy Hroom) as (-> & D1 & D2 & D3). destruct (D1 lemmas eq_refl) as (lx0 & [= <-] & Hcell & _). rewrite Nat2Z.id, map_map.
    apply (called_rows (fun g => rd_shown (lx_first g)) (fun g => concat (stored g))).
    + intros g Hg. split; [|apply stored_shown]. rewrite Egs in Hg. pose proof (grouped_in hs g Hg) as Hin. destruct (found_facts A L true w hs _ HL Hf Hin) as [F1 F2].
      unfold rd_shown. destruct (rd_descs (lx_first g)); [congruence|discriminate].
    + intros i g Hg. eexists. split; [exact (Hcell i g Hg)|]. unfold lemm_cell. rewrite concat_flat. split; reflexivity.
    + specialize (D3 _ eq_refl). cbv beta iota in D3. injection D3 as ->. eexists. rewrite concat_flat. reflexivity.
  - intros Hroom. assert (Hz : (z < 0)%Z) by (destruct (Hn Hroom) as [->|[->| ->]]; lia). replace (Z.to_nat z) with 0%nat by lia. destruct lx; reflexivity.
Qed.
Lemma eng_look_ok A L : eholds A L -> ebuildable L -> forall w, is_bytes w -> w <> [] -> (length w < 48)%nat -> (length (parts eng_casing w) <= 8)%nat ->
  exists hs, efound L true w hs /\ forall after junk lemmas gramma, length lemmas = 32%nat -> length gramma = 64%nat -> (forall g, nth_error (egrouped hs) 31 = Some g -> ex_more g = []) ->
    looks_up (map (fun g => er_shown (ex_first g)) (egrouped hs)) ((length (egrouped hs) <= 32)%nat /\ grams_fit 64 (flat_map estored (egrouped hs))) (eng_look A junk lemmas gramma (w, after)).
Proof.
  intros HL HB w Hb Hne Hl Hp. destruct (elemmatize_answer A L HL HB w 2 Hb Hne Hl Hp) as (hs & Hf & _ & H). change (bit 1 2) with true in Hf.
  exists hs. split; [exact Hf|]. intros after junk lemmas gramma L1 L3 Safe.
  assert (Hsafe : esafe_call (elexemes_of (Some lemmas) hs) (Some lemmas) None (Some gramma)).
  { split; [intros K; exfalso; apply K; reflexivity|]. intros mem g [= <-] _ _ Hg. rewrite L1 in Hg. exact (Safe g Hg). }
  assert (Hcount : N.of_nat (length w) < 2 ^ 64 - 1) by (assert (N.of_nat 48 < 2 ^ 64 - 1) by (vm_compute; reflexivity); lia).
  destruct (H (Some (w ++ after)) (N.of_nat (length w)) (Some lemmas) None (Some gramma) junk (given_counted w after Hcount) Hsafe) as (ls & z & p1 & p2 & p3 & Hlen & Hls & Hr & S1 & S2 & S3 & Hy & Hn).
  cbn [elexemes_of] in *. remember (egrouped hs) as gs eqn:Egs.
  assert (Hfit : eall_fit gs ls (Some lemmas) None (Some gramma) <-> (length gs <= 32)%nat /\ grams_fit 64 (flat_map estored gs)).
  { unfold eall_fit. split.
    - intros (F1 & _ & F3). specialize (F1 _ eq_refl). rewrite L1 in F1. split; [exact F1|]. rewrite <- L3. apply F3; [discriminate|reflexivity].
    - intros (F1 & F3). split; [intros m [= <-]; rewrite L1; exact F1|]. split; [intros m K; discriminate K|intros m _ [= <-]; rewrite L3; exact F3]. }
  rewrite Hfit in Hy, Hn. clear Hfit. destruct (same_some _ _ S1) as (lx & ->). destruct (same_some _ _ S3) as (gr & ->).
  unfold eng_look, look_up. cbn [fst snd]. unfold bytes in *. rewrite Hr. cbn [bind]. split.
  - intros Hroom. destruct (Hy Hroom) as (-> & D1 & D2 & D3). destruct (D1 lemmas eq_refl) as (lx0 & [= <-] & Hcell & _). rewrite Nat2Z.id, map_map.
    apply (called_rows (fun g => er_shown (ex_first g)) (fun g => concat (estored g))).
    + intros g Hg. split; [|apply estored_shown]. rewrite Egs in Hg. pose proof (egrouped_in hs g Hg) as Hin. destruct (efound_facts A L true w hs _ HL Hf Hin) as (F1 & F2 & F3).
      unfold er_shown. destruct (er_ids (ex_first g)); [congruence|discriminate].
    + intros i g Hg. eexists. split; [exact (Hcell i g Hg)|]. unfold elemm_cell. rewrite concat_flat. split; reflexivity.
    + specialize (D3 _ eq_refl). cbv beta iota in D3. injection D3 as ->. eexists. rewrite concat_flat. reflexivity.
  - intros Hroom. assert (Hz : (z < 0)%Z) by (destruct (Hn Hroom) as [->|[->| ->]]; lia). replace (Z.to_nat z) with 0%nat by lia. destruct lx; reflexivity.
Qed.
