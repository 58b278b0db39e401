(** * PyProofs2: the lists of the other Python classes, and the lists of forms. *)
From Verif Require Import Base Serial WordTree TreeSpec FlatScan Stems StemSpec CharTables CapScheme CapSpec CapProofs GramMap RusRuntime LevelSpec RusSpec RusProofs
  RusProofs3 PropRusLemmas RusBuild RusBuildSpec RusReadings RusLemmaSpec PropBuildLemmas PropLemmasLemmas EngRuntime EngSpec EngFormsSpec EngLemmaSpec PropEngLemmas PropEngLemmas2
  Fuzzy FuzzySpec Codepage CodepageSpec CodepageProofs3 PropCodepageLemmas WideApi WideSpec WideProofs WideProofs2 WideProofs3 WideProofs4 PropWideLemmas Guess GuessSpec GuessProofs CxxApi CxxSpec CxxProofs CxxProofs2 CxxProofs3
  PyApi PySpec PyProofs.
Local Open Scope N_scope.

Lemma listed_rows {G} (id : G -> N) (shown block : G -> list gram) (gs : list G) (ls : list bytes) (code : bytes -> list N) dwsets z lx st gr (room : Prop) :
  length ls = length gs -> (forall g, exists more, block g = shown g ++ more) ->
  (room -> z = Z.of_nat (length gs) /\
     (forall i g, nth_error gs i = Some g -> nth_error lx i = Some (Lemm (id g) (if wants_lemma dwsets then Some (total (firstn i (map code ls))) else None)
       (if wants_grammar dwsets then N.of_nat (length (concat (map block (firstn i gs)))) else 0) (if wants_grammar dwsets then N.of_nat (length (shown g)) else 0))) /\
     (wants_lemma dwsets = true -> Forall (fun s => ~ In 0 s) (map code ls) /\ exists rest, st = Some (joined (map code ls) ++ rest)) /\
     (wants_grammar dwsets = true -> exists rest, gr = Some (concat (map block gs) ++ rest))) ->
  (~ room -> (z < 0)%Z) ->
  listed (map (fun gl => PyLemm (id (fst gl)) (told_lemma (wants_lemma dwsets) (code (snd gl))) (told_grams (wants_grammar dwsets) (shown (fst gl)))) (combine gs ls)) room
    (py_list (py_lemm_from st gr) z lx).
Proof.
  intros Hlen Hb Hy Hn. split; [|intros H; apply py_list_negative, Hn, H]. intros H. destruct (Hy H) as (-> & H1 & H2 & H3).
  rewrite (py_rows id shown block gs (map code ls) (wants_lemma dwsets) (wants_grammar dwsets)); try assumption.
  - rewrite combine_second, map_map. reflexivity.
  - rewrite map_length. exact Hlen.
  - intros g _. apply Hb.
Qed.

Lemma widen_no_nul W s : wide_ok W -> ~ In 0 s -> ~ In 0 (widened W s).
Proof. intros HW Hs H. unfold widened in H. apply in_map_iff in H as (c & E & Hc). apply (wd_letters W HW c); [intros ->; exact (Hs Hc)|exact E]. Qed.
Lemma widen_joined W ls : wide_ok W -> widened W (joined ls) = joined (map (widened W) ls).
Proof.
  intros HW. induction ls as [|l ls IH]; [reflexivity|]. cbn [map]. unfold joined in *. cbn [flat_map]. unfold widened in *. rewrite !map_app, IH. cbn [map]. rewrite (wd_nul W HW). reflexivity.
Qed.
Lemma widen_total W ls : total (map (widened W) ls) = total ls.
Proof. apply total_map_length. intros s. apply map_length. Qed.
Lemma erased_no_nul {G} (gs : list G) (ls : list bytes) (R : G -> bytes -> Prop) (code : bytes -> list N) : length ls = length gs -> Forall2 R gs ls ->
  (forall g l, In g gs -> R g l -> ~ In 0 (code l)) -> Forall (fun s => ~ In 0 s) (map code ls).
Proof.
  intros Hlen H Hc. apply Forall_map, Forall_forall. intros l Hl. destruct (in_second gs ls l Hlen Hl) as (g & Hg). pose proof (Forall2_combine _ _ _ H) as K. rewrite Forall_forall in K.
  eapply Hc; [eapply in_combine_l, Hg|exact (K _ Hg)].
Qed.

(** ** English, narrow *)
Theorem py_elemmatize_answer A L : eholds A L -> ebuildable L -> forall w dwsets,
  is_bytes w -> w <> [] -> (length w < 48)%nat -> (length (parts eng_casing w) <= 8)%nat ->
  exists hs, efound L (ignores_capitals dwsets) w hs /\
    forall junk lxbuff stbuff grbuff, length lxbuff = 32%nat -> length stbuff = 2048%nat -> length grbuff = 512%nat -> eng_safe dwsets (egrouped hs) ->
    exists ls, length ls = length (egrouped hs) /\ (wants_lemma dwsets = true -> Forall2 (fun g l => elemma_of (ex_first g) l) (egrouped hs) ls) /\
      listed (map (eng_row dwsets (fun l => l)) (combine (egrouped hs) ls)) (eng_room dwsets (egrouped hs) (fit 2048 ls))
        (py_elemmatize_mb A junk lxbuff stbuff grbuff w dwsets).
Proof.
  intros HL HB w dwsets Hb Hne Hl Hp. destruct (elemmatize_answer A L HL HB w (py_sets dwsets) Hb Hne Hl Hp) as (hs & Hf & _ & H).
  rewrite py_sets_ignore in Hf. exists hs. split; [exact Hf|]. intros junk lxbuff stbuff grbuff L1 L2 L3 [Safe1 Safe2].
  unfold py_elemmatize_mb, py_lemmatize. rewrite py_strings_eq, py_grammar_eq. set (st := if wants_lemma dwsets then Some stbuff else None). set (gr := if wants_grammar dwsets then Some grbuff else None).
  assert (Hsafe : esafe_call (elexemes_of (Some lxbuff) hs) (Some lxbuff) st gr).
  { split.
    - intros Hst. cbn [elexemes_of]. unfold st in Hst. destruct (wants_lemma dwsets); [|exfalso; apply Hst; reflexivity]. exact (Safe1 eq_refl).
    - intros mem g [= <-] Hgr _ Hg. rewrite L1 in Hg. unfold gr in Hgr. destruct (wants_grammar dwsets); [|exfalso; apply Hgr; reflexivity]. exact (Safe2 eq_refl g Hg). }
  assert (Hcount : N.of_nat (length w) < 2 ^ 64 - 1) by (assert (N.of_nat 48 < 2 ^ 64 - 1) by (vm_compute; reflexivity); lia).
  destruct (H (py_text w) (py_count w) (Some lxbuff) st gr junk (py_given w Hcount) Hsafe) as (ls & z & p1 & p2 & p3 & Hlen & Hls & Hr & S1 & _ & _ & Hy & Hn).
  cbn [elexemes_of] in *. set (gs := egrouped hs) in *. exists ls. split; [exact Hlen|].
  assert (Hls' : wants_lemma dwsets = true -> Forall2 (fun g l => elemma_of (ex_first g) l) gs ls).
  { intros Hw1. unfold st in Hls. rewrite Hw1 in Hls. exact (Hls ltac:(discriminate)). }
  split; [exact Hls'|].
  assert (Hfit : eall_fit gs ls (Some lxbuff) st gr <-> eng_room dwsets gs (fit 2048 ls)).
  { unfold eall_fit, eng_room, st, gr. split.
    - intros (F1 & F2 & F3). split; [rewrite <- L1; apply F1; reflexivity|]. split.
      + intros E. rewrite E in F2. rewrite <- L2. exact (F2 _ eq_refl).
      + intros E. rewrite E in F3. rewrite <- L3. apply F3; [discriminate|reflexivity].
    - intros (F1 & F2 & F3). split; [intros m [= <-]; rewrite L1; exact F1|]. split.
      + intros m Em. destruct (wants_lemma dwsets); [|discriminate]. injection Em as <-. rewrite L2. exact (F2 eq_refl).
      + intros m _ Em. destruct (wants_grammar dwsets); [|discriminate]. injection Em as <-. rewrite L3. apply F3. reflexivity. }
  rewrite Hfit in Hy, Hn. destruct (same_some _ _ S1) as (lx & ->). unfold bytes in *. rewrite Hr. cbn [bind].
  apply (listed_rows (fun g => er_id (ex_first g)) (fun g => er_shown (ex_first g)) (fun g => concat (estored g)) gs ls (fun l => l) dwsets z lx p2 p3); [exact Hlen|apply estored_shown| |].
  2: intros Hroom; destruct (Hn Hroom) as [->|[->| ->]]; lia.
  intros Hroom. destruct (Hy Hroom) as (-> & D1 & D2 & D3). destruct (D1 lxbuff eq_refl) as (lx0 & [= <-] & Hcell & _). split; [reflexivity|]. rewrite map_id. split; [|split].
  - intros i g Hg. rewrite (Hcell i g Hg). unfold elemm_cell, st, gr. rewrite concat_flat. destruct (wants_lemma dwsets), (wants_grammar dwsets); reflexivity.
  - intros E. unfold st in D2. rewrite E in D2. rewrite (D2 _ eq_refl). split; [|exists (after ls stbuff); reflexivity].
    rewrite <- (map_id ls). apply (erased_no_nul gs ls _ (fun l => l) Hlen (Hls' E)). intros g l Hg Hl'. eapply (elemma_no_nul A L _ w hs (ex_first g) l HL HB Hf); [|exact Hl'].
    apply egrouped_in. exact Hg.
  - intros E. unfold gr in D3. rewrite E in D3. rewrite (D3 _ eq_refl). eexists. rewrite concat_flat. reflexivity.
Qed.

(** ** Wide *)
Theorem py_lemmatize_wide W A L : wide_ok W -> holds A L -> buildable L -> forall w dwsets, let t := narrowed W w in
  w <> [] -> (length w < 48)%nat -> (length (parts rus_casing t) <= 8)%nat ->
  exists hs, found L (ignores_capitals dwsets) t hs /\
    forall junk lmbuff szlemm szword lxbuff stbuff grbuff, length lmbuff = 32%nat -> length szlemm = 240%nat ->
      length lxbuff = 32%nat -> length stbuff = 2048%nat -> length grbuff = 512%nat -> rus_safe dwsets (grouped hs) ->
    exists ls, length ls = length (grouped hs) /\ (wants_lemma dwsets = true -> Forall2 (fun g l => lemma_of 0 (lx_first g) l) (grouped hs) ls) /\
      listed (map (rus_row dwsets (widened W)) (combine (grouped hs) ls)) (rus_room dwsets (grouped hs) (fit 240 ls))
        (py_lemmatize_wc W A junk lmbuff szlemm szword lxbuff stbuff grbuff w dwsets).
Proof.
  intros HW HL HB w dwsets t Hne Hl Hp. destruct (wc_lemmatize_answer W A L HW HL HB w (py_sets dwsets) Hne Hl Hp) as (hs & Hf & H). fold t in Hf.
  rewrite py_sets_ignore in Hf. exists hs. split; [exact Hf|]. intros junk lmbuff szlemm szword lxbuff stbuff grbuff L4 L5 L1 L2 L3 [Safe1 Safe2].
  unfold py_lemmatize_wc, py_lemmatize. rewrite py_strings_eq, py_grammar_eq. set (st := if wants_lemma dwsets then Some stbuff else None). set (gr := if wants_grammar dwsets then Some grbuff else None).
  assert (Hsafe : wide_safe (py_sets dwsets) (lexemes_of (Some lxbuff) hs) (Some lxbuff) st gr).
  { split.
    - intros Hst. cbn [lexemes_of]. unfold st in Hst. destruct (wants_lemma dwsets); [|exfalso; apply Hst; reflexivity]. eapply Forall_impl; [|exact (Safe1 eq_refl)]. intros g Hg. rewrite dict_forms_py. exact Hg.
    - intros mem g [= <-] Hgr _ Hg. rewrite L1 in Hg. unfold gr in Hgr. destruct (wants_grammar dwsets); [|exfalso; apply Hgr; reflexivity]. exact (Safe2 eq_refl g Hg). }
  assert (Hcount : N.of_nat (length w) < 2 ^ 64 - 1) by (assert (N.of_nat 48 < 2 ^ 64 - 1) by (vm_compute; reflexivity); lia).
  destruct (H (w ++ [0]) (py_count w) (Some lxbuff) st gr junk lmbuff szlemm szword (py_given w Hcount) L4 L5 Hsafe) as (ls & z & p1 & p2 & p3 & Hlen & Hls & Hr & S1 & _ & _ & Hy & Hn).
  cbn [lexemes_of] in *. set (gs := grouped hs) in *. exists ls. split; [exact Hlen|].
  assert (Hls' : wants_lemma dwsets = true -> Forall2 (fun g l => lemma_of 0 (lx_first g) l) gs ls).
  { intros Hw1. unfold st in Hls. rewrite Hw1 in Hls. specialize (Hls ltac:(discriminate)). clear - Hls. induction Hls as [|g l gs ls H _ IH]; constructor; [|exact IH].
    unfold lemma_of in *. rewrite dict_forms_py in H. exact H. }
  split; [exact Hls'|].
  assert (Hfit : wide_all_fit (py_sets dwsets) gs ls (Some lxbuff) st gr <-> rus_room dwsets gs (fit 240 ls)).
  { unfold wide_all_fit, rus_room, st, gr. split.
    - intros (F1 & F2 & F3). split; [specialize (F1 _ eq_refl); rewrite L1 in F1; exact F1|]. split.
      + intros E. rewrite E in F2. destruct (F2 _ eq_refl) as [F4 F5]. rewrite L2 in F5. split; [|exact F5]. refine (Forall_impl _ _ F4). intros g Hg. rewrite dict_forms_py in Hg. exact Hg.
      + intros E. rewrite E in F3. rewrite <- L3. apply F3; [discriminate|reflexivity].
    - intros (F1 & F2 & F3). split; [intros m [= <-]; rewrite L1; exact F1|]. split.
      + intros m Em. destruct (wants_lemma dwsets); [|discriminate]. injection Em as <-. rewrite L2. destruct (F2 eq_refl) as [F4 F5]. split; [|exact F5].
        eapply Forall_impl; [|exact F4]. intros g Hg. rewrite dict_forms_py. exact Hg.
      + intros m _ Em. destruct (wants_grammar dwsets); [|discriminate]. injection Em as <-. rewrite L3. apply F3. reflexivity. }
  rewrite Hfit in Hy, Hn. destruct (same_some _ _ S1) as (lx & ->). unfold bytes in *. rewrite Hr. cbn [bind].
  apply (listed_rows (fun g => rd_id (lx_first g)) (fun g => rd_shown (lx_first g)) (fun g => concat (stored g)) gs ls (widened W) dwsets z lx p2 p3); [exact Hlen|apply stored_shown| |].
  2: intros Hroom; destruct (Hn Hroom) as ([->|[->| ->]] & _); lia.
  intros Hroom. destruct (Hy Hroom) as (-> & D1 & D2 & D3). destruct (D1 lxbuff eq_refl) as (cells & [= ->] & Hcl & Hcell). split; [reflexivity|]. split; [|split].
  - intros i g Hg. rewrite nth_error_app1 by (rewrite Hcl; apply nth_error_Some; congruence). rewrite (Hcell i g Hg). unfold lemm_cell, st, gr. rewrite concat_flat.
    rewrite firstn_map, widen_total. destruct (wants_lemma dwsets), (wants_grammar dwsets); reflexivity.
  - intros E. unfold st in D2. rewrite E in D2. rewrite (D2 _ eq_refl). split; [|eexists; rewrite (widen_joined W ls HW); reflexivity].
    apply (erased_no_nul gs ls _ (widened W) Hlen (Hls' E)). intros g l Hg Hl'. apply widen_no_nul; [exact HW|]. eapply (lemma_no_nul A L _ t hs 0 (lx_first g) l HL HB Hf); [|exact Hl'].
    apply grouped_in. exact Hg.
  - intros E. unfold gr in D3. rewrite E in D3. rewrite (D3 _ eq_refl). eexists. rewrite concat_flat. reflexivity.
Qed.

Theorem py_elemmatize_wide W A L : wide_ok W -> eholds A L -> ebuildable L -> forall w dwsets, let t := narrowed W w in
  w <> [] -> (length w < 48)%nat -> (length (parts eng_casing t) <= 8)%nat ->
  exists hs, efound L (ignores_capitals dwsets) t hs /\
    forall junk lmbuff szlemm szword lxbuff stbuff grbuff, length lmbuff = 32%nat -> length szlemm = 240%nat ->
      length lxbuff = 32%nat -> length stbuff = 2048%nat -> length grbuff = 512%nat -> eng_safe dwsets (egrouped hs) ->
    exists ls, length ls = length (egrouped hs) /\ (wants_lemma dwsets = true -> Forall2 (fun g l => elemma_of (ex_first g) l) (egrouped hs) ls) /\
      listed (map (eng_row dwsets (widened W)) (combine (egrouped hs) ls)) (eng_room dwsets (egrouped hs) (fit 240 ls))
        (py_elemmatize_wc W A junk lmbuff szlemm szword lxbuff stbuff grbuff w dwsets).
Proof.
  intros HW HL HB w dwsets t Hne Hl Hp. destruct (wc_elemmatize_answer W A L HW HL HB w (py_sets dwsets) Hne Hl Hp) as (hs & Hf & H). fold t in Hf.
  rewrite py_sets_ignore in Hf. exists hs. split; [exact Hf|]. intros junk lmbuff szlemm szword lxbuff stbuff grbuff L4 L5 L1 L2 L3 [Safe1 Safe2].
  unfold py_elemmatize_wc, py_lemmatize. rewrite py_strings_eq, py_grammar_eq. set (st := if wants_lemma dwsets then Some stbuff else None). set (gr := if wants_grammar dwsets then Some grbuff else None).
  assert (Hsafe : ewide_safe (elexemes_of (Some lxbuff) hs) (Some lxbuff) st gr).
  { split.
    - intros Hst. cbn [elexemes_of]. unfold st in Hst. destruct (wants_lemma dwsets); [|exfalso; apply Hst; reflexivity]. exact (Safe1 eq_refl).
    - intros mem g [= <-] Hgr _ Hg. rewrite L1 in Hg. unfold gr in Hgr. destruct (wants_grammar dwsets); [|exfalso; apply Hgr; reflexivity]. exact (Safe2 eq_refl g Hg). }
  assert (Hcount : N.of_nat (length w) < 2 ^ 64 - 1) by (assert (N.of_nat 48 < 2 ^ 64 - 1) by (vm_compute; reflexivity); lia).
  destruct (H (w ++ [0]) (py_count w) (Some lxbuff) st gr junk lmbuff szlemm szword (py_given w Hcount) L4 L5 Hsafe) as (ls & z & p1 & p2 & p3 & Hlen & Hls & Hr & S1 & _ & _ & Hy & Hn).
  cbn [elexemes_of] in *. set (gs := egrouped hs) in *. exists ls. split; [exact Hlen|].
  assert (Hls' : wants_lemma dwsets = true -> Forall2 (fun g l => elemma_of (ex_first g) l) gs ls).
  { intros Hw1. unfold st in Hls. rewrite Hw1 in Hls. exact (Hls ltac:(discriminate)). }
  split; [exact Hls'|].
  assert (Hfit : ewide_all_fit gs ls (Some lxbuff) st gr <-> eng_room dwsets gs (fit 240 ls)).
  { unfold ewide_all_fit, eng_room, st, gr. split.
    - intros (F1 & F2 & F3). split; [specialize (F1 _ eq_refl); rewrite L1 in F1; exact F1|]. split.
      + intros E. rewrite E in F2. specialize (F2 _ eq_refl). rewrite L2 in F2. exact F2.
      + intros E. rewrite E in F3. rewrite <- L3. apply F3; [discriminate|reflexivity].
    - intros (F1 & F2 & F3). split; [intros m [= <-]; rewrite L1; exact F1|]. split.
      + intros m Em. destruct (wants_lemma dwsets); [|discriminate]. injection Em as <-. rewrite L2. exact (F2 eq_refl).
      + intros m _ Em. destruct (wants_grammar dwsets); [|discriminate]. injection Em as <-. rewrite L3. apply F3. reflexivity. }
  rewrite Hfit in Hy, Hn. destruct (same_some _ _ S1) as (lx & ->). unfold bytes in *. rewrite Hr. cbn [bind].
  apply (listed_rows (fun g => er_id (ex_first g)) (fun g => er_shown (ex_first g)) (fun g => concat (estored g)) gs ls (widened W) dwsets z lx p2 p3); [exact Hlen|apply estored_shown| |].
  2: intros Hroom; destruct (Hn Hroom) as ([->|[->| ->]] & _); lia.
  intros Hroom. destruct (Hy Hroom) as (-> & D1 & D2 & D3). destruct (D1 lxbuff eq_refl) as (cells & [= ->] & Hcl & Hcell). split; [reflexivity|]. split; [|split].
  - intros i g Hg. rewrite nth_error_app1 by (rewrite Hcl; apply nth_error_Some; congruence). rewrite (Hcell i g Hg). unfold elemm_cell, st, gr. rewrite concat_flat.
    rewrite firstn_map, widen_total. destruct (wants_lemma dwsets), (wants_grammar dwsets); reflexivity.
  - intros E. unfold st in D2. rewrite E in D2. rewrite (D2 _ eq_refl). split; [|eexists; rewrite (widen_joined W ls HW); reflexivity].
    apply (erased_no_nul gs ls _ (widened W) Hlen (Hls' E)). intros g l Hg Hl'. apply widen_no_nul; [exact HW|]. eapply (elemma_no_nul A L _ t hs (ex_first g) l HL HB Hf); [|exact Hl'].
    apply egrouped_in. exact Hg.
  - intros E. unfold gr in D3. rewrite E in D3. rewrite (D3 _ eq_refl). eexists. rewrite concat_flat. reflexivity.
Qed.

(** ** Forms *)
Lemma py_forms_ok (call : option (list N) -> res (Z * option (list N))) stbuff ss (limits : Prop) :
  Forall (fun s => ~ In 0 s) ss -> (limits -> exists rest, call (Some stbuff) = Ok (Z.of_nat (length ss), Some (joined ss ++ rest))) ->
  (~ limits -> exists mem, call (Some stbuff) = Ok ((-1)%Z, Some mem)) -> listed ss limits (py_forms call stbuff).
Proof.
  intros Hz Hy Hn. unfold py_forms, strings_from, bytes in *. split; intros H.
  - destruct (Hy H) as (rest & ->). cbn [bind]. rewrite Nat2Z.id. apply take_strings_ok. exact Hz.
  - destruct (Hn H) as (mem & ->). reflexivity.
Qed.

Lemma requested_no_nul A L key e st c idform : holds A L -> buildable L -> has_record (words L) key e -> class_of L (oclass e) = Some (st, c) ->
  Forall (fun f => ~ In 0 f) (requested c key (stpost e) idform).
Proof. intros HL HB Hr Ec. unfold requested. destruct (takes_id c idform); [|constructor]. eapply forms_no_nul; eassumption. Qed.

Theorem py_build_answer P A L : page_ok P -> holds A L -> buildable L -> indexed A L -> forall junk stbuff id idform,
  length stbuff = 2048%nat -> id < 2 ^ 32 -> (length (lexkeylen id ++ junk) = 16)%nat -> (exists key e, has_record (words L) key e /\ nlexid e = id) ->
  exists key e st c, has_record (words L) key e /\ nlexid e = id /\ class_of L (oclass e) = Some (st, c) /\
    let fs := requested c key (stpost e) idform in
    listed (map (encode (coding P)) fs) (small fs /\ fit_in (coding P) 2048 fs) (py_build_form_mb P A junk stbuff id idform).
Proof.
  intros HP HL HB HI junk stbuff id idform Hl Hid Hj Hex. assert (Hm : stbuff <> []) by (intros ->; discriminate).
  assert (H : exists key e st c, has_record (words L) key e /\ nlexid e = id /\ class_of L (oclass e) = Some (st, c) /\
    let fs := requested c key (stpost e) idform in
    (small fs /\ fit_in (coding P) 2048 fs -> exists rest, page_build_form P A junk (Some stbuff) id idform = Ok (Z.of_nat (length fs), Some (joined (map (encode (coding P)) fs) ++ rest))) /\
    (~ (small fs /\ fit_in (coding P) 2048 fs) -> exists mem, page_build_form P A junk (Some stbuff) id idform = Ok ((-1)%Z, Some mem))).
  { assert (Hcp : forall E, encoding_ok E -> exists key e st c, has_record (words L) key e /\ nlexid e = id /\ class_of L (oclass e) = Some (st, c) /\
      let fs := requested c key (stpost e) idform in
      (small fs /\ fit_in E 2048 fs -> exists rest, cp_build_form E A junk (Some stbuff) id idform = Ok (Z.of_nat (length fs), Some (joined (map (encode E) fs) ++ rest))) /\
      (~ (small fs /\ fit_in E 2048 fs) -> exists mem, cp_build_form E A junk (Some stbuff) id idform = Ok ((-1)%Z, Some mem))).
    { intros E HE. destruct (cp_build_shared E A L HE HL HB HI junk id idform Hid Hj Hex) as (key & e & st & c & Hr & He & Ec & H1). exists key, e, st, c. split; [exact Hr|]. split; [exact He|]. split; [exact Ec|].
      destruct (H1 stbuff Hm) as [H2 H3]. rewrite Hl in H2, H3. cbv zeta in *. split; [intros H; eexists; exact (H2 H)|]. intros H. destruct (H3 H) as (mem & _ & E'). exists mem. exact E'. }
    destruct P as [|E|E]; [|exact (Hcp E HP)|exact (Hcp E HP)].
    destruct (build_some A L HL HB HI junk stbuff id idform Hm Hid Hj Hex) as (key & e & st & c & Hr & He & Ec & H1 & H2). exists key, e, st, c.
    split; [exact Hr|]. split; [exact He|]. split; [exact Ec|]. cbv zeta in *. set (fs := requested c key (stpost e) idform) in *. rewrite Hl in H1, H2. cbn [coding]. rewrite <- !fit_plain.
    rewrite (map_ext _ (fun s => s) encode_plain), map_id. split; [intros H; eexists; exact (H1 H)|]. intros H. destruct (H2 H) as (mem & _ & E'). exists mem. exact E'. }
  destruct H as (key & e & st & c & Hr & He & Ec & H1 & H2). exists key, e, st, c. split; [exact Hr|]. split; [exact He|]. split; [exact Ec|]. cbv zeta in *.
  apply py_forms_ok.
  - apply Forall_map. refine (Forall_impl _ _ (requested_no_nul A L key e st c idform HL HB Hr Ec)). intros f Hf. apply encode_no_nul; [exact HP|exact Hf].
  - intros H. rewrite map_length. exact (H1 H).
  - exact H2.
Qed.

Theorem py_build_none P A L : page_ok P -> holds A L -> buildable L -> indexed A L -> forall junk stbuff id idform,
  length stbuff = 2048%nat -> id < 2 ^ 32 -> (length (lexkeylen id ++ junk) = 16)%nat -> (forall key e, has_record (words L) key e -> nlexid e <> id) ->
  py_build_form_mb P A junk stbuff id idform = Ok [].
Proof.
  intros HP HL HB HI junk stbuff id idform Hl Hid Hj Hn. assert (Hm : stbuff <> []) by (intros ->; discriminate).
  unfold py_build_form_mb, py_forms, strings_from, page_build_form. destruct P as [|E|E].
  - pose proof (build_unknown A L HL HB HI junk stbuff id idform Hm Hid Hj Hn) as K. unfold bytes in *. rewrite K. reflexivity.
  - pose proof (cp_build_unknown A L HL HB E HI junk stbuff id idform Hm Hid Hj Hn) as K. unfold bytes in *. rewrite K. reflexivity.
  - pose proof (cp_build_unknown A L HL HB E HI junk stbuff id idform Hm Hid Hj Hn) as K. unfold bytes in *. rewrite K. reflexivity.
Qed.

Theorem py_ebuild_answer A L : eholds A L -> ebuildable L -> eindexed A L -> forall junk stbuff id idform,
  length stbuff = 2048%nat -> id < 2 ^ 32 -> (length (lexkeylen id ++ junk) = 16)%nat ->
  ((exists key e, has_record (ewords L) key e /\ nlexid e = id) -> exists key e st c, has_record (ewords L) key e /\ nlexid e = id /\ eclass_of L (oclass e) = Some (st, c) /\
     let fs := erequested c key (stpost e) idform in listed fs (small fs) (py_ebuild_form_mb A junk stbuff id idform)) /\
  ((forall key e, has_record (ewords L) key e -> nlexid e <> id) -> py_ebuild_form_mb A junk stbuff id idform = Ok []).
Proof.
  intros HL HB HI junk stbuff id idform Hl Hid Hj. assert (Hm : stbuff <> []) by (intros ->; discriminate). split.
  - intros Hex. destruct (ebuild_some A L HL HB HI junk stbuff id idform) as (key & e & st & c & Hr & He & Ec & H1 & H2); try assumption.
    exists key, e, st, c. split; [exact Hr|]. split; [exact He|]. split; [exact Ec|]. cbv zeta in *. rewrite Hl in H1, H2. set (fs := erequested c key (stpost e) idform) in *.
    assert (Hfit : small fs <-> small fs /\ fit 2048 fs) by (unfold small, fit; split; [intros H; split; [exact H|right; lia]|intros [H _]; exact H]).
    apply py_forms_ok.
    + eapply erequested_no_nul; eassumption.
    + intros H. eexists. exact (H1 (proj1 Hfit H)).
    + intros H. destruct (H2 (fun K => H (proj2 Hfit K))) as (mem & _ & E). exists mem. exact E.
  - intros Hn. unfold py_ebuild_form_mb, py_forms, strings_from. pose proof (ebuild_unknown A L HL HB HI junk stbuff id idform) as K. unfold bytes in *. rewrite K by assumption. reflexivity.
Qed.

(** wide: at most 96 characters with their terminators *)
Theorem py_build_wide W A L : wide_ok W -> holds A L -> buildable L -> indexed A L -> forall junk szform stbuff id idform,
  length szform = 98%nat -> length stbuff = 2048%nat -> id < 2 ^ 32 -> (length (lexkeylen id ++ junk) = 16)%nat ->
  ((exists key e, has_record (words L) key e /\ nlexid e = id) -> exists key e st c, has_record (words L) key e /\ nlexid e = id /\ class_of L (oclass e) = Some (st, c) /\
     let fs := requested c key (stpost e) idform in
     listed (map (widened W) fs) (small fs /\ (total fs <= 96)%nat) (py_build_form_wc W A junk szform stbuff id idform)) /\
  ((forall key e, has_record (words L) key e -> nlexid e <> id) -> py_build_form_wc W A junk szform stbuff id idform = Ok []).
Proof.
  intros HW HL HB HI junk szform stbuff id idform Hs Hl Hid Hj. split.
  - intros Hex. destruct (wc_build_some W A L HW HL HB HI junk szform stbuff id idform Hs Hid Hj Hex) as (key & e & st & c & Hr & He & Ec & _ & H1 & H2).
    exists key, e, st, c. split; [exact Hr|]. split; [exact He|]. split; [exact Ec|]. cbv zeta in *. specialize (H1 ltac:(lia)). specialize (H2 ltac:(lia)). rewrite Hl in H1, H2. set (fs := requested c key (stpost e) idform) in *.
    assert (Hfit : (small fs /\ (total fs <= 96)%nat) <-> small fs /\ wide_fit 2048 fs).
    { unfold wide_fit. split; intros [K1 K2]; (split; [exact K1|]); [right; lia|]. destruct K2 as [->|K2]; [cbn; lia|lia]. }
    apply py_forms_ok.
    + apply Forall_map. refine (Forall_impl _ _ (requested_no_nul A L key e st c idform HL HB Hr Ec)). intros f Hf. apply widen_no_nul; [exact HW|exact Hf].
    + intros H. rewrite map_length. eexists. rewrite <- (widen_joined W fs HW). exact (H1 (proj1 Hfit H)).
    + intros H. eexists. exact (H2 (fun K => H (proj2 Hfit K))).
  - intros Hn. unfold py_build_form_wc, py_forms, strings_from. pose proof (wc_build_unknown W A L HL HB HI junk szform stbuff id idform Hs ltac:(lia) Hid Hj Hn) as K. unfold bytes in *. rewrite K. reflexivity.
Qed.

Theorem py_ebuild_wide W A L : wide_ok W -> eholds A L -> ebuildable L -> eindexed A L -> forall junk szform stbuff id idform,
  length szform = 98%nat -> length stbuff = 2048%nat -> id < 2 ^ 32 -> (length (lexkeylen id ++ junk) = 16)%nat ->
  ((exists key e, has_record (ewords L) key e /\ nlexid e = id) -> exists key e st c, has_record (ewords L) key e /\ nlexid e = id /\ eclass_of L (oclass e) = Some (st, c) /\
     let fs := erequested c key (stpost e) idform in
     listed (map (widened W) fs) (small fs /\ (total fs <= 96)%nat) (py_ebuild_form_wc W A junk szform stbuff id idform)) /\
  ((forall key e, has_record (ewords L) key e -> nlexid e <> id) -> py_ebuild_form_wc W A junk szform stbuff id idform = Ok []).
Proof.
  intros HW HL HB HI junk szform stbuff id idform Hs Hl Hid Hj. split.
  - intros Hex. destruct (wc_ebuild_some W A L HW HL HB HI junk szform stbuff id idform Hs Hid Hj Hex) as (key & e & st & c & Hr & He & Ec & _ & H1 & H2).
    exists key, e, st, c. split; [exact Hr|]. split; [exact He|]. split; [exact Ec|]. cbv zeta in *. specialize (H1 ltac:(lia)). specialize (H2 ltac:(lia)). rewrite Hl in H1, H2. set (fs := erequested c key (stpost e) idform) in *.
    assert (Hfit : (small fs /\ (total fs <= 96)%nat) <-> small fs /\ wide_fit 2048 fs).
    { unfold wide_fit. split; intros [K1 K2]; (split; [exact K1|]); [right; lia|]. destruct K2 as [->|K2]; [cbn; lia|lia]. }
    apply py_forms_ok.
    + apply Forall_map. refine (Forall_impl _ _ (erequested_no_nul A L HL HB key e st c idform Hr Ec)). intros f Hf. apply widen_no_nul; [exact HW|exact Hf].
    + intros H. rewrite map_length. eexists. rewrite <- (widen_joined W fs HW). exact (H1 (proj1 Hfit H)).
    + intros H. eexists. exact (H2 (fun K => H (proj2 Hfit K))).
  - intros Hn. unfold py_ebuild_form_wc, py_forms, strings_from. pose proof (wc_ebuild_unknown W A L HL HB HI junk szform stbuff id idform Hs ltac:(lia) Hid Hj Hn) as K. unfold bytes in *. rewrite K. reflexivity.
Qed.
