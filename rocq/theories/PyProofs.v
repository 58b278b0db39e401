(** * PyProofs: the lists of the Python modules. *)
From Verif Require Import Base Serial WordTree TreeSpec FlatScan Stems StemSpec CharTables CapScheme CapSpec CapProofs GramMap RusRuntime LevelSpec RusSpec RusProofs
  RusProofs3 PropRusLemmas RusBuild RusBuildSpec RusReadings RusLemmaSpec PropLemmasLemmas EngRuntime EngSpec EngFormsSpec EngLemmaSpec PropEngLemmas PropEngLemmas2
  Fuzzy FuzzySpec Codepage CodepageSpec PropCodepageLemmas WideApi WideSpec WideProofs4 Guess GuessSpec GuessProofs CxxApi CxxSpec CxxProofs CxxProofs2 CxxProofs3 PyApi PySpec.
Local Open Scope N_scope.

(** ** Settings *)
Lemma land_pow_zero d k : (N.land d (2 ^ k) =? 0) = negb (N.testbit d k).
Proof.
  destruct (N.testbit d k) eqn:E; cbn [negb].
  - apply N.eqb_neq. intros H. assert (H' : N.testbit (N.land d (2 ^ k)) k = false) by (rewrite H; apply N.bits_0).
    rewrite N.land_spec, E, N.pow2_bits_true in H'. discriminate.
  - apply N.eqb_eq. apply N.bits_inj. intros m. rewrite N.land_spec, N.bits_0. destruct (N.eq_dec m k) as [->|Hm]; [rewrite E; reflexivity|].
    rewrite N.pow2_bits_false by congruence. apply andb_false_r.
Qed.
Lemma py_sets_eq d : py_sets d = if ignores_capitals d then 2 else 0.
Proof. unfold py_sets, ignores_capitals. change 2 with (2 ^ 1) at 1. rewrite land_pow_zero, negb_involutive. reflexivity. Qed.
Lemma py_sets_ignore d : bit 1 (py_sets d) = ignores_capitals d.
Proof. rewrite py_sets_eq. destruct (ignores_capitals d); reflexivity. Qed.
Lemma py_strings_eq {X} d (m : X) : py_strings d m = if wants_lemma d then Some m else None.
Proof. unfold py_strings, wants_lemma. change 4 with (2 ^ 2). rewrite land_pow_zero. reflexivity. Qed.
Lemma py_grammar_eq {X} d (m : X) : py_grammar d m = if wants_grammar d then Some m else None.
Proof. unfold py_grammar, wants_grammar. change 8 with (2 ^ 3). rewrite land_pow_zero. reflexivity. Qed.
Lemma dict_forms_py d r : rd_dict_forms (py_sets d) r = rd_dict_forms 0 r.
Proof. rewrite py_sets_eq. destruct (ignores_capitals d); reflexivity. Qed.

Lemma py_given (w : list N) : N.of_nat (length w) < 2 ^ 64 - 1 -> given w (py_text w) (py_count w).
Proof. intros H. apply given_counted. exact H. Qed.

(** ** Lists *)
Lemma py_all_ok {X Y} (f : X -> res Y) l rows : Forall2 (fun x y => f x = Ok y) l rows -> py_all f l = Ok rows.
Proof. induction 1 as [|x y l rows H _ IH]; [reflexivity|]. cbn [py_all]. rewrite H. cbn [bind]. rewrite IH. reflexivity. Qed.

Lemma py_list_ok {X Y} (f : X -> res Y) (l : list X) rows : (forall i y, nth_error rows i = Some y -> exists x, nth_error l i = Some x /\ f x = Ok y) ->
  py_list f (Z.of_nat (length rows)) l = Ok rows.
Proof.
  intros H. unfold py_list. rewrite Nat2Z.id.
  assert (Hlen : (length rows <= length l)%nat).
  { destruct (Nat.le_gt_cases (length rows) (length l)) as [|Hc]; [assumption|]. exfalso. destruct (nth_error rows (length l)) as [t|] eqn:E.
    - apply H in E as (x & E & _). assert (H' : nth_error l (length l) <> None) by congruence. apply nth_error_Some in H'. lia.
    - apply nth_error_None in E. lia. }
  destruct (Nat.ltb_spec (length l) (length rows)); [lia|]. apply py_all_ok. apply Forall2_nth; [rewrite firstn_length; lia|].
  intros i x y H1 H2. destruct (H i y H2) as (x' & E & Hy).
  assert (Hi : (i < length rows)%nat) by (apply nth_error_Some; congruence).
  rewrite <- (firstn_skipn (length rows) l) in E. rewrite nth_error_app1 in E by (rewrite firstn_length; lia). congruence.
Qed.

Lemma py_list_negative {X Y} (f : X -> res Y) z l : (z < 0)%Z -> py_list f z l = Ok [].
Proof. intros H. unfold py_list. replace (Z.to_nat z) with 0%nat by lia. cbn [firstn py_all]. destruct (Nat.ltb_spec (length l) 0); [lia|reflexivity]. Qed.

(** an element with its strings in the arrays *)
Lemma py_string_ok pre l post : ~ In 0 l -> py_string (Some (pre ++ l ++ 0 :: post)) (Some (length pre)) = Ok (Some l).
Proof. intros Hl. unfold py_string. rewrite advance_app by reflexivity. cbn [bind]. rewrite cstr_app by exact Hl. reflexivity. Qed.
Lemma py_descs_ok gpre gs gpost : py_descs (Some (gpre ++ gs ++ gpost)) (length gpre) (length gs) = Ok (told_grams true gs).
Proof.
  unfold py_descs. destruct (Nat.eqb_spec (length gs) 0) as [E|E]; [destruct gs; [reflexivity|discriminate]|].
  rewrite !app_length. destruct (Nat.ltb_spec (length gpre + (length gs + length gpost)) (length gpre + length gs)); [lia|].
  rewrite skipn_app, skipn_all, Nat.sub_diag. cbn [app skipn]. rewrite firstn_app, firstn_all, Nat.sub_diag, app_nil_r. destruct gs; [exfalso; apply E; reflexivity|reflexivity].
Qed.

Section Rows.
  Context {G : Type} (id : G -> N) (shown block : G -> list gram).
  Lemma py_rows (gs : list G) (ss : list (list N)) (lem gra : bool) (st : option (list N)) (gr : option (list gram)) (lx : list lemm) :
    length ss = length gs -> (forall g, In g gs -> exists more, block g = shown g ++ more) ->
    (forall i g, nth_error gs i = Some g -> nth_error lx i = Some (Lemm (id g) (if lem then Some (total (firstn i ss)) else None)
       (if gra then N.of_nat (length (concat (map block (firstn i gs)))) else 0) (if gra then N.of_nat (length (shown g)) else 0))) ->
    (lem = true -> Forall (fun s => ~ In 0 s) ss /\ exists rest, st = Some (joined ss ++ rest)) ->
    (gra = true -> exists rest, gr = Some (concat (map block gs) ++ rest)) ->
    py_list (py_lemm_from st gr) (Z.of_nat (length gs)) lx =
      Ok (map (fun p => PyLemm (id (fst p)) (told_lemma lem (snd p)) (told_grams gra (shown (fst p)))) (combine gs ss)).
  Proof.
    intros Hlen Hb Hc Hst Hgr. set (row := fun p : G * list N => _).
    replace (length gs) with (length (map row (combine gs ss))) by (rewrite map_length, combine_length; lia).
    apply py_list_ok. intros i y Hy. rewrite nth_error_map in Hy. destruct (nth_error (combine gs ss) i) as [[g s]|] eqn:E; [|discriminate]. injection Hy as <-.
    assert (E1 : nth_error gs i = Some g) by (eapply combine_nth_l, E).
    assert (E2 : nth_error ss i = Some s).
    { clear - E. revert ss i E. induction gs as [|a gs IH]; intros [|b ss] [|i] E; try discriminate; cbn in *; [injection E as <- <-; reflexivity|]. eapply IH, E. }
    eexists. split; [apply (Hc i g E1)|]. unfold py_lemm_from. cbn [lm_form lm_grams lm_ngrams lm_id].
    assert (S1 : py_string st (if lem then Some (total (firstn i ss)) else None) = Ok (told_lemma lem s)).
    { destruct lem; [|reflexivity]. destruct (Hst eq_refl) as (Hz & rest & ->). rewrite <- joined_total.
      pose proof (nth_split ss i s E2) as Es. rewrite Es at 1. unfold joined at 1. rewrite flat_map_app. cbn [flat_map]. rewrite <- !app_assoc. cbn [app].
      apply py_string_ok. rewrite Forall_forall in Hz. apply Hz. eapply nth_error_In, E2. }
    rewrite S1. cbn [bind].
    assert (S2 : py_descs gr (N.to_nat (if gra then N.of_nat (length (concat (map block (firstn i gs)))) else 0)) (N.to_nat (if gra then N.of_nat (length (shown g)) else 0)) =
      Ok (told_grams gra (shown g))).
    { destruct gra; [|reflexivity]. destruct (Hgr eq_refl) as (rest & ->). rewrite !Nnat.Nat2N.id.
      pose proof (nth_split gs i g E1) as Es. rewrite Es at 1. rewrite map_app. cbn [map]. rewrite concat_app. cbn [concat].
      destruct (Hb g (nth_error_In _ _ E1)) as (more & ->). rewrite <- !app_assoc. apply py_descs_ok. }
    rewrite S2. reflexivity.
  Qed.
End Rows.

(** ** Encoded strings *)
Lemma encode_no_nul E s : encoding_ok E -> ~ In 0 s -> ~ In 0 (encode E s).
Proof.
  intros HE Hs H. unfold encode in H. apply in_flat_map in H as (c & Hc & H). destruct (enc_letters E HE c) as [_ Hn]; [intros ->; exact (Hs Hc)|]. exact (Hn H).
Qed.
Lemma page_coding_ok P : page_ok P -> encoding_ok (coding P).
Proof. intros H. exact H. Qed.
Lemma total_map_length (f : bytes -> list N) ss : (forall s, length (f s) = length s) -> total (map f ss) = total ss.
Proof. intros H. induction ss as [|s ss IH]; [reflexivity|]. cbn [map]. rewrite !total_app_cons, H, IH. reflexivity. Qed.

(** ** The Russian interface of a code page *)
Lemma fit_plain size ls : fit size ls <-> fit_in plain size ls.
Proof.
  unfold fit, fit_in. cbn [plain slack]. rewrite (map_ext _ (fun s => s) encode_plain), map_id. tauto.
Qed.

(** What C39 and C60 say in one. *)
Definition page_described (P : page) (gs : list lexeme) (ls : list bytes) (lx : option (list lemm)) (st : option bytes) (gr : option (list gram)) (lx' : option (list lemm)) (st' : option bytes) (gr' : option (list gram)) : Prop :=
  (forall mem, lx = Some mem -> exists mem', lx' = Some mem' /\
     forall i g, nth_error gs i = Some g -> nth_error mem' i = Some (lemm_cell gs (map (encode (coding P)) ls) st gr i g)) /\
  (forall mem, st = Some mem -> exists rest, st' = Some (joined (map (encode (coding P)) ls) ++ rest)) /\
  (forall mem, gr = Some mem -> lx <> None -> exists rest, gr' = Some (concat (flat_map stored gs) ++ rest)).

Lemma page_lemmatize_answer P A L : page_ok P -> holds A L -> buildable L -> forall t dwsets,
  is_bytes t -> t <> [] -> (length t < 48)%nat -> (length (parts rus_casing t) <= 8)%nat -> (length t + slack (coding P) <= 48)%nat ->
  exists hs, found L (bit 1 dwsets) t hs /\
    forall w psz cch lx st gr junk, given w psz cch -> spells (coding P) w t -> safe_call dwsets (lexemes_of lx hs) lx st gr ->
    let gs := lexemes_of lx hs in
    exists ls z lx' st' gr', length ls = length gs /\ (st <> None -> Forall2 (fun g l => lemma_of dwsets (lx_first g) l) gs ls) /\
      page_lemmatize P A junk psz cch lx st gr dwsets = Ok (z, (lx', st', gr')) /\ same_size lx' lx /\
      (all_fit_in (coding P) dwsets gs ls lx st gr -> z = Z.of_nat (length gs) /\ page_described P gs ls lx st gr lx' st' gr') /\
      (~ all_fit_in (coding P) dwsets gs ls lx st gr -> (z < 0)%Z).
Proof.
  intros HP HL HB t dwsets Hb Hne Hl Hp Hs.
  assert (Hcp : forall E, coding P = E -> encoding_ok E -> (forall A junk psz cch lx st gr d, page_lemmatize P A junk psz cch lx st gr d = cp_lemmatize E A junk psz cch lx st gr d) ->
    exists hs, found L (bit 1 dwsets) t hs /\
    forall w psz cch lx st gr junk, given w psz cch -> spells (coding P) w t -> safe_call dwsets (lexemes_of lx hs) lx st gr ->
    let gs := lexemes_of lx hs in
    exists ls z lx' st' gr', length ls = length gs /\ (st <> None -> Forall2 (fun g l => lemma_of dwsets (lx_first g) l) gs ls) /\
      page_lemmatize P A junk psz cch lx st gr dwsets = Ok (z, (lx', st', gr')) /\ same_size lx' lx /\
      (all_fit_in (coding P) dwsets gs ls lx st gr -> z = Z.of_nat (length gs) /\ page_described P gs ls lx st gr lx' st' gr') /\
      (~ all_fit_in (coding P) dwsets gs ls lx st gr -> (z < 0)%Z)).
  { intros E EP HE Eq. rewrite EP in Hs. destruct (cp_lemmatize_exact E A L HE HL HB t dwsets Hb Hne Hl Hp Hs) as (hs & Hf & H). exists hs. split; [exact Hf|].
    intros w psz cch lx st gr junk Hg Hw Hsafe gs. rewrite EP in Hw. destruct (H w psz cch lx st gr junk Hg Hw Hsafe) as (ls & z & p1 & p2 & p3 & Hlen & Hls & Hr & S1 & _ & _ & Hy & Hn).
    fold gs in Hlen, Hls, Hy, Hn. exists ls, z, p1, p2, p3. split; [exact Hlen|]. split; [exact Hls|]. split; [rewrite Eq; exact Hr|]. split; [exact S1|].
    rewrite EP. split; [|intros Hx; destruct (Hn Hx) as [->|[->| ->]]; lia]. intros Hx. destruct (Hy Hx) as (-> & D1 & D2 & D3). split; [reflexivity|].
    unfold page_described. rewrite EP. split; [|split].
    - intros mem Em. destruct (D1 mem Em) as (mem' & E1 & E2 & _). exists mem'. split; assumption.
    - intros mem Em. exists (after_in E ls mem). exact (D2 mem Em).
    - intros mem Em Hlx. specialize (D3 mem Em). destruct lx as [lx|]; [|congruence]. eexists. exact D3. }
  destruct P as [|E|E].
  - clear Hcp. destruct (lemmatize_answer A L HL HB t dwsets Hb Hne Hl Hp) as (hs & Hf & _ & H). exists hs. split; [exact Hf|].
    intros w psz cch lx st gr junk Hg [_ Hw] Hsafe gs. cbn [coding plain dec] in Hw. subst w.
    destruct (H psz cch lx st gr junk Hg Hsafe) as (ls & z & p1 & p2 & p3 & Hlen & Hls & Hr & S1 & _ & _ & Hy & Hn).
    fold gs in Hlen, Hls, Hy, Hn. exists ls, z, p1, p2, p3. split; [exact Hlen|]. split; [exact Hls|]. split; [exact Hr|]. split; [exact S1|].
    assert (Hfit : all_fit_in (coding Win1251) dwsets gs ls lx st gr <-> all_fit dwsets gs ls lx st gr).
    { unfold all_fit_in, all_fit. cbn [coding]. split; intros (F1 & F2 & F3); (split; [exact F1|]; split; [|exact F3]); intros mem Em; destruct (F2 mem Em) as [F4 F5];
        (split; [exact F4|]); apply fit_plain; exact F5. }
    rewrite Hfit. split; [|intros Hx; destruct (Hn Hx) as [->|[->| ->]]; lia]. intros Hx. destruct (Hy Hx) as (-> & D1 & D2 & D3). split; [reflexivity|].
    unfold page_described. cbn [coding]. rewrite (map_ext _ (fun s => s) encode_plain), map_id. split; [|split].
    + intros mem Em. destruct (D1 mem Em) as (mem' & E1 & E2 & _). exists mem'. split; assumption.
    + intros mem Em. exists (after ls mem). exact (D2 mem Em).
    + intros mem Em Hlx. specialize (D3 mem Em). destruct lx as [lx|]; [|congruence]. eexists. exact D3.
  - apply (Hcp E); [reflexivity|exact HP|reflexivity].
  - apply (Hcp E); [reflexivity|exact HP|reflexivity].
Qed.

Lemma in_second {X Y} : forall (gs : list X) (ls : list Y) l, length ls = length gs -> In l ls -> exists g, In (g, l) (combine gs ls).
Proof.
  induction gs as [|g gs IH]; intros [|a ls] l Hlen Hin; try discriminate; [destruct Hin|]. destruct Hin as [->|Hin]; [exists g; left; reflexivity|].
  injection Hlen as Hlen. destruct (IH ls l Hlen Hin) as (g' & Hg'). exists g'. right. exact Hg'.
Qed.
Lemma combine_second {X Y Z} (f : Y -> Z) : forall (gs : list X) ls, combine gs (map f ls) = map (fun p => (fst p, f (snd p))) (combine gs ls).
Proof. induction gs as [|g gs IH]; intros [|l ls]; try reflexivity. cbn [map combine fst snd]. rewrite IH. reflexivity. Qed.

Lemma same_some {X} (p : option (list X)) m : same_size p (Some m) -> exists m', p = Some m'.
Proof. destruct p as [m'|]; [exists m'; reflexivity|discriminate]. Qed.

Lemma stored_shown g : exists more, concat (stored g) = rd_shown (lx_first g) ++ more.
Proof. unfold stored. eexists. reflexivity. Qed.
Lemma estored_shown g : exists more, concat (estored g) = er_shown (ex_first g) ++ more.
Proof. unfold estored. eexists. reflexivity. Qed.

Theorem py_lemmatize_answer P A L : page_ok P -> holds A L -> buildable L -> forall t dwsets,
  is_bytes t -> t <> [] -> (length t < 48)%nat -> (length (parts rus_casing t) <= 8)%nat -> (length t + slack (coding P) <= 48)%nat ->
  exists hs, found L (ignores_capitals dwsets) t hs /\
    forall w junk lxbuff stbuff grbuff, spells (coding P) w t -> N.of_nat (length w) < 2 ^ 64 - 1 ->
      length lxbuff = 32%nat -> length stbuff = 2048%nat -> length grbuff = 512%nat -> rus_safe dwsets (grouped hs) ->
    exists ls, length ls = length (grouped hs) /\ (wants_lemma dwsets = true -> Forall2 (fun g l => lemma_of 0 (lx_first g) l) (grouped hs) ls) /\
      listed (map (rus_row dwsets (encode (coding P))) (combine (grouped hs) ls)) (rus_room dwsets (grouped hs) (fit_in (coding P) 2048 ls))
        (py_lemmatize_mb P A junk lxbuff stbuff grbuff w dwsets).
Proof.
  intros HP HL HB t dwsets Hb Hne Hl Hp Hs. destruct (page_lemmatize_answer P A L HP HL HB t (py_sets dwsets) Hb Hne Hl Hp Hs) as (hs & Hf & H).
  rewrite py_sets_ignore in Hf. exists hs. split; [exact Hf|]. intros w junk lxbuff stbuff grbuff Hw Hcount L1 L2 L3 [Safe1 Safe2].
  unfold py_lemmatize_mb, py_lemmatize. rewrite py_strings_eq, py_grammar_eq. set (st := if wants_lemma dwsets then Some stbuff else None). set (gr := if wants_grammar dwsets then Some grbuff else None).
  assert (Hsafe : safe_call (py_sets dwsets) (lexemes_of (Some lxbuff) hs) (Some lxbuff) st gr).
  { split.
    - intros Hst. cbn [lexemes_of]. unfold st in Hst. destruct (wants_lemma dwsets); [|exfalso; apply Hst; reflexivity]. eapply Forall_impl; [|exact (Safe1 eq_refl)]. intros g Hg. rewrite dict_forms_py. exact Hg.
    - intros mem g [= <-] Hgr _ Hg. rewrite L1 in Hg. unfold gr in Hgr. destruct (wants_grammar dwsets); [|exfalso; apply Hgr; reflexivity]. exact (Safe2 eq_refl g Hg). }
  destruct (H w (py_text w) (py_count w) (Some lxbuff) st gr junk (py_given w Hcount) Hw Hsafe) as (ls & z & p1 & p2 & p3 & Hlen & Hls & Hr & S1 & Hy & Hn).
  cbn [lexemes_of] in *. set (gs := grouped hs) in *. exists ls. split; [exact Hlen|].
  assert (Hls' : wants_lemma dwsets = true -> Forall2 (fun g l => lemma_of 0 (lx_first g) l) gs ls).
  { intros Hw1. unfold st in Hls. rewrite Hw1 in Hls. specialize (Hls ltac:(discriminate)). clear - Hls. induction Hls as [|g l gs ls H _ IH]; constructor; [|exact IH].
    unfold lemma_of in *. rewrite dict_forms_py in H. exact H. }
  split; [exact Hls'|].
  assert (Hfit : all_fit_in (coding P) (py_sets dwsets) gs ls (Some lxbuff) st gr <-> rus_room dwsets gs (fit_in (coding P) 2048 ls)).
  { unfold all_fit_in, rus_room, st, gr. split.
    - intros (F1 & F2 & F3). split; [rewrite <- L1; apply F1; reflexivity|]. split.
      + intros E. rewrite E in F2. destruct (F2 _ eq_refl) as [F4 F5]. rewrite L2 in F5. split; [|exact F5]. refine (Forall_impl _ _ F4). intros g Hg. rewrite dict_forms_py in Hg. exact Hg.
      + intros E. rewrite E in F3. rewrite <- L3. apply F3; [discriminate|reflexivity].
    - intros (F1 & F2 & F3). split; [intros m [= <-]; rewrite L1; exact F1|]. split.
      + intros m Em. destruct (wants_lemma dwsets); [|discriminate]. injection Em as <-. rewrite L2. destruct (F2 eq_refl) as [F4 F5]. split; [|exact F5].
        eapply Forall_impl; [|exact F4]. intros g Hg. rewrite dict_forms_py. exact Hg.
      + intros m _ Em. destruct (wants_grammar dwsets); [|discriminate]. injection Em as <-. rewrite L3. apply F3. reflexivity. }
  rewrite Hfit in Hy, Hn. destruct (same_some _ _ S1) as (lx & ->). unfold bytes in *. rewrite Hr. cbn [bind]. split; [|intros Hroom; apply py_list_negative, Hn, Hroom].
  intros Hroom. destruct (Hy Hroom) as (-> & D1 & D2 & D3). destruct (D1 lxbuff eq_refl) as (lx0 & [= <-] & Hcell).
  pose proof (py_rows (fun g => rd_id (lx_first g)) (fun g => rd_shown (lx_first g)) (fun g => concat (stored g)) gs (map (encode (coding P)) ls)
    (wants_lemma dwsets) (wants_grammar dwsets) p2 p3 lx) as Hrows. cbv beta in Hrows. rewrite Hrows.
  - rewrite combine_second. rewrite map_map. reflexivity.
  - rewrite map_length. exact Hlen.
  - intros g _. apply stored_shown.
  - intros i g Hg. rewrite (Hcell i g Hg). unfold lemm_cell, st, gr. rewrite concat_flat. destruct (wants_lemma dwsets), (wants_grammar dwsets); reflexivity.
  - intros E. unfold st in D2. rewrite E in D2. destruct (D2 _ eq_refl) as (rest & ->). split; [|exists rest; reflexivity].
    apply Forall_map. pose proof (Forall2_combine _ _ _ (Hls' E)) as Hc. apply Forall_forall. intros l Hin. apply encode_no_nul; [exact HP|].
    pose proof (in_second gs ls l Hlen Hin) as Hg.
    destruct Hg as (g & Hg). rewrite Forall_forall in Hc. eapply (lemma_no_nul A L _ t hs 0 (lx_first g) l HL HB Hf); [|apply (Hc _ Hg)].
    apply grouped_in. eapply in_combine_l, Hg.
  - intros E. unfold gr in D3. rewrite E in D3. destruct (D3 _ eq_refl ltac:(discriminate)) as (rest & ->). exists rest. rewrite concat_flat. reflexivity.
Qed.
