(** * LemmToolProofs3: lemmatize of a dictionary word. *)
From Coq Require Import String.
From Verif Require Import Base Serial WordTree TreeSpec FlatScan Stems StemSpec CharTables CapScheme CapSpec GramMap RusRuntime LevelSpec RusSpec
  RusBuild RusBuildSpec RusReadings RusReadingsProofs RusLemmaSpec RusLemmaProofs5 PropLemmasLemmas EngRuntime EngSpec EngFormsSpec EngReadingsProofs EngLemmaSpec PropEngLemmas PropEngLemmas2
  Fuzzy FuzzySpec Codepage CodepageSpec CodepageProofs3 PropCodepageLemmas Guess GuessSpec GuessProofs CxxApi CxxSpec CxxProofs CxxProofs2 CxxProofs3
  Api Dump DumpSpec PyApi PySpec PyProofs PyProofs2 LemmTool LemmToolSpec LemmToolProofs LemmToolProofs2.
Local Open Scope N_scope.
Local Open Scope list_scope.
Notation length := List.length.

Lemma u8_small n : u8 n < 256.
Proof. apply N.mod_lt. discriminate. Qed.
Lemma map_case_small i : mapCaseInfo i < 256.
Proof.
  unfold mapCaseInfo. destruct (3 <? _); [apply u8_small|]. destruct (N.ltb_spec (N.shiftr (N.land i 0x7000) 12) 3); [lia|]. destruct (bit 17 i); lia.
Qed.
Lemma map_tant_small i : mapVerbTant i < 4.
Proof. unfold mapVerbTant. destruct (bit 15 i), (bit 11 i); reflexivity. Qed.
Lemma map_word_small wd g f : MapWordInfo wd g f < 256.
Proof.
  unfold MapWordInfo. cbv zeta. set (i := N.lor _ _). destruct (IsVerb wd); [|destruct (IsAdjective wd)].
  - unfold MapVerbInfo. pose proof (map_tant_small i) as T. repeat match goal with |- context [if ?b then _ else _] => destruct b end;
      (destruct (N.land i 7) as [|[[[]|[]|]|[[]|[]|]|]]; try apply u8_small; lia).
  - unfold MapDefsInfo. destruct (bit 6 i); [lia|]. destruct (bit 7 i); [lia|]. apply u8_small.
  - unfold MapNounInfo. apply u8_small.
Qed.

Lemma shown_small c gf : gidForm (shown c gf) < 2 ^ 32.
Proof. unfold shown. destruct (c_flex c); cbn [gidForm]; [|reflexivity]. eapply N.lt_trans; [apply map_word_small|reflexivity]. Qed.

Lemma found_facts A L ig w hs r : holds A L -> found L ig w hs -> In r hs -> rd_descs r <> [] /\ rd_id r < 2 ^ 32.
Proof.
  intros HL [(suitable & _ & Hsub & _)] Hin. eapply sublist_in in Hin; [|exact Hsub]. apply filter_In in Hin as [Hin _].
  apply readings_in in Hin as (rest & _ & (l & Hl & Hrec) & Hin). apply record_readings_in in Hin as (st & c & Ec & Hr & _ & Hd). split.
  - unfold part_readings in Hd. destruct (c_flex c).
    + apply filter_In in Hd as [_ Hd]. destruct (rd_descs r); discriminate.
    + destruct (rd_part r); [|destruct Hd]. destruct Hd as [<-|[]]. discriminate.
  - destruct (holds_lists A L HL _ _ Hl) as ((Hok & _) & _). rewrite Forall_forall in Hok. exact (proj1 (proj2 (proj2 (Hok _ Hrec)))).
Qed.
Lemma efound_facts A L ig w hs r : eholds A L -> efound L ig w hs -> In r hs -> er_ids r <> [] /\ er_id r < 2 ^ 32 /\ Forall (fun g => gidForm g < 2 ^ 32) (er_shown r).
Proof.
  intros HL [(suitable & _ & Hsub & _)] Hin. eapply sublist_in in Hin; [|exact Hsub]. apply filter_In in Hin as [Hin _].
  apply ereadings_in in Hin as (rest & _ & (l & Hl & Hrec) & Hin). apply erecord_readings_in in Hin as (st & c & Ec & Hr & _ & Hd).
  assert (Hrec' : has_record (ewords L) (er_key r) (er_entry r)) by (exists l; split; assumption). split; [|split].
  - unfold epart_readings in Hd. destruct (k_ends c).
    + apply filter_In in Hd as [_ Hd]. destruct (er_ids r); discriminate.
    + destruct (er_part r); [|destruct Hd]. destruct Hd as [<-|[]]. discriminate.
  - destruct (eh_lists A L HL _ _ Hl) as ((Hok & _) & _). rewrite Forall_forall in Hok. exact (proj1 (proj2 (proj2 (Hok _ Hrec)))).
  - destruct (eh_classes A L HL _ _ Hrec') as (st' & c' & Ec' & _ & (_ & _ & Hk)). rewrite Ec in Ec'. injection Ec' as <- <-.
    assert (Hc : er_class r = c) by (rewrite Hr; reflexivity). unfold er_shown. rewrite Hc. apply Forall_map, Forall_forall. intros id Hid. unfold eshown.
    unfold epart_readings in Hd. destruct (k_ends c) as [t|]; [|reflexivity]. cbn [gidForm]. destruct Hk as (_ & (_ & Hk & _) & _).
    apply filter_In in Hd as [[Hd|[]] _]. rewrite <- Hd in Hid. unfold ids_of in Hid. apply in_map_iff in Hid as ((i & e) & <- & Hi). apply filter_In in Hi as [Hi _].
    rewrite Forall_forall in Hk. specialize (Hk _ Hi). cbn [fst] in *. eapply N.lt_trans; [apply Hk|reflexivity].
Qed.

(** a lexeme with its normal form as a row *)
Definition make_row (lemma : bytes) (id : N) (descs : list gram) : trow := TRow lemma id (hd (Gram 0 0 0 0) descs) (tl descs).
Lemma make_row_json lemma id descs : descs <> [] -> trow_json (make_row lemma id descs) = told_lexeme lemma id descs.
Proof. destruct descs as [|g gs]; [congruence|reflexivity]. Qed.
Lemma make_row_of lemma id descs : descs <> [] -> trow_of (make_row lemma id descs) = PyLemm id (told_lemma true lemma) (told_grams true descs).
Proof. destruct descs as [|g gs]; [congruence|reflexivity]. Qed.

Section Print.
  Context {G : Type} (id : G -> N) (shown block : G -> list gram).
  Lemma print_rows (gs : list G) (ss : list (list N)) (st : bytes) (gr : list gram) (lx : list lemm) :
    length ss = length gs -> (forall g, In g gs -> exists more, block g = shown g ++ more) ->
    (forall g, In g gs -> shown g <> [] /\ id g < 2 ^ 32 /\ Forall (fun g => gidForm g < 2 ^ 32) (shown g)) -> Forall quotable ss ->
    (forall i g, nth_error gs i = Some g -> nth_error lx i = Some (Lemm (id g) (Some (total (firstn i ss)))
       (N.of_nat (length (concat (map block (firstn i gs))))) (N.of_nat (length (shown g))))) ->
    Forall (fun s => ~ In 0 s) ss -> (exists rest, st = joined ss ++ rest) -> (exists rest, gr = concat (map block gs) ++ rest) ->
    exists out, (if (Z.of_nat (length gs) =? 0)%Z then Ok (text "[]")
                 else let! t := tool_lexemes [] st gr lx (Z.to_nat (Z.of_nat (length gs))) in Ok (text "[" ++ t ++ [10] ++ text "]")) = Ok out /\
      read_json out = Some (JArr (map (fun p => told_lexeme (snd p) (id (fst p)) (shown (fst p))) (combine gs ss))).
  Proof.
    intros Hlen Hb Hg Hq Hc Hz (rest & ->) (grest & ->).
    pose proof (py_rows id shown block gs ss true true (Some (joined ss ++ rest)) (Some (concat (map block gs) ++ grest)) lx Hlen Hb Hc
      (fun _ => conj Hz (ex_intro _ rest eq_refl)) (fun _ => ex_intro _ grest eq_refl)) as H.
    set (rows := map (fun p => make_row (snd p) (id (fst p)) (shown (fst p))) (combine gs ss)).
    assert (Hr : length rows = length gs) by (unfold rows; rewrite map_length, combine_length; lia).
    assert (E1 : map trow_of rows = map (fun p => PyLemm (id (fst p)) (told_lemma true (snd p)) (told_grams true (shown (fst p)))) (combine gs ss)).
    { unfold rows. rewrite map_map. apply map_ext_in. intros [g s] Hin. apply in_combine_l in Hin. cbn [fst snd]. apply make_row_of. apply (Hg g Hin). }
    assert (E2 : map trow_json rows = map (fun p => told_lexeme (snd p) (id (fst p)) (shown (fst p))) (combine gs ss)).
    { unfold rows. rewrite map_map. apply map_ext_in. intros [g s] Hin. apply in_combine_l in Hin. cbn [fst snd]. apply make_row_json. apply (Hg g Hin). }
    assert (Hok : Forall trow_ok rows).
    { unfold rows. apply Forall_map, Forall_forall. intros [g s] Hin. cbn [fst snd]. pose proof (in_combine_r _ _ _ _ Hin) as Hs. apply in_combine_l in Hin.
      destruct (Hg g Hin) as (Hne & Hid & Hf). rewrite Forall_forall in Hq. unfold trow_ok, make_row. cbn [t_lemma t_id t_first t_more].
      split; [exact (Hq s Hs)|]. split; [exact Hid|]. destruct (shown g); [congruence|exact Hf]. }
    rewrite <- E1, <- Hr in H. rewrite <- E2, <- Hr. exact (tool_print_rows _ _ lx rows H Hok).
  Qed.
End Print.

Lemma negative_prints z st gr lx : (z < 0)%Z -> (if (z =? 0)%Z then Ok (text "[]") else let! t := tool_lexemes [] st gr lx (Z.to_nat z) in Ok (text "[" ++ t ++ [10] ++ text "]")) = Ok [91; 10; 93].
Proof. intros H. destruct (Z.eqb_spec z 0); [lia|]. replace (Z.to_nat z) with 0%nat by lia. destruct lx; reflexivity. Qed.

Lemma page_lemmatize_sizes P A L : page_ok P -> holds A L -> buildable L -> forall t dwsets,
  is_bytes t -> t <> [] -> (length t < 48)%nat -> (length (parts rus_casing t) <= 8)%nat -> (length t + slack (coding P) <= 48)%nat ->
  exists hs, found L (bit 1 dwsets) t hs /\
    forall w psz cch lx st gr junk, given w psz cch -> spells (coding P) w t -> safe_call dwsets (lexemes_of lx hs) lx st gr ->
    let gs := lexemes_of lx hs in
    exists ls z lx' st' gr', length ls = length gs /\ (st <> None -> Forall2 (fun g l => lemma_of dwsets (lx_first g) l) gs ls) /\
      page_lemmatize P A junk psz cch lx st gr dwsets = Ok (z, (lx', st', gr')) /\ same_size lx' lx /\ same_size st' st /\ same_size gr' gr /\
      (all_fit_in (coding P) dwsets gs ls lx st gr -> z = Z.of_nat (length gs) /\ page_described P gs ls lx st gr lx' st' gr') /\
      (~ all_fit_in (coding P) dwsets gs ls lx st gr -> (z < 0)%Z).
Proof.
  intros HP HL HB t dwsets Hb Hne Hl Hp Hs.
  assert (Hcp : forall E, coding P = E -> encoding_ok E -> (forall A junk psz cch lx st gr d, page_lemmatize P A junk psz cch lx st gr d = cp_lemmatize E A junk psz cch lx st gr d) ->
    exists hs, found L (bit 1 dwsets) t hs /\
    forall w psz cch lx st gr junk, given w psz cch -> spells (coding P) w t -> safe_call dwsets (lexemes_of lx hs) lx st gr ->
    let gs := lexemes_of lx hs in
    exists ls z lx' st' gr', length ls = length gs /\ (st <> None -> Forall2 (fun g l => lemma_of dwsets (lx_first g) l) gs ls) /\
      page_lemmatize P A junk psz cch lx st gr dwsets = Ok (z, (lx', st', gr')) /\ same_size lx' lx /\ same_size st' st /\ same_size gr' gr /\
      (all_fit_in (coding P) dwsets gs ls lx st gr -> z = Z.of_nat (length gs) /\ page_described P gs ls lx st gr lx' st' gr') /\
      (~ all_fit_in (coding P) dwsets gs ls lx st gr -> (z < 0)%Z)).
  { intros E EP HE Eq. rewrite EP in Hs. destruct (cp_lemmatize_exact E A L HE HL HB t dwsets Hb Hne Hl Hp Hs) as (hs & Hf & H). exists hs. split; [exact Hf|].
    intros w psz cch lx st gr junk Hg Hw Hsafe gs. rewrite EP in Hw. destruct (H w psz cch lx st gr junk Hg Hw Hsafe) as (ls & z & p1 & p2 & p3 & Hlen & Hls & Hr & S1 & S2 & S3 & Hy & Hn).
    fold gs in Hlen, Hls, Hy, Hn. exists ls, z, p1, p2, p3. split; [exact Hlen|]. split; [exact Hls|]. split; [rewrite Eq; exact Hr|]. split; [exact S1|]. split; [exact S2|]. split; [exact S3|].
    rewrite EP. split; [|intros Hx; destruct (Hn Hx) as [->|[->| ->]]; lia]. intros Hx. destruct (Hy Hx) as (-> & D1 & D2 & D3). split; [reflexivity|].
    unfold page_described. rewrite EP. split; [|split].
    - intros mem Em. destruct (D1 mem Em) as (mem' & E1 & E2 & _). exists mem'. split; assumption.
    - intros mem Em. exists (after_in E ls mem). exact (D2 mem Em).
    - intros mem Em Hlx. specialize (D3 mem Em). destruct lx as [lx|]; [|congruence]. eexists. exact D3. }
  destruct P as [|E|E].
  - clear Hcp. destruct (lemmatize_answer A L HL HB t dwsets Hb Hne Hl Hp) as (hs & Hf & _ & H). exists hs. split; [exact Hf|].
    intros w psz cch lx st gr junk Hg [_ Hw] Hsafe gs. cbn [coding GuessSpec.plain dec] in Hw. subst w.
    destruct (H psz cch lx st gr junk Hg Hsafe) as (ls & z & p1 & p2 & p3 & Hlen & Hls & Hr & S1 & S2 & S3 & Hy & Hn).
    fold gs in Hlen, Hls, Hy, Hn. exists ls, z, p1, p2, p3. split; [exact Hlen|]. split; [exact Hls|]. split; [exact Hr|]. split; [exact S1|]. split; [exact S2|]. split; [exact S3|].
    assert (Hfit : all_fit_in (coding Win1251) dwsets gs ls lx st gr <-> all_fit dwsets gs ls lx st gr).
    { unfold all_fit_in, all_fit. cbn [coding]. split; intros (F1 & F2 & F3); (split; [exact F1|]; split; [|exact F3]); intros mem Em; destruct (F2 mem Em) as [F4 F5];
        (split; [exact F4|]); apply fit_plain; exact F5. }
    rewrite Hfit. split; [|intros Hx; destruct (Hn Hx) as [->|[->| ->]]; lia]. intros Hx. destruct (Hy Hx) as (-> & D1 & D2 & D3). split; [reflexivity|].
    unfold page_described. cbn [coding]. rewrite (map_ext _ (fun s => s) encode_plain), map_id. split; [|split].
    + intros mem Em. destruct (D1 mem Em) as (mem' & E1 & E2 & _). exists mem'. split; assumption.
    + intros mem Em. exists (after ls mem). exact (D2 mem Em).
    + intros mem Em Hlx. specialize (D3 mem Em). destruct lx as [lx|]; [|congruence]. eexists. exact D3.
  - apply (Hcp E); [reflexivity|exact HP|reflexivity].
  - apply (Hcp E); [reflexivity|exact HP|reflexivity].
Qed.


(** [tells_json] with the call's answer *)
Lemma tells_call {G} (id : G -> N) (shown block : G -> list gram) (gs : list G) (ls : list (list N)) (code : list N -> list N) (room : Prop) (z : Z) lx st gr :
  length ls = length gs -> (forall g, In g gs -> exists more, block g = shown g ++ more) ->
  (forall g, In g gs -> shown g <> [] /\ id g < 2 ^ 32 /\ Forall (fun g => gidForm g < 2 ^ 32) (shown g)) -> Forall quotable (map code ls) ->
  (room -> z = Z.of_nat (length gs) /\
    (forall i g, nth_error gs i = Some g -> nth_error lx i = Some (Lemm (id g) (Some (total (firstn i (map code ls))))
       (N.of_nat (length (concat (map block (firstn i gs))))) (N.of_nat (length (shown g))))) /\
    Forall (fun s => ~ In 0 s) (map code ls) /\ (exists rest, st = joined (map code ls) ++ rest) /\ (exists rest, gr = concat (map block gs) ++ rest)) ->
  (~ room -> (z < 0)%Z) ->
  tells_json (map (fun p => told_lexeme (code (snd p)) (id (fst p)) (shown (fst p))) (combine gs ls)) room
    (if (z =? 0)%Z then Ok (text "[]") else let! t := tool_lexemes [] st gr lx (Z.to_nat z) in Ok (text "[" ++ t ++ [10] ++ text "]")).
Proof.
  intros Hlen Hb Hg Hq Hy Hn. split.
  - intros Hroom. destruct (Hy Hroom) as (-> & D1 & D2 & D3 & D4).
    destruct (print_rows id shown block gs (map code ls) st gr lx ltac:(rewrite map_length; exact Hlen) Hb Hg Hq D1 D2 D3 D4) as (out & Eo & Er).
    exists out. split; [exact Eo|]. rewrite Er, combine_second, map_map. reflexivity.
  - intros Hroom. rewrite negative_prints by (apply Hn, Hroom). exists [91; 10; 93]. split; reflexivity.
Qed.

Theorem tool_answer P A L : page_ok P -> holds A L -> buildable L -> forall t,
  is_bytes t -> t <> [] -> (length t < 48)%nat -> (length (parts rus_casing t) <= 8)%nat -> (length t + slack (coding P) <= 48)%nat ->
  exists hs, found L true t hs /\
    forall w junk lexset stbuff grbuff, spells (coding P) w t -> ~ In 0 w ->
      length lexset = 16%nat -> length stbuff = 256%nat -> length grbuff = 64%nat -> tool_safe (grouped hs) ->
    exists ls, length ls = length (grouped hs) /\ Forall2 (fun g l => lemma_of 0 (lx_first g) l) (grouped hs) ls /\
      (Forall (fun l => quotable (encode (coding P) l)) ls ->
       tells_json (map (rus_told (encode (coding P))) (combine (grouped hs) ls)) (tool_room (grouped hs) (fit_in (coding P) 256 ls))
        (tool_lemmatize P A junk lexset stbuff grbuff w)).
Proof.
  intros HP HL HB t Hb Hne Hl Hp Hs. destruct (page_lemmatize_sizes P A L HP HL HB t 2 Hb Hne Hl Hp Hs) as (hs & Hf & H).
  change (bit 1 2) with true in Hf. exists hs. split; [exact Hf|]. intros w junk lexset stbuff grbuff Hw H0 L1 L2 L3 [Safe1 Safe2].
  assert (Hsafe : safe_call 2 (lexemes_of (Some lexset) hs) (Some lexset) (Some stbuff) (Some grbuff)).
  { split; [intros _; exact Safe1|]. intros mem g [= <-] _ _ Hg. rewrite L1 in Hg. exact (Safe2 g Hg). }
  destruct (H w (Some (w ++ [0])) (2 ^ 64 - 1) (Some lexset) (Some stbuff) (Some grbuff) junk (given_terminated w [] H0) Hw Hsafe) as (ls & z & p1 & p2 & p3 & Hlen & Hls & Hr & S1 & S2 & S3 & Hy & Hn).
  cbn [lexemes_of] in *. remember (grouped hs) as gs eqn:Egs. exists ls. split; [exact Hlen|]. specialize (Hls ltac:(discriminate)). split; [exact Hls|]. intros Hq.
  assert (Hfit : all_fit_in (coding P) 2 gs ls (Some lexset) (Some stbuff) (Some grbuff) <-> tool_room gs (fit_in (coding P) 256 ls)).
  { unfold all_fit_in, tool_room. split.
    - intros (F1 & F2 & F3). destruct (F2 _ eq_refl) as [F4 F5]. rewrite L2 in F5. specialize (F1 _ eq_refl). rewrite L1 in F1. split; [exact F1|]. split; [exact F4|]. split; [exact F5|]. rewrite <- L3. apply F3; [discriminate|reflexivity].
    - intros (F1 & F4 & F5 & F3). split; [intros m [= <-]; rewrite L1; exact F1|]. split; [intros m [= <-]; rewrite L2; split; [exact F4|exact F5]|intros m _ [= <-]; rewrite L3; exact F3]. }
  rewrite Hfit in Hy, Hn. destruct (same_some _ _ S1) as (lx & ->). destruct (same_some _ _ S2) as (st & ->). destruct (same_some _ _ S3) as (gr & ->).
  unfold tool_lemmatize, tool_print. unfold bytes in *. rewrite Hr. cbn [bind].
  apply (tells_call (fun g => rd_id (lx_first g)) (fun g => rd_shown (lx_first g)) (fun g => concat (stored g)) gs ls (encode (coding P))); [exact Hlen|intros g _; apply stored_shown| | | |exact Hn].
  - intros g Hg. rewrite Egs in Hg. pose proof (grouped_in hs g Hg) as Hin. destruct (found_facts A L true t hs _ HL Hf Hin) as [F1 F2]. split; [|split; [exact F2|]].
    + unfold rd_shown. destruct (rd_descs (lx_first g)); [congruence|discriminate].
    + unfold rd_shown. apply Forall_map, Forall_forall. intros x _. apply shown_small.
  - apply Forall_map. exact Hq.
  - intros Hroom. destruct (Hy Hroom) as (-> & D1 & D2 & D3). destruct (D1 lexset eq_refl) as (lx0 & [= <-] & Hcell).
    destruct (D2 _ eq_refl) as (rest & [= ->]). destruct (D3 _ eq_refl ltac:(discriminate)) as (grest & [= ->]). split; [reflexivity|]. split; [|split; [|split]].
    + intros i g Hg. rewrite (Hcell i g Hg). unfold lemm_cell. rewrite concat_flat. reflexivity.
    + apply Forall_map. pose proof (Forall2_combine _ _ _ Hls) as Hc. apply Forall_forall. intros l Hin. apply encode_no_nul; [exact HP|].
      pose proof (in_second gs ls l Hlen Hin) as Hg. destruct Hg as (g & Hg). rewrite Forall_forall in Hc. eapply (lemma_no_nul A L _ t hs 0 (lx_first g) l HL HB Hf); [|apply (Hc _ Hg)].
      apply grouped_in. rewrite <- Egs. eapply in_combine_l, Hg.
    + exists rest. reflexivity.
    + exists grest. rewrite concat_flat. reflexivity.
Qed.

Theorem tool_eanswer A L : eholds A L -> ebuildable L -> forall w,
  is_bytes w -> w <> [] -> (length w < 48)%nat -> (length (parts eng_casing w) <= 8)%nat ->
  exists hs, efound L true w hs /\
    forall junk lexset stbuff grbuff, ~ In 0 w ->
      length lexset = 16%nat -> length stbuff = 256%nat -> length grbuff = 64%nat -> tool_esafe (egrouped hs) ->
    exists ls, length ls = length (egrouped hs) /\ Forall2 (fun g l => elemma_of (ex_first g) l) (egrouped hs) ls /\
      (Forall quotable ls ->
       tells_json (map eng_told (combine (egrouped hs) ls)) (tool_eroom (egrouped hs) (fit 256 ls)) (tool_elemmatize A junk lexset stbuff grbuff w)).
Proof.
  intros HL HB w Hb Hne Hl Hp. destruct (elemmatize_answer A L HL HB w 2 Hb Hne Hl Hp) as (hs & Hf & _ & H).
  change (bit 1 2) with true in Hf. exists hs. split; [exact Hf|]. intros junk lexset stbuff grbuff H0 L1 L2 L3 [Safe1 Safe2].
  assert (Hsafe : esafe_call (elexemes_of (Some lexset) hs) (Some lexset) (Some stbuff) (Some grbuff)).
  { split; [intros _; exact Safe1|]. intros mem g [= <-] _ _ Hg. rewrite L1 in Hg. exact (Safe2 g Hg). }
  destruct (H (Some (w ++ [0])) (2 ^ 64 - 1) (Some lexset) (Some stbuff) (Some grbuff) junk (given_terminated w [] H0) Hsafe) as (ls & z & p1 & p2 & p3 & Hlen & Hls & Hr & S1 & S2 & S3 & Hy & Hn).
  cbn [elexemes_of] in *. remember (egrouped hs) as gs eqn:Egs. exists ls. split; [exact Hlen|]. specialize (Hls ltac:(discriminate)). split; [exact Hls|]. intros Hq.
  assert (Hfit : eall_fit gs ls (Some lexset) (Some stbuff) (Some grbuff) <-> tool_eroom gs (fit 256 ls)).
  { unfold eall_fit, tool_eroom. split.
    - intros (F1 & F2 & F3). destruct (F2 _ eq_refl) as [F4 F5]. rewrite L2 in F5. specialize (F1 _ eq_refl). rewrite L1 in F1. split; [exact F1|]. split; [exact F4|]. split; [exact F5|]. rewrite <- L3. apply F3; [discriminate|reflexivity].
    - intros (F1 & F4 & F5 & F3). split; [intros m [= <-]; rewrite L1; exact F1|]. split; [intros m [= <-]; rewrite L2; split; [exact F4|exact F5]|intros m _ [= <-]; rewrite L3; exact F3]. }
  rewrite Hfit in Hy, Hn. destruct (same_some _ _ S1) as (lx & ->). destruct (same_some _ _ S2) as (st & ->). destruct (same_some _ _ S3) as (gr & ->).
  unfold tool_elemmatize, tool_print. unfold bytes in *. rewrite Hr. cbn [bind].
  apply (tells_call (fun g => er_id (ex_first g)) (fun g => er_shown (ex_first g)) (fun g => concat (estored g)) gs ls (fun l => l)); [exact Hlen|intros g _; apply estored_shown| | | |].
  - intros g Hg. rewrite Egs in Hg. pose proof (egrouped_in hs g Hg) as Hin. destruct (efound_facts A L true w hs _ HL Hf Hin) as (F1 & F2 & F3). split; [|split; [exact F2|exact F3]].
    unfold er_shown. destruct (er_ids (ex_first g)); [congruence|discriminate].
  - rewrite map_id. exact Hq.
  - intros Hroom. destruct (Hy Hroom) as (-> & D1 & D2 & D3). destruct (D1 lexset eq_refl) as (lx0 & [= <-] & Hcell & _). rewrite map_id. split; [reflexivity|]. split; [|split; [|split]].
    + intros i g Hg. rewrite (Hcell i g Hg). unfold elemm_cell. rewrite concat_flat. reflexivity.
    + rewrite <- (map_id ls). apply (erased_no_nul gs ls _ (fun l => l) Hlen Hls). intros g l Hg Hl'. eapply (elemma_no_nul A L _ w hs (ex_first g) l HL HB Hf); [|exact Hl'].
      apply egrouped_in. rewrite <- Egs. exact Hg.
    + specialize (D2 _ eq_refl). injection D2 as ->. eexists. reflexivity.
    + specialize (D3 _ eq_refl). injection D3 as ->. eexists. rewrite concat_flat. reflexivity.
  - intros Hroom. destruct (Hn Hroom) as [->|[->| ->]]; lia.
Qed.
