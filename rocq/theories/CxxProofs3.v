(** * CxxProofs3: the vectors of lexemes. *)
From Coq Require Import Permutation.
From Verif Require Import Base Serial WordTree TreeSpec FlatScan Stems StemSpec CharTables CapScheme CapSpec CapProofs GramMap RusRuntime LevelSpec RusSpec RusProofs
  RusProofs3 PropRusLemmas RusBuild RusBuildSpec RusBuildProofs RusBuildProofs2 RusBuildProofs3 RusReadings RusReadingsProofs RusLemmaSpec RusLemmaProofs
  PropBuildLemmas RusLemmaProofs5 PropLemmasLemmas EngRuntime EngSpec EngFormsSpec EngBuildProofs EngReadingsProofs EngLemmaSpec EngLemmaProofs PropEngLemmas PropEngLemmas2
  Fuzzy FuzzySpec FuzzyProofs2 FuzzyProofs5 FuzzyProofs6 CxxApi CxxSpec CxxProofs CxxProofs2.
Local Open Scope N_scope.

Lemma Forall2_nth {X Y} (R : X -> Y -> Prop) : forall a b, length a = length b ->
  (forall i x y, nth_error a i = Some x -> nth_error b i = Some y -> R x y) -> Forall2 R a b.
Proof.
  induction a as [|x a IH]; intros [|y b] Hl H; try discriminate; constructor.
  - apply (H 0%nat); reflexivity.
  - apply IH; [injection Hl; auto|]. intros i. apply (H (S i)).
Qed.

Lemma nth_split {X} (l : list X) i x : nth_error l i = Some x -> l = firstn i l ++ x :: skipn (S i) l.
Proof.
  revert i. induction l as [|y l IH]; intros [|i] H; try discriminate; cbn [nth_error firstn skipn app] in *.
  - injection H as ->. reflexivity.
  - f_equal. apply IH, H.
Qed.

Lemma joined_total fs : length (joined fs) = total fs.
Proof. induction fs as [|f fs IH]; [reflexivity|]. cbn [joined flat_map total fold_right]. rewrite app_length. fold (joined fs) (total fs). rewrite IH, app_length. cbn [length]. lia. Qed.

(** ** Dictionaries *)

(** a lexeme as it is stored: identifier, normal form, descriptions reported, further ones stored *)
Record item := Item { t_id : N; t_lemma : bytes; t_grams : list gram; t_more : list gram }.
Definition t_row (t : item) : N * bytes * list gram := (t_id t, t_lemma t, t_grams t).
Definition t_block (t : item) : list gram := t_grams t ++ t_more t.
Definition t_cell (ts : list item) (i : nat) (t : item) : lemm :=
  Lemm (t_id t) (Some (total (firstn i (map t_lemma ts)))) (N.of_nat (length (concat (firstn i (map t_block ts))))) (N.of_nat (length (t_grams t))).

Lemma nth_firstn {X} (l l' : list X) : (forall i x, nth_error l' i = Some x -> nth_error l i = Some x) -> firstn (length l') l = l'.
Proof.
  revert l'. induction l as [|y l IH]; intros [|x l'] H; try reflexivity.
  - specialize (H 0%nat x eq_refl). discriminate.
  - pose proof (H 0%nat x eq_refl) as E. injection E as ->. cbn [length firstn]. f_equal. apply IH. intros i. apply (H (S i)).
Qed.

Lemma mapi_nth {X Y} (f : nat -> X -> Y) : forall l k i x, nth_error l i = Some x ->
  nth_error ((fix go k l := match l with [] => [] | x :: l' => f k x :: go (S k) l' end) k l) i = Some (f (k + i)%nat x).
Proof.
  induction l as [|y l IH]; intros k [|i] x H; try discriminate; cbn [nth_error] in *.
  - injection H as ->. rewrite Nat.add_0_r. reflexivity.
  - rewrite (IH (S k) i x H). do 2 f_equal. lia.
Qed.

Lemma items_ok grow lx ts mem rest :
  (forall i t, nth_error ts i = Some t -> nth_error lx i = Some (t_cell ts i t)) -> Forall (fun t => ~ In 0 (t_lemma t)) ts ->
  exists xs, lexemes_from grow (Z.of_nat (length ts)) (map lemm_info lx) (filled (map t_lemma ts) mem) (concat (map t_block ts) ++ rest) = Ok (Returned xs) /\
    map seen xs = map t_row ts /\ Forall self_contained xs.
Proof.
  intros Hc Hz.
  assert (Hlen : (length ts <= length lx)%nat).
  { destruct (Nat.le_gt_cases (length ts) (length lx)) as [|H]; [assumption|]. exfalso. destruct (nth_error ts (length lx)) as [t|] eqn:E.
    - apply Hc in E. assert (H' : nth_error lx (length lx) <> None) by congruence. apply nth_error_Some in H'. lia.
    - apply nth_error_None in E. lia. }
  rewrite <- (firstn_skipn (length ts) lx). rewrite map_app.
  replace (Z.of_nat (length ts)) with (Z.of_nat (length (map t_row ts))) by (rewrite map_length; reflexivity). apply lexemes_from_eq. apply Forall2_nth; [rewrite !map_length, firstn_length; lia|].
  intros i inf row H1 H2. rewrite nth_error_map in H1, H2. destruct (nth_error ts i) as [t|] eqn:Et; [|discriminate]. injection H2 as <-.
  assert (Hi : (i < length ts)%nat) by (apply nth_error_Some; congruence).
  assert (E1 : nth_error (firstn (length ts) lx) i = Some (t_cell ts i t)).
  { rewrite <- (Hc i t Et). rewrite <- (firstn_skipn (length ts) lx) at 2. rewrite nth_error_app1; [reflexivity|rewrite firstn_length; lia]. }
  rewrite E1 in H1. injection H1 as <-.
  pose proof (nth_split ts i t Et) as Es.
  assert (Em : map t_lemma ts = firstn i (map t_lemma ts) ++ t_lemma t :: skipn (S i) (map t_lemma ts)).
  { apply nth_split. rewrite nth_error_map, Et. reflexivity. }
  assert (Eb : map t_block ts = firstn i (map t_block ts) ++ t_block t :: skipn (S i) (map t_block ts)).
  { apply nth_split. rewrite nth_error_map, Et. reflexivity. }
  destruct (lexeme_from_eq (filled (map t_lemma ts) mem) (concat (map t_block ts) ++ rest) (lemm_info (t_cell ts i t))
    (joined (firstn i (map t_lemma ts))) (t_lemma t) (joined (skipn (S i) (map t_lemma ts)) ++ after (map t_lemma ts) mem)
    (concat (firstn i (map t_block ts))) (t_grams t) (t_more t ++ concat (skipn (S i) (map t_block ts)) ++ rest)) as (x & X1 & X2 & X3).
  - cbn. rewrite joined_total. reflexivity.
  - unfold filled. rewrite Em at 1. unfold joined. rewrite flat_map_app. cbn [flat_map]. rewrite <- !app_assoc. reflexivity.
  - rewrite Forall_forall in Hz. apply Hz. eapply nth_error_In, Et.
  - cbn. rewrite Nnat.Nat2N.id. reflexivity.
  - cbn. rewrite Nnat.Nat2N.id. reflexivity.
  - rewrite Eb at 1. rewrite concat_app. cbn [concat]. unfold t_block at 2. rewrite <- !app_assoc. reflexivity.
  - exists x. split; [exact X1|]. split; [exact X2|exact X3].
Qed.

Lemma thrown_room {X} grow z (infos : list (cxx_info X)) st gr : z = (-1)%Z \/ z = (-2)%Z \/ z = (-3)%Z ->
  lexemes_from grow z infos st gr = Ok (Thrown NoFormsSpace) \/ lexemes_from grow z infos st gr = Ok (Thrown NoStemsSpace) \/
  lexemes_from grow z infos st gr = Ok (Thrown NoGramsSpace).
Proof. intros [->|[->| ->]]; auto. Qed.

Definition item_of (gl : lexeme * bytes) : item :=
  Item (rd_id (lx_first (fst gl))) (snd gl) (rd_shown (lx_first (fst gl))) (concat (map (added (lx_first (fst gl))) (lx_more (fst gl)))).
Definition eitem_of (gl : elexeme * bytes) : item :=
  Item (er_id (ex_first (fst gl))) (snd gl) (er_shown (ex_first (fst gl))) (concat (flat_map (eadded (ex_first (fst gl))) (ex_more (fst gl)))).

Lemma map_combine_l {X Y Z} (f : X -> Z) : forall (a : list X) (b : list Y), length a = length b -> map (fun p => f (fst p)) (combine a b) = map f a.
Proof. induction a as [|x a IH]; intros [|y b] H; try discriminate; [reflexivity|]. cbn [combine map fst]. f_equal. apply IH. injection H. auto. Qed.
Lemma map_combine_r {X Y Z} (f : Y -> Z) : forall (a : list X) (b : list Y), length a = length b -> map (fun p => f (snd p)) (combine a b) = map f b.
Proof. induction a as [|x a IH]; intros [|y b] H; try discriminate; [reflexivity|]. cbn [combine map snd]. f_equal. apply IH. injection H. auto. Qed.
Lemma combine_nth_l {X Y} : forall (a : list X) (b : list Y) i x y, nth_error (combine a b) i = Some (x, y) -> nth_error a i = Some x.
Proof. induction a as [|x0 a IH]; intros [|y0 b] [|i] x y H; try discriminate; cbn [combine nth_error] in *; [congruence|eapply IH, H]. Qed.
Lemma concat_flat {X Y} (f : X -> list (list Y)) l : concat (flat_map f l) = concat (map (fun x => concat (f x)) l).
Proof. induction l as [|x l IH]; [reflexivity|]. cbn [flat_map map concat]. rewrite concat_app, IH. reflexivity. Qed.

Lemma lemma_no_nul A L ig w hs dwsets r l : holds A L -> buildable L -> found L ig w hs -> In r hs -> lemma_of dwsets r l -> ~ In 0 l.
Proof.
  intros HL HB Hf Hr (x & Hx & _ & ->). apply respell_no_nul; [exact rus_upper|]. destruct (found_reading L ig w hs r Hf Hr) as (Hrec & st & Ec).
  destruct (record_facts A L HL HB _ _ Hrec) as (st' & c' & Ec' & _ & _ & Hn & Hk & Hp & _). rewrite Ec in Ec'. injection Ec' as <- <-.
  pose proof (dict_no_nul (rd_class r) (rd_key r) (stpost (rd_entry r)) dwsets (hd (0, 0) (rd_descs r)) Hn Hk Hp) as H. rewrite Forall_forall in H. apply H, Hx.
Qed.
Lemma elemma_no_nul A L ig w hs r l : eholds A L -> ebuildable L -> efound L ig w hs -> In r hs -> elemma_of r l -> ~ In 0 l.
Proof.
  intros HL HB Hf Hr (x & more & Hx & ->). apply respell_no_nul; [exact eng_upper|]. destruct (efound_reading L ig w hs r Hf Hr) as (Hrec & st & Ec).
  destruct (erecord_facts A L HL HB _ _ Hrec) as (st' & c' & Ec' & _ & _ & Hn & _ & Hk & Hp & _). rewrite Ec in Ec'. injection Ec' as <- <-.
  pose proof (edict_no_nul (er_class r) (er_key r) (stpost (er_entry r)) Hn Hk Hp) as H. rewrite Forall_forall in H. apply H.
  unfold er_dict_forms in Hx. rewrite Hx. left. reflexivity.
Qed.

Lemma grouped_in hs : forall g, In g (grouped hs) -> In (lx_first g) hs.
Proof.
  induction hs as [|r hs IH]; intros g Hg; [destruct Hg|]. cbn [grouped] in Hg. destruct (grouped hs) as [|g0 gs]; [destruct Hg as [<-|[]]; left; reflexivity|].
  destruct (rd_id (lx_first g0) =? rd_id r); destruct Hg as [<-|Hg]; try (left; reflexivity); right; apply IH; [right|]; exact Hg.
Qed.
Lemma egrouped_in hs : forall g, In g (egrouped hs) -> In (ex_first g) hs.
Proof.
  induction hs as [|r hs IH]; intros g Hg; [destruct Hg|]. cbn [egrouped] in Hg. destruct (egrouped hs) as [|g0 gs]; [destruct Hg as [<-|[]]; left; reflexivity|].
  destruct (er_id (ex_first g0) =? er_id r); destruct Hg as [<-|Hg]; try (left; reflexivity); right; apply IH; [right|]; exact Hg.
Qed.

Lemma Forall2_combine {X Y} (R : X -> Y -> Prop) a b : Forall2 R a b -> Forall (fun p => R (fst p) (snd p)) (combine a b).
Proof. induction 1; constructor; assumption. Qed.

Theorem cxx_lemmatize_answer A L : holds A L -> buildable L -> forall w dwsets,
  is_bytes w -> w <> [] -> (length w < 48)%nat -> (length (parts rus_casing w) <= 8)%nat ->
  exists hs, found L (bit 1 dwsets) w hs /\
    (Forall (fun g => rd_dict_forms dwsets (lx_first g) <> []) (grouped hs) -> (forall g, nth_error (grouped hs) 31 = Some g -> lx_more g = []) ->
     forall psz cch junk grow lxbuff stbuff grbuff, given w psz cch -> length lxbuff = 32%nat -> length stbuff = 256%nat -> length grbuff = 64%nat ->
     exists ls, Forall2 (fun g l => lemma_of dwsets (lx_first g) l) (grouped hs) ls /\
       reported (map report (combine (grouped hs) ls)) (lexemes_fit dwsets (grouped hs) ls)
         (cxx_lemmatize A junk grow lxbuff stbuff grbuff psz cch dwsets)).
Proof.
  intros HL HB w dwsets Hb Hw Hlen Hp. destruct (lemmatize_answer A L HL HB w dwsets Hb Hw Hlen Hp) as (hs & Hf & _ & H). exists hs. split; [exact Hf|].
  intros Hne H31 psz cch junk grow lxbuff stbuff grbuff Hg L1 L2 L3.
  assert (Hsafe : safe_call dwsets (lexemes_of (Some lxbuff) hs) (Some lxbuff) (Some stbuff) (Some grbuff)).
  { split; [intros _; exact Hne|]. intros mem g [= <-] _ _. rewrite L1. apply H31. }
  destruct (H psz cch (Some lxbuff) (Some stbuff) (Some grbuff) junk Hg Hsafe) as (ls & z & p1 & p2 & p3 & Hl & Hls & Hr & S1 & S2 & S3 & Hyes & Hno).
  cbn [lexemes_of] in *. set (gs := grouped hs) in *. exists ls. split; [apply Hls; discriminate|].
  assert (Hfit : all_fit dwsets gs ls (Some lxbuff) (Some stbuff) (Some grbuff) <-> lexemes_fit dwsets gs ls).
  { unfold all_fit, lexemes_fit. split.
    - intros (F1 & F2 & F3). specialize (F1 _ eq_refl). specialize (F2 _ eq_refl). specialize (F3 grbuff ltac:(discriminate) eq_refl). rewrite L1 in F1. rewrite L2 in F2. rewrite L3 in F3. tauto.
    - intros (F1 & F2 & F3 & F4). split; [intros m [= <-]; rewrite L1; exact F1|]. split; [intros m [= <-]; rewrite L2; tauto|]. intros m _ [= <-]. rewrite L3. exact F4. }
  rewrite Hfit in Hyes, Hno.
  assert (Ecxx : cxx_lemmatize A junk grow lxbuff stbuff grbuff psz cch dwsets =
    match p1, p2, p3 with Some lx, Some st, Some gr => lexemes_from grow z (map lemm_info lx) st gr | _, _, _ => Ub end)
    by (clear - Hr; unfold cxx_lemmatize, bytes in *; rewrite Hr; reflexivity).
  rewrite Ecxx. clear Ecxx Hr. split.
  - intros Hroom. destruct (Hyes Hroom) as (-> & D1 & D2 & D3). destruct (D1 lxbuff eq_refl) as (lx & -> & Hcell & _). rewrite (D2 stbuff eq_refl), (D3 grbuff eq_refl).
    set (ts := map item_of (combine gs ls)).
    assert (E1 : map t_lemma ts = ls) by (unfold ts; rewrite map_map; cbn [item_of t_lemma]; rewrite (map_combine_r (fun l => l)) by lia; apply map_id).
    assert (E2 : map t_block ts = map (fun g => concat (stored g)) gs) by (unfold ts; rewrite map_map; transitivity (map (fun p => concat (stored (fst p))) (combine gs ls)); [reflexivity|apply (map_combine_l (fun g => concat (stored g))); lia]).
    assert (E3 : length gs = length ts) by (unfold ts; rewrite map_length, combine_length; lia).
    destruct (items_ok grow lx ts stbuff (skipn (length (concat (flat_map stored gs))) grbuff)) as (xs & X1 & X2 & X3).
    + intros i t Ht. unfold ts in Ht. rewrite nth_error_map in Ht. destruct (nth_error (combine gs ls) i) as [[g l]|] eqn:E; [|discriminate]. injection Ht as <-.
      rewrite (Hcell i g (combine_nth_l _ _ _ _ _ E)). unfold lemm_cell, t_cell, item_of. cbn [t_id t_lemma t_grams t_more fst snd]. rewrite E1, E2.
      rewrite concat_flat, firstn_map. reflexivity.
    + unfold ts. rewrite Forall_map. cbn [item_of t_lemma]. pose proof (Forall2_combine _ _ _ (Hls ltac:(discriminate))) as Hc. rewrite Forall_forall in *.
      intros [g l] Hin. cbn [fst snd]. eapply (lemma_no_nul A L _ w hs dwsets (lx_first g) l HL HB Hf); [|apply (Hc _ Hin)].
      apply grouped_in. eapply in_combine_l, Hin.
    + rewrite E1, E2 in X1. rewrite <- concat_flat in X1. rewrite E3. rewrite X1. exists xs. split; [reflexivity|]. split; [|exact X3].
      rewrite X2. unfold ts. rewrite map_map. reflexivity.
  - intros Hroom. specialize (Hno Hroom). destruct p1 as [p1|], p2 as [p2|], p3 as [p3|]; try discriminate. apply thrown_room. exact Hno.
Qed.
