(** * PropFuzzyLemmas: consequences and concrete cases for the guesser.  PROOFS ONLY. *)
From Coq Require Import Permutation.
From Verif Require Import Base Serial SerialProofs TreeSpec FlatScanProofs CharTables CapScheme CapSpec CapProofs CapProofs2 CapProofs3 GramMap RusRuntime
  LevelSpec LevelProofs RusSpec RusProofs RusProofs2 RusProofs3 RusBuild RusBuildSpec RusBuildProofs RusBuildProofs2 RusBuildProofs3
  Fuzzy FuzzySpec FuzzyProofs FuzzyProofs2 FuzzyProofs3 FuzzyProofs4 FuzzyProofs5 FuzzyProofs6.
Local Open Scope N_scope.

(** ** The word comes back *)
Lemma parts_prefix w : forall k, (length (parts rus_casing (firstn k w)) <= length (parts rus_casing w))%nat.
Proof.
  induction w as [|c w IH]; intros [|k]; cbn [firstn parts]; try lia.
  - cbn [length]. destruct (ctype rus_casing c =? 2); [cbn; lia|]. destruct (parts rus_casing w); cbn; lia.
  - specialize (IH k). destruct (ctype rus_casing c =? 2); [cbn [length]; lia|].
    destruct (parts rus_casing (firstn k w)) as [|a x], (parts rus_casing w) as [|b y] eqn:E; cbn [length] in *; try lia.
Qed.

Lemma runs_members l r g : In r (runs l) -> In g r -> In g l /\ class_no r = r_class (snd g) /\ stem_len r = (fst g + 2)%nat.
Proof.
  revert r. induction l as [|a l IH]; intros r Hr Hg; [destruct Hr|]. rewrite runs_cons in Hr. pose proof (runs_nonempty l) as Hne.
  destruct (runs l) as [|[|h q] rs] eqn:E.
  - destruct Hr as [<-|[]]. destruct Hg as [<-|[]]. repeat split. left. reflexivity.
  - inversion Hne; congruence.
  - destruct (same_key a h) eqn:Ek.
    + destruct Hr as [<-|Hr].
      * assert (Hx : class_no (a :: h :: q) = class_no (h :: q) /\ stem_len (a :: h :: q) = stem_len (h :: q)).
        { unfold same_key in Ek. apply andb_true_iff in Ek. destruct Ek as [E1 E2]. apply Nat.eqb_eq in E1. apply N.eqb_eq in E2.
          unfold class_no, stem_len, head_of. cbn [hd]. split; [exact E2|rewrite E1; reflexivity]. }
        destruct Hg as [<-|Hg]; [repeat split; left; reflexivity|]. destruct (IH (h :: q) (or_introl eq_refl) Hg) as (H1 & H2 & H3).
        split; [right; exact H1|]. rewrite (proj1 Hx), (proj2 Hx). split; assumption.
      * destruct (IH r (or_intror Hr) Hg) as (H1 & H2). split; [right; exact H1|exact H2].
    + destruct Hr as [<-|Hr].
      * destruct Hg as [<-|[]]. repeat split. left. reflexivity.
      * destruct (IH r Hr Hg) as (H1 & H2). split; [right; exact H1|exact H2].
Qed.

Lemma low_prefix k w : rlow (firstn k w) = firstn k (rlow w).
Proof. symmetry. apply firstn_map. Qed.

Lemma proper_prefix k w : proper w -> (0 < k)%nat -> proper (firstn k w).
Proof.
  intros (H1 & H2 & H3 & H4 & H5) Hk. repeat split.
  - unfold is_bytes in *. rewrite <- (firstn_skipn k w) in H1. apply Forall_app in H1. apply H1.
  - destruct w; [congruence|]. destruct k; [lia|discriminate].
  - rewrite firstn_length. lia.
  - pose proof (parts_prefix w k). lia.
  - intros Hi. apply H5. rewrite <- (firstn_skipn k w). apply in_or_app. left. exact Hi.
Qed.

Theorem guess_back sort cs t F w l r g mem lojunk junk psz cch : (forall x, Permutation x (sort x)) -> compiled sort cs t F -> Forall source_ok cs ->
  N.of_nat (length cs) < 2 ^ 32 -> Forall (fun c => by_form (c_inflex c)) cs -> proper w -> (length w <= 49)%nat ->
  (forall x, In x l -> In x (guesses (contents t) (rlow w))) -> In r (runs l) -> In g r ->
  given (firstn (stem_len r) w) psz cch -> mem <> [] -> stopped junk ->
  exists fs, delivered mem fs True (fuzzy_build_form F lojunk junk (Some mem) psz cch (class_no r) (r_form (snd g))) /\
    In (respell rus_casing (required_case (c_partsp (numbered sort cs (class_no r)))) (rlow w)) fs.
Proof.
  intros Hsort HC Hcs Hn Hby Hw Hlen Hl Hr Hg Hgiv Hm Hj. destruct (runs_members l r g Hr Hg) as (Hin & Ec & Es). apply Hl in Hin.
  destruct g as [n [i p id]]. cbn [fst snd r_class r_form] in *. subst i. pose proof Hin as Hin'.
  apply (compiled_guesses sort cs t F (rlow w) n (class_no r) p id HC Hcs) in Hin. destruct Hin as (m & f & He & Hp & Hf).
  pose proof He as (c & E1 & E2 & E3 & E4 & E5). rewrite Forall_forall in Hcs. pose proof (Hcs c (nth_error_In _ _ E1)) as Hc.
  pose proof (compiled_class sort Hsort cs t F _ c HC E1 Hc) as Hcl. rewrite Nnat.N2Nat.id in Hcl.
  pose proof (find_source sort cs _ c E1) as Ef. rewrite Nnat.N2Nat.id in Ef. rewrite Ef. cbn [sorted_class c_partsp].
  rewrite Forall_forall in Hby. pose proof (Hby c (nth_error_In _ _ E1)) as Hb.
  exists (variants (sorted_class sort c) (rlow (firstn (stem_len r) w)) id). split.
  - apply fuzzy_build_exact; try assumption.
    + apply proper_prefix; [exact Hw|]. lia.
    + intros f' Hf' _. cbn [sorted_class c_inflex] in Hf'. pose proof (so_flex _ Hc) as Hx. rewrite Forall_forall in Hx. destruct (Hx f' Hf') as (_ & Hx2 & _).
      rewrite firstn_length. unfold bytes in *. lia.
  - unfold variants. cbn [sorted_class c_partsp c_inflex]. apply in_map_iff. exists f. split; [|apply filter_In; split; [exact E3|apply N.eqb_eq; exact Hf]].
    f_equal. rewrite low_prefix, Es. apply (ends_like_word cs (rlow w) n (class_no r) m f He).
    pose proof (accepted_suffix c (so_accepted _ Hc)) as Hs. rewrite Forall_forall in Hs. exact (Hs m E2).
Qed.

(** ** Nothing there *)
Lemma fuzzy_degenerate F lojunk junk mem psz cch i id : mem <> [] -> N.of_nat (length (class_offset F)) <= i ->
  (psz = None \/ exists w, given w psz cch) -> forall z r, fuzzy_build_form F lojunk junk (Some mem) psz cch i id = Ok (z, r) -> z = (-5)%Z /\ r = Some mem.
Proof.
  intros Hm Hi _ z r H. unfold fuzzy_build_form in H. destruct (fuzzy_canonic psz cch) as [[s st]|]; [|discriminate]. cbn [bind] in H.
  destruct mem; [congruence|]. destruct (N.leb_spec (N.of_nat (length (class_offset F))) i); [|lia]. injection H as <- <-. split; reflexivity.
Qed.

(** ** Decision procedures for concrete cases *)
Definition ref_eq (a b : class_ref) : {a = b} + {a <> b}.
Proof. decide equality; apply N.eq_dec. Defined.
Definition kv_eq (a b : bytes * list class_ref) : {a = b} + {a <> b}.
Proof. decide equality; [apply list_eq_dec, ref_eq|apply list_eq_dec, N.eq_dec]. Defined.
Fixpoint take_out (x : bytes * list class_ref) (l : list (bytes * list class_ref)) : option (list (bytes * list class_ref)) :=
  match l with [] => None | y :: l' => if kv_eq x y then Some l' else option_map (cons y) (take_out x l') end.
Fixpoint permb (a b : list (bytes * list class_ref)) : bool :=
  match a with [] => match b with [] => true | _ => false end | x :: a' => match take_out x b with Some b' => permb a' b' | None => false end end.
Lemma take_out_ok x l : forall l', take_out x l = Some l' -> Permutation (x :: l') l.
Proof.
  induction l as [|y l IH]; intros l' H; [discriminate|]. cbn [take_out] in H. destruct (kv_eq x y) as [->|]; [injection H as <-; reflexivity|].
  destruct (take_out x l) as [l0|]; [|discriminate]. injection H as <-. etransitivity; [apply perm_swap|]. constructor. apply IH. reflexivity.
Qed.
Lemma permb_ok a : forall b, permb a b = true -> Permutation a b.
Proof.
  induction a as [|x a IH]; intros b H; cbn [permb] in H; [destruct b; [constructor|discriminate]|].
  destruct (take_out x b) as [b'|] eqn:E; [|discriminate]. apply take_out_ok in E. etransitivity; [constructor; apply IH; exact H|exact E].
Qed.

Fixpoint incrb (l : list N) : bool := match l with [] => true | a :: l' => forallb (fun b => a <? b) l' && incrb l' end.
Lemma incrb_ok l : incrb l = true -> increasing l.
Proof.
  induction l as [|a l IH]; intros H; [exact I|]. cbn [incrb] in H. apply andb_true_iff in H. destruct H as [H1 H2]. split; [|apply IH; exact H2].
  apply Forall_forall. intros b Hb. rewrite forallb_forall in H1. apply N.ltb_lt. exact (H1 b Hb).
Qed.
Fixpoint orderedb (t : ptree) : bool :=
  match t with
  | PNode _ _ kids => forallb (fun k => match plabel k with [] => false | _ => true end) kids && incrb (map (fun k => hd 0 (plabel k)) kids) && forallb orderedb kids
  end.
Fixpoint orderedb_ok t : orderedb t = true -> ordered_tree t.
Proof.
  destruct t as [l v kids]. cbn [orderedb]. intros H. apply andb_true_iff in H. destruct H as [H H3]. apply andb_true_iff in H. destruct H as [H1 H2].
  constructor.
  - apply Forall_forall. intros k Hk. rewrite forallb_forall in H1. specialize (H1 k Hk). destruct (plabel k); [discriminate|discriminate].
  - apply incrb_ok. exact H2.
  - clear H1 H2. induction kids as [|k kids IH]; [constructor|]. cbn [forallb] in H3. apply andb_true_iff in H3. destruct H3 as [H3 H4].
    constructor; [apply orderedb_ok; exact H3|apply IH; exact H4].
Qed.

Definition known_formb (psp form : N) : bool :=
  (psp <? 47) && ((rus_known psp =? 0) || (form <? rus_known psp)).
Lemma known_formb_ok p f : known_formb p f = true -> known_form p f.
Proof.
  unfold known_formb, known_form. intros H. apply andb_true_iff in H. destruct H as [H1 H2]. apply N.ltb_lt in H1. apply orb_true_iff in H2. split; [exact H1|].
  destruct H2 as [H2|H2]; [left; apply N.eqb_eq; exact H2|right; apply N.ltb_lt; exact H2].
Qed.
Definition sourceb (c : class_src) : bool :=
  class_accepted c && (N.of_nat (length (c_inflex c)) <? 2 ^ 32) && (N.of_nat (length (c_models c)) <? 2 ^ 32) &&
  forallb (fun f => (fst f <? 256) && Nat.leb (length (snd f)) 14 && forallb (fun x => negb (x =? 0)) (snd f) && known_formb (c_partsp c) (fst f)) (c_inflex c) &&
  forallb (fun m => (m_weight m <? 2 ^ 32) && (N.of_nat (length (m_sample m)) <? 2 ^ 32)) (c_models c).
Lemma nonul_ok s : forallb (fun x => negb (x =? 0)) s = true -> ~ In 0 s.
Proof. intros H Hi. rewrite forallb_forall in H. specialize (H 0 Hi). discriminate. Qed.
Lemma sourceb_ok c : sourceb c = true -> source_ok c.
Proof.
  intros H. unfold sourceb in H. do 4 (apply andb_true_iff in H; let H' := fresh in destruct H as [H H']).
  constructor; try assumption; try (apply N.ltb_lt; assumption).
  - apply Forall_forall. intros f Hf. rewrite forallb_forall in H1. specialize (H1 f Hf). repeat (apply andb_true_iff in H1; let H' := fresh in destruct H1 as [H1 H']).
    split; [apply N.ltb_lt; exact H1|]. split; [apply Nat.leb_le; assumption|]. split; [apply nonul_ok; assumption|apply known_formb_ok; assumption].
  - apply Forall_forall. intros m Hm. rewrite forallb_forall in H0. specialize (H0 m Hm). apply andb_true_iff in H0. destruct H0. split; apply N.ltb_lt; assumption.
Qed.
Lemma sources_ok cs : forallb sourceb cs = true -> Forall source_ok cs.
Proof. intros H. apply Forall_forall. intros c Hc. rewrite forallb_forall in H. apply sourceb_ok, H, Hc. Qed.

Definition arrays_for (cs : list class_src) (t : ptree) : fuzzy :=
  Fuzzy (pser t) (class_offsets 0 (map (guess_class_ser (fun l => l)) cs)) (concat (map (guess_class_ser (fun l => l)) cs)).
Lemma compiled_intro cs t : orderedb t = true -> permb (contents t) (index_classes 0 cs []) = true -> (N.of_nat (length (pser t)) <? 2 ^ 32) = true ->
  compiled (fun l => l) cs t (arrays_for cs t).
Proof.
  intros H1 H2 H3. constructor; try reflexivity.
  - constructor. apply N.ltb_lt. exact H3.
  - apply orderedb_ok. exact H1.
  - apply permb_ok. exact H2.
Qed.

(** ** A small guesser: "-ст", "-он" of a masculine noun; "-ст" of a feminine one and "-ка" *)
Definition masc : class_src :=
  ClassSrc 7 false [ModelSrc [241; 242] [236; 238; 241; 242] 120; ModelSrc [238; 237] [242; 238; 237] 40]
           [(0, []); (1, [224]); (2, [243]); (10, [251]); (12, [224; 236]); (12, [255; 236])].
Definition femn : class_src :=
  ClassSrc 13 true [ModelSrc [241; 242] [236; 229; 241; 242; 224] 30] [(0, [224]); (1, [251])].
Definition town : class_src := ClassSrc 39 false [ModelSrc [238; 237] [196; 238; 237] 5] [(0, []); (1, [224])].
Definition guess_src : list class_src := [masc; femn; town].
Definition leaf (l : bytes) (v : list class_ref) : ptree := PNode l (Some v) [].
Definition guess_tree : ptree :=
  PNode [] None
    [ PNode [224] None
        [ leaf [237; 238] [ClassRef 0 40 1; ClassRef 2 5 1]; leaf [242; 241] [ClassRef 0 120 1; ClassRef 1 30 0] ];
      PNode [236] None
        [ PNode [224] None [ leaf [237; 238] [ClassRef 0 40 12]; leaf [242; 241] [ClassRef 0 120 12] ];
          PNode [255] None [ leaf [237; 238] [ClassRef 0 40 12]; leaf [242; 241] [ClassRef 0 120 12] ] ];
      leaf [237; 238] [ClassRef 0 40 0; ClassRef 2 5 0];
      leaf [242; 241] [ClassRef 0 120 0];
      PNode [243] None [ leaf [237; 238] [ClassRef 0 40 2]; leaf [242; 241] [ClassRef 0 120 2] ];
      PNode [251] None [ leaf [237; 238] [ClassRef 0 40 10]; leaf [242; 241] [ClassRef 0 120 10; ClassRef 1 30 1] ] ].
Definition guess_arrays : fuzzy := arrays_for guess_src guess_tree.

Lemma guess_compiled : compiled (fun l => l) guess_src guess_tree guess_arrays.
Proof. apply compiled_intro; vm_compute; reflexivity. Qed.
Lemma guess_sources : Forall source_ok guess_src.
Proof. apply sources_ok. vm_compute. reflexivity. Qed.
Lemma guess_guesser : guesser guess_arrays guess_tree (numbered (fun l => l) guess_src).
Proof. apply compiled_guesser; [intros; reflexivity|apply guess_compiled|apply guess_sources|vm_compute; reflexivity]. Qed.

(** ** What goes wrong *)

(** the word is an ending itself, and a longer ending is known *)
Definition edge_src : list class_src :=
  [ClassSrc 7 false [ModelSrc [241; 242] [236; 238; 241; 242] 120; ModelSrc [224; 241] [224; 241] 40] [(0, []); (1, [242])]].
Definition edge_tree : ptree :=
  PNode [] None
    [ leaf [241; 224] [ClassRef 0 40 0];
      PNode [242] None
        [ PNode [241] (Some [ClassRef 0 120 0]) [leaf [224] [ClassRef 0 40 1]]; leaf [242; 241] [ClassRef 0 120 1] ] ].
Lemma edge_compiled : compiled (fun l => l) edge_src edge_tree (arrays_for edge_src edge_tree).
Proof. apply compiled_intro; vm_compute; reflexivity. Qed.
Lemma edge_sources : Forall source_ok edge_src.
Proof. apply sources_ok. vm_compute. reflexivity. Qed.
Lemma edge_reads_out rank sort junk plemma :
  fuzzy_lemmatize rank sort junk (arrays_for edge_src edge_tree) [] (repeat 0 256) (Some [241; 242]) 2 plemma None None 0 = Ub.
Proof. vm_compute. reflexivity. Qed.

Lemma properb w : forallb (fun c => (c <? 256) && negb (c =? 0)) w = true -> Nat.ltb 0 (length w) = true -> Nat.ltb (length w) 256 = true ->
  Nat.leb (length (parts rus_casing w)) 8 = true -> proper w.
Proof.
  intros H1 H2 H3 H4. rewrite forallb_forall in H1. repeat split.
  - apply Forall_forall. intros c Hc. specialize (H1 c Hc). apply andb_true_iff in H1. apply N.ltb_lt. apply H1.
  - destruct w; [discriminate|discriminate].
  - apply Nat.ltb_lt. exact H3.
  - apply Nat.leb_le. exact H4.
  - intros Hc. specialize (H1 0 Hc). apply andb_true_iff in H1. destruct H1 as [_ H1]. discriminate.
Qed.

(** the array of the form is not terminated *)
Lemma build_off F lojunk junk mem w psz cch i c id : has_class F i c -> by_form (c_inflex c) -> proper w -> given w psz cch -> mem <> [] ->
  (exists f, In f (c_inflex c) /\ fst f = id) -> (forall f, In f (c_inflex c) -> nodelim rus_casing (snd f) /\ (length w + length (snd f) <= 64)%nat) ->
  nodelim rus_casing (rlow w) -> nodelim rus_casing junk -> length junk = 64%nat ->
  fuzzy_build_form F lojunk junk (Some mem) psz cch i id = Ub.
Proof.
  intros Hc Hby Hw Hg Hm (f & Hf & Ef) Hall Hnd Hj Hlj. rewrite (fuzzy_build_eq F lojunk junk mem w psz cch i c id Hc Hw Hg Hm). cbn [build_variants bind].
  destruct (get_class F i c Hc) as (rest & ->). cbn [bind app rd]. destruct Hc as (Hok & _).
  rewrite getserial_putserial by apply Hok. cbn [bind]. rewrite Nnat.Nat2N.id.
  destruct (skip_until_eq id (c_inflex c) Hby (class_models c ++ rest)) as (l2 & -> & Hby2 & Hge & Hfil & l1 & El). cbn [bind].
  assert (H2 : In f (filter (fun f => fst f =? id) l2)) by (rewrite Hfil; apply filter_In; split; [exact Hf|apply N.eqb_eq; exact Ef]).
  destruct l2 as [|g l2]; [destruct H2|]. assert (Eg : fst g = id).
  { apply filter_In in H2. destruct H2 as [H2 _]. pose proof (Forall_inv Hge) as Hx. cbv beta in Hx. cbn [by_form] in Hby2. destruct Hby2 as [Hy _].
    destruct H2 as [->|H2]; [exact Ef|]. rewrite Forall_forall in Hy. specialize (Hy f H2). lia. }
  assert (Hgin : In g (c_inflex c)) by (rewrite El; apply in_or_app; right; left; reflexivity). destruct (Hall g Hgin) as [Hgn Hgl].
  pose proof (co_flex _ Hok) as Hfl. rewrite Forall_forall in Hfl. destruct (Hfl g Hgin) as (G1 & G2 & G3).
  cbn [length build_variants flexes flat_map app rd bind]. destruct g as [gi gf]. cbn [fst snd] in *. subst gi. rewrite N.eqb_refl. cbn [rd bind].
  rewrite map_length, Nnat.Nat2N.id. destruct (Nat.ltb_spec 64 (length w + length gf)); [lia|].
  rewrite psp_min_cap_eq by apply (co_partsp _ Hok). cbn [bind]. unfold make_form. rewrite Nnat.Nat2N.id. rewrite <- !app_assoc. rewrite strncpy_eq by exact G3. cbn [bind].
  rewrite map_length, Hlj. destruct (Nat.ltb_spec 64 (length w + length gf)); [lia|].
  unfold overwrite. rewrite app_length, map_length.
  assert (Hlen : (length w + length gf)%nat = length (rlow w ++ gf)) by (rewrite app_length, map_length; reflexivity). rewrite Hlen.
  assert (N1 : rlow w ++ gf <> []) by (destruct Hw as (_ & Hn & _); destruct w; [congruence|discriminate]).
  assert (N2 : nodelim rus_casing (rlow w ++ gf)) by (apply Forall_app; split; [exact Hnd|exact Hgn]).
  assert (N3 : nodelim rus_casing (skipn (length (rlow w ++ gf)) junk)).
  { unfold nodelim in *. rewrite <- (firstn_skipn (length (rlow w ++ gf)) junk) in Hj. apply Forall_app in Hj. apply Hj. }
  rewrite set_off; try assumption; try reflexivity; try apply rus_ok; try apply rus_dlm.
Qed.

Lemma guess_masc : has_class guess_arrays 0 masc.
Proof. exact (compiled_class (fun l => l) (fun l => Permutation_refl l) guess_src guess_tree guess_arrays 0 masc guess_compiled eq_refl (Forall_inv guess_sources)). Qed.
Lemma masc_sorted : by_form (c_inflex masc).
Proof. cbn. repeat (split; [repeat constructor; cbn; lia|]). exact I. Qed.

Definition nodelimb (s : bytes) : bool := forallb (fun c => negb (ctype rus_casing c =? 2)) s.
Lemma nodelimb_ok s : nodelimb s = true -> nodelim rus_casing s.
Proof. intros H. apply Forall_forall. intros c Hc. unfold nodelimb in H. rewrite forallb_forall in H. specialize (H c Hc). apply negb_true_iff. exact H. Qed.

Lemma guess_unterminated junk : length junk = 64%nat -> nodelim rus_casing junk ->
  fuzzy_build_form guess_arrays (repeat 0 256) junk (Some (repeat 7 100)) (Some [245; 226; 238; 241; 242]) 5 0 1 = Ub.
Proof.
  intros H1 H2. apply (build_off guess_arrays (repeat 0 256) junk (repeat 7 100) [245; 226; 238; 241; 242] (Some [245; 226; 238; 241; 242]) 5 0 masc 1).
  - apply guess_masc.
  - apply masc_sorted.
  - apply properb; vm_compute; reflexivity.
  - apply (given_counted [245; 226; 238; 241; 242] []). cbn. lia.
  - discriminate.
  - exists (1, [224]). split; [right; left; reflexivity|reflexivity].
  - intros f Hf. split.
    + apply nodelimb_ok. revert f Hf. apply (proj1 (Forall_forall (fun f => nodelimb (snd f) = true) (c_inflex masc))). repeat constructor.
    + cbn in Hf. cbn [length]. destruct Hf as [<-|[<-|[<-|[<-|[<-|[<-|[]]]]]]]; cbn; lia.
  - apply nodelimb_ok. vm_compute. reflexivity.
  - exact H2.
  - exact H1.
Qed.

(** a form of 64 characters leaves no room for the terminator *)
Lemma guess_longest : fuzzy_build_form guess_arrays (repeat 0 256) (repeat 0 64) (Some (repeat 7 100)) (Some (repeat 224 63)) 63 0 1 = Ub /\
  fuzzy_build_form guess_arrays (repeat 0 256) (repeat 0 64) (Some (repeat 7 100)) (Some (repeat 224 64)) 64 0 1 = Ok ((-4)%Z, Some (repeat 7 100)).
Proof. split; vm_compute; reflexivity. Qed.

(** inflexions out of order *)
Definition mixed_src : list class_src :=
  [ClassSrc 7 false [ModelSrc [241; 242] [236; 238; 241; 242] 120] [(2, [243]); (1, [224]); (2, [254])]].
Definition mixed_tree : ptree :=
  PNode [] None [leaf [224; 242; 241] [ClassRef 0 120 1]; leaf [243; 242; 241] [ClassRef 0 120 2]; leaf [254; 242; 241] [ClassRef 0 120 2]].
Lemma mixed_compiled : compiled (fun l => l) mixed_src mixed_tree (arrays_for mixed_src mixed_tree) /\ Forall source_ok mixed_src.
Proof. split; [apply compiled_intro; vm_compute; reflexivity|apply sources_ok; vm_compute; reflexivity]. Qed.

(** an inflexion the compiler accepts is too long for the table of the weights *)
Definition long_src : list class_src :=
  [ClassSrc 7 false [ModelSrc [241; 242] [236; 238; 241; 242] 120] [(0, repeat 224 15)]].
Definition long_tree : ptree := leaf (repeat 224 15 ++ [242; 241]) [ClassRef 0 120 0].
Lemma long_compiled : compiled (fun l => l) long_src long_tree (arrays_for long_src long_tree) /\ forallb class_accepted long_src = true.
Proof. split; [apply compiled_intro; vm_compute; reflexivity|reflexivity]. Qed.
Lemma long_reads_out rank sort junk below plemma :
  fuzzy_lemmatize rank sort junk (arrays_for long_src long_tree) below (repeat 0 256) (Some ([245; 241; 242] ++ repeat 224 15)) 18 plemma None None 0 = Ub.
Proof. vm_compute. reflexivity. Qed.

(** a form the table of the weights does not know *)
Definition wide_src : list class_src :=
  [ClassSrc 7 false [ModelSrc [241; 242] [236; 238; 241; 242] 120] [(17, [224])]].
Definition wide_tree : ptree := leaf [224; 242; 241] [ClassRef 0 120 17].
Lemma wide_compiled : compiled (fun l => l) wide_src wide_tree (arrays_for wide_src wide_tree) /\ forallb class_accepted wide_src = true.
Proof. split; [apply compiled_intro; vm_compute; reflexivity|reflexivity]. Qed.
Lemma wide_reads_out rank sort junk below plemma :
  fuzzy_lemmatize rank sort junk (arrays_for wide_src wide_tree) below (repeat 0 256) (Some [245; 241; 242; 224]) 4 plemma None None 0 = Ub.
Proof. vm_compute. reflexivity. Qed.

(** ** A sort, for the cases *)
Fixpoint put_by (x : stem_info) (l : list stem_info) : list stem_info :=
  match l with [] => [x] | y :: l' => if (sweight y <=? sweight x)%Z then x :: l else y :: put_by x l' end.
Definition by_weight (l : list stem_info) : list stem_info := fold_right put_by [] l.
Lemma put_by_perm x l : Permutation (x :: l) (put_by x l).
Proof.
  induction l as [|y l IH]; [reflexivity|]. cbn [put_by]. destruct (sweight y <=? sweight x)%Z; [reflexivity|]. etransitivity; [apply perm_swap|]. constructor. exact IH.
Qed.
Lemma put_by_falling x l : falling l -> falling (put_by x l).
Proof.
  induction l as [|y l IH]; intros H; [split; [constructor|exact I]|]. cbn [put_by]. destruct (Z.leb_spec (sweight y) (sweight x)) as [Hl|Hl].
  - split; [|exact H]. destruct H as [H1 H2]. constructor; [exact Hl|]. eapply Forall_impl; [|exact H1]. cbn. intros b Hb. lia.
  - destruct H as [H1 H2]. split; [|apply IH; exact H2]. eapply perm_forall; [apply put_by_perm|]. constructor; [lia|exact H1].
Qed.
Lemma by_weight_sorts l : Permutation l (by_weight l) /\ falling (by_weight l).
Proof.
  induction l as [|x l [IH1 IH2]]; [split; [constructor|exact I]|]. cbn [by_weight fold_right]. fold (by_weight l). split; [|apply put_by_falling; exact IH2].
  etransitivity; [constructor; exact IH1|apply put_by_perm].
Qed.
Definition some_rank (pos power psp form : N) (accent : bool) : Z := (if accent then 0 else Z.of_N power + Z.of_N pos)%Z.

Lemma lemmatize_long rank sort junk F below lojunk psz cch plemma pforms pgrams dwsets w : given w psz cch -> (256 <= length w)%nat -> (length (rparts w) <= 16)%nat ->
  fuzzy_lemmatize rank sort junk F below lojunk psz cch plemma pforms pgrams dwsets = Ok ((-4)%Z, plemma, pforms, pgrams).
Proof.
  intros Hg Hl Hp. assert (Hne : w <> []) by (destruct w; [cbn in Hl; lia|discriminate]). unfold fuzzy_lemmatize. rewrite (fuzzy_canonic_given w psz cch Hg Hne). unfold cap_get.
  destruct (get_loop_nofit' rus_casing w (S (length w)) 256 0 0 true []) as (out & ->); [lia|lia|lia|]. reflexivity.
Qed.
