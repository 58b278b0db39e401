(** * PropGuessLemmas: what Prop_Guess.v needs.  PROOFS ONLY. *)
From Coq Require Import Permutation.
From Verif Require Import Base Serial SerialProofs TreeSpec FlatScanProofs CharTables CapScheme CapSpec CapProofs CapProofs2 CapProofs3 GramMap RusRuntime
  LevelSpec LevelProofs RusSpec RusProofs RusProofs2 RusProofs3 RusBuild RusBuildSpec RusBuildProofs RusBuildProofs2 RusBuildProofs3 Codepage CodepageSpec Utf8 CodepageProofs
  Fuzzy FuzzySpec FuzzyProofs FuzzyProofs2 FuzzyProofs3 FuzzyProofs4 FuzzyProofs5 FuzzyProofs6 PropFuzzyLemmas Guess GuessSpec GuessProofs GuessProofs2 GuessProofs3.
Local Open Scope N_scope.

(** ** The word back *)
Lemma low_in_prefix T k u : low_in T (firstn k u) = firstn k (low_in T u).
Proof. unfold low_in. symmetry. apply firstn_map. Qed.
Lemma encode_low_length T E u : same_width T E -> is_bytes u -> length (encode E (low_in T u)) = length (encode E u).
Proof.
  intros H. induction 1 as [|c u Hc Hu IH]; [reflexivity|]. cbn [low_in map encode flat_map]. rewrite !app_length. unfold encode in IH. rewrite (H c Hc). f_equal. exact IH.
Qed.
Lemma encode_prefix E k u : firstn (length (encode E (firstn k u))) (encode E u) = encode E (firstn k u).
Proof.
  assert (Ex : encode E u = encode E (firstn k u) ++ encode E (skipn k u)) by (rewrite <- (firstn_skipn k u) at 1; unfold encode; apply flat_map_app).
  rewrite Ex. rewrite firstn_app, firstn_all, Nat.sub_diag, firstn_O, app_nil_r. reflexivity.
Qed.
Lemma narrow_length E u : (forall c, c < 256 -> length (enc E c) = 1%nat) -> is_bytes u -> length (encode E u) = length u.
Proof. intros H. induction 1 as [|c u Hc Hu IH]; [reflexivity|]. cbn [encode flat_map length]. rewrite app_length. unfold encode in IH. rewrite (H c Hc), IH. reflexivity. Qed.
Lemma bytes_firstn k u : is_bytes u -> is_bytes (firstn k u).
Proof. intros H. unfold is_bytes in *. rewrite <- (firstn_skipn k u) in H. apply Forall_app in H. apply H. Qed.

Lemma cut_stem T P u r : page_ok P -> aligned T P -> is_bytes u -> (stem_len r <= length u)%nat ->
  firstn (N.to_nat (stem_size P (low_in T u) true r)) (encode (coding P) u) = encode (coding P) (firstn (stem_len r) u).
Proof.
  intros HP Ha Hu Hr. destruct P as [|E|E]; cbn [coding stem_size aligned] in *; rewrite Nnat.Nat2N.id.
  - rewrite !encode_plain. reflexivity.
  - rewrite <- (encode_prefix E (stem_len r) u). f_equal. rewrite narrow_length; [|exact Ha|apply bytes_firstn; exact Hu]. rewrite firstn_length. unfold bytes in *. lia.
  - rewrite <- (encode_prefix E (stem_len r) u). f_equal. rewrite <- low_in_prefix. apply encode_low_length; [exact Ha|apply bytes_firstn; exact Hu].
Qed.

Theorem gback sort T P cs t F u l r g mem lojunk junk psz cch : (forall x, Permutation x (sort x)) -> page_ok P -> aligned T P ->
  compiled sort cs t F -> Forall (source_in T) cs ->
  N.of_nat (length cs) < 2 ^ 32 -> Forall (fun c => by_form (c_inflex c)) cs -> proper_in T P u -> (length u <= 49)%nat ->
  (forall x, In x l -> In x (guesses (contents t) (low_in T u))) -> In r (runs l) -> In g r ->
  given (firstn (N.to_nat (stem_size P (low_in T u) true r)) (encode (coding P) u)) psz cch -> mem <> [] -> workable T junk ->
  exists fs, delivered_in (coding P) mem fs True (gbuild_form T P F lojunk junk (Some mem) psz cch (class_no r) (r_form (snd g))) /\
    In (cased T (c_partsp (numbered sort cs (class_no r))) (low_in T u)) fs.
Proof.
  intros Hsort HP Ha HC Hcs Hn Hby Hw Hlen Hl Hr Hg Hgiv Hm Hj. destruct (runs_members l r g Hr Hg) as (Hin & Ec & Es). apply Hl in Hin.
  destruct g as [n [i p id]]. cbn [fst snd r_class r_form] in *. subst i.
  apply (compiled_guesses_in sort T cs t F (low_in T u) n (class_no r) p id HC Hcs) in Hin. destruct Hin as (m & f & He & Hp & Hf).
  pose proof He as (c & E1 & E2 & E3 & E4 & E5). rewrite Forall_forall in Hcs. pose proof (Hcs c (nth_error_In _ _ E1)) as Hc.
  pose proof (compiled_class_in sort Hsort T cs t F _ c HC E1 Hc) as Hcl. rewrite Nnat.N2Nat.id in Hcl.
  pose proof (find_source sort cs _ c E1) as Ef. rewrite Nnat.N2Nat.id in Ef. rewrite Ef. cbn [sorted_class c_partsp].
  rewrite Forall_forall in Hby. pose proof (Hby c (nth_error_In _ _ E1)) as Hb.
  pose proof (accepted_suffix c (si_accepted _ _ Hc)) as Hs. rewrite Forall_forall in Hs.
  assert (Hsl : (stem_len r <= length u)%nat).
  { pose proof (f_equal (@length N) E5) as El. rewrite skipn_length, app_length, (Hs m E2) in El. rewrite low_length in El, E4. unfold bytes in *. lia. }
  pose proof Hw as (Hub & _ & _ & _ & _ & Hu0).
  rewrite cut_stem in Hgiv by assumption. set (st := firstn (stem_len r) u) in *.
  assert (Hst : proper_in T P st) by (apply gproper_prefix; [exact Hw|lia]).
  assert (Et : text_of P (encode (coding P) st) = st).
  { unfold text_of. apply (dec_enc _ HP); apply Hst. }
  exists (variants_in T (sorted_class sort c) (low_in T (text_of P (encode (coding P) st))) id). split.
  - apply gbuild_exact; try assumption.
    + rewrite Et. exact Hst.
    + destruct Hst as (Hsb & Hsn & _ & _ & _ & Hs0). clearbody st. destruct st as [|x st]; [congruence|]. cbn [encode flat_map]. intros Hx. apply app_eq_nil in Hx. destruct Hx as [Hx _].
      destruct (enc_letters _ HP x) as [Hx2 _]; [intros ->; apply Hs0; left; reflexivity|contradiction].
    + rewrite Et. intros f' Hf' _. cbn [sorted_class c_inflex] in Hf'. pose proof (si_flex _ _ Hc) as Hx. rewrite Forall_forall in Hx. destruct (Hx f' Hf') as (_ & Hx2 & _).
      unfold st. rewrite firstn_length. unfold longest. destruct T; unfold bytes in *; lia.
  - rewrite Et. unfold variants_in. cbn [sorted_class c_partsp c_inflex]. apply in_map_iff. exists f. split; [|apply filter_In; split; [exact E3|apply N.eqb_eq; exact Hf]].
    f_equal. unfold st. rewrite low_in_prefix, Es. apply (ends_like_word cs (low_in T u) n (class_no r) m f He). apply Hs; exact E2.
Qed.

(** ** Checkers for concrete cases *)
Definition known_inb (T : tongue) (psp form : N) : bool :=
  (psp <? known_parts T) && ((known_count T psp =? 0) || (form <? known_count T psp)).
Lemma known_inb_ok T p f : known_inb T p f = true -> known_in T p f.
Proof.
  unfold known_inb, known_in. intros H. apply andb_true_iff in H. destruct H as [H1 H2]. apply N.ltb_lt in H1. apply orb_true_iff in H2. split; [exact H1|].
  destruct H2 as [H2|H2]; [left; apply N.eqb_eq; exact H2|right; apply N.ltb_lt; exact H2].
Qed.
Definition source_inb (T : tongue) (c : class_src) : bool :=
  class_accepted c && (N.of_nat (length (c_inflex c)) <? 2 ^ 32) && (N.of_nat (length (c_models c)) <? 2 ^ 32) &&
  forallb (fun f => (fst f <? 256) && Nat.leb (length (snd f)) 14 && forallb (fun x => negb (x =? 0)) (snd f) && known_inb T (c_partsp c) (fst f)) (c_inflex c) &&
  forallb (fun m => (m_weight m <? 2 ^ 32) && (N.of_nat (length (m_sample m)) <? 2 ^ 32)) (c_models c).
Lemma source_inb_ok T c : source_inb T c = true -> source_in T c.
Proof.
  intros H. unfold source_inb in H. do 4 (apply andb_true_iff in H; let H' := fresh in destruct H as [H H']).
  constructor; try assumption; try (apply N.ltb_lt; assumption).
  - apply Forall_forall. intros f Hf. rewrite forallb_forall in H1. specialize (H1 f Hf). repeat (apply andb_true_iff in H1; let H' := fresh in destruct H1 as [H1 H']).
    split; [apply N.ltb_lt; exact H1|]. split; [apply Nat.leb_le; assumption|]. split; [apply nonul_ok; assumption|apply known_inb_ok; assumption].
  - apply Forall_forall. intros m Hm. rewrite forallb_forall in H0. specialize (H0 m Hm). apply andb_true_iff in H0. destruct H0. split; apply N.ltb_lt; assumption.
Qed.
Lemma sources_in T cs : forallb (source_inb T) cs = true -> Forall (source_in T) cs.
Proof. intros H. apply Forall_forall. intros c Hc. rewrite forallb_forall in H. apply source_inb_ok, H, Hc. Qed.

Lemma proper_inb T P u : forallb (fun c => (c <? 256) && negb (c =? 0)) u = true -> Nat.ltb 0 (length u) = true -> Nat.ltb (length u) 256 = true ->
  Nat.leb (length u + slack (coding P)) 256 = true -> Nat.leb (length (parts (tg_casing T) u)) 8 = true -> proper_in T P u.
Proof.
  intros H1 H2 H3 H5 H4. rewrite forallb_forall in H1. split; [|split; [|split; [|split; [|split]]]].
  - apply Forall_forall. intros c Hc. specialize (H1 c Hc). apply andb_true_iff in H1. apply N.ltb_lt. apply H1.
  - destruct u; [discriminate|discriminate].
  - apply Nat.ltb_lt. exact H3.
  - apply Nat.leb_le. exact H5.
  - apply Nat.leb_le. exact H4.
  - intros Hc. specialize (H1 0 Hc). apply andb_true_iff in H1. destruct H1 as [_ H1]. discriminate.
Qed.

Lemma utf8_widths T k : same_width T (utf8 k).
Proof.
  assert (H : forallb (fun n => Nat.eqb (length (enc (utf8 k) (locase (tg_casing T) (N.of_nat n)))) (length (enc (utf8 k) (N.of_nat n)))) (seq 0 256) = true)
    by (destruct T; vm_compute; reflexivity).
  intros c Hc. rewrite forallb_forall in H. specialize (H (N.to_nat c)). rewrite Nnat.N2Nat.id in H. apply Nat.eqb_eq. apply H. apply in_seq. lia.
Qed.

(** ** A small English guesser: nouns like "runner", verbs like "float" *)
Definition runner : class_src :=
  ClassSrc 1 false [ModelSrc [101; 114] [114; 117; 110; 110; 101; 114] 50] [(0, []); (1, [39; 115]); (2, [115])].
Definition float_ : class_src :=
  ClassSrc 2 false [ModelSrc [97; 116] [102; 108; 111; 97; 116] 20] [(0, []); (1, [115]); (3, [101; 100]); (4, [105; 110; 103])].
Definition eng_src : list class_src := [runner; float_].
Definition eng_tree : ptree :=
  PNode [] None
    [ leaf [100; 101; 116; 97] [ClassRef 1 20 3];
      leaf [103; 110; 105; 116; 97] [ClassRef 1 20 4];
      leaf [114; 101] [ClassRef 0 50 0];
      PNode [115] None [ leaf [39; 114; 101] [ClassRef 0 50 1]; leaf [114; 101] [ClassRef 0 50 2]; leaf [116; 97] [ClassRef 1 20 1] ];
      leaf [116; 97] [ClassRef 1 20 0] ].
Definition eng_arrays : fuzzy := arrays_for eng_src eng_tree.
Lemma eng_compiled : compiled (fun l => l) eng_src eng_tree eng_arrays.
Proof. apply compiled_intro; vm_compute; reflexivity. Qed.
Lemma eng_sources : Forall (source_in English) eng_src.
Proof. apply sources_in. vm_compute. reflexivity. Qed.
Lemma rus_sources : Forall (source_in Russian) guess_src.
Proof. apply sources_in. vm_compute. reflexivity. Qed.
Lemma idp {X} (l : list X) : Permutation l ((fun l => l) l).
Proof. reflexivity. Qed.
Lemma eng_guesser : guesser_in English eng_arrays eng_tree (numbered (fun l => l) eng_src).
Proof. apply compiled_guesser_in; [intros; reflexivity|apply eng_compiled|apply eng_sources|vm_compute; reflexivity]. Qed.
Lemma rus_guesser : guesser_in Russian guess_arrays guess_tree (numbered (fun l => l) guess_src).
Proof. apply compiled_guesser_in; [intros; reflexivity|apply guess_compiled|apply rus_sources|vm_compute; reflexivity]. Qed.
Lemma eng_runner : has_class eng_arrays 0 runner.
Proof. exact (compiled_class_in (fun l => l) idp English eng_src eng_tree eng_arrays 0 runner eng_compiled eq_refl (Forall_inv eng_sources)). Qed.
Lemma runner_sorted : by_form (c_inflex runner).
Proof. cbn. repeat (split; [repeat constructor; cbn; lia|]). exact I. Qed.

Lemma gcanonic_no_room T P E w psz cch : P = Other E \/ P = Utf8 E -> given w psz cch -> w <> [] -> (256 < length (dec E w) + slack E)%nat ->
  gcanonic T P psz cch = Ok (2 ^ 32 - 1, []).
Proof.
  intros HP Hg Hw Hl.
  assert (K : exists p, psz = Some p /\ (if cch =? 2 ^ 64 - 1 then cstr p
                 else if N.of_nat (length p) <? cch then Ub else Ok (firstn (N.to_nat cch) p)) = Ok w).
  { destruct Hg as [w after Hle|w after Hz].
    - exists (w ++ after). split; [reflexivity|]. destruct (N.eqb_spec (N.of_nat (length w)) (2 ^ 64 - 1)); [lia|].
      rewrite app_length. destruct (N.ltb_spec (N.of_nat (length w + length after)) (N.of_nat (length w))); [lia|].
      rewrite Nnat.Nat2N.id, firstn_app, Nat.sub_diag, firstn_all. cbn [firstn]. rewrite app_nil_r. reflexivity.
    - exists (w ++ 0 :: after). split; [reflexivity|]. rewrite N.eqb_refl. apply cstr_app. assumption. }
  destruct K as (p & -> & K). unfold gcanonic. rewrite K. cbn [bind]. destruct w as [|b w0]; [contradiction|].
  destruct HP as [-> | ->]; unfold convert; (destruct (Nat.ltb_spec 256 (length (dec E (b :: w0)) + slack E)); [reflexivity|lia]).
Qed.

(** The Russian "Трона" in UTF-8. *)
Definition throne : bytes := encode (utf8 1) [210; 240; 238; 237; 224].
Definition nostem : stem_info := StemInfo None 0 0 0 0 0.
