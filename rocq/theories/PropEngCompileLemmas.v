(** * PropEngCompileLemmas: the compiled English dictionary, demonstrations and counterexamples.  PROOFS. *)
From Coq Require Import String Ascii Permutation.
From Verif Require Import Base Serial SerialProofs WordTree TreeSpec WordTreeProofs FlatScan Stems StemSpec CharTables CapScheme CapSpec GramMap RusRuntime RusSpec RusBuild RusBuildSpec EngRuntime EngSpec EngProofs2 EngFormsSpec EngRecognised
  PropEngLemmas Api EngCompile EngCompileSpec EngCompileProofs EngCompileProofs2 EngCompileProofs3 EngCompileProofs4 EngCompileProofs5 EngCompileProofs6 EngCompileProofs7.
Local Open Scope N_scope.
Local Open Scope list_scope.

(** ** Main statements *)
Record compiled_from_lines (lines : list bytes) (xs : list article) (A : earrays) : Prop := {
  cf_lists : lists lines xs;
  cf_few : Forall few_homonyms xs;
  cf_count : N.of_nat (length xs) < 2 ^ 32;
  cf_comp : ecompile lines = Ok (Some A);
  cf_fit : earrays_fit A;
}.
Lemma cf_lexicon lines xs A : compiled_from_lines lines xs A -> exists L, compiled_lexicon xs A L.
Proof. intros [H1 H2 H3 H4 H5]. eapply compiled_lexicon_intro; eassumption. Qed.

Lemma english_check lines xs A w psz cch dwsets junk :
  lists lines xs -> Forall few_homonyms xs -> N.of_nat (length xs) < 2 ^ 32 -> ecompile lines = Ok (Some A) -> earrays_fit A -> Forall small_post xs ->
  given w psz cch -> is_bytes w -> w <> [] -> (length w < 48)%nat -> (length (parts eng_casing w) <= 8)%nat ->
  (forall x id, aword xs (bit 1 dwsets) w x [] id -> post_reached x) ->
  echeck_word A junk psz cch dwsets = Ok 1%Z /\ (exists x part id, aword xs (bit 1 dwsets) w x part id) \/
  echeck_word A junk psz cch dwsets = Ok 0%Z /\ ~ (exists x part id, aword xs (bit 1 dwsets) w x part id).
Proof. intros H1 H2 H3 H4 H5. destruct (compiled_lexicon_intro lines xs A H1 H2 H3 H4 H5) as (L & HC). apply (compiled_echeck xs A L HC). Qed.

Lemma english_check_sound lines xs A w psz cch dwsets junk :
  lists lines xs -> Forall few_homonyms xs -> N.of_nat (length xs) < 2 ^ 32 -> ecompile lines = Ok (Some A) -> earrays_fit A -> Forall small_post xs ->
  given w psz cch -> is_bytes w -> w <> [] -> (length w < 48)%nat -> (length (parts eng_casing w) <= 8)%nat ->
  exists r, echeck_word A junk psz cch dwsets = Ok r /\ (r = 0%Z \/ r = 1%Z) /\ (r = 1%Z -> exists x part id, aword xs (bit 1 dwsets) w x part id).
Proof. intros H1 H2 H3 H4 H5. destruct (compiled_lexicon_intro lines xs A H1 H2 H3 H4 H5) as (L & HC). apply (compiled_echeck_sound xs A L HC). Qed.

Lemma english_order lines lines' xs xs' A A' w psz cch dwsets junk junk' :
  lists lines xs -> lists lines' xs' -> (forall x, In x xs <-> In x xs') ->
  Forall few_homonyms xs -> N.of_nat (length xs) < 2 ^ 32 -> N.of_nat (length xs') < 2 ^ 32 -> ecompile lines = Ok (Some A) -> ecompile lines' = Ok (Some A') ->
  earrays_fit A -> earrays_fit A' -> Forall small_post xs ->
  given w psz cch -> is_bytes w -> w <> [] -> (length w < 48)%nat -> (length (parts eng_casing w) <= 8)%nat ->
  (forall x id, aword xs (bit 1 dwsets) w x [] id -> post_reached x) ->
  echeck_word A junk psz cch dwsets = echeck_word A' junk' psz cch dwsets.
Proof.
  intros H1 H1' Hsame H2 H3 H3' H4 H4' H5 H5' Hsp Hg Hb Hne Hl Hp Hr.
  assert (Heq : forall x part id, aword xs (bit 1 dwsets) w x part id <-> aword xs' (bit 1 dwsets) w x part id).
  { intros x part id. unfold aword. rewrite (Hsame x). reflexivity. }
  assert (H2' : Forall few_homonyms xs') by (rewrite Forall_forall in *; intros x Hx; apply H2, Hsame, Hx).
  assert (Hsp' : Forall small_post xs') by (rewrite Forall_forall in *; intros x Hx; apply Hsp, Hsame, Hx).
  destruct (english_check _ _ _ w psz cch dwsets junk H1 H2 H3 H4 H5 Hsp Hg Hb Hne Hl Hp Hr) as [[-> (x & part & id & E)]|[-> E]];
    destruct (english_check _ _ _ w psz cch dwsets junk' H1' H2' H3' H4' H5' Hsp' Hg Hb Hne Hl Hp (fun x id K => Hr x id (proj2 (Heq x [] id) K))) as [[-> (x' & part' & id' & E')]|[-> E']]; try reflexivity.
  - exfalso. apply E'. exists x, part, id. apply Heq, E.
  - exfalso. apply E. exists x', part', id'. apply Heq, E'.
Qed.

Definition arrays_small (A : earrays) : Prop := earrays_fit A /\ N.of_nat (length (e_lids A)) < 2 ^ 32.

Lemma english_build lines xs A x id junk mem :
  lists lines xs -> Forall few_homonyms xs -> N.of_nat (length xs) < 2 ^ 32 -> ecompile lines = Ok (Some A) -> earrays_fit A ->
  N.of_nat (length (e_lids A)) < 2 ^ 32 -> Forall abuildable xs ->
  In x xs -> (forall y, In y xs -> a_id y = a_id x -> y = x) -> mem <> [] -> (length (lexkeylen (a_id x) ++ junk) = 16)%nat ->
  exists l, Permutation l (map to_small (asked x id)) /\ ascending l /\
    let fs := map (aspell x) l in delivered mem fs (small fs) (ebuild_form A junk (Some mem) (a_id x) id).
Proof.
  intros H1 H2 H3 H4 H5 H6 H7. destruct (compiled_lexicon_intro lines xs A H1 H2 H3 H4 H5) as (L & HC). apply (compiled_ebuild xs A L HC); [exact H7|exact H6|apply H5].
Qed.
Lemma english_class lines xs A x junk :
  lists lines xs -> Forall few_homonyms xs -> N.of_nat (length xs) < 2 ^ 32 -> ecompile lines = Ok (Some A) -> earrays_fit A ->
  N.of_nat (length (e_lids A)) < 2 ^ 32 -> Forall abuildable xs ->
  In x xs -> (forall y, In y xs -> a_id y = a_id x -> a_part y = a_part x) -> (length (lexkeylen (a_id x) ++ junk) = 16)%nat ->
  eget_wd_info A junk (a_id x) = Ok (1%Z, Some (a_part x)).
Proof.
  intros H1 H2 H3 H4 H5 H6 H7. destruct (compiled_lexicon_intro lines xs A H1 H2 H3 H4 H5) as (L & HC). apply (compiled_wd_info xs A L HC); [exact H7|exact H6|apply H5].
Qed.
Lemma english_absent lines xs A id idform junk mem :
  lists lines xs -> Forall few_homonyms xs -> N.of_nat (length xs) < 2 ^ 32 -> ecompile lines = Ok (Some A) -> earrays_fit A ->
  N.of_nat (length (e_lids A)) < 2 ^ 32 -> Forall abuildable xs ->
  id < 2 ^ 32 -> (forall y, In y xs -> a_id y <> id) -> mem <> [] -> (length (lexkeylen id ++ junk) = 16)%nat ->
  eget_wd_info A junk id = Ok (0%Z, None) /\ ebuild_form A junk (Some mem) id idform = Ok (0%Z, Some mem).
Proof.
  intros H1 H2 H3 H4 H5 H6 H7. destruct (compiled_lexicon_intro lines xs A H1 H2 H3 H4 H5) as (L & HC). apply (compiled_absent xs A L HC); [exact H7|exact H6|apply H5].
Qed.
Lemma english_recognised lines xs A x id n mem mem' junk :
  lists lines xs -> Forall few_homonyms xs -> N.of_nat (length xs) < 2 ^ 32 -> ecompile lines = Ok (Some A) -> earrays_fit A ->
  N.of_nat (length (e_lids A)) < 2 ^ 32 -> Forall abuildable xs -> Forall aordinary xs ->
  In x xs -> (forall y, In y xs -> a_id y = a_id x -> y = x) -> mem <> [] -> (length (lexkeylen (a_id x) ++ junk) = 16)%nat ->
  ebuild_form A junk (Some mem) (a_id x) id = Ok (n, Some mem') -> (0 < n)%Z ->
  exists fs, n = Z.of_nat (length fs) /\ mem' = filled fs mem /\
    forall form, In form fs -> form <> [] -> (length form < 48)%nat -> forall psz cch dwsets junk', given form psz cch ->
      bit 1 dwsets = true /\ (length (parts eng_casing form) <= 8)%nat \/ ecasable (acase x) (map (locase eng_casing) form) ->
      echeck_word A junk' psz cch dwsets = Ok 1%Z.
Proof.
  intros H1 H2 H3 H4 H5 H6 H7 H8 Hx Hu Hm Hj Hb Hn. destruct (compiled_lexicon_intro lines xs A H1 H2 H3 H4 H5) as (L & HC).
  assert (Hid : a_id x < 2 ^ 32) by (apply (ao_id x), (cl_good _ _ _ HC x Hx)).
  destruct (ebuild_recognised A L (cl_holds _ _ _ HC) (compiled_buildable xs A L HC H7) (compiled_eindexed xs A L HC H7 H6 ltac:(apply H5)) (compiled_recognisable xs A L HC H7 H8)
    junk mem (a_id x) id n mem' Hm Hid Hj Hb Hn) as (key & e & st & c & fs & Hr & Ei & Hc & E1 & E2 & H). exists fs. split; [exact E1|]. split; [exact E2|].
  destruct (cl_class _ _ _ HC _ _ _ _ Hr Hc) as (y & Hy & _ & Ey & _ & ->). rewrite Ei in Ey. rewrite (Hu y Hy (eq_sym Ey)), aclass_case in H by (apply (cl_good _ _ _ HC x Hx)). exact H.
Qed.

(** ** Which lines are accepted *)
Lemma resolve_no_ub b s : (length s < 256)%nat -> (forall a t c, s = a ++ t ++ c -> Forall (fun c => is_space c = false) t -> (length t < 64)%nat) ->
  strstr (text "post:") s = None -> resolve_eng b s <> Ub.
Proof.
  intros Hl Ht Hp. unfold resolve_eng, find_post. rewrite Hp. cbn [length]. assert (E : (256 <=? N.of_nat (length s)) = false) by (apply N.leb_gt; lia). rewrite E.
  destruct (skip_space_suffix s) as (a0 & Ea). destruct (take_until (fun c => (c =? 124) || is_space c) (skip_space s)) as [stem r1] eqn:E1.
  destruct r1 as [|c1 r1]; [discriminate|]. rewrite Nat.sub_0_r. cbn [Nat.ltb Nat.leb].
  destruct (take_until is_space (c1 :: r1)) as [flex r2] eqn:E2. destruct r2 as [|c2 r2]; [discriminate|].
  destruct (take_until is_space (skip_space (c2 :: r2))) as [part r3] eqn:E3. destruct part as [|cp part]; [discriminate|].
  assert (Hsuf : exists a, s = a ++ (cp :: part) ++ r3).
  { assert (Htk : forall f l a b, take_until f l = (a, b) -> l = a ++ b).
    { clear. intros f. induction l as [|c l IH]; intros a b; cbn [take_until]; [intros [= <- <-]; reflexivity|]. destruct (f c); [intros [= <- <-]; reflexivity|].
      destruct (take_until f l) as [a' b'] eqn:E'. intros [= <- <-]. cbn [app]. f_equal. apply IH. reflexivity. }
    apply Htk in E1, E2, E3. destruct (skip_space_suffix (c2 :: r2)) as (a1 & Eb). rewrite E3 in Eb. rewrite Eb in E2. rewrite E2 in E1. rewrite E1 in Ea.
    exists (a0 ++ stem ++ flex ++ a1). rewrite Ea, <- !app_assoc. reflexivity. }
  assert (Hvis : Forall (fun c => is_space c = false) (cp :: part)).
  { assert (Htk : forall f l a b, take_until f l = (a, b) -> Forall (fun c => f c = false) a).
    { clear. intros f. induction l as [|c l IH]; intros a b; cbn [take_until]; [intros [= <- <-]; constructor|]. destruct (f c) eqn:Ef; [intros [= <- <-]; constructor|].
      destruct (take_until f l) as [a' b'] eqn:E'. intros [= <- <-]. constructor; [exact Ef|]. eapply IH. reflexivity. }
    eapply Htk, E3. }
  destruct Hsuf as (a & Hsuf). specialize (Ht _ _ _ Hsuf Hvis). assert (E4 : (64 <=? N.of_nat (length (cp :: part))) = false) by (apply N.leb_gt; lia). rewrite E4.
  destruct (map_part part_names (cp :: part)); [|discriminate]. destruct (map (tab eng_toLoCaseMatrix) flex) as [|cf f0]; [|destruct (add_inflex (eb_flex b) (cf :: f0))]; destruct (eclass_add _ _ _); discriminate.
Qed.

(** Short lines without long words and without postfix clauses. *)
Definition tame_line (line : bytes) : Prop :=
  (length line < 256)%nat /\ (forall a t c, line = a ++ t ++ c -> Forall (fun c => 32 < c) t -> (length t < 64)%nat) /\ (forall a b, line <> a ++ text "post:" ++ b).
Lemma english_no_ub lines : Forall tame_line lines -> ecompile lines <> Ub.
Proof.
  assert (H : forall lines b, Forall tame_line lines -> eadd_lines b lines <> Ub).
  { clear. induction lines as [|l lines IH]; intros b H; [discriminate|]. cbn [eadd_lines]. unfold eadd_line. destruct (dict_line l) as [[s id]|] eqn:E.
    - destruct (Forall_inv H) as (H1 & H2 & H3).
      assert (Es : exists a c, l = a ++ s ++ c).
      { unfold dict_line in E. cbv zeta in E. destruct (negb (nonempty (trim_end (skip_space l))) || starts (text "//") (trim_end (skip_space l))); [discriminate|].
        destruct (strstr (text "LID:") (trim_end (skip_space l))) as [[bf fr]|]; [|discriminate]. destruct (rev bf) as [|c0 ?]; [discriminate|]. destruct ((c0 =? 9) || (c0 =? 32)); [|discriminate].
        destruct (strtoul (skipn 4 fr) mod 2 ^ 32 =? 0); [discriminate|]. injection E as <- _. destruct (skip_space_suffix l) as (a & Ha). destruct (trim_end_prefix (skip_space l)) as (c & Hc).
        exists a, c. rewrite <- Hc. exact Ha. }
      destruct Es as (a & c & ->).
      assert (Hr : resolve_eng b s <> Ub).
      { apply resolve_no_ub.
        - rewrite !app_length in H1. lia.
        - intros a' t c' -> Ht. apply (H2 (a ++ a') t (c' ++ c)); [rewrite <- !app_assoc; reflexivity|]. eapply Forall_impl; [|exact Ht]. intros d Hd. unfold is_space in Hd. apply N.leb_gt in Hd. exact Hd.
        - destruct (strstr (text "post:") s) as [[bf fr]|] eqn:Ep; [|reflexivity]. exfalso. apply strstr_some in Ep as (-> & r & ->). apply (H3 (a ++ bf) (r ++ c)). rewrite <- !app_assoc. reflexivity. }
      destruct (resolve_eng b s) as [[[[b' stem] e]|]|]; cbn [bind]; [apply IH, (Forall_inv_tail H)|discriminate|contradiction].
    - cbn [bind]. apply IH, (Forall_inv_tail H). }
  intros Hl. unfold ecompile. specialize (H lines new_ebuilder Hl). destruct (eadd_lines new_ebuilder lines); cbn [bind]; [discriminate|contradiction].
Qed.

(** ** A small dictionary *)
Definition tab9 : bytes := [9].
Definition article_line (x : article) (tag num : string) (pc : bytes) : bytes :=
  a_stem x ++ a_post x ++ put_forms (a_forms x) ++ tab9 ++ text tag ++ pc ++ tab9 ++ text "LID:" ++ text num.
Definition charb (extra : N -> bool) (c : N) : bool := (32 <? c) && (c <? 127) && negb (c =? 124) && negb (c =? 58) && extra c.
Definition articleb (x : article) : bool :=
  forallb (charb (fun _ => true)) (a_stem x) && forallb (charb (fun _ => true)) (a_post x) &&
  (nonempty (a_stem x ++ a_post x) || match a_forms x with None => false | Some _ => true end) &&
  negb (if list_eq_dec N.eq_dec (firstn 2 (a_stem x ++ a_post x)) (text "//") then true else false) &&
  match a_forms x with
  | None => true
  | Some forms => nonempty forms && forallb (fun l => negb (if list_eq_dec (list_eq_dec N.eq_dec) l [[45]] then true else false) &&
      forallb (fun e => forallb (charb (fun c => negb (c =? 47))) e && negb (hd 0 e =? 48)) l) forms
  end && (0 <? a_id x) && (a_id x <? 2 ^ 32).
Lemma charb_ok extra l : forallb (charb extra) l = true -> Forall (fun c => visible c /\ c <> 124 /\ c <> 58 /\ extra c = true) l.
Proof.
  intros H. apply Forall_forall. intros c Hc. rewrite forallb_forall in H. specialize (H c Hc). unfold charb in H. repeat rewrite andb_true_iff in H. destruct H as ((((H1 & H2) & H3) & H4) & H5).
  apply N.ltb_lt in H1, H2. apply negb_true_iff, N.eqb_neq in H3, H4. unfold visible. auto.
Qed.
Lemma articleb_ok x : articleb x = true -> article_ok x.
Proof.
  unfold articleb. repeat rewrite andb_true_iff. intros ((((((H1 & H2) & H3) & H4) & H5) & H6) & H7). apply charb_ok in H1, H2. constructor.
  - eapply Forall_impl; [|exact H1]. cbn. tauto.
  - eapply Forall_impl; [|exact H2]. cbn. tauto.
  - apply orb_true_iff in H3 as [H3|H3]; [left; intros E; rewrite E in H3; discriminate|right; intros E; rewrite E in H3; discriminate].
  - apply negb_true_iff in H4. destruct (list_eq_dec N.eq_dec _ _) as [|Hn]; [discriminate|exact Hn].
  - intros forms Ef. rewrite Ef in H5. apply andb_true_iff in H5 as [H5 H8]. split; [intros ->; discriminate|]. apply Forall_forall. intros l Hl. rewrite forallb_forall in H8.
    specialize (H8 l Hl). apply andb_true_iff in H8 as [H8 H9]. apply negb_true_iff in H8. split; [destruct (list_eq_dec _ l [[45]]) as [|Hn]; [discriminate|exact Hn]|].
    apply Forall_forall. intros e He. rewrite forallb_forall in H9. specialize (H9 e He). apply andb_true_iff in H9 as [H9 H10]. apply charb_ok in H9. split.
    + eapply Forall_impl; [|exact H9]. cbn. intros c (K1 & K2 & K3 & K4). apply negb_true_iff, N.eqb_neq in K4. auto.
    + apply negb_true_iff, N.eqb_neq in H10. exact H10.
  - apply N.ltb_lt in H6, H7. auto.
Qed.
Definition lineb (x : article) (tag num : string) (pc : bytes) : bool :=
  articleb x && (match nth_error part_tags (N.to_nat (a_part x)) with Some t => if string_dec t tag then true else false | None => false end) &&
  forallb (fun c => (48 <=? c) && (c <=? 57)) (text num) && nonempty (text num) && negb (hd 0 (text num) =? 48) &&
  (fold_left (fun a c => 10 * a + (c - 48)) (text num) 0 =? a_id x) && (N.of_nat (length (article_line x tag num pc)) <? 256).
Lemma line_written x tag num pc : lineb x tag num pc = true -> put_post (a_post x) pc -> written x (article_line x tag num pc).
Proof.
  unfold lineb. repeat rewrite andb_true_iff. intros ((((((H1 & H2) & H3) & H4) & H5) & H6) & H7) Hp. split; [apply articleb_ok, H1|].
  exists [], (article_line x tag num pc), []. rewrite app_nil_r. split; [reflexivity|]. split; [constructor|]. split; [constructor|]. split; [|apply N.ltb_lt in H7; lia].
  unfold article_line, tab9. change ([9] ++ ?l) with ([9] ++ l). apply At_all; try (repeat constructor; fail); try discriminate.
  - destruct (nth_error part_tags (N.to_nat (a_part x))) as [t|]; [|discriminate]. destruct (string_dec t tag) as [->|]; [reflexivity|discriminate].
  - exact Hp.
  - left. split; [|split; [intros E; rewrite E in H4; discriminate|split; [apply negb_true_iff, N.eqb_neq in H5; exact H5|apply N.eqb_eq, H6]]].
    apply Forall_forall. intros c Hc. rewrite forallb_forall in H3. specialize (H3 c Hc). apply andb_true_iff in H3 as [K1 K2]. apply N.leb_le in K1, K2. auto.
Qed.

Definition abel : article := Article (text "Abel") [] (Some [[[]]; [text "'s"]; []; []]) 18 131072.
Definition little : article := Article (text "l") [] (Some [[text "ittle"]; [text "ess"; text "esser"]; [text "east"]]) 3 15011.
Definition brother : article := Article (text "brother") (text "-in-law") (Some [[[]]; [text "s"]; [text "'s"]; [text "s'"]]) 1 44344.
Definition to_be : article := Article [] [] (Some [[text "be"]; [text "am"]; [text "is"]; [text "are"]; [text "was"]; [text "were"]; [text "been"]]) 19 141312.
Definition aaronical : article := Article (text "aaronical") [] None 3 128.
Definition uk : article := Article (text "UK") [] (Some [[[]]; [text "'S"]]) 18 777.
Definition edict : list article := [abel; little; brother; to_be; aaronical; uk].
Definition eline_brother : bytes := text "brother-in-law|0|s|'s|s'" ++ [9] ++ text "N post:-in-law" ++ [9] ++ text "LID:44344".
Definition elines : list bytes :=
  [ text "// names"; text "Abel|0|'s|-|-" ++ [9] ++ text "NAME" ++ [9] ++ text "LID:131072"; []; [32; 13];
    text "l|ittle|ess/esser|east" ++ [9] ++ text "A" ++ [9] ++ text "LID:15011"; text "no lexeme here"; eline_brother;
    text "|be|am|is|are|was|were|been" ++ [9] ++ text "V_BE" ++ [9] ++ text "LID:141312";
    text "aaronical" ++ [9] ++ text "A" ++ [9] ++ text "LID:128"; text "UK|0|'S" ++ [9] ++ text "NAME" ++ [9] ++ text "LID:777" ].

Lemma no_lid line : strstr (text "LID:") line = None -> no_article line.
Proof.
  intros H. right. right. intros a b ->. assert (K : forall a, strstr (text "LID:") (a ++ text "LID:" ++ b) <> None); [|exact (K a H)].
  clear. induction a as [|c a IH]; [cbn [app]; rewrite strstr_here; discriminate|]. cbn [app strstr]. destruct (starts _ _); [discriminate|]. destruct (strstr (text "LID:") (a ++ text "LID:" ++ b)) as [[x y]|]; [discriminate|contradiction].
Qed.
Lemma edict_lists : lists elines edict.
Proof.
  unfold elines, edict.
  apply lists_none; [right; left; exists [], (text " names"); split; [constructor|reflexivity]|].
  apply lists_one; [apply (line_written abel "NAME" "131072" []); [vm_compute; reflexivity|constructor]|].
  apply lists_none; [left; constructor|]. apply lists_none; [left; repeat constructor; discriminate|].
  apply lists_one; [apply (line_written little "A" "15011" []); [vm_compute; reflexivity|constructor]|].
  apply lists_none; [apply no_lid; vm_compute; reflexivity|].
  apply lists_one; [apply (line_written brother "N" "44344" (text " post:-in-law")); [vm_compute; reflexivity|]|].
  { change (text " post:-in-law") with ([32] ++ text "post:" ++ [] ++ text "-in-law"). apply put_some; [discriminate|constructor; [right; reflexivity|constructor]|discriminate|constructor]. }
  apply lists_one; [apply (line_written to_be "V_BE" "141312" []); [vm_compute; reflexivity|constructor]|].
  apply lists_one; [apply (line_written aaronical "A" "128" []); [vm_compute; reflexivity|constructor]|].
  apply lists_one; [apply (line_written uk "NAME" "777" []); [vm_compute; reflexivity|constructor]|]. apply lists_nil.
Qed.
Lemma count_le part l : (count_occ (list_eq_dec N.eq_dec) l part <= length l)%nat.
Proof. induction l as [|e l IH]; cbn [count_occ length]; [lia|]. destruct (list_eq_dec N.eq_dec e part); lia. Qed.
Lemma few_by_length x : match a_forms x with None => True | Some forms => (length (concat forms) <= 64)%nat end -> few_homonyms x.
Proof. intros H forms part E. rewrite E in H. eapply Nat.le_trans; [apply count_le|]. rewrite map_length. exact H. Qed.
Lemma edict_few : Forall few_homonyms edict.
Proof. unfold edict. repeat (apply Forall_cons; [apply few_by_length; vm_compute; repeat constructor|]). apply Forall_nil. Qed.

Definition earrays0 : earrays := EArrays [] [] [] [].
Definition arrays_of (lines : list bytes) : earrays := match ecompile lines with Ok (Some A) => A | _ => earrays0 end.
Definition compiles (lines : list bytes) : bool :=
  match ecompile lines with
  | Ok (Some A) => (N.of_nat (length (e_flex A)) <=? 2 ^ 16) && (N.of_nat (length (e_class A)) <=? 2 ^ 15) && (N.of_nat (length (e_stems A)) <? 2 ^ 32) && (N.of_nat (length (e_lids A)) <? 2 ^ 32)
  | _ => false
  end.
Lemma compiles_ok lines : compiles lines = true -> ecompile lines = Ok (Some (arrays_of lines)) /\ earrays_fit (arrays_of lines) /\ N.of_nat (length (e_lids (arrays_of lines))) < 2 ^ 32.
Proof.
  unfold compiles, arrays_of. destruct (ecompile lines) as [[A|]|]; try discriminate. repeat rewrite andb_true_iff. intros (((H1 & H2) & H3) & H4). apply N.leb_le in H1, H2. apply N.ltb_lt in H3, H4.
  unfold earrays_fit. auto.
Qed.
Lemma edict_compiles : compiles elines = true.
Proof. vm_compute. reflexivity. Qed.
Lemma edict_small : Forall small_post edict.
Proof. unfold edict. repeat (apply Forall_cons; [vm_compute; reflexivity|]). apply Forall_nil. Qed.
Lemma edict_buildable : Forall abuildable edict.
Proof. unfold edict. repeat (apply Forall_cons; [constructor; [vm_compute; repeat constructor|reflexivity|try discriminate; reflexivity]|]). apply Forall_nil. Qed.
Definition ordinaryb (c : N) : bool := (97 <=? c) && (c <=? 122) || (c =? 39) || (c =? 44) || (c =? 45).
Lemma ordinaryb_ok l : forallb ordinaryb l = true -> Forall ordinary l.
Proof.
  intros H. apply Forall_forall. intros c Hc. rewrite forallb_forall in H. specialize (H c Hc). unfold ordinaryb in H. unfold ordinary.
  apply orb_true_iff in H as [H|H]; [|apply N.eqb_eq in H; auto]. apply orb_true_iff in H as [H|H]; [|apply N.eqb_eq in H; auto]. apply orb_true_iff in H as [H|H]; [|apply N.eqb_eq in H; auto].
  apply andb_true_iff in H as [H1 H2]. apply N.leb_le in H1, H2. auto.
Qed.
Lemma ordinary_by x : forallb ordinaryb (to_small (a_stem x)) && forallb ordinaryb (a_post x) &&
    match a_forms x with None => true | Some forms => forallb (fun e => forallb ordinaryb (to_small e)) (concat forms) end = true -> post_reached x -> aordinary x.
Proof.
  repeat rewrite andb_true_iff. intros ((H1 & H2) & H3) Hr. constructor; [apply ordinaryb_ok, H1|apply ordinaryb_ok, H2| |intros _ _; exact Hr].
  intros part id [|forms i alts e Ef Hn He]; [constructor|]. rewrite Ef in H3. rewrite forallb_forall in H3. apply ordinaryb_ok, H3. apply in_concat. exists alts. split; [eapply nth_error_In, Hn|exact He].
Qed.
Lemma edict_ordinary : Forall aordinary edict.
Proof.
  unfold edict. repeat (apply Forall_cons; [apply ordinary_by; [vm_compute; reflexivity|try exact I]|]); [|apply Forall_nil].
  exists 115, [], 1. split; [|discriminate]. change [115] with (to_small (text "s")). eapply (aform_listed brother _ 1); [reflexivity|reflexivity|left; reflexivity].
Qed.
Lemma edict_unique x y : In x edict -> In y edict -> a_id y = a_id x -> y = x.
Proof. unfold edict. intros Hx Hy. cbn [In] in Hx, Hy. repeat (destruct Hx as [<-|Hx]); try contradiction; repeat (destruct Hy as [<-|Hy]); try contradiction; try reflexivity; discriminate. Qed.

(** ** Wrong dictionaries *)

(** A postfix with capitals is not folded, unlike stems and endings. *)
Definition attorney : article := Article (text "Attorney") (text "-At-Law") (Some [[[]]; [text "s"]]) 1 5.
Definition attorney_lines : list bytes := [text "Attorney-At-Law|0|s" ++ [9] ++ text "N post:-At-Law" ++ [9] ++ text "LID:5"].
Lemma attorney_lists : lists attorney_lines [attorney].
Proof.
  unfold attorney_lines. apply lists_one; [apply (line_written attorney "N" "5" (text " post:-At-Law")); [vm_compute; reflexivity|]|apply lists_nil].
  change (text " post:-At-Law") with ([32] ++ text "post:" ++ [] ++ text "-At-Law"). apply put_some; [discriminate|constructor; [right; reflexivity|constructor]|discriminate|constructor].
Qed.
Lemma capital_postfix : exists lines xs A w x id, lists lines xs /\ Forall few_homonyms xs /\ ecompile lines = Ok (Some A) /\ earrays_fit A /\ is_bytes w /\ (length w < 48)%nat /\
  aword xs true w x (text "s") id /\ aword xs false w x (text "s") id /\
  echeck_word A (repeat 7 48) (Some w) (N.of_nat (length w)) 0 = Ok 0%Z /\ echeck_word A (repeat 7 48) (Some w) (N.of_nat (length w)) 2 = Ok 0%Z.
Proof.
  assert (Hc : compiles attorney_lines = true) by (vm_compute; reflexivity). destruct (compiles_ok _ Hc) as (C1 & C2 & _).
  exists attorney_lines, [attorney], (arrays_of attorney_lines), (text "Attorneys-at-Law"), attorney, 1. split; [apply attorney_lists|]. split; [apply Forall_cons; [apply few_by_length; vm_compute; repeat constructor|apply Forall_nil]|].
  split; [exact C1|]. split; [exact C2|]. split; [repeat constructor|]. split; [cbn; lia|].
  assert (Hw : forall b, (b = false -> esuits (text "Attorneys-at-Law") 1) -> aword [attorney] b (text "Attorneys-at-Law") attorney (text "s") 1).
  { intros b Hb. split; [left; reflexivity|]. split; [change (text "s") with (to_small (text "s")) at 1; eapply (aform_listed attorney _ 1); [reflexivity|reflexivity|left; reflexivity]|].
    split; [vm_compute; reflexivity|exact Hb]. }
  assert (Hs : esuits (text "Attorneys-at-Law") 1).
  { exists [1; 0; 1]. split; [|cbn; tauto]. change (parts eng_casing (text "Attorneys-at-Law")) with [text "Attorneys"; text "at"; text "Law"].
    assert (Hl : forall l, forallb (fun c => ctype eng_casing c =? 1) l = true -> Forall (is_regular eng_casing) l).
    { intros l H. apply Forall_forall. intros c Hin. rewrite forallb_forall in H. apply N.eqb_eq, (H c Hin). }
    apply parts_more; [|apply parts_more; [|apply parts_last]].
    - apply (part_first eng_casing 65 (text "ttorneys")); [vm_compute; reflexivity|discriminate|apply Hl; vm_compute; reflexivity].
    - apply part_small; [discriminate|apply Hl; vm_compute; reflexivity].
    - apply (part_first eng_casing 76 (text "aw")); [vm_compute; reflexivity|discriminate|apply Hl; vm_compute; reflexivity]. }
  split; [apply Hw; discriminate|]. split; [apply Hw; intros _; exact Hs|]. split; vm_compute; reflexivity.
Qed.

(** A postfix is not found behind an empty ending if there is a record with the same stem whose endings begin lower. *)
Definition mother : article := Article (text "mother") (text "-in-law") (Some [[[]]; [text "'s"]]) 1 6.
Definition mother0 : article := Article (text "mother") [] (Some [[[]]; [text "'s"]]) 1 7.
Definition mother_lines : list bytes :=
  [text "mother-in-law|0|'s" ++ [9] ++ text "N post:-in-law" ++ [9] ++ text "LID:6"; text "mother|0|'s" ++ [9] ++ text "N" ++ [9] ++ text "LID:7"].
Lemma mother_lists : lists mother_lines [mother; mother0].
Proof.
  unfold mother_lines. apply lists_one; [apply (line_written mother "N" "6" (text " post:-in-law")); [vm_compute; reflexivity|]|].
  { change (text " post:-in-law") with ([32] ++ text "post:" ++ [] ++ text "-in-law"). apply put_some; [discriminate|constructor; [right; reflexivity|constructor]|discriminate|constructor]. }
  apply lists_one; [apply (line_written mother0 "N" "7" []); [vm_compute; reflexivity|constructor]|apply lists_nil].
Qed.
Lemma bare_postfix : exists lines xs A w x id, lists lines xs /\ Forall few_homonyms xs /\ Forall small_post xs /\ ecompile lines = Ok (Some A) /\ earrays_fit A /\ is_bytes w /\ (length w < 48)%nat /\
  aword xs true w x [] id /\
  echeck_word A (repeat 7 48) (Some w) (N.of_nat (length w)) 2 = Ok 0%Z /\
  echeck_word A (repeat 7 48) (Some (text "mother's-in-law")) 15 2 = Ok 1%Z.
Proof.
  assert (Hc : compiles mother_lines = true) by (vm_compute; reflexivity). destruct (compiles_ok _ Hc) as (C1 & C2 & _).
  exists mother_lines, [mother; mother0], (arrays_of mother_lines), (text "mother-in-law"), mother, 0. split; [apply mother_lists|].
  split; [repeat (apply Forall_cons; [apply few_by_length; vm_compute; repeat constructor|]); apply Forall_nil|].
  split; [repeat constructor|]. split; [exact C1|]. split; [exact C2|]. split; [repeat constructor|]. split; [cbn; lia|].
  split; [|split; vm_compute; reflexivity]. split; [left; reflexivity|]. split; [|split; [vm_compute; reflexivity|discriminate]].
  change (@nil N) with (to_small []). eapply (aform_listed mother _ 0); [reflexivity|reflexivity|left; reflexivity].
Qed.

(** Sixty-five equal endings are read into an array of sixty-four. *)
Fixpoint zeros (n : nat) : bytes := match n with O => [48] | S n' => 48 :: 47 :: zeros n' end.
Definition crowd : article := Article (text "crowd") [] (Some [repeat [] 65]) 1 7.
Definition crowd_lines : list bytes := [text "crowd|" ++ zeros 64 ++ [9] ++ text "N" ++ [9] ++ text "LID:7"].
Lemma crowd_lists : lists crowd_lines [crowd].
Proof. unfold crowd_lines. apply lists_one; [apply (line_written crowd "N" "7" []); [vm_compute; reflexivity|constructor]|apply lists_nil]. Qed.
Lemma many_endings : exists lines xs A w x id, lists lines xs /\ Forall small_post xs /\ ecompile lines = Ok (Some A) /\ earrays_fit A /\ is_bytes w /\ (length w < 48)%nat /\
  aword xs true w x [] id /\ echeck_word A (repeat 7 48) (Some w) (N.of_nat (length w)) 0 = Ub.
Proof.
  assert (Hc : compiles crowd_lines = true) by (vm_compute; reflexivity). destruct (compiles_ok _ Hc) as (C1 & C2 & _).
  exists crowd_lines, [crowd], (arrays_of crowd_lines), (text "crowd"), crowd, 0. split; [apply crowd_lists|].
  split; [repeat constructor|]. split; [exact C1|]. split; [exact C2|]. split; [repeat constructor|]. split; [cbn; lia|].
  split; [|vm_compute; reflexivity]. split; [left; reflexivity|]. split; [|split; [vm_compute; reflexivity|discriminate]].
  change (@nil N) with (to_small []). eapply (aform_listed crowd _ 0); [reflexivity|reflexivity|left; reflexivity].
Qed.

(** A postfix clause that is not the end of the word is accepted, and the word is replaced. *)
Definition wrong_post : bytes := text "catalog|0|s" ++ [9] ++ text "N post:xyz" ++ [9] ++ text "LID:5".
Lemma wrong_postfix : exists A, ecompile [wrong_post] = Ok (Some A) /\
  echeck_word A (repeat 7 48) (Some (text "catalog")) 7 2 = Ok 0%Z /\ echeck_word A (repeat 7 48) (Some (text "catasxyz")) 8 2 = Ok 1%Z.
Proof.
  assert (Hc : compiles [wrong_post] = true) by (vm_compute; reflexivity). destruct (compiles_ok _ Hc) as (C1 & _). exists (arrays_of [wrong_post]). split; [exact C1|]. split; vm_compute; reflexivity.
Qed.
(** A postfix longer than the word, a part of speech of 64 characters, a line of 256 characters: undefined. *)
Lemma bad_lines : ecompile [text "at|0" ++ [9] ++ text "N post:-it-all" ++ [9] ++ text "LID:5"] = Ub /\
  ecompile [text "at" ++ [9] ++ repeat 78 64 ++ [9] ++ text "LID:5"] = Ub /\
  ecompile [text "at" ++ [9] ++ text "N" ++ repeat 9 250 ++ text "LID:5"] = Ub.
Proof. repeat split; vm_compute; reflexivity. Qed.
Lemma refused_lines : ecompile [text "at" ++ [9] ++ text "NOUN" ++ [9] ++ text "LID:5"] = Ok None /\ ecompile [text "at LID:5"] = Ok None /\
  ecompile [text "at|0|s LID:5"] = Ok None.
Proof. repeat split; vm_compute; reflexivity. Qed.
Lemma tame_example : tame_line (text "at|0|s LID:5").
Proof.
  split; [cbn; lia|]. split.
  - intros a t c E _. apply (f_equal (@length N)) in E. rewrite !app_length in E. cbn in E. lia.
  - intros a b E. assert (H : In 112 (text "at|0|s LID:5")) by (rewrite E; apply in_app_iff; right; left; reflexivity).
    cbn in H. repeat (destruct H as [H|H]; [discriminate|]). destruct H.
Qed.
