(** * StemToolProofs: reading back what stematize prints. *)
From Coq Require Import String Permutation.
From Verif Require Import Base GramMap CapScheme RusRuntime RusSpec RusProofs RusProofs3 RusBuild RusBuildSpec CodepageSpec Codepage Fuzzy FuzzySpec Guess GuessSpec Api Dump DumpSpec DumpProofs
  LemmTool LemmToolSpec LemmToolProofs LemmToolProofs2 StemTool StemToolSpec.
Local Open Scope N_scope.
Local Open Scope list_scope.
Notation length := List.length.

Lemma value_point fuel b t n d c rest : decimal t n d -> forallb is_blank b = true -> is_digit c = false ->
  value (S fuel) (b ++ t ++ c :: rest) = Some (JDec n d, c :: rest).
Proof.
  intros (whole & Et & Hd & Hn & Hne & Hdd) Hb Hc. subst t. destruct whole as [|x t]; [discriminate|]. cbn [value].
  assert (Hx : is_digit x = true) by (cbn [forallb] in Hd; apply andb_true_iff in Hd; apply Hd).
  rewrite <- app_assoc. cbn [app]. rewrite skip_blanks; [|exact Hb|unfold is_digit, is_blank in *; lia].
  replace (x =? 34) with false by (unfold is_digit in Hx; lia). replace (x =? 91) with false by (unfold is_digit in Hx; lia). replace (x =? 123) with false by (unfold is_digit in Hx; lia).
  change (x :: t ++ 46 :: d ++ c :: rest) with ((x :: t) ++ 46 :: d ++ c :: rest). rewrite split_printed by (assumption || reflexivity). rewrite Hn.
  cbn [N.eqb Pos.eqb]. rewrite split_printed by assumption. destruct d; [congruence|reflexivity].
Qed.

(** ** A row *)
Record srow := SRow { s_lemma : bytes; s_score : bytes; s_whole : N; s_frac : bytes; s_class : N; s_first : gram; s_more : list gram }.
Definition srow_ok (r : srow) : Prop :=
  quotable (s_lemma r) /\ decimal (s_score r) (s_whole r) (s_frac r) /\ s_class r < 2 ^ 32 /\ Forall (fun g => gidForm g < 2 ^ 32) (s_first r :: s_more r).
Definition srow_json (r : srow) : json :=
  JObj [(text "lemma", JStr (s_lemma r)); (text "score", JDec (s_whole r) (s_frac r)); (text "class", JNum (s_class r));
        (text "psp", JNum (N.land (gwdInfo (s_first r)) 0x3f)); (text "forms", JArr (map (fun g => JNum (gidForm g)) (s_first r :: s_more r)))].
Definition srow_text (prefix : bytes) (r : srow) : bytes :=
  prefix ++ [10] ++ text "  { ""lemma"": """ ++ s_lemma r ++ text """," ++ [9] ++ text """score"": " ++ space_padded 6 (s_score r) ++
    text ", ""class"": " ++ space_padded 3 (print_dec (s_class r)) ++
    text ", ""psp"": " ++ space_padded 2 (print_dec (N.land (gwdInfo (s_first r)) 0x3f)) ++ text ", ""forms"": [" ++ show_forms [] (s_first r :: s_more r) ++ text "] }".

Lemma value_srow r fuel rest : srow_ok r -> (length (s_more r) + 10 <= fuel)%nat -> value fuel (srow_text [] r ++ rest) = Some (srow_json r, rest).
Proof.
  destruct r as [lemma score n d cl g gs]. unfold srow_ok, srow_text, srow_json. cbn [s_lemma s_score s_whole s_frac s_class s_first s_more].
  intros (Hq & Hsc & Hid & Hf) Hfuel. destruct fuel as [|fuel]; [lia|]. rewrite <- !app_assoc. cbn [app]. cbn [value skip_blank is_blank N.eqb Pos.eqb orb].
  change (text "  { ""lemma"": """) with ([32; 32; 123; 32; 34] ++ text "lemma" ++ [34; 58; 32; 34]). rewrite <- !app_assoc. cbn [app skip_blank is_blank N.eqb Pos.eqb orb].
  destruct fuel as [|fuel]; [lia|].
  pose proof (fun vt v c rest' tail => members_step fuel [32] (text "lemma") vt v c rest' tail (quotable_text "lemma" eq_refl) eq_refl) as M. cbn [app] in M.
  erewrite M; clear M; [|destruct fuel as [|fuel']; [lia|]; apply (value_string fuel' [32]); [exact Hq|reflexivity]|reflexivity]. cbn [N.eqb Pos.eqb].
  change (text """score"": ") with ([34] ++ text "score" ++ [34; 58; 32]). rewrite <- !app_assoc. cbn [app].
  destruct fuel as [|fuel]; [lia|].
  pose proof (fun vt v c rest' tail => members_step fuel [9] (text "score") vt v c rest' tail (quotable_text "score" eq_refl) eq_refl) as M. cbn [app] in M.
  change (text ", ""class"": ") with ([44; 32; 34] ++ text "class" ++ [34; 58; 32]). rewrite <- !app_assoc. cbn [app].
  erewrite M; clear M; [|unfold space_padded; rewrite <- app_assoc; destruct fuel as [|fuel']; [lia|];
    match goal with |- value _ (32 :: repeat 32 ?k ++ ?r) = _ => change (32 :: repeat 32 k ++ r) with (repeat 32 (S k) ++ r) end;
    apply value_point; [exact Hsc|apply blanks_repeat|reflexivity]|reflexivity]. cbn [N.eqb Pos.eqb].
  destruct fuel as [|fuel]; [lia|].
  pose proof (fun vt v c rest' tail => members_step fuel [32] (text "class") vt v c rest' tail (quotable_text "class" eq_refl) eq_refl) as M. cbn [app] in M.
  change (text ", ""psp"": ") with ([44; 32; 34] ++ text "psp" ++ [34; 58; 32]). rewrite <- !app_assoc. cbn [app].
  erewrite M; clear M; [|unfold space_padded; try rewrite <- app_assoc; destruct fuel as [|fuel']; [lia|];
    match goal with |- value _ (32 :: repeat 32 ?k ++ ?r) = _ => change (32 :: repeat 32 k ++ r) with (repeat 32 (S k) ++ r) end;
    apply value_number; [exact Hid|apply blanks_repeat|reflexivity]|reflexivity]. cbn [N.eqb Pos.eqb].
  destruct fuel as [|fuel]; [lia|].
  pose proof (fun vt v c rest' tail => members_step fuel [32] (text "psp") vt v c rest' tail (quotable_text "psp" eq_refl) eq_refl) as M. cbn [app] in M.
  change (text ", ""forms"": [") with ([44; 32; 34] ++ text "forms" ++ [34; 58; 32; 91]). rewrite <- !app_assoc. cbn [app].
  erewrite M; clear M; [|unfold space_padded; try rewrite <- app_assoc; destruct fuel as [|fuel']; [lia|];
    match goal with |- value _ (32 :: repeat 32 ?k ++ ?r) = _ => change (32 :: repeat 32 k ++ r) with (repeat 32 (S k) ++ r) end;
    apply value_number; [apply psp_small|apply blanks_repeat|reflexivity]|reflexivity]. cbn [N.eqb Pos.eqb].
  destruct fuel as [|fuel]; [lia|].
  pose proof (fun vt v c rest' tail => members_step fuel [32] (text "forms") vt v c rest' tail (quotable_text "forms" eq_refl) eq_refl) as M. cbn [app] in M.
  change (text "] }") with [93; 32; 125]. cbn [app].
  erewrite M; clear M; [|destruct fuel as [|fuel']; [lia|]; cbn [value skip_blank is_blank N.eqb Pos.eqb orb];
    destruct (printed_some (gidForm g) (Forall_inv Hf)) as (x & t & E);
    assert (Hx : is_digit x = true) by (pose proof (printed_digits (gidForm g)) as Hd; rewrite E in Hd; cbn [forallb] in Hd; apply andb_true_iff in Hd; apply Hd);
    cbn [show_forms app]; rewrite E; cbn [app]; rewrite <- !app_assoc; cbn [skip_blank app];
    replace (is_blank x) with false by (unfold is_digit, is_blank in *; lia); replace (x =? 93) with false by (unfold is_digit in Hx; lia);
    change (x :: t ++ show_forms (text ", ") gs ++ 93 :: 32 :: 125 :: rest) with ((x :: t) ++ show_forms (text ", ") gs ++ 93 :: 32 :: 125 :: rest); rewrite <- E;
    pose proof (elements_forms gs [] g fuel' (32 :: 125 :: rest) Hf eq_refl ltac:(lia)) as K; cbn [app] in K; rewrite K; reflexivity|reflexivity].
  reflexivity.
Qed.

(** ** The whole list *)
Fixpoint show_srows (prefix : bytes) (rows : list srow) : bytes := match rows with [] => [] | r :: rows' => srow_text prefix r ++ show_srows (text ",") rows' end.
Fixpoint sneed (rows : list srow) : nat := match rows with [] => O | r :: rows' => (length (s_more r) + 11 + sneed rows')%nat end.
Lemma stext_comma r : srow_text (text ",") r = 44 :: srow_text [] r.
Proof. reflexivity. Qed.
Lemma elements_srows : forall rows r fuel rest, Forall srow_ok (r :: rows) -> (sneed (r :: rows) <= fuel)%nat ->
  elements fuel (srow_text [] r ++ show_srows (text ",") rows ++ 10 :: 93 :: rest) = Some (map srow_json (r :: rows), rest).
Proof.
  induction rows as [|r' rows IH]; intros r fuel rest Hok Hfuel; inversion Hok as [|? ? Hr Hoks]; subst; cbn [sneed] in Hfuel; (destruct fuel as [|fuel]; [lia|]);
    cbn [elements]; rewrite value_srow by (assumption || lia).
  - reflexivity.
  - cbn [show_srows]. rewrite stext_comma. cbn [app skip_blank is_blank N.eqb Pos.eqb orb]. rewrite <- app_assoc. rewrite IH; [reflexivity|assumption|cbn [sneed]; lia].
Qed.
Lemma srow_length r : srow_ok r -> (length (s_more r) + 11 <= length (srow_text [] r))%nat.
Proof.
  intros (_ & _ & _ & Hf). unfold srow_text. rewrite !app_length. pose proof (show_forms_length _ [] Hf) as K. cbn [length] in K.
  assert (T : length (text "  { ""lemma"": """) = 14%nat) by reflexivity. lia.
Qed.
Lemma srows_length : forall rows prefix, Forall srow_ok rows -> (sneed rows <= length (show_srows prefix rows))%nat.
Proof.
  induction rows as [|r rows IH]; intros prefix H; [cbn; lia|]. inversion H as [|? ? Hr Hrs]; subst. cbn [sneed show_srows]. rewrite app_length. specialize (IH (text ",") Hrs).
  pose proof (srow_length r Hr) as K. assert (E : length (srow_text prefix r) = (length prefix + length (srow_text [] r))%nat) by (unfold srow_text; rewrite !app_length; cbn [length]; lia).
  lia.
Qed.
Lemma read_srows rows : Forall srow_ok rows -> read_json (text "[" ++ show_srows [] rows ++ [10] ++ text "]") = Some (JArr (map srow_json rows)).
Proof.
  destruct rows as [|r rows]; [reflexivity|]. intros Hok. pose proof (srows_length (r :: rows) [] Hok) as HL. unfold read_json.
  remember (length (text "[" ++ show_srows [] (r :: rows) ++ [10] ++ text "]")) as k eqn:Ek.
  assert (Hk : (sneed (r :: rows) <= k)%nat) by (subst k; rewrite !app_length; lia). clear Ek HL. change (text "[") with [91]. change (text "]") with [93]. cbn [app value skip_blank is_blank N.eqb Pos.eqb orb].
  cbn [show_srows]. rewrite <- app_assoc. cbn [app].
  assert (E : exists t, srow_text [] r = 10 :: 32 :: 32 :: 123 :: t) by (eexists; reflexivity). destruct E as (t & E).
  assert (S : skip_blank (srow_text [] r ++ show_srows (text ",") rows ++ [10; 93]) = 123 :: t ++ show_srows (text ",") rows ++ [10; 93]) by (rewrite E; reflexivity).
  rewrite S. cbn [N.eqb Pos.eqb]. rewrite (elements_srows rows r k [] Hok Hk). reflexivity.
Qed.

(** ** From the arrays *)
Lemma tool_string_at pre s post : ~ In 0 s -> tool_string (pre ++ s ++ 0 :: post) (Some (length pre)) = Ok s.
Proof. intros H. unfold tool_string. rewrite (advance_pre _ pre (s ++ 0 :: post)) by reflexivity. cbn [bind]. apply cstr_app. exact H. Qed.

Lemma stem_rows_ok score st gr : forall rows stems prefix rest,
  Forall2 (fun s r => forall prefix, stem_row score prefix st gr s = Ok (srow_text prefix r)) stems rows ->
  stem_rows score prefix st gr (stems ++ rest) (length stems) = Ok (show_srows prefix rows).
Proof.
  intros rows stems prefix rest H. revert prefix. induction H as [|s r stems rows Hs _ IH]; intros prefix; [destruct rest; reflexivity|].
  cbn [app length stem_rows show_srows]. rewrite Hs. cbn [bind]. rewrite IH. reflexivity.
Qed.
