(** * LemmToolProofs2: the whole output of lemmatize, and where it comes from. *)
From Coq Require Import String.
From Verif Require Import Base GramMap CapScheme RusRuntime RusBuild Api Dump DumpSpec DumpProofs PyApi LemmTool LemmToolSpec LemmToolProofs.
Local Open Scope N_scope.
Local Open Scope list_scope.
Notation length := List.length.

Record trow := TRow { t_lemma : bytes; t_id : N; t_first : gram; t_more : list gram }.
Definition trow_ok (r : trow) : Prop := quotable (t_lemma r) /\ t_id r < 2 ^ 32 /\ Forall (fun g => gidForm g < 2 ^ 32) (t_first r :: t_more r).
Definition trow_json (r : trow) : json := told_lexeme (t_lemma r) (t_id r) (t_first r :: t_more r).
Definition trow_text (prefix : bytes) (r : trow) : bytes := show_row prefix (t_lemma r) (t_id r) (t_first r) (t_more r).
Fixpoint show_rows (prefix : bytes) (rows : list trow) : bytes :=
  match rows with [] => [] | r :: rows' => trow_text prefix r ++ show_rows (text ",") rows' end.
Fixpoint need (rows : list trow) : nat := match rows with [] => O | r :: rows' => (length (t_more r) + 10 + need rows')%nat end.

Lemma text_comma r : trow_text (text ",") r = 44 :: trow_text [] r.
Proof. reflexivity. Qed.

Lemma elements_rows : forall rows r fuel rest, Forall trow_ok (r :: rows) -> (need (r :: rows) <= fuel)%nat ->
  elements fuel (trow_text [] r ++ show_rows (text ",") rows ++ 10 :: 93 :: rest) = Some (map trow_json (r :: rows), rest).
Proof.
  induction rows as [|r' rows IH]; intros r fuel rest Hok Hfuel; inversion Hok as [|? ? (Hq & Hid & Hf) Hoks]; subst; cbn [need] in Hfuel; (destruct fuel as [|fuel]; [lia|]);
    cbn [elements]; unfold trow_text at 1; rewrite value_row by (assumption || lia).
  - reflexivity.
  - cbn [show_rows]. rewrite text_comma. cbn [app skip_blank is_blank N.eqb Pos.eqb orb]. rewrite <- app_assoc. rewrite IH; [reflexivity|assumption|cbn [need]; lia].
Qed.

Lemma show_forms_length : forall gs pref, Forall (fun g => gidForm g < 2 ^ 32) gs -> (length gs <= length (show_forms pref gs))%nat.
Proof.
  induction gs as [|g gs IH]; intros pref H; [cbn; lia|]. inversion H as [|? ? Hg Hgs]; subst. cbn [show_forms length]. rewrite !app_length. specialize (IH (text ", ") Hgs).
  destruct (printed_some (gidForm g) Hg) as (c & t & ->). cbn [length]. lia.
Qed.
Lemma trow_length r : trow_ok r -> (length (t_more r) + 10 <= length (trow_text [] r))%nat.
Proof.
  intros (_ & _ & Hf). unfold trow_text, show_row. rewrite !app_length. pose proof (show_forms_length _ [] Hf) as K. cbn [length] in K.
  assert (T : length (text "  { ""lemma"": """) = 14%nat) by reflexivity. lia.
Qed.
Lemma rows_length : forall rows prefix, Forall trow_ok rows -> (need rows <= length (show_rows prefix rows))%nat.
Proof.
  induction rows as [|r rows IH]; intros prefix H; [cbn; lia|]. inversion H as [|? ? Hr Hrs]; subst. cbn [need show_rows]. rewrite app_length. specialize (IH (text ",") Hrs).
  pose proof (trow_length r Hr) as K. assert (E : length (trow_text prefix r) = (length prefix + length (trow_text [] r))%nat) by (unfold trow_text, show_row; rewrite !app_length; cbn [length]; lia).
  lia.
Qed.

Lemma read_rows rows : Forall trow_ok rows -> read_json (text "[" ++ show_rows [] rows ++ [10] ++ text "]") = Some (JArr (map trow_json rows)).
Proof.
  destruct rows as [|r rows]; [reflexivity|]. intros Hok. pose proof (rows_length (r :: rows) [] Hok) as HL. unfold read_json.
  remember (length (text "[" ++ show_rows [] (r :: rows) ++ [10] ++ text "]")) as k eqn:Ek.
  assert (Hk : (need (r :: rows) <= k)%nat) by (subst k; rewrite !app_length; lia). clear Ek HL. change (text "[") with [91]. change (text "]") with [93]. cbn [app value skip_blank is_blank N.eqb Pos.eqb orb].
  cbn [show_rows]. rewrite <- app_assoc. cbn [app].
  assert (E : exists t, trow_text [] r = 10 :: 32 :: 32 :: 123 :: t) by (eexists; reflexivity). destruct E as (t & E).
  assert (S : skip_blank (trow_text [] r ++ show_rows (text ",") rows ++ [10; 93]) = 123 :: t ++ show_rows (text ",") rows ++ [10; 93]) by (rewrite E; reflexivity).
  rewrite S. cbn [N.eqb Pos.eqb]. rewrite (elements_rows rows r k [] Hok Hk). reflexivity.
Qed.

(** ** From the arrays *)
Lemma tool_forms_ok : forall gs gpre gpost pref, tool_forms (gpre ++ gs ++ gpost) pref (length gpre) (length gs) = Ok (show_forms pref gs).
Proof.
  induction gs as [|g gs IH]; intros gpre gpost pref; [reflexivity|]. cbn [length tool_forms show_forms]. unfold tool_gram.
  rewrite nth_error_app2, Nat.sub_diag by lia. cbn [app nth_error bind]. specialize (IH (gpre ++ [g]) gpost (text ", ")). rewrite app_length in IH. cbn [length] in IH.
  rewrite <- app_assoc in IH. cbn [app] in IH. replace (length gpre + 1)%nat with (S (length gpre)) in IH by lia. rewrite IH. reflexivity.
Qed.

Definition trow_of (r : trow) : py_lemm := PyLemm (t_id r) (Some (t_lemma r)) (Some (t_first r :: t_more r)).

Lemma tool_lexeme_ok prefix st gr m r : py_lemm_from (Some st) (Some gr) m = Ok (trow_of r) -> tool_lexeme prefix st gr m = Ok (trow_text prefix r).
Proof.
  unfold py_lemm_from, tool_lexeme, py_string, tool_string. intros H.
  destruct (lm_form m) as [k|].
  2:{ cbn [bind] in H. destruct (py_descs (Some gr) (N.to_nat (lm_grams m)) (N.to_nat (lm_ngrams m))); cbn [bind] in H; discriminate. }
  destruct (advance (N.of_nat k) st) as [p|]; [|discriminate]. cbn [bind] in *. destruct (cstr p) as [s|]; [|discriminate]. cbn [bind] in *.
  unfold py_descs in H. destruct (Nat.eqb_spec (N.to_nat (lm_ngrams m)) 0) as [E0|E0]; [cbn [bind] in H; discriminate|].
  set (at_ := N.to_nat (lm_grams m)) in *. set (n := N.to_nat (lm_ngrams m)) in *.
  destruct (Nat.ltb_spec (length gr) (at_ + n)) as [Hlt|Hlt]; [discriminate|]. cbn [bind] in H. unfold trow_of in H. injection H as H1 H2 H3.
  assert (Hgr : gr = firstn at_ gr ++ (t_first r :: t_more r) ++ skipn n (skipn at_ gr)) by (rewrite <- H3, firstn_skipn, firstn_skipn; reflexivity).
  assert (Hat : length (firstn at_ gr) = at_) by (rewrite firstn_length; lia).
  assert (Hn : length (t_first r :: t_more r) = n) by (rewrite <- H3, firstn_length, skipn_length; lia).
  remember (firstn at_ gr) as pre. remember (skipn n (skipn at_ gr)) as post.
  assert (G1 : tool_gram gr at_ = Ok (t_first r)) by (unfold tool_gram; rewrite Hgr, <- Hat, nth_error_app2, Nat.sub_diag by lia; reflexivity).
  rewrite G1. cbn [bind].
  assert (G2 : tool_forms gr [] at_ n = Ok (show_forms [] (t_first r :: t_more r))) by (rewrite Hgr at 1; rewrite <- Hat, <- Hn; apply tool_forms_ok).
  rewrite G2. cbn [bind]. unfold trow_text, show_row. rewrite H1, H2. reflexivity.
Qed.

Lemma tool_lexemes_ok st gr : forall rows prefix lx, py_all (py_lemm_from (Some st) (Some gr)) (firstn (length rows) lx) = Ok (map trow_of rows) -> (length rows <= length lx)%nat ->
  tool_lexemes prefix st gr lx (length rows) = Ok (show_rows prefix rows).
Proof.
  induction rows as [|r rows IH]; intros prefix lx H Hlen; [destruct lx; reflexivity|]. destruct lx as [|m lx]; [cbn in Hlen; lia|]. cbn [length firstn py_all map] in H.
  destruct (py_lemm_from (Some st) (Some gr) m) as [y|] eqn:E; [|discriminate]. cbn [bind] in H. destruct (py_all (py_lemm_from (Some st) (Some gr)) (firstn (length rows) lx)) as [ys|] eqn:E2; [|discriminate].
  cbn [bind] in H. injection H as -> ->. cbn [length tool_lexemes]. rewrite (tool_lexeme_ok prefix st gr m r E). cbn [bind].
  rewrite (IH (text ",") lx E2) by (cbn [length] in Hlen; lia). reflexivity.
Qed.

Lemma tool_print_rows st gr lx rows : py_list (py_lemm_from (Some st) (Some gr)) (Z.of_nat (length rows)) lx = Ok (map trow_of rows) -> Forall trow_ok rows ->
  exists out, (if (Z.of_nat (length rows) =? 0)%Z then Ok (text "[]") else let! t := tool_lexemes [] st gr lx (Z.to_nat (Z.of_nat (length rows))) in Ok (text "[" ++ t ++ [10] ++ text "]")) = Ok out /\
    read_json out = Some (JArr (map trow_json rows)).
Proof.
  intros H Hok. unfold py_list in H. rewrite Nat2Z.id in *. destruct (Nat.ltb_spec (length lx) (length rows)); [discriminate|].
  rewrite (tool_lexemes_ok st gr rows [] lx H) by assumption. cbn [bind]. destruct rows as [|r rows].
  - eexists. split; [reflexivity|reflexivity].
  - destruct (Z.eqb_spec (Z.of_nat (length (r :: rows))) 0) as [E|E]; [cbn [length] in E; lia|]. eexists. split; [reflexivity|]. apply read_rows. exact Hok.
Qed.
