(** * LemmToolProofs: reading back what lemmatize prints. *)
From Coq Require Import String.
From Verif Require Import Base GramMap CapScheme RusRuntime RusBuild Api Dump DumpSpec DumpProofs PyApi LemmTool LemmToolSpec.
Local Open Scope N_scope.
Local Open Scope list_scope.
Notation length := List.length.

(** ** Numbers *)
Lemma digits_are fuel : forall n acc, forallb is_digit acc = true -> forallb is_digit (digits_of fuel 10 n acc) = true.
Proof.
  induction fuel as [|fuel IH]; intros n acc H; cbn [digits_of]; [exact H|].
  assert (Hm : n mod 10 < 10) by (apply N.mod_lt; discriminate).
  assert (H' : forallb is_digit (digit (n mod 10) :: acc) = true).
  { cbn [forallb]. rewrite H, andb_true_r. unfold digit, is_digit. destruct (N.ltb_spec (n mod 10) 10); lia. }
  destruct (n / 10 =? 0); [exact H'|apply IH; exact H'].
Qed.
Lemma printed_digits n : forallb is_digit (print_dec n) = true.
Proof. apply digits_are. reflexivity. Qed.
Lemma printed_some n : n < 2 ^ 32 -> exists c t, print_dec n = c :: t.
Proof. intros H. destruct (count_word n H) as (_ & _ & K). destruct (print_dec n) as [|c t]; [congruence|eauto]. Qed.
Lemma printed_natural n : n < 2 ^ 32 -> natural (print_dec n) = Some n.
Proof.
  intros Hn. destruct (N.eq_dec n 0) as [->|Hz]; [reflexivity|]. unfold print_dec. rewrite N.mod_small by exact Hn.
  assert (Hp : n < 10 ^ N.of_nat 32) by (apply N.lt_trans with (2 ^ 32); [assumption|reflexivity]).
  destruct (digits_first 10 ltac:(lia) 31 n [] ltac:(lia)) as (d & t & E & Hd).
  pose proof (digits_number 10 ltac:(lia) 31 n [] Hp) as Hnum. rewrite E in *. change (number 10 n []) with (Some n) in Hnum.
  unfold natural. destruct t as [|x t]; [exact Hnum|]. replace (digit d =? 48) with false; [exact Hnum|].
  symmetry. apply N.eqb_neq. unfold digit. destruct (N.ltb_spec d 10); lia.
Qed.
Lemma split_printed d c rest : forallb is_digit d = true -> is_digit c = false -> split_digits (d ++ c :: rest) = (d, c :: rest).
Proof.
  intros Hd Hc. induction d as [|x d IH]; cbn [app split_digits]; [rewrite Hc; reflexivity|]. cbn [forallb] in Hd. apply andb_true_iff in Hd as [H1 H2].
  rewrite H1, (IH H2). reflexivity.
Qed.

Lemma skip_blanks b c rest : forallb is_blank b = true -> is_blank c = false -> skip_blank (b ++ c :: rest) = c :: rest.
Proof.
  intros Hb Hc. induction b as [|x b IH]; cbn [app skip_blank]; [rewrite Hc; reflexivity|]. cbn [forallb] in Hb. apply andb_true_iff in Hb as [H1 H2]. rewrite H1. exact (IH H2).
Qed.

Lemma value_number fuel b n c rest : n < 2 ^ 32 -> forallb is_blank b = true -> is_digit c || (c =? 46) = false ->
  value (S fuel) (b ++ print_dec n ++ c :: rest) = Some (JNum n, c :: rest).
Proof.
  intros Hn Hb Hc. apply orb_false_iff in Hc as [Hc Hp]. destruct (printed_some n Hn) as (x & t & E). pose proof (printed_digits n) as Hd. cbn [value].
  assert (Hx : is_digit x = true) by (rewrite E in Hd; cbn [forallb] in Hd; apply andb_true_iff in Hd; apply Hd).
  rewrite E. cbn [app]. rewrite skip_blanks; [|exact Hb|unfold is_digit, is_blank in *; lia].
  replace (x =? 34) with false by (unfold is_digit in Hx; lia). replace (x =? 91) with false by (unfold is_digit in Hx; lia). replace (x =? 123) with false by (unfold is_digit in Hx; lia).
  change (x :: t ++ c :: rest) with ((x :: t) ++ c :: rest). rewrite <- E. rewrite split_printed by assumption. rewrite printed_natural by exact Hn. rewrite Hp. reflexivity.
Qed.

Lemma string_reads s rest : quotable s -> string_body (s ++ 34 :: rest) = Some (s, rest).
Proof.
  intros H. induction H as [|c s Hc _ IH]; cbn [app string_body]; [reflexivity|].
  replace (c =? 34) with false by (unfold in_string in Hc; lia). rewrite Hc, IH. reflexivity.
Qed.
Lemma value_string fuel b s rest : quotable s -> forallb is_blank b = true -> value (S fuel) (b ++ 34 :: s ++ 34 :: rest) = Some (JStr s, rest).
Proof. intros Hs Hb. cbn [value]. rewrite skip_blanks by (exact Hb || reflexivity). cbn [N.eqb Pos.eqb]. rewrite string_reads by exact Hs. reflexivity. Qed.

(** ** Forms *)
Fixpoint show_forms (pref : bytes) (gs : list gram) : bytes :=
  match gs with [] => [] | g :: gs' => pref ++ print_dec (gidForm g) ++ show_forms (text ", ") gs' end.

Lemma elements_forms : forall gs b g fuel rest, Forall (fun g => gidForm g < 2 ^ 32) (g :: gs) -> forallb is_blank b = true -> (length gs + 2 <= fuel)%nat ->
  elements fuel (b ++ print_dec (gidForm g) ++ show_forms (text ", ") gs ++ 93 :: rest) = Some (map (fun g => JNum (gidForm g)) (g :: gs), rest).
Proof.
  induction gs as [|g' gs IH]; intros b g fuel rest Hf Hb Hfuel; inversion Hf as [|? ? Hg Hgs]; subst; cbn [length] in Hfuel; destruct fuel as [|[|fuel]]; try lia.
  - cbn [show_forms app]. cbn [elements]. rewrite (value_number fuel b (gidForm g) 93 rest) by (assumption || reflexivity). reflexivity.
  - cbn [show_forms]. rewrite <- !app_assoc. change (text ", ") with [44; 32] at 1. cbn [app].
    change (elements (S (S fuel))) with (fun t => match value (S fuel) t with
      | None => None
      | Some (v, t') => match skip_blank t' with
          | [] => None
          | c :: rest => if c =? 93 then Some ([v], rest) else if c =? 44 then match elements (S fuel) rest with Some (l, rest) => Some (v :: l, rest) | None => None end else None
          end
      end). cbv beta.
    rewrite (value_number fuel b (gidForm g) 44) by (assumption || reflexivity). cbv beta iota. cbn [skip_blank is_blank N.eqb Pos.eqb orb].
    pose proof (IH [32] g' (S fuel) rest Hgs eq_refl ltac:(lia)) as K. cbn [app] in K. rewrite K. reflexivity.
Qed.

(** ** A lexeme *)
Definition show_row (prefix lemma : bytes) (id : N) (g : gram) (gs : list gram) : bytes :=
  prefix ++ [10] ++ text "  { ""lemma"": """ ++ lemma ++ text """," ++ [9] ++ text """lexid"": " ++ space_padded 6 (print_dec id) ++
    text ", ""psp"": " ++ space_padded 2 (print_dec (N.land (gwdInfo g) 0x3f)) ++ text ", ""forms"": [" ++ show_forms [] (g :: gs) ++ text "] }".

Lemma members_step fuel b name vt v c rest tail : quotable name -> forallb is_blank b = true -> value fuel vt = Some (v, tail) -> skip_blank tail = c :: rest ->
  members (S fuel) (b ++ 34 :: name ++ 34 :: 58 :: vt) =
    if c =? 125 then Some ([(name, v)], rest) else if c =? 44 then match members fuel rest with Some (l, rest) => Some ((name, v) :: l, rest) | None => None end else None.
Proof.
  intros Hn Hb Hv Ht. cbn [members]. rewrite skip_blanks by (exact Hb || reflexivity). cbn [N.eqb Pos.eqb]. rewrite string_reads by exact Hn.
  cbn [skip_blank is_blank N.eqb Pos.eqb orb]. rewrite Hv, Ht. reflexivity.
Qed.
Lemma quotable_text s : forallb in_string (text s) = true -> quotable (text s).
Proof. intros H. apply Forall_forall. rewrite forallb_forall in H. exact H. Qed.
Lemma blanks_repeat k : forallb is_blank (repeat 32 k) = true.
Proof. induction k; [reflexivity|exact IHk]. Qed.
Lemma psp_small g : N.land (gwdInfo g) 0x3f < 2 ^ 32.
Proof. change 0x3f with (N.ones 6). rewrite N.land_ones. eapply N.lt_trans; [apply N.mod_lt; discriminate|reflexivity]. Qed.

Lemma value_row lemma id g gs fuel rest : quotable lemma -> id < 2 ^ 32 -> Forall (fun g => gidForm g < 2 ^ 32) (g :: gs) -> (length gs + 9 <= fuel)%nat ->
  value fuel (show_row [] lemma id g gs ++ rest) = Some (told_lexeme lemma id (g :: gs), rest).
Proof.
  intros Hq Hid Hf Hfuel. destruct fuel as [|fuel]; [lia|]. unfold show_row. rewrite <- !app_assoc. cbn [app]. cbn [value skip_blank is_blank N.eqb Pos.eqb orb].
  change (text "  { ""lemma"": """) with ([32; 32; 123; 32; 34] ++ text "lemma" ++ [34; 58; 32; 34]). rewrite <- !app_assoc. cbn [app skip_blank is_blank N.eqb Pos.eqb orb].
  destruct fuel as [|fuel]; [lia|].
  pose proof (fun vt v c rest' tail => members_step fuel [32] (text "lemma") vt v c rest' tail (quotable_text "lemma" eq_refl) eq_refl) as M. cbn [app] in M.
  erewrite M; clear M; [|destruct fuel as [|fuel']; [lia|]; apply (value_string fuel' [32]); [exact Hq|reflexivity]|reflexivity]. cbn [N.eqb Pos.eqb].
  change (text """lexid"": ") with ([34] ++ text "lexid" ++ [34; 58; 32]). rewrite <- !app_assoc. cbn [app].
  destruct fuel as [|fuel]; [lia|].
  pose proof (fun vt v c rest' tail => members_step fuel [9] (text "lexid") vt v c rest' tail (quotable_text "lexid" eq_refl) eq_refl) as M. cbn [app] in M.
  change (text ", ""psp"": ") with ([44; 32; 34] ++ text "psp" ++ [34; 58; 32]). rewrite <- !app_assoc. cbn [app].
  erewrite M; clear M; [|unfold space_padded; rewrite <- app_assoc; destruct fuel as [|fuel']; [lia|];
    match goal with |- value _ (32 :: repeat 32 ?k ++ ?r) = _ => change (32 :: repeat 32 k ++ r) with (repeat 32 (S k) ++ r) end;
    apply value_number; [exact Hid|apply blanks_repeat|reflexivity]|reflexivity]. cbn [N.eqb Pos.eqb].
  destruct fuel as [|fuel]; [lia|].
  pose proof (fun vt v c rest' tail => members_step fuel [32] (text "psp") vt v c rest' tail (quotable_text "psp" eq_refl) eq_refl) as M. cbn [app] in M.
  change (text ", ""forms"": [") with ([44; 32; 34] ++ text "forms" ++ [34; 58; 32; 91]). rewrite <- !app_assoc. cbn [app].
  erewrite M; clear M; [|unfold space_padded; try rewrite <- app_assoc; destruct fuel as [|fuel']; [lia|];
    match goal with |- value _ (32 :: repeat 32 ?k ++ ?r) = _ => change (32 :: repeat 32 k ++ r) with (repeat 32 (S k) ++ r) end;
    apply value_number; [apply psp_small|apply blanks_repeat|reflexivity]|reflexivity]. cbn [N.eqb Pos.eqb].
  destruct fuel as [|fuel]; [lia|].
  pose proof (fun vt v c rest' tail => members_step fuel [32] (text "forms") vt v c rest' tail (quotable_text "forms" eq_refl) eq_refl) as M. cbn [app] in M.
  change (text "] }") with [93; 32; 125]. cbn [app].
  erewrite M; clear M; [|destruct fuel as [|fuel']; [lia|]; cbn [value skip_blank is_blank N.eqb Pos.eqb orb];
    destruct (printed_some (gidForm g) (Forall_inv Hf)) as (x & t & E);
    assert (Hx : is_digit x = true) by (pose proof (printed_digits (gidForm g)) as Hd; rewrite E in Hd; cbn [forallb] in Hd; apply andb_true_iff in Hd; apply Hd);
    cbn [show_forms app]; rewrite E; cbn [app]; rewrite <- !app_assoc; cbn [skip_blank app];
    replace (is_blank x) with false by (unfold is_digit, is_blank in *; lia); replace (x =? 93) with false by (unfold is_digit in Hx; lia);
    change (x :: t ++ show_forms (text ", ") gs ++ 93 :: 32 :: 125 :: rest) with ((x :: t) ++ show_forms (text ", ") gs ++ 93 :: 32 :: 125 :: rest); rewrite <- E;
    pose proof (elements_forms gs [] g fuel' (32 :: 125 :: rest) Hf eq_refl ltac:(lia)) as K; cbn [app] in K; rewrite K; reflexivity|reflexivity].
  reflexivity.
Qed.
