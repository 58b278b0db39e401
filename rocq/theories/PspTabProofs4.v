(** * PspTabProofs4: C114, C115. *)
From Coq Require Import QArith.
From Verif Require Import Base GramMap RusRuntime Dicdump PspTab PspTabSpec PspTabProofs PspTabProofs2.
Local Open Scope N_scope.
Local Open Scope list_scope.

Lemma fields_cut p a c b : p c = false -> fields p (a ++ c :: b) = fields p a ++ fields p b.
Proof.
  intros Hc. induction a as [|x a IH]; cbn [app fields].
  - pose proof (fields_nonempty p b) as Hn. destruct (fields p b) as [|f fs]; [contradiction|]. rewrite Hc. reflexivity.
  - rewrite IH. pose proof (fields_nonempty p a) as Hn. destruct (fields p a) as [|f fs]; [contradiction|]. cbn [app]. destruct (p x); reflexivity.
Qed.
Lemma fields_whole p w : Forall (fun c => p c = true) w -> fields p w = [w].
Proof. induction 1 as [|c w Hc _ IH]; [reflexivity|]. cbn [fields]. rewrite IH, Hc. reflexivity. Qed.
Lemma long_app a b : long_ones (a ++ b) = long_ones a ++ long_ones b.
Proof. apply filter_app. Qed.
Lemma words_cut K a c b : inside K c = false -> words_in K (a ++ c :: b) = words_in K a ++ words_in K b.
Proof. intros H. unfold words_in. rewrite fields_cut by exact H. rewrite map_app, long_app. reflexivity. Qed.

Lemma plain_line ws : Forall (fun w => (3 < length w)%nat /\ (exists c w', w = c :: w' /\ 0xc0 < c) /\ Forall (fun c => 0xc0 <= c) w) ws ->
  line_words rus_counting (S (length (concat (map (fun w => w ++ [32%N]) ws)))) (concat (map (fun w => w ++ [32]) ws)) = Ok ws.
Proof.
  intros H. rewrite rus_line_words. f_equal. rewrite <- rus_words_in. induction H as [|w ws (Hl & (c & w' & E & Hc) & Hw) _ IH]; [reflexivity|].
  cbn [map concat]. rewrite <- app_assoc. cbn [app]. rewrite words_cut by reflexivity. rewrite IH. unfold words_in. rewrite fields_whole.
  - cbn [map]. rewrite long_cons. rewrite E at 1. cbn [without_front starts rus_counting]. destruct (N.leb_spec c 0xc0); [lia|]. cbn [negb]. rewrite <- E.
    rewrite E at 2. cbn [without_front starts rus_counting]. destruct (N.leb_spec c 0xc0); [lia|]. cbn [negb]. rewrite <- E.
    destruct (Nat.ltb_spec 3 (length w)); [reflexivity|lia].
  - eapply Forall_impl; [|exact Hw]. intros x Hx. cbv beta in Hx. cbn [inside rus_counting]. destruct (N.leb_spec 0xc0 x); [reflexivity|lia].
Qed.
Lemma capital_a rest : rus_words (0xc0 :: rest) = rus_words rest.
Proof. rewrite <- !rus_words_in. apply words_in_cons. reflexivity. Qed.

Lemma words_newline K l : inside K 10 = false -> words_in K (l ++ [10]) = words_in K l.
Proof. intros H. rewrite words_cut by exact H. change (words_in K []) with (@nil bytes). apply app_nil_r. Qed.
Lemma flat_newline K words ls : (forall t, words_in K t = words t) -> inside K 10 = false -> flat_map words (map (fun l => l ++ [10]) ls) = flat_map words ls.
Proof. intros Hw H. induction ls as [|l ls IH]; [reflexivity|]. cbn [map flat_map]. rewrite IH, <- !Hw, words_newline by exact H. reflexivity. Qed.
Lemma table_of_lines K look ans words lines : (forall t, words_in K t = words t) -> inside K 10 = false -> (forall t, line_words K (S (length t)) t = Ok (words t)) ->
  Forall (fun l => N.of_nat (length l) < 0x3fff /\ ~ In 10 l) lines -> let ws := flat_map words lines in
  (forall w, In w ws -> look w = Ok (ans w) /\ Forall (fun l => snd l <> []) (ans w)) ->
  exists t, psp_table K look (concat (map (fun l => l ++ [10]) lines)) = Ok t /\ tabulates (flat_map (fun w => votes_of K (ans w)) ws) t.
Proof.
  intros Hw Hn Hok Hl ws H. unfold ws in *. clear ws. rewrite <- (flat_newline K words lines Hw Hn) in *.
  pose proof (lines_split (length (concat (map (fun l => l ++ [10]) lines))) lines (Nat.le_refl _) Hl) as E.
  remember (concat (map (fun l => l ++ [10]) lines)) as file eqn:Ef. rewrite <- E in *. clear Ef.
  apply (psp_table_ok K look ans words); [exact Hok|exact H].
Qed.
Lemma rus_table look ans lines : Forall (fun l => N.of_nat (length l) < 0x3fff /\ ~ In 10 l) lines -> let ws := flat_map rus_words lines in
  (forall w, In w ws -> look w = Ok (ans w) /\ Forall (fun l => snd l <> []) (ans w)) ->
  exists t, psp_table rus_counting look (concat (map (fun l => l ++ [10]) lines)) = Ok t /\ tabulates (flat_map (fun w => votes_of rus_counting (ans w)) ws) t.
Proof. apply table_of_lines; [exact rus_words_in|reflexivity|exact rus_line_words]. Qed.
Lemma eng_table look ans lines : Forall (fun l => N.of_nat (length l) < 0x3fff /\ ~ In 10 l) lines -> let ws := flat_map eng_words lines in
  (forall w, In w ws -> look w = Ok (ans w) /\ Forall (fun l => snd l <> []) (ans w)) ->
  exists t, psp_table eng_counting look (concat (map (fun l => l ++ [10]) lines)) = Ok t /\ tabulates (flat_map (fun w => votes_of eng_counting (ans w)) ws) t.
Proof. apply table_of_lines; [exact eng_words_in|reflexivity|exact eng_line_words]. Qed.

Lemma rus_parts w f n : w < 64 ->
  (part_sp rus_counting w = 1 <-> 1 <= w <= 6) /\ (part_sp rus_counting w = 7 <-> 7 <= w <= 9) /\ (part_sp rus_counting w = 13 <-> 13 <= w <= 15) /\
  (part_sp rus_counting w = 16 <-> 16 <= w <= 18) /\ (part_sp rus_counting w = 25 <-> 25 <= w <= 26) /\
  (forall p, 38 <= p -> (part_sp rus_counting w = p <-> w = p /\ p <= 46 /\ p <> 43)) /\
  (left_out rus_counting (part_sp rus_counting w) f n = true <-> f = 255 \/ part_sp rus_counting w = 0 \/ part_sp rus_counting w = 1 /\ f = 2 /\ (1 < n)%Z).
Proof.
  intros Hw. assert (E : part_sp rus_counting w = if (1 <=? w) && (w <=? 6) then 1 else if (7 <=? w) && (w <=? 9) then 7 else if (13 <=? w) && (w <=? 15) then 13
    else if (16 <=? w) && (w <=? 18) then 16 else if (w =? 25) || (w =? 26) then 25 else if (38 <=? w) && (w <=? 46) && negb (w =? 43) then w else 0).
  { cbn [part_sp rus_counting]. unfold ToPartOfSp, u8. cbv zeta. rewrite (N.mod_small w 256) by lia.
    replace (N.land w 0x3f) with w; [reflexivity|]. change 0x3f with (N.ones 6). rewrite N.land_ones. symmetry. apply N.mod_small. exact Hw. }
  split; [|split; [|split; [|split; [|split; [|split]]]]].
  7: { cbn [left_out rus_counting]. rewrite !orb_true_iff, !andb_true_iff, !N.eqb_eq, Z.ltb_lt. tauto. }
  all: try intros p Hp; rewrite E; clear E;
    destruct (N.leb_spec 1 w), (N.leb_spec w 6), (N.leb_spec 7 w), (N.leb_spec w 9), (N.leb_spec 13 w), (N.leb_spec w 15), (N.leb_spec 16 w), (N.leb_spec w 18); cbn [andb]; try lia;
    destruct (N.eqb_spec w 25), (N.eqb_spec w 26), (N.leb_spec 38 w), (N.leb_spec w 46), (N.eqb_spec w 43); cbn [andb orb negb]; lia.
Qed.
Lemma eng_parts w f n : part_sp eng_counting w = w /\ form_no eng_counting w f = f /\
  (left_out eng_counting (part_sp eng_counting w) f n = false <-> f <> 255 /\ In w [1; 2; 3; 4; 17]).
Proof.
  split; [reflexivity|]. split; [reflexivity|]. cbn [left_out part_sp eng_counting In]. rewrite !orb_false_iff, andb_false_iff, !N.eqb_neq, !N.ltb_ge. lia.
Qed.
Lemma rus_forms p f : form_no rus_counting p f = if (p =? 1) && (6 <=? f) && (f <=? 17) then f + 12 else f.
Proof.
  cbn [form_no rus_counting]. unfold MapVerbFid, u8. destruct (p =? 1); [|reflexivity]. cbn [andb]. destruct (N.leb_spec 6 f), (N.leb_spec f 17); cbn [andb]; try reflexivity.
  apply N.mod_small. lia.
Qed.
