(** * C119: the program wildcards. *)
From Coq Require Import String.
From Verif Require Import Base Api ApiSpec Holes HolesProofs3 Wildcards.
Local Open Scope N_scope.
Local Open Scope list_scope.
Notation length := List.length.

(** ** Specification *)
(** A line of the input as typed: the pattern, which does not end in a control character, and control characters behind it (a carriage return, say). *)
Record typed := Typed { pattern : bytes; behind : bytes }.
Definition control (c : N) : Prop := c < 32.
Definition typed_ok (t : typed) : Prop :=
  (forall p c, pattern t = p ++ [c] -> ~ control c) /\ Forall control (behind t) /\
  (length (pattern t) + length (behind t) <= 254)%nat /\ ~ In 10 (pattern t ++ behind t) /\ ~ In 0 (pattern t ++ behind t).
Definition file_of (ts : list typed) : bytes := flat_map (fun t => pattern t ++ behind t ++ [10]) ts.
(** The patterns in front of the first blank line. *)
Fixpoint up_to_blank (ts : list typed) : list bytes :=
  match ts with [] => [] | t :: ts' => match pattern t with [] => [] | p => p :: up_to_blank ts' end end.
(** What is shown of an answer: a line for each lexeme, with its first match. *)
Definition shown (answer : list (list bytes)) : bytes := flat_map (fun ms => 9 :: hd [] ms ++ [10]) answer.

(** ** Proofs *)
Lemma drop_all cs l : Forall control cs -> drop_controls (cs ++ l) = drop_controls l.
Proof. induction 1 as [|c cs Hc _ IH]; [reflexivity|]. cbn [app drop_controls]. unfold control in Hc. destruct (N.ltb_spec c 32); [exact IH|lia]. Qed.
Lemma before_null_id l : ~ In 0 l -> before_null l = l.
Proof.
  induction l as [|c l IH]; [reflexivity|]. intros H. cbn [before_null]. destruct (N.eqb_spec c 0) as [->|]; [exfalso; apply H; left; reflexivity|].
  rewrite IH; [reflexivity|]. intros Hi. apply H. right. exact Hi.
Qed.
Lemma drop_pattern p : (forall q c, p = q ++ [c] -> ~ control c) -> drop_controls (rev p) = rev p.
Proof.
  intros H. destruct (rev p) as [|c r] eqn:E; [reflexivity|]. cbn [drop_controls]. destruct (N.ltb_spec c 32) as [Hc|]; [|reflexivity].
  exfalso. apply (H (rev r) c); [|exact Hc]. rewrite <- (rev_involutive p), E. reflexivity.
Qed.
Lemma trim_typed t end_ : typed_ok t -> end_ = [] \/ end_ = [10] -> trim_line (pattern t ++ behind t ++ end_) = pattern t.
Proof.
  intros (H1 & H2 & H3 & H4 & H5) He. unfold trim_line. rewrite before_null_id.
  - rewrite !rev_app_distr, <- !app_assoc. rewrite drop_all.
    + rewrite drop_all by (apply Forall_rev; exact H2). rewrite drop_pattern by exact H1. apply rev_involutive.
    + destruct He as [->| ->]; [constructor|]. repeat constructor. 
  - rewrite app_assoc. intros Hi. apply in_app_or in Hi as [Hi|Hi]; [exact (H5 Hi)|]. destruct He as [->| ->]; [exact Hi|]. destruct Hi as [E|[]]; discriminate.
Qed.
Lemma lines_of ts : forall last, Forall typed_ok ts -> typed_ok last ->
  fgets_split 255 255 [] (file_of ts ++ pattern last ++ behind last) =
  map (fun t => pattern t ++ behind t ++ [10]) ts ++ match pattern last ++ behind last with [] => [] | l => [l] end.
Proof.
  induction ts as [|t ts IH]; intros last Hts Hl; cbn [file_of flat_map map app].
  - destruct Hl as (_ & _ & H3 & H4 & _). set (l := pattern last ++ behind last) in *. assert (Hn : (length l < 255)%nat) by (unfold l; rewrite app_length; lia).
    rewrite <- (app_nil_r l) at 1. rewrite fgets_front by (assumption || lia). cbn [app fgets_split]. destruct l; reflexivity.
  - inversion Hts as [|? ? Ht Hts']; subst. pose proof Ht as (_ & _ & H3 & H4 & _). fold (file_of ts).
    replace ((pattern t ++ behind t ++ [10]) ++ file_of ts) with ((pattern t ++ behind t) ++ 10 :: file_of ts) by (rewrite <- !app_assoc; reflexivity).
    rewrite <- app_assoc. cbn [app]. rewrite fgets_front by (rewrite ?app_length; assumption || lia). cbn [app fgets_split]. change (10 =? 10) with true. cbn [orb].
    rewrite IH by assumption. rewrite <- !app_assoc. reflexivity.
Qed.
Lemma batches_shown bs : Forall (fun ms => ms <> []) bs -> print_batches bs = Ok (shown bs).
Proof.
  induction 1 as [|ms bs Hm _ IH]; [reflexivity|]. destruct ms as [|m ms]; [congruence|]. cbn [print_batches]. rewrite IH. cbn [bind shown flat_map hd app]. rewrite <- app_assoc. reflexivity.
Qed.
Lemma lines_answered find answer ts : (forall p, In p (up_to_blank ts) -> find p = Ok (answer p) /\ Forall (fun ms => ms <> []) (answer p)) ->
  forall lines, Forall2 (fun t l => trim_line l = pattern t) ts lines -> wild_lines find lines = Ok (flat_map (fun p => shown (answer p)) (up_to_blank ts)).
Proof.
  intros Ha lines HF. revert Ha. induction HF as [|t l ts lines E HF IH]; intros Ha; [reflexivity|]. cbn [wild_lines up_to_blank] in *. rewrite E.
  destruct (pattern t) as [|c p]; [reflexivity|]. destruct (Ha (c :: p) (or_introl eq_refl)) as [-> Hn]. cbn [bind]. rewrite (batches_shown _ Hn). cbn [bind].
  rewrite IH by (intros q Hq; apply Ha; right; exact Hq). reflexivity.
Qed.

(** ** C119.  [find] is the search, [answer] what it hands over for the patterns asked for: for each lexeme its matches, at least one (C26).  The program asks for the
    pattern of each line in front of the first blank one, without the control characters behind it, in order, and shows a line for each lexeme.
    The last line need not end in a newline. *)
Theorem C119_wildcards : forall find answer ts last, Forall typed_ok ts -> typed_ok last ->
  (forall p, In p (up_to_blank (ts ++ [last])) -> find p = Ok (answer p) /\ Forall (fun ms => ms <> []) (answer p)) ->
  wildcards find (file_of ts ++ pattern last ++ behind last) = Ok (flat_map (fun p => shown (answer p)) (up_to_blank (ts ++ [last]))).
Proof.
  intros find answer ts last Hts Hl Ha. unfold wildcards. rewrite (lines_of ts last Hts Hl).
  assert (HT : Forall2 (fun t l => trim_line l = pattern t) ts (map (fun t => pattern t ++ behind t ++ [10]) ts)).
  { clear Ha. induction Hts as [|t ts Ht _ IH]; cbn [map]; constructor; [apply trim_typed; auto|exact IH]. }
  destruct (pattern last ++ behind last) as [|c l] eqn:E.
  - apply app_eq_nil in E as [Ep _].
    assert (Hu : forall q, up_to_blank (q ++ [last]) = up_to_blank q).
    { induction q as [|t q IH]; cbn [app up_to_blank]; [rewrite Ep; reflexivity|]. destruct (pattern t); [reflexivity|]. rewrite IH. reflexivity. }
    rewrite Hu in *. rewrite app_nil_r. apply lines_answered; assumption.
  - apply lines_answered; [assumption|]. apply Forall2_app; [exact HT|]. constructor; [|constructor]. rewrite <- E, <- (app_nil_r (behind last)). apply trim_typed; auto.
Qed.
Print Assumptions C119_wildcards.

(** "a, carriage return", "?b", a blank line, "c" *)
Definition some_lines := [Typed [97] [13]; Typed [63; 98] []; Typed [] [32 - 1; 9]; Typed [99] []].
Example C119_case : Forall typed_ok some_lines /\ up_to_blank some_lines = [[97]; [63; 98]] /\
  wildcards (fun p => Ok [[p; [1]]; [[65]]]) (file_of some_lines) = Ok ([9; 97; 10; 9; 65; 10] ++ [9; 63; 98; 10; 9; 65; 10]).
Proof.
  split; [|split; vm_compute; reflexivity].
  repeat (constructor; [split; [intros p c E; assert (Hc : c = last (p ++ [c]) 0) by (symmetry; apply last_last); rewrite <- E in Hc; cbn in Hc; subst c; unfold control; try lia;
    destruct p; discriminate|split; [repeat constructor|split; [cbn; lia|split; cbn; intuition discriminate]]]|]). constructor.
Qed.

(** "every match is shown": of the matches of one lexeme only the first is. *)
Theorem C119_every_match_refuted : exists find file m, find [42] = Ok [[[97]; m]] /\ file = [42; 10] /\ wildcards find file = Ok [9; 97; 10] /\ m = [98].
Proof. exists (fun _ => Ok [[[97]; [98]]]), [42; 10], [98]. repeat split. Qed.
Print Assumptions C119_every_match_refuted.

(** "a pattern is a line": a line of more than 255 bytes is asked for in pieces, and so may answer though it is too long for any word. *)
Theorem C119_long_line_refuted : exists file, ~ In 10 file /\ length file = 256%nat /\
  wildcards (fun p => if (N.of_nat (length p) <? 48) then Ok [[p]] else Ok []) file = Ok [9; 97; 10].
Proof.
  exists (repeat 97 256). split; [|split; [reflexivity|vm_compute; reflexivity]]. intros H. apply repeat_spec in H. discriminate.
Qed.
Print Assumptions C119_long_line_refuted.
