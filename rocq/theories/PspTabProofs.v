(** * PspTabProofs: the words of a line. *)
From Coq Require Import QArith.
From Verif Require Import Base RusRuntime Dicdump PspTab PspTabSpec.
Local Open Scope N_scope.
Local Open Scope list_scope.

Definition words_in (K : counting) (t : bytes) : list bytes := long_ones (map (without_front (fun c => negb (starts K c))) (fields (inside K) t)).

Lemma fields_nonempty p t : fields p t <> [].
Proof. induction t as [|c t IH]; [discriminate|]. cbn [fields]. destruct (fields p t) as [|f fs]; [contradiction|]. destruct (p c); discriminate. Qed.

Section Words.
  Variable K : counting.
  Hypothesis starts_inside : forall c, starts K c = true -> inside K c = true.

  Lemma words_in_cons c t : starts K c = false -> words_in K (c :: t) = words_in K t.
  Proof.
    intros Hc. unfold words_in. cbn [fields]. pose proof (fields_nonempty (inside K) t) as Hn. destruct (fields (inside K) t) as [|f fs]; [contradiction|].
    destruct (inside K c); cbn [map without_front]; [rewrite Hc; reflexivity|]. unfold long_ones. cbn [filter length Nat.ltb Nat.leb]. reflexivity.
  Qed.
  Lemma words_in_skip t : words_in K (skip_to K t) = words_in K t.
  Proof. induction t as [|c t IH]; [reflexivity|]. cbn [skip_to]. destruct (starts K c) eqn:E; [reflexivity|]. rewrite IH, words_in_cons by exact E. reflexivity. Qed.
  Lemma go_on_fields t w rest : go_on K t = (w, rest) -> exists f fs, fields (inside K) rest = f :: fs /\
    fields (inside K) t = (w ++ f) :: fs /\ (length rest <= length t)%nat /\ (f = [] \/ rest = []) .
  Proof.
    revert w rest. induction t as [|c t IH]; intros w rest; cbn [go_on].
    - intros [= <- <-]. exists [], []. repeat split; auto.
    - destruct (inside K c) eqn:E.
      + destruct (go_on K t) as [w' r'] eqn:Eg. intros [= <- <-]. destruct (IH _ _ eq_refl) as (f & fs & E1 & E2 & E3 & E4). exists f, fs. split; [exact E1|]. cbn [fields].
        rewrite E2, E. split; [reflexivity|]. split; [cbn [length]; lia|exact E4].
      + intros [= <- <-]. pose proof (fields_nonempty (inside K) t) as Hn. cbn [fields]. rewrite E. destruct (fields (inside K) t) as [|f fs]; [contradiction|].
        exists [], (f :: fs). repeat split; auto.
  Qed.
  Lemma skip_starts t c t' : skip_to K t = c :: t' -> starts K c = true.
  Proof. induction t as [|a t IH]; [discriminate|]. cbn [skip_to]. destruct (starts K a) eqn:E; [intros [= -> ->]; exact E|exact IH]. Qed.
  Lemma skip_length t : (length (skip_to K t) <= length t)%nat.
  Proof. induction t as [|a t IH]; [apply Nat.le_refl|]. cbn [skip_to]. destruct (starts K a); cbn [length]; lia. Qed.
  Lemma long_cons w ws : long_ones (w :: ws) = if Nat.ltb 3 (length w) then w :: long_ones ws else long_ones ws.
  Proof. reflexivity. Qed.

  Lemma line_words_ok fuel t : (length t <= fuel)%nat -> line_words K fuel t = Ok (words_in K t).
  Proof.
    revert t. induction fuel as [|fuel IH]; intros t Hl; [destruct t; [reflexivity|cbn [length] in Hl; lia]|].
    destruct t as [|a t0]; [reflexivity|]. remember (a :: t0) as t eqn:Et. cbn [line_words]. rewrite Et at 1. rewrite <- (words_in_skip t).
    destruct (go_on K (skip_to K t)) as [w rest] eqn:Eg. pose proof (skip_length t) as Hs.
    destruct (skip_to K t) as [|c t'] eqn:Es.
    - injection Eg as <- <-. destruct fuel; reflexivity.
    - pose proof (skip_starts t c t' Es) as Hc. destruct (go_on_fields _ _ _ Eg) as (f & fs & E1 & E2 & E3 & E4).
      assert (Hw : exists w', w = c :: w' /\ (length rest <= length t')%nat).
      { cbn [go_on] in Eg. rewrite (starts_inside c Hc) in Eg. destruct (go_on K t') as [w' r'] eqn:E'. injection Eg as <- <-. exists w'. split; [reflexivity|].
        destruct (go_on_fields _ _ _ E') as (_ & _ & _ & _ & H & _). exact H. }
      destruct Hw as (w' & -> & Hr). rewrite IH by (cbn [length] in Hs; lia). cbn [bind]. f_equal.
      unfold words_in. rewrite E1, E2. cbn [map]. rewrite !long_cons.
      assert (Hf : f = []). { destruct E4 as [->| ->]; [reflexivity|]. cbn [fields] in E1. injection E1 as <- <-. reflexivity. } subst f. rewrite app_nil_r.
      replace (without_front (fun x => negb (starts K x)) (c :: w')) with (c :: w') by (cbn [without_front]; rewrite Hc; reflexivity). reflexivity.
  Qed.
End Words.

Lemma without_front_ext p q w : (forall c, In c w -> p c = q c) -> without_front p w = without_front q w.
Proof.
  induction w as [|c w IH]; intros H; [reflexivity|]. cbn [without_front]. rewrite (H c) by (left; reflexivity). destruct (q c); [|reflexivity]. apply IH. intros x Hx. apply H. right. exact Hx.
Qed.
Lemma fields_in p t w c : In w (fields p t) -> In c w -> p c = true.
Proof.
  revert w. induction t as [|a t IH]; intros w Hw Hc; cbn [fields] in Hw.
  - destruct Hw as [<-|[]]. destruct Hc.
  - destruct (fields p t) as [|f fs]; [destruct Hw|]. destruct (p a) eqn:E.
    + destruct Hw as [<-|Hw]; [|apply (IH w); [right; exact Hw|exact Hc]]. destruct Hc as [<-|Hc]; [exact E|]. apply (IH f); [left; reflexivity|exact Hc].
    + destruct Hw as [<-|Hw]; [destruct Hc|]. apply (IH w); assumption.
Qed.
Lemma rus_words_in t : words_in rus_counting t = rus_words t.
Proof.
  unfold words_in, rus_words. f_equal. cbn [inside rus_counting]. apply map_ext_in. intros w Hw. apply without_front_ext. intros c Hc. pose proof (fields_in _ _ _ _ Hw Hc) as H. cbv beta in H.
  cbn [starts rus_counting]. rewrite negb_involutive. apply orb_true_iff in H. rewrite N.leb_le, N.eqb_eq in H.
  destruct (N.leb_spec c 0xc0), (N.eqb_spec c 45), (N.eqb_spec c 0xc0); try reflexivity; exfalso; lia.
Qed.
Lemma eng_words_in t : words_in eng_counting t = eng_words t.
Proof.
  unfold words_in, eng_words. f_equal. cbn [inside eng_counting]. apply map_ext_in. intros w Hw. apply without_front_ext. intros c Hc. pose proof (fields_in _ _ _ _ Hw Hc) as H. cbv beta in H.
  cbn [starts eng_counting]. rewrite negb_involutive. apply orb_true_iff in H. rewrite orb_true_iff, N.leb_le, !N.eqb_eq in H.
  destruct (N.ltb_spec c 0x41), (N.eqb_spec c 45), (N.eqb_spec c 39); try reflexivity; exfalso; lia.
Qed.
Lemma rus_line_words t : line_words rus_counting (S (length t)) t = Ok (rus_words t).
Proof.
  rewrite <- rus_words_in. apply line_words_ok; [|lia]. intros c. cbn [starts inside rus_counting]. rewrite negb_true_iff, N.leb_gt, orb_true_iff, N.leb_le. lia.
Qed.
Lemma eng_line_words t : line_words eng_counting (S (length t)) t = Ok (eng_words t).
Proof.
  rewrite <- eng_words_in. apply line_words_ok; [|lia]. intros c. cbn [starts inside eng_counting]. rewrite negb_true_iff, N.ltb_ge, !orb_true_iff, N.leb_le. lia.
Qed.

(** ** Lines of a file *)
Lemma fgets_whole room l rest : (length l < room)%nat -> ~ In 10 l -> fgets room (l ++ 10 :: rest) = (l ++ [10], rest).
Proof.
  revert l. induction room as [|room IH]; intros [|c l] Hl H; cbn [length] in Hl; try lia; [reflexivity|].
  cbn [app fgets]. destruct (N.eqb_spec c 10) as [->|_]; [exfalso; apply H; left; reflexivity|]. rewrite IH; [reflexivity|lia|intros K; apply H; right; exact K].
Qed.
Lemma lines_split fuel ls : (length (concat (map (fun l => l ++ [10%N]) ls)) <= fuel)%nat ->
  Forall (fun l => (N.of_nat (length l) < 0x3fff)%N /\ ~ In 10 l) ls -> lines_of fuel (concat (map (fun l => l ++ [10]) ls)) = map (fun l => l ++ [10]) ls.
Proof.
  revert fuel. induction ls as [|l ls IH]; intros fuel Hf H; [destruct fuel; reflexivity|].
  inversion H as [|? ? [Hl Hn] H']; subst. cbn [map concat] in *. rewrite !app_length in Hf. cbn [length] in Hf. destruct fuel as [|fuel]; [lia|].
  remember (N.to_nat 0x3fff) as room eqn:Er. assert (E : forall t, lines_of (S fuel) t = match t with [] => [] | _ => let '(line, rest) := fgets room t in line :: lines_of fuel rest end).
  { intros t. rewrite Er. destruct t; reflexivity. }
  rewrite E. clear E. rewrite <- app_assoc. cbn [app]. destruct (l ++ 10 :: _) eqn:El; [destruct l; discriminate|]. rewrite <- El. rewrite fgets_whole; [|rewrite Er; lia|exact Hn].
  rewrite IH; [reflexivity|lia|exact H'].
Qed.
