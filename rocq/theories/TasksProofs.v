(** * TasksProofs: words for the game of five letters. *)
From Verif Require Import Base Letters LettersSpec LettersProofs Tasks TasksSpec.
From Coq Require Import Sorted.
Local Open Scope N_scope.

Lemma rank_of c : is_letter c -> exists r, nth_error char_rank (N.to_nat (c - 1072)) = Some r /\ 0 < r <= 8450.
Proof.
  intros [H1 H2]. destruct (nth_error char_rank (N.to_nat (c - 1072))) as [r|] eqn:E.
  - exists r. split; [reflexivity|]. apply nth_error_In in E. assert (F : Forall (fun r => 0 < r <= 8450) char_rank) by (repeat (constructor; [lia|]); constructor).
    rewrite Forall_forall in F. exact (F r E).
  - apply nth_error_None in E. change (length char_rank) with 32%nat in E. lia.
Qed.

Lemma rank_sums_ok : forall src acc, Forall is_letter src ->
  exists l, rank_sums acc src = Ok l /\ length l = length src /\ StronglySorted N.lt l /\ Forall (fun x => acc < x <= acc + 8450 * N.of_nat (length src)) l.
Proof.
  induction src as [|c src IH]; intros acc H; [exists []; repeat split; constructor|]. inversion H as [|? ? Hc Hs]; subst. cbn [rank_sums].
  destruct (rank_of c Hc) as (r & Er & Hr). replace (c <? 1072) with false by (unfold is_letter in Hc; lia). rewrite Er.
  destruct (IH (acc + r) Hs) as (l & -> & Hl & Hss & Hf). cbn [bind]. exists (acc + r :: l). split; [reflexivity|]. split; [cbn [length]; congruence|]. split.
  - constructor; [exact Hss|]. apply Forall_impl with (2 := Hf). intros a Ha. lia.
  - cbn [length]. constructor; [lia|]. apply Forall_impl with (2 := Hf). intros a Ha. lia.
Qed.

Lemma first_ge_total v : forall l, l <> [] -> v <= last l 0 -> exists i, first_ge v l = Ok i /\ (i < length l)%nat.
Proof.
  induction l as [|x l IH]; intros Hn Hv; [contradiction|]. cbn [first_ge]. destruct (N.leb_spec v x); [exists 0%nat; split; [reflexivity|cbn [length]; lia]|].
  destruct l as [|y l]; [cbn [last] in Hv; lia|]. destruct IH as (i & -> & Hi); [discriminate|exact Hv|]. cbn [bind]. exists (S i). split; [reflexivity|cbn [length] in *; lia].
Qed.
Lemma first_ge_nth : forall l i v, StronglySorted N.lt l -> nth_error l i = Some v -> first_ge v l = Ok i.
Proof.
  induction l as [|x l IH]; intros [|i] v Hs H; try discriminate; cbn [nth_error first_ge] in *.
  - injection H as ->. rewrite N.leb_refl. reflexivity.
  - inversion Hs as [|? ? Hs' Hf]; subst. rewrite Forall_forall in Hf. pose proof (Hf v (nth_error_In _ _ H)). replace (v <=? x) with false by lia. rewrite (IH i v Hs' H). reflexivity.
Qed.
Lemma last_in (l : list N) : l <> [] -> In (last l 0) l.
Proof. intros H. rewrite (app_removelast_last 0 H) at 2. apply in_or_app. right. left. reflexivity. Qed.
Lemma nth_le_last : forall l i v, StronglySorted N.lt l -> nth_error l i = Some v -> v <= last l 0.
Proof.
  induction l as [|x l IH]; intros i v Hs H; [destruct i; discriminate|]. inversion Hs as [|? ? Hs' Hf]; subst. destruct l as [|y l].
  - destruct i as [|[|i]]; cbn [nth_error last] in *; [injection H as ->; lia|discriminate|discriminate].
  - change (last (x :: y :: l) 0) with (last (y :: l) 0). destruct i as [|i]; cbn [nth_error] in H; [|exact (IH i v Hs' H)]. injection H as ->.
    rewrite Forall_forall in Hf. pose proof (Hf _ (last_in (y :: l) ltac:(discriminate))). lia.
Qed.

Lemma rand_max_pos : 0 < rand_max. Proof. reflexivity. Qed.
Lemma select_char_ok src r : src <> [] -> Forall is_letter src -> r <= rand_max -> exists i, select_char src r = Ok i /\ (i < length src)%nat.
Proof.
  intros Hn Hl Hr. unfold select_char. destruct (rank_sums_ok src 0 Hl) as (l & -> & Hlen & _). cbn [bind].
  destruct l as [|x l]; [destruct src; [contradiction|discriminate]|]. rewrite <- Hlen. apply first_ge_total; [discriminate|].
  apply N.div_le_upper_bound; [pose proof rand_max_pos; lia|]. apply N.mul_le_mono_r. exact Hr.
Qed.
Lemma select_char_reach src i : Forall is_letter src -> (i < length src)%nat -> (length src <= 64)%nat -> exists r, r <= rand_max /\ select_char src r = Ok i.
Proof.
  intros Hl Hi H64. unfold select_char. destruct (rank_sums_ok src 0 Hl) as (l & -> & Hlen & Hs & Hf). cbn [bind].
  destruct (nth_error l i) as [v|] eqn:E; [|apply nth_error_None in E; lia]. assert (Hne : l <> []) by (intros ->; destruct i; discriminate).
  pose proof (nth_le_last l i v Hs E) as Hv. rewrite Forall_forall in Hf. pose proof (Hf _ (last_in l Hne)) as Ht. destruct l as [|x l]; [contradiction|].
  set (T := last (x :: l) 0) in *. assert (HT : 0 < T <= rand_max) by (unfold rand_max; lia). clearbody T. generalize dependent rand_max. intros RM HT.
  assert (HRM : 0 < RM) by lia.
  exists ((v * RM + (T - 1)) / T). pose proof (N.div_mod (v * RM + (T - 1)) T ltac:(lia)) as Hd. pose proof (N.mod_lt (v * RM + (T - 1)) T ltac:(lia)) as Hm. set (r := (v * RM + (T - 1)) / T) in *. set (q := (v * RM + (T - 1)) mod T) in *. clearbody r q. split.
  - nia.
  - rewrite <- (first_ge_nth (x :: l) i v Hs E). f_equal. symmetry. apply N.div_unique with (r := r * T - v * RM); nia.
Qed.

(** The loop. *)
Lemma try_letters_ok inner rnd (P : wstring -> Prop) buffer : (forall n, rnd n <= rand_max) ->
  (forall c n, is_letter c -> exists o n', inner (buffer ++ [c]) n = Ok (o, n') /\ match o with Some w => P w | None => forall rest, ~ P (buffer ++ c :: rest) end) ->
  forall m hs n, length hs = m -> Forall is_letter hs ->
  exists o n', try_letters inner rnd buffer m hs n = Ok (o, n') /\ match o with Some w => P w | None => forall c rest, In c hs -> ~ P (buffer ++ c :: rest) end.
Proof.
  intros Hr Hin. induction m as [|m IH]; intros hs n Hm Hl.
  - exists None, n. split; [reflexivity|]. intros c rest Hc. destruct hs; [destruct Hc|discriminate].
  - cbn [try_letters]. destruct (select_char_ok hs (rnd n)) as (i & -> & Hi); [intros ->; discriminate|exact Hl|apply Hr|]. cbn [bind].
    destruct (nth_error hs i) as [c|] eqn:Ec; [|apply nth_error_None in Ec; lia].
    pose proof Hl as Hl0. rewrite Forall_forall in Hl0. destruct (Hin c (S n) (Hl0 c (nth_error_In _ _ Ec))) as (o & n' & -> & Ho). cbn [bind]. destruct o as [w|].
    + exists (Some w), n'. split; [reflexivity|exact Ho].
    + destruct (nth_error_split _ _ Ec) as (a & b & -> & Ha). subst i.
      assert (E : firstn (length a) (a ++ c :: b) ++ skipn (S (length a)) (a ++ c :: b) = a ++ b).
      { rewrite firstn_app, Nat.sub_diag, firstn_all, app_nil_r. f_equal. rewrite skipn_app, skipn_all2 by lia. replace (S (length a) - length a)%nat with 1%nat by lia. reflexivity. }
      rewrite E. destruct (IH (a ++ b) n') as (o & n2 & E2 & Ho2).
      * rewrite app_length in *. cbn [length] in Hm. lia.
      * apply Forall_app in Hl as [H1 H2]. inversion H2; subst. apply Forall_app. split; assumption.
      * exists o, n2. split; [exact E2|]. destruct o as [w|]; [exact Ho2|]. intros x rest Hx. apply in_app_iff in Hx as [Hx|[<-|Hx]]; [apply Ho2, in_or_app; left; exact Hx|apply Ho|apply Ho2, in_or_app; right; exact Hx].
Qed.

(** The fifth letters. *)
Lemma letters_32 l : NoDup l -> Forall is_letter l -> (length l <= 32)%nat.
Proof.
  intros Hn Hl. assert (Hi : incl l (map (fun i => 1072 + N.of_nat i) (seq 0 32))).
  { intros c Hc. rewrite Forall_forall in Hl. specialize (Hl c Hc). unfold is_letter in Hl. apply in_map_iff. exists (N.to_nat (c - 1072)). split; [lia|]. apply in_seq. lia. }
  pose proof (NoDup_incl_length Hn Hi) as H. rewrite map_length, seq_length in H. exact H.
Qed.
Lemma fifth_ok : forall ms sz, NoDup sz -> Forall is_letter sz -> (forall w id, In (w, id) ms -> five w /\ Forall is_letter w) ->
  exists sz', fifth_letters ms sz = Ok sz' /\ NoDup sz' /\ Forall is_letter sz' /\
    forall c, In c sz' <-> In c sz \/ exists w id, In (w, id) ms /\ (id = 0 \/ id = 255) /\ nth_error w 4 = Some c.
Proof.
  induction ms as [|[w id] ms IH]; intros sz Hn Hl Hm.
  - exists sz. split; [reflexivity|]. split; [exact Hn|]. split; [exact Hl|]. intros c. split; [left; assumption|intros [H|(w & id & [] & _)]; exact H].
  - assert (Hm' : forall w id, In (w, id) ms -> five w /\ Forall is_letter w) by (intros w' i Hi; apply (Hm w' i); right; exact Hi).
    cbn [fifth_letters]. destruct ((id =? 0) || (id =? 255)) eqn:Hid.
    + assert (Hid' : id = 0 \/ id = 255) by lia. destruct (Hm w id (or_introl eq_refl)) as [H5 Hwl]. destruct (nth_error w 4) as [c|] eqn:Ec; [|apply nth_error_None in Ec; unfold five in H5; lia].
      rewrite existsb_in. destruct (in_dec N.eq_dec c sz) as [Hc|Hc].
      * destruct (IH sz Hn Hl Hm') as (sz' & E & N' & L' & S'). exists sz'. split; [exact E|]. split; [exact N'|]. split; [exact L'|]. intros x. rewrite S'. split.
        -- intros [H|(w' & i & Hi & Hr)]; [left; exact H|right; exists w', i; split; [right; exact Hi|exact Hr]].
        -- intros [H|(w' & i & [Hi|Hi] & Hr & Hx)]; [left; exact H|injection Hi as <- <-; left; congruence|right; exists w', i; split; [exact Hi|split; assumption]].
      * pose proof (letters_32 sz Hn Hl) as H32. replace (length sz <? 64)%nat with true by (symmetry; apply Nat.ltb_lt; lia).
        rewrite Forall_forall in Hwl. pose proof (Hwl c (nth_error_In _ _ Ec)) as Hcl.
        destruct (IH (sz ++ [c])) as (sz' & E & N' & L' & S').
        { apply (NoDup_Add (a := c) (l := sz ++ [])); [apply Add_app|]. rewrite app_nil_r. split; assumption. }
        { apply Forall_app. split; [exact Hl|constructor; [exact Hcl|constructor]]. }
        { exact Hm'. }
        exists sz'. split; [exact E|]. split; [exact N'|]. split; [exact L'|]. intros x. rewrite S', in_app_iff. split.
        -- intros [[H|[<-|[]]]|(w' & i & Hi & Hr)]; [left; exact H|right; exists w, id; split; [left; reflexivity|split; assumption]|right; exists w', i; split; [right; exact Hi|exact Hr]].
        -- intros [H|(w' & i & [Hi|Hi] & Hr & Hx)]; [left; left; exact H|injection Hi as <- <-; left; right; left; congruence|right; exists w', i; split; [exact Hi|split; assumption]].
    + destruct (IH sz Hn Hl Hm') as (sz' & E & N' & L' & S'). exists sz'. split; [exact E|]. split; [exact N'|]. split; [exact L'|]. intros x. rewrite S'. split.
      * intros [H|(w' & i & Hi & Hr)]; [left; exact H|right; exists w', i; split; [right; exact Hi|exact Hr]].
      * intros [H|(w' & i & [Hi|Hi] & Hr & Hx)]; [left; exact H|injection Hi as <- <-; lia|right; exists w', i; split; [exact Hi|split; assumption]].
Qed.
Lemma task_calls_ok wd : forall calls sz, NoDup sz -> Forall is_letter sz -> (forall lex ms w id, In (lex, ms) calls -> In (w, id) ms -> five w /\ Forall is_letter w) ->
  exists sz', task_calls wd calls sz = Ok sz' /\ NoDup sz' /\ Forall is_letter sz' /\
    forall c, In c sz' <-> In c sz \/ exists lex ms w id, In (lex, ms) calls /\ 7 <= wd lex <= 23 /\ ~ (192512 <= lex <= 192641) /\ In (w, id) ms /\ (id = 0 \/ id = 255) /\ nth_error w 4 = Some c.
Proof.
  induction calls as [|[lex ms] calls IH]; intros sz Hn Hl Hm.
  - exists sz. split; [reflexivity|]. split; [exact Hn|]. split; [exact Hl|]. intros c. split; [left; assumption|intros [H|(lex & ms & w & id & [] & _)]; exact H].
  - assert (Hm' : forall lex ms w id, In (lex, ms) calls -> In (w, id) ms -> five w /\ Forall is_letter w) by (intros l m w i Hi; apply (Hm l m w i); right; exact Hi).
    assert (Hskip : ~ (7 <= wd lex <= 23 /\ ~ (192512 <= lex <= 192641)) -> exists sz', task_calls wd calls sz = Ok sz' /\ NoDup sz' /\ Forall is_letter sz' /\
      forall c, In c sz' <-> In c sz \/ exists lex0 ms0 w id, In (lex0, ms0) ((lex, ms) :: calls) /\ 7 <= wd lex0 <= 23 /\ ~ (192512 <= lex0 <= 192641) /\ In (w, id) ms0 /\ (id = 0 \/ id = 255) /\ nth_error w 4 = Some c).
    { intros Hx. destruct (IH sz Hn Hl Hm') as (sz' & E & N' & L' & S'). exists sz'. split; [exact E|]. split; [exact N'|]. split; [exact L'|]. intros c. rewrite S'. split.
      - intros [H|(l & m & w & i & Hi & Hr)]; [left; exact H|right; exists l, m, w, i; split; [right; exact Hi|exact Hr]].
      - intros [H|(l & m & w & i & [Hi|Hi] & H1 & H2 & Hr)]; [left; exact H|injection Hi as <- <-; exfalso; apply Hx; split; assumption|right; exists l, m, w, i; split; [exact Hi|split; [exact H1|split; [exact H2|exact Hr]]]]. }
    cbn [task_calls]. destruct ((wd lex <? 7) || (23 <? wd lex)) eqn:Hw; [apply Hskip; lia|]. destruct ((192512 <=? lex) && (lex <=? 192641)) eqn:Hx; [apply Hskip; lia|]. clear Hskip.
    destruct (fifth_ok ms sz Hn Hl) as (sz1 & -> & N1 & L1 & S1); [intros w i; apply (Hm lex ms w i); left; reflexivity|]. cbn [bind].
    destruct (IH sz1 N1 L1 Hm') as (sz' & E & N' & L' & S'). exists sz'. split; [exact E|]. split; [exact N'|]. split; [exact L'|]. intros c. rewrite S', S1. split.
    + intros [[H|(w & i & Hi & Hr)]|(l & m & w & i & Hi & Hr)]; [left; exact H|right; exists lex, ms, w, i|right; exists l, m, w, i; split; [right; exact Hi|exact Hr]].
      split; [left; reflexivity|]. split; [lia|]. split; [lia|]. split; [exact Hi|exact Hr].
    + intros [H|(l & m & w & i & [Hi|Hi] & H1 & H2 & Hi' & Hr)]; [left; left; exact H|injection Hi as <- <-; left; right; exists w, i; split; assumption|].
      right. exists l, m, w, i. split; [exact Hi|]. split; [exact H1|]. split; [exact H2|]. split; assumption.
Qed.

Lemma fits_self : forall w, fits w w.
Proof. induction w; constructor; [right; reflexivity|assumption]. Qed.
Lemma fits_prefix : forall p w, Forall is_letter p -> fits (p ++ [63]) w -> exists c, w = p ++ [c].
Proof.
  induction p as [|a p IH]; intros w Hl F; cbn [app] in F; inversion F as [|? c ? w' Hq F']; subst.
  - inversion F'; subst. exists c. reflexivity.
  - inversion Hl as [|? ? Ha Hl']; subst. destruct (IH w' Hl' F') as (x & ->). exists x. destruct Hq as [Hq|Hq]; [unfold is_letter in Ha; lia|subst; reflexivity].
Qed.
Lemma prefix_fits p c : fits (p ++ [63]) (p ++ [c]).
Proof. induction p as [|a p IH]; cbn [app]; constructor; [left; reflexivity|constructor|right; reflexivity|exact IH]. Qed.

Lemma filter_short (f : N -> bool) l : (length (filter f l) <= length l)%nat.
Proof. induction l as [|a l IH]; cbn [filter length]; [lia|]. destruct (f a); cbn [length]; lia. Qed.

Section Task.
  Variable help : wstring -> wstring.
  Variable find : wstring -> list (N * list (wstring * N)).
  Variable wd : N -> N.
  Variable d : forms.
  Hypothesis Hf : find_exact find d.
  Hypothesis Hh : help_complete help d.

  Lemma last_letters prefix : length prefix = 4%nat -> Forall is_letter prefix ->
    exists sz, task_calls wd (find (prefix ++ [63])) [] = Ok sz /\ NoDup sz /\ Forall is_letter sz /\ forall c, In c sz <-> task_word d wd (prefix ++ [c]).
  Proof.
    intros H4 Hl. destruct Hf as [Hex Hlet]. assert (Hp : pattern_ok (prefix ++ [63])).
    { split; [unfold five; rewrite app_length; cbn [length]; lia|]. apply Forall_app. split; [apply Forall_impl with (2 := Hl); intros q Hq; right; exact Hq|constructor; [left; reflexivity|constructor]]. }
    assert (Hw : forall lex ms w id, In (lex, ms) (find (prefix ++ [63])) -> In (w, id) ms -> d lex w id /\ exists c, w = prefix ++ [c]).
    { intros lex ms w id H1 H2. destruct (proj1 (Hex _ Hp lex w id) (ex_intro _ ms (conj H1 H2))) as [Hd F]. split; [exact Hd|]. apply fits_prefix; assumption. }
    assert (Hfive : forall c, five (prefix ++ [c])) by (intros c; unfold five; rewrite app_length; cbn [length]; lia).
    destruct (task_calls_ok wd (find (prefix ++ [63])) [] (NoDup_nil _) (Forall_nil _)) as (sz & E & Hn & Hsl & Hs).
    { intros lex ms w id H1 H2. destruct (Hw lex ms w id H1 H2) as [Hd (c & ->)]. split; [apply Hfive|]. apply (Hlet lex _ id Hd). apply Hfive. }
    exists sz. split; [exact E|]. split; [exact Hn|]. split; [exact Hsl|]. intros c. rewrite Hs. split.
    - intros [[]|(lex & ms & w & id & H1 & H2 & H3 & H4' & H5 & H6)]. destruct (Hw lex ms w id H1 H4') as [Hd (x & ->)].
      rewrite nth_error_app2, H4 in H6 by lia. cbn in H6. injection H6 as ->. split; [apply Hfive|]. exists lex, id. split; [exact Hd|]. split; [exact H2|]. split; [exact H3|exact H5].
    - intros [_ (lex & id & Hd & H2 & H3 & H5)]. right. destruct (proj2 (Hex _ Hp lex (prefix ++ [c]) id) (conj Hd (prefix_fits prefix c))) as (ms & H1 & H1').
      exists lex, ms, (prefix ++ [c]), id. split; [exact H1|]. split; [exact H2|]. split; [exact H3|]. split; [exact H1'|]. split; [exact H5|]. rewrite nth_error_app2, H4 by lia. reflexivity.
  Qed.

  Lemma help_letters p : Forall is_letter (filter (fun c => negb (c <? 1072)) (help p)) /\ (length (filter (fun c => negb (c <? 1072)%N) (help p)) <= 64)%nat.
  Proof.
    destruct (Hh p) as (_ & H64 & Hl). split.
    - apply Forall_forall. intros c Hc. apply filter_In in Hc as [Hc Hn]. rewrite Forall_forall in Hl. destruct (Hl c Hc) as [K|K]; [lia|exact K].
    - pose proof (filter_short (fun c => negb (c <? 1072)) (help p)). lia.
  Qed.
  Lemma help_has p c rest : task_word d wd (p ++ c :: rest) -> In c (filter (fun c => negb (c <? 1072)) (help p)).
  Proof.
    intros [H5 (lex & id & Hd & _)]. destruct (Hh p) as (Hc & _). apply filter_In. split; [exact (Hc c rest lex id Hd)|].
    destruct Hf as [_ Hlet]. pose proof (Hlet lex _ id Hd H5) as Hl. rewrite Forall_forall in Hl. specialize (Hl c ltac:(apply in_or_app; right; left; reflexivity)). unfold is_letter in Hl. lia.
  Qed.

  Lemma get_ok rnd : (forall n, rnd n <= rand_max) -> forall k prefix n, (length prefix + k = 4)%nat -> Forall is_letter prefix ->
    exists o n', get_new_task help find wd rnd k prefix n = Ok (o, n') /\ match o with Some w => task_word d wd w | None => forall rest, ~ task_word d wd (prefix ++ rest) end.
  Proof.
    intros Hr. induction k as [|k IH]; intros prefix n Hk Hl; cbn [get_new_task].
    - destruct (last_letters prefix ltac:(lia) Hl) as (sz & -> & Hn & Hsl & Hs). cbn [bind]. destruct sz as [|s0 sz].
      + exists None, n. split; [reflexivity|]. intros rest Hw. pose proof Hw as [H5 _]. unfold five in H5. rewrite app_length in H5.
        destruct rest as [|c [|? ?]]; cbn [length] in H5; [lia| |lia]. apply Hs in Hw. destruct Hw.
      + destruct (select_char_ok (s0 :: sz) (rnd n)) as (i & -> & Hi); [discriminate|exact Hsl|apply Hr|]. cbn [bind].
        destruct (nth_error (s0 :: sz) i) as [c|] eqn:Ec; [|apply nth_error_None in Ec; lia]. exists (Some (prefix ++ [c])), (S n). split; [reflexivity|]. apply Hs. exact (nth_error_In _ _ Ec).
    - destruct (help_letters prefix) as [Hhl _]. destruct (try_letters_ok (get_new_task help find wd rnd k) rnd (task_word d wd) prefix Hr) with (m := length (filter (fun c => negb (c <? 1072)) (help prefix))) (hs := filter (fun c => negb (c <? 1072)) (help prefix)) (n := n) as (o & n' & E & Ho).
      + intros c n0 Hc. destruct (IH (prefix ++ [c]) n0) as (o & n' & E & Ho); [rewrite app_length; cbn [length]; lia|apply Forall_app; split; [exact Hl|constructor; [exact Hc|constructor]]|].
        exists o, n'. split; [exact E|]. destruct o as [w|]; [exact Ho|]. intros rest. specialize (Ho rest). rewrite <- app_assoc in Ho. exact Ho.
      + reflexivity.
      + exact Hhl.
      + exists o, n'. split; [exact E|]. destruct o as [w|]; [exact Ho|]. intros rest Hw. destruct rest as [|c rest].
        * destruct Hw as [H5 _]. unfold five in H5. rewrite app_nil_r in H5. lia.
        * exact (Ho c rest (help_has prefix c rest Hw) Hw).
  Qed.

  Lemma get_reach : forall k prefix rest n, (length prefix + k = 4)%nat -> Forall is_letter prefix -> task_word d wd (prefix ++ rest) ->
    exists rs, Forall (fun r => r <= rand_max) rs /\ forall rnd, (forall j r, nth_error rs j = Some r -> rnd (n + j)%nat = r) ->
      exists n', get_new_task help find wd rnd k prefix n = Ok (Some (prefix ++ rest), n').
  Proof.
    induction k as [|k IH]; intros prefix rest n Hk Hl Hw.
    - pose proof Hw as [H5 _]. unfold five in H5. rewrite app_length in H5. destruct rest as [|c [|? ?]]; cbn [length] in H5; [lia| |lia].
      destruct (last_letters prefix ltac:(lia) Hl) as (sz & E & Hn & Hsl & Hs). pose proof (proj2 (Hs c) Hw) as Hc. destruct (In_nth_error _ _ Hc) as (i & Ei).
      destruct (select_char_reach sz i Hsl) as (r & Hr & Er); [apply nth_error_Some; congruence|pose proof (letters_32 sz Hn Hsl); lia|].
      exists [r]. split; [constructor; [exact Hr|constructor]|]. intros rnd Hrnd. exists (S n). cbn [get_new_task]. rewrite E. cbn [bind]. destruct sz as [|s0 sz]; [destruct Hc|].
      specialize (Hrnd 0%nat r eq_refl). rewrite Nat.add_0_r in Hrnd. rewrite Hrnd, Er. cbn [bind]. rewrite Ei. reflexivity.
    - destruct rest as [|c rest]; [destruct Hw as [H5 _]; unfold five in H5; rewrite app_nil_r in H5; lia|].
      pose proof (help_has prefix c rest Hw) as Hc. destruct (help_letters prefix) as [Hhl H64]. destruct (In_nth_error _ _ Hc) as (i & Ei).
      destruct (select_char_reach _ i Hhl ltac:(apply nth_error_Some; congruence) H64) as (r & Hr & Er).
      assert (Hw' : task_word d wd ((prefix ++ [c]) ++ rest)) by (rewrite <- app_assoc; exact Hw). rewrite Forall_forall in Hhl.
      destruct (IH (prefix ++ [c]) rest (S n)) as (rs & Hrs & Hres); [rewrite app_length; cbn [length]; lia|apply Forall_app; split; [exact Hl|constructor; [exact (Hhl c Hc)|constructor]]|exact Hw'|].
      exists (r :: rs). split; [constructor; assumption|]. intros rnd Hrnd. destruct (Hres rnd) as (n' & E); [intros j x Hx; rewrite <- (Hrnd (S j) x Hx); f_equal; lia|].
      exists n'. cbn [get_new_task]. destruct (filter (fun c => negb (c <? 1072)) (help prefix)) as [|h0 hs]; [destruct Hc|]. cbn [length try_letters].
      pose proof (Hrnd 0%nat r eq_refl) as H0. rewrite Nat.add_0_r in H0. rewrite H0, Er. cbn [bind]. rewrite Ei, E. cbn [bind]. rewrite <- app_assoc. reflexivity.
  Qed.

  Theorem new_task_ok : (forall rnd, (forall n, rnd n <= rand_max) -> exists o, new_task help find wd rnd = Ok o /\ match o with Some w => task_word d wd w | None => forall w, ~ task_word d wd w end) /\
    forall w, task_word d wd w -> exists rnd, (forall n, rnd n <= rand_max) /\ new_task help find wd rnd = Ok (Some w).
  Proof.
    split.
    - intros rnd Hr. destruct (get_ok rnd Hr 4 [] 0 eq_refl (Forall_nil _)) as (o & n' & E & Ho). exists o. unfold new_task. rewrite E. cbn [bind]. split; [reflexivity|exact Ho].
    - intros w Hw. destruct (get_reach 4 [] w 0 eq_refl (Forall_nil _) Hw) as (rs & Hrs & Hres). exists (fun n => nth n rs 0). split.
      + intros n. rewrite Forall_forall in Hrs. destruct (nth_in_or_default n rs 0) as [H| ->]; [exact (Hrs _ H)|pose proof rand_max_pos; lia].
      + destruct (Hres (fun n => nth n rs 0)) as (n' & E); [intros j r Hj; cbn [Nat.add]; apply nth_error_nth; exact Hj|]. unfold new_task. rewrite E. reflexivity.
  Qed.
End Task.
