(** * Properties C109, C110, C111: the dump of a dictionary and its check against an earlier dump.  STATEMENTS ONLY.
    [gives], [edit], [tells_difference], [ascending], [lines_of] are in DicdumpSpec.v; [answers], [dump_of], [describes], [as_text], [line_id] in DicdumpBuildSpec.v.
    [dump_diff] of [fuel] rounds gives [None] while it has not ended. *)
From Coq Require Import Sorted.
From Verif Require Import Base Serial WordTree TreeSpec Stems StemSpec GramMap RusRuntime RusSpec RusBuild RusBuildSpec RusDemo RusDemo2 PropWildLemmas Dump DumpSpec
  Dicdump DicdumpSpec DicdumpBuild DicdumpBuildSpec PropDicdumpLemmas.
Local Open Scope N_scope.

(** ** C109.  When the comparison ends, the report is an edit script between the two lists of lines: every line only one has is reported on
    its side, and "diff too big" is never said. *)
Theorem C109_report : forall S1 S2 (get1 : S1 -> bytes * S1) (get2 : S2 -> bytes * S2) s1 s2 l1 l2 fuel out,
  gives get1 s1 l1 -> gives get2 s2 l2 -> dump_diff get1 get2 fuel s1 s2 = Some out ->
  edit l1 l2 out /\ ~ In Too_big out /\
  (forall x, x <> [] -> In (Left x) out -> In x l1) /\ (forall x, x <> [] -> In (Right x) out -> In x l2) /\
  (forall x, In x l1 -> ~ In x l2 -> In (Left x) out) /\ (forall x, In x l2 -> ~ In x l1 -> In (Right x) out).
Proof. intros S1 S2 get1 get2. exact (report_edit get1 get2). Qed.
Print Assumptions C109_report.

Theorem C109_nothing_reported : forall S1 S2 (get1 : S1 -> bytes * S1) (get2 : S2 -> bytes * S2) s1 s2 l1 l2,
  gives get1 s1 l1 -> gives get2 s2 l2 -> (exists fuel, dump_diff get1 get2 fuel s1 s2 = Some []) <-> l1 = l2.
Proof. intros S1 S2 get1 get2. exact (nothing_iff get1 get2). Qed.
Print Assumptions C109_nothing_reported.

(** it ends when both lists ascend in some key of the lines *)
Theorem C109_ends_partial : forall S1 S2 (get1 : S1 -> bytes * S1) (get2 : S2 -> bytes * S2) key s1 s2 l1 l2,
  gives get1 s1 l1 -> gives get2 s2 l2 -> ascending key l1 -> ascending key l2 ->
  exists out, dump_diff get1 get2 (S (length l1 + length l2)) s1 s2 = Some out.
Proof. intros S1 S2 get1 get2. exact (ends get1 get2). Qed.
Print Assumptions C109_ends_partial.

(** not otherwise: two lines in different order, and it goes on for ever *)
Theorem C109_ends_refuted : forall S1 S2 (get1 : S1 -> bytes * S1) (get2 : S2 -> bytes * S2) a b s1 s2,
  a <> b -> gives get1 s1 [a; b] -> gives get2 s2 [b; a] -> forall fuel, dump_diff get1 get2 fuel s1 s2 = None.
Proof. intros S1 S2 get1 get2. exact (DicdumpProofs3.crossed_never get1 get2). Qed.
Print Assumptions C109_ends_refuted.

(** lists of at most 1024 different lines: exactly the lines only one has are reported *)
Theorem C109_difference_partial : forall S1 S2 (get1 : S1 -> bytes * S1) (get2 : S2 -> bytes * S2) s1 s2 l1 l2 fuel out,
  gives get1 s1 l1 -> gives get2 s2 l2 -> NoDup l1 -> NoDup l2 -> (length l1 <= 1024)%nat -> (length l2 <= 1024)%nat ->
  dump_diff get1 get2 fuel s1 s2 = Some out -> tells_difference l1 l2 out.
Proof. intros S1 S2 get1 get2. exact (short_exact get1 get2). Qed.
Print Assumptions C109_difference_partial.

(** longer lists: a line that both have may be reported *)
Theorem C109_difference_refuted : exists key l1 l2, ascending key l1 /\ ascending key l2 /\ gives from_list l1 l1 /\ gives from_list l2 l2 /\
  exists fuel out x, dump_diff from_list from_list fuel l1 l2 = Some out /\ In (Left x) out /\ In x l1 /\ In x l2.
Proof. exact (ex_intro _ of_two (ex_intro _ _ (ex_intro _ _ window))). Qed.
Print Assumptions C109_difference_refuted.

(** one line changed, one added at the end: the line that ended is reported empty *)
Example C109_case : let l1 := [[49]; [50]; [52]] in let l2 := [[49]; [51]; [52]; [53]] in
  gives from_list l1 l1 /\ gives from_list l2 l2 /\ ascending (hd 0) l1 /\ ascending (hd 0) l2 /\ NoDup l1 /\ NoDup l2 /\
  dump_diff from_list from_list 8 l1 l2 = Some [Left [50]; Right [51]; Right [53]] /\
  dump_diff from_list from_list 8 [[49]] [[49]; [51]] = Some [Left []; Right [51]].
Proof.
  cbv zeta. split; [apply list_gives; repeat constructor; discriminate|]. split; [apply list_gives; repeat constructor; discriminate|].
  split; [cbn; repeat constructor|]. split; [cbn; repeat constructor|].
  split; [repeat constructor; cbn; intuition discriminate|]. split; [repeat constructor; cbn; intuition discriminate|]. split; vm_compute; reflexivity.
Qed.

(** ** C110.  The dump has a line for each lexeme up to 0x3ffff with forms, in ascending order. *)
Theorem C110_dump : forall build info stack forms, answers build info forms -> (forall n, length (stack n) = 256%nat) ->
  exists lines, dump_of forms 0 lines /\ dump_dict build info stack = Ok (as_text lines).
Proof. exact dump_shows. Qed.
Print Assumptions C110_dump.

(** the dictionary answers with the forms of its records *)
Theorem C110_dictionary : forall A L junk stack, holds A L -> buildable L -> indexed A L -> unique_ids L -> plain_forms L ->
  (forall n, n <= 0x3ffff -> (length (lexkeylen n ++ junk n) = 16)%nat) -> (forall n, length (stack n) = 256%nat) ->
  exists forms lines, describes L forms /\ answers (dict_build A junk) (dict_info A junk) forms /\
    dump_of forms 0 lines /\ dump_dict (dict_build A junk) (dict_info A junk) stack = Ok (as_text lines).
Proof. exact dictionary_dump. Qed.
Print Assumptions C110_dictionary.

Definition demo_junk (n : N) : bytes := repeat 9 (16 - length (lexkeylen n)).
Definition plain_form (f : bytes) : bool := forallb (fun c => negb (c =? 0) && negb (c =? 10)) f && (length f <=? 251)%nat.
Definition first_line : res (bytes * N) := libmorph_get (dict_build demo2_arrays demo_junk) (dict_info demo2_arrays demo_junk) (fun _ => repeat 7 256) 2.
(** дом, сон, сон-то, как, под, Иван; the line of сон begins with 2, a tab, сон|00 *)
Example C110_case : holds demo2_arrays demo2_lexicon /\ buildable demo2_lexicon /\ indexed demo2_arrays demo2_lexicon /\ unique_ids demo2_lexicon /\ plain_forms demo2_lexicon /\
  (forall n, n <= 0x3ffff -> (length (lexkeylen n ++ demo_junk n) = 16)%nat) /\
  exists line, first_line = Ok (line, 3) /\ firstn 8 line = [50; 9; 241; 238; 237; 124; 48; 48].
Proof.
  split; [apply demo2_holds|]. split; [apply demo2_buildable|]. split; [apply demo2_indexed|]. split; [|split; [|split]].
  - intros key e key' e' H H' E. apply (record_item _ _ _ demo2_items_ok) in H. apply (record_item _ _ _ demo2_items_ok) in H'.
    cbn [demo2_items In] in H, H'.
    repeat match goal with K : _ \/ _ |- _ => destruct K as [K|K] | K : False |- _ => destruct K end;
      injection H as <- <-; injection H' as <- <-; try discriminate E; split; reflexivity.
  - intros key e st c fid f Hr Hc Hfid Hf. apply (record_item _ _ _ demo2_items_ok) in Hr.
    assert (G : forallb (fun ke => match class_of demo2_lexicon (oclass (snd ke)) with
        | Some (_, c) => forallb (fun k => forallb plain_form (requested c (fst ke) (stpost (snd ke)) (N.of_nat k))) (seq 0 256)
        | None => true end) demo2_items = true) by (vm_compute; reflexivity).
    rewrite forallb_forall in G. specialize (G _ Hr). cbn [fst snd] in G. rewrite Hc in G. rewrite forallb_forall in G.
    assert (Hk : In (N.to_nat fid) (seq 0 256)) by (apply in_seq; lia). specialize (G _ Hk). rewrite N2Nat.id, forallb_forall in G. specialize (G _ Hf).
    unfold plain_form in G. apply andb_true_iff in G as (G1 & G2). rewrite forallb_forall in G1. apply Nat.leb_le in G2. split; [|split; [|exact G2]].
    + intros X. specialize (G1 _ X). discriminate G1.
    + intros X. specialize (G1 _ X). discriminate G1.
  - intros n Hn. unfold demo_junk. rewrite app_length, repeat_length. assert (length (lexkeylen n) <= 16)%nat; [|lia].
    unfold lexkeylen. repeat match goal with |- context [if ?b then _ else _] => destruct b end; cbn [length]; lia.
  - eexists. split; vm_compute; reflexivity.
Qed.

(** ** C111.  A dump checked against the dictionary it was made of: nothing is reported. *)
Theorem C111_same_dictionary : forall build info stack forms, answers build info forms -> (forall n, length (stack n) = 256%nat) ->
  forall t, dump_dict build info stack = Ok t ->
  exists get2 fuel, (forall n, libmorph_get build info stack n = Ok (get2 n)) /\ dump_diff queue_get get2 fuel t 0 = Some [].
Proof. exact check_same. Qed.
Print Assumptions C111_same_dictionary.

(** any other file of ascending lines: the check ends with an edit script from the file to the dump of the dictionary *)
Theorem C111_other_file : forall build info stack forms, answers build info forms -> (forall n, length (stack n) = 256%nat) ->
  forall t l1, lines_of t l1 -> ~ In 0 t -> ascending line_id l1 ->
  exists get2 l2 fuel out, (forall n, libmorph_get build info stack n = Ok (get2 n)) /\ dump_of forms 0 l2 /\
    dump_diff queue_get get2 fuel t 0 = Some out /\ edit l1 l2 out /\ (out = [] <-> l1 = l2).
Proof. exact check_other. Qed.
Print Assumptions C111_other_file.

(** but nothing reported does not mean the same forms: abc, abcd and abc, abd are dumped alike *)
Theorem C111_changed_forms_refuted : exists build info forms build' info' forms',
  answers build info forms /\ answers build' info' forms' /\ forms 1 1 <> forms' 1 1 /\
  forall stack, (forall n, length (stack n) = 256%nat) -> dump_dict build info stack = dump_dict build' info' stack.
Proof. exact (ex_intro _ _ (ex_intro _ _ (ex_intro _ _ (ex_intro _ _ (ex_intro _ _ (ex_intro _ _ same_dump)))))). Qed.
Print Assumptions C111_changed_forms_refuted.

(** a file of two lines, the second without a newline *)
Example C111_case : lines_of [49; 9; 97; 10; 98; 9] [[49; 9; 97]; [98; 9]] /\ ascending line_id [[49; 9; 97]; [98; 9]] /\
  queue_get [49; 9; 97; 10; 98; 9] = ([49; 9; 97], [98; 9]) /\ queue_get [98; 9] = ([98; 9], []).
Proof.
  split; [|split; [|split; vm_compute; reflexivity]].
  - apply (lines_more [49; 9; 97] [98; 9]); [discriminate|cbn; intuition discriminate|]. apply lines_last; [discriminate|cbn; intuition discriminate].
  - cbn [ascending]. split; [|split; [constructor|exact I]]. repeat constructor.
Qed.
