(** * PropDumpLemmas: the lemmas and the examples of Prop_Dump. *)
From Coq Require Import String.
From Verif Require Import Base Serial WordTree Stems GramMap RusRuntime Compile CompileSpec CompileDemo2 Api EngRuntime EngCompile EngCompileSpec PropEngCompileLemmas RusText RusTextSpec RusTextDemo PropRusTextLemmas Fuzzy FuzzySpec PropFuzzyLemmas
  Dump DumpSpec DumpSpec2 DumpProofs DumpProofs2 DumpProofs3 DumpProofs4 DumpProofs5.
Local Open Scope N_scope.
Local Open Scope list_scope.
Notation length := List.length.

(** ** Dumps *)

Lemma dump_reads can nspace header folder output name pieces path : header = [] \/ only_comments header -> nspace = [] \/ is_name nspace = true ->
  output <> [] -> is_name name = true -> array_contents (concat pieces) -> in_folder folder output path -> can path = true ->
  exists t, dump_one can nspace header folder output name pieces = Ok (Some [(path, t)]) /\
    read_source t = Some (Source (match nspace with [] => None | _ => Some nspace end) [Bytes_array name (concat pieces)]).
Proof.
  intros H1 H2 H3 H4 H5 H6 H7. rewrite (in_folder_unique _ _ _ _ H6 (in_folder_path folder output)) in *.
  destruct (dump_one_reads can nspace header folder output name pieces H1 H2 H3 H4 H5 H7) as (t & E & R). exists t. split; [exact E|].
  rewrite R. destruct nspace; reflexivity.
Qed.
Lemma dump_cut can nspace header folder output name p1 p2 : concat p1 = concat p2 -> dump_one can nspace header folder output name p1 = dump_one can nspace header folder output name p2.
Proof. intros E. unfold dump_one, dumper_dump, dump_text. rewrite !put_pieces_eq, E. reflexivity. Qed.
Lemma put_buff_stored buf : forall stored, stored < 2 ^ 32 -> snd (put_buff stored buf) = (stored + N.of_nat (length buf)) mod 2 ^ 32.
Proof.
  induction buf as [|b buf IH]; intros stored H; cbn [put_buff length]; [rewrite N.add_0_r, N.mod_small by assumption; reflexivity|].
  specialize (IH ((stored + 1) mod 2 ^ 32) ltac:(apply N.mod_lt; discriminate)).
  destruct (put_buff ((stored + 1) mod 2 ^ 32) buf) as [t s]. cbn [snd] in *. rewrite IH, N.add_mod_idemp_l by discriminate. f_equal. lia.
Qed.
Lemma dump_wraps buf b : N.of_nat (length buf) = 2 ^ 32 -> put_pieces 0 [buf; [b]] = put_pieces 0 [buf] ++ [48; 120] ++ print_hex 2 b.
Proof.
  intros H. cbn [put_pieces]. pose proof (put_buff_stored buf 0 eq_refl) as S. rewrite H in S. destruct (put_buff 0 buf) as [t s]. cbn [snd] in S.
  change ((0 + 2 ^ 32) mod 2 ^ 32) with 0 in S. subst s. cbn [put_buff put_byte app]. rewrite !app_nil_r. reflexivity.
Qed.
Lemma dump_total can nspace header folder output name pieces path : output <> [] -> in_folder folder output path ->
  can path = false -> dump_one can nspace header folder output name pieces = Ok None.
Proof. intros H1 H6 H7. rewrite (in_folder_unique _ _ _ _ H6 (in_folder_path folder output)) in *. apply dump_one_refused; assumption. Qed.

(** ** Options that are decided by running the parser *)

Lemma rus_options_by args vals dicts : parse_args rus_switches (repeat [] 8) [] args = Some (vals, dicts) ->
  rus_options args (nth 0 vals []) (nth 1 vals []) (nth 2 vals []) (nth 3 vals []) (default (nth 4 vals []) (text "./")) (nth 5 vals [])
    (default (nth 6 vals []) (text "__libmorphrus__")) dicts.
Proof.
  intros E. destruct rus_keys as [K1 K2]. pose proof (parse_spec rus_switches args K1 K2) as S. change (map (fun _ : bytes => @nil N) rus_switches) with (repeat (@nil N) 8) in S.
  rewrite E in S. destruct S as (Ho & -> & ->).
  assert (V : forall key, In key rus_switches -> value_of key args (value_after key args)).
  { intros key Hk. apply value_of_iff; [|reflexivity]. rewrite Forall_forall in K2. auto. }
  unfold rus_options. split; [exact Ho|].
  split; [apply (V (text "flex-table")); vm_compute; tauto|]. split; [apply (V (text "flex-index")); vm_compute; tauto|]. split; [apply (V (text "intr-table")); vm_compute; tauto|].
  split; [apply (V (text "intr-index")); vm_compute; tauto|]. split; [exists (value_after (text "target-dir") args); split; [apply V; vm_compute; tauto|reflexivity]|].
  split; [apply (V (text "unknown")); vm_compute; tauto|]. split; [exists (value_after (text "namespace") args); split; [apply V; vm_compute; tauto|reflexivity]|].
  apply plain_filter. reflexivity.
Qed.
Lemma rus_disorder args : parse_args rus_switches (repeat [] 8) [] args = None -> ~ in_order rus_keys_known args.
Proof.
  intros E. destruct rus_keys as [K1 K2]. pose proof (parse_spec rus_switches args K1 K2) as S. change (map (fun _ : bytes => @nil N) rus_switches) with (repeat (@nil N) 8) in S.
  rewrite E in S. exact S.
Qed.
Lemma eng_options_by args vals dicts : parse_args eng_switches (repeat [] 3) [] args = Some (vals, dicts) ->
  eng_options args (default (nth 0 vals []) (text "./")) (nth 1 vals []) (default (nth 2 vals []) (text "__libmorpheng__")) dicts.
Proof.
  intros E. destruct eng_keys as [K1 K2]. pose proof (parse_spec eng_switches args K1 K2) as S. change (map (fun _ : bytes => @nil N) eng_switches) with (repeat (@nil N) 3) in S.
  rewrite E in S. destruct S as (Ho & -> & ->).
  assert (V : forall key, In key eng_switches -> value_of key args (value_after key args)).
  { intros key Hk. apply value_of_iff; [|reflexivity]. rewrite Forall_forall in K2. auto. }
  unfold eng_options. split; [exact Ho|].
  split; [exists (value_after (text "target-dir") args); split; [apply V; vm_compute; tauto|reflexivity]|].
  split; [apply (V (text "unknown")); vm_compute; tauto|]. split; [exists (value_after (text "namespace") args); split; [apply V; vm_compute; tauto|reflexivity]|].
  apply plain_filter. reflexivity.
Qed.
Lemma eng_disorder args : parse_args eng_switches (repeat [] 3) [] args = None -> ~ in_order eng_keys_known args.
Proof.
  intros E. destruct eng_keys as [K1 K2]. pose proof (parse_spec eng_switches args K1 K2) as S. change (map (fun _ : bytes => @nil N) eng_switches) with (repeat (@nil N) 3) in S.
  rewrite E in S. exact S.
Qed.

Definition contentsb (b : bytes) : bool := nonempty b && forallb (fun c => c <? 256) b && (N.of_nat (length b) <=? 2 ^ 32).
Lemma contentsb_ok b : contentsb b = true -> array_contents b.
Proof.
  unfold contentsb. rewrite !andb_true_iff. intros [[H1 H2] H3]. split; [apply nonempty_iff, H1|]. split; [|apply N.leb_le, H3].
  unfold is_bytes. apply Forall_forall. intros c Hc. rewrite forallb_forall in H2. apply N.ltb_lt, H2, Hc.
Qed.

(** ** makerus *)

Definition rus_demo_fs (n : bytes) : option bytes :=
  if list_eq_dec N.eq_dec n (text "f.tab") then Some (tb_flex demo_tables)
  else if list_eq_dec N.eq_dec n (text "m.tab") then Some (tb_mix demo_tables)
  else if list_eq_dec N.eq_dec n (text "words.txt") then Some demo_file
  else if list_eq_dec N.eq_dec n (text "f.idx") then Some [1]
  else if list_eq_dec N.eq_dec n (text "m.idx") then Some [2] else None.
Definition rus_demo_args : list bytes :=
  map text ["-flex-table=f.tab"; "-flex-index:f.idx"; "words.txt"; "-intr-table="; "-intr-table=m.tab"; "-intr-index=m.idx"; "-target-dir=out"; "-unknown=unk.txt"]%string.
Definition rus_demo_findex (b : bytes) : option (list (bytes * N)) := match b with [1] => Some (tb_findex demo_tables) | _ => None end.
Definition rus_demo_mindex (b : bytes) : option (list (bytes * list (N * bytes))) := match b with [2] => Some (tb_mindex demo_tables) | _ => None end.
Definition by_two (b : bytes) : list bytes := [firstn 2 b; skipn 2 b].
Lemma by_two_ok b : concat (by_two b) = b.
Proof. unfold by_two. cbn [concat]. rewrite app_nil_r. apply firstn_skipn. Qed.
Lemma rus_demo_options : rus_options rus_demo_args (text "f.tab") (text "f.idx") (text "m.tab") (text "m.idx") (text "out") (text "unk.txt") (text "__libmorphrus__") [text "words.txt"].
Proof. exact (rus_options_by rus_demo_args (map text ["f.tab"; "f.idx"; "m.tab"; "m.idx"; "out"; "unk.txt"; ""; ""]%string) [text "words.txt"] eq_refl). Qed.
Lemma rus_demo_contents : Forall (fun a => array_contents (snd a)) (rus_arrays ys_compiled).
Proof. apply Forall_forall. intros a Ha. apply contentsb_ok. revert a Ha. apply forallb_forall. vm_compute. reflexivity. Qed.

(** ** makeeng *)

Definition eng_demo_file : bytes := flat_map (fun l => l ++ [10]) elines.
Definition eng_demo_fs (n : bytes) : option bytes := if list_eq_dec N.eq_dec n (text "eng.txt") then Some eng_demo_file else None.
Definition eng_demo_args : list bytes := map text ["-namespace:demo"; "eng.txt"; "-unknown=notes"]%string.
Lemma eng_demo_options : eng_options eng_demo_args (text "./") (text "notes") (text "demo") [text "eng.txt"].
Proof. exact (eng_options_by eng_demo_args (map text [""; "notes"; "demo"]%string) [text "eng.txt"] eq_refl). Qed.
Lemma eng_demo_compiles : ecompile (flat_map (file_lines (fun c => c)) [eng_demo_file]) = Ok (Some (arrays_of elines)).
Proof. vm_compute. reflexivity. Qed.
Lemma eng_demo_comments : comments (flat_map (file_lines (fun c => c)) [eng_demo_file]) [text "// names"].
Proof. apply comments_flat. vm_compute. reflexivity. Qed.
Lemma eng_demo_contents : Forall (fun a => array_contents (snd a)) (eng_arrays (arrays_of elines)).
Proof. apply Forall_forall. intros a Ha. apply contentsb_ok. revert a Ha. apply forallb_forall. vm_compute. reflexivity. Qed.

(** ** compile-dict *)

Definition guess_demo_parse (b : bytes) : option (list class_src) := match b with [7] => Some guess_src | _ => None end.
Definition guess_demo_fs (n : bytes) : option bytes := if list_eq_dec N.eq_dec n (text "in.json") then Some [7] else None.
Definition guess_demo_args : list bytes := map text ["in.json"; "-ns=one"; "out.cpp"; "-nspace=two"]%string.
Definition guess_demo_pieces (l : list (bytes * list class_ref)) : list bytes := [reverse_dict guess_arrays].
