(** * Prop_Dump: the source files the compilers write, and their command lines. *)
From Coq Require Import String.
From Verif Require Import Base Serial WordTree Stems GramMap RusRuntime Compile CompileSpec CompileDemo2 Api EngRuntime EngCompile EngCompileSpec PropEngCompileLemmas RusText RusTextSpec RusTextDemo PropRusTextLemmas Fuzzy FuzzySpec PropFuzzyLemmas
  Dump DumpSpec DumpSpec2 DumpProofs DumpProofs2 DumpProofs3 DumpProofs4 DumpProofs5 PropDumpLemmas.
Local Open Scope N_scope.
Local Open Scope list_scope.
Notation length := List.length.

(** ** C103.  A dump is a C++ source file that defines one array of unsigned char, of the name and in the namespace asked for, with exactly the bytes serialized, however
    the serialization hands them over; it is in the folder asked for.  A file that cannot be created throws. *)
Theorem C103_reads : forall can nspace header folder output name pieces path,
  header = [] \/ only_comments header -> nspace = [] \/ is_name nspace = true -> output <> [] -> is_name name = true ->
  array_contents (concat pieces) -> in_folder folder output path -> can path = true ->
  exists t, dump_one can nspace header folder output name pieces = Ok (Some [(path, t)]) /\
    read_source t = Some (Source (match nspace with [] => None | _ => Some nspace end) [Bytes_array name (concat pieces)]).
Proof. exact dump_reads. Qed.
Print Assumptions C103_reads.

Theorem C103_pieces : forall can nspace header folder output name p1 p2, concat p1 = concat p2 ->
  dump_one can nspace header folder output name p1 = dump_one can nspace header folder output name p2.
Proof. exact dump_cut. Qed.
Print Assumptions C103_pieces.

Theorem C103_refused : forall can nspace header folder output name pieces path, output <> [] -> in_folder folder output path -> can path = false ->
  dump_one can nspace header folder output name pieces = Ok None.
Proof. exact dump_total. Qed.
Print Assumptions C103_refused.

(** Not for the empty object: the initialiser without values is no array.  And not behind 2^32 bytes: the counter is 0 again, and the comma in front of the next byte is missing. *)
Theorem C103_empty_refuted : exists t, dump_one (fun _ => true) (text "ns") [] [] (text "a.cpp") (text "a") [] = Ok (Some [(text "a.cpp", t)]) /\ read_source t = None.
Proof. eexists. split; [vm_compute; reflexivity|vm_compute; reflexivity]. Qed.
Print Assumptions C103_empty_refuted.

Theorem C103_wraps_refuted : forall buf b, N.of_nat (length buf) = 2 ^ 32 -> put_pieces 0 [buf; [b]] = put_pieces 0 [buf] ++ [48; 120] ++ print_hex 2 b.
Proof. exact dump_wraps. Qed.
Print Assumptions C103_wraps_refuted.

Example C103_case : only_comments rus_license /\ is_name (text "__libmorphrus__") = true /\ array_contents (concat [[0; 255]; []; [16; 10; 1; 2; 3; 4; 5; 6; 7; 8; 9]]) /\
  in_folder (text "out") (text "t.cpp") (text "out/t.cpp") /\
  dump_one (fun _ => true) (text "ns") (text "// x") (text "out") (text "t.cpp") (text "tab") [[0; 255]; []; [16; 10; 1; 2; 3; 4; 5; 6; 7; 8; 9]] =
  Ok (Some [(text "out/t.cpp", text "// x
namespace ns
{

  unsigned char tab[] =
  {
    0x00,0xff,0x10,0x0a,0x01,0x02,0x03,0x04,0x05,0x06,0x07,0x08,
    0x09
  };

}  // end namespace

")]).
Proof.
  split; [vm_compute; reflexivity|]. split; [reflexivity|]. split; [apply contentsb_ok; vm_compute; reflexivity|]. split; [apply in_folder_path|]. vm_compute. reflexivity.
Qed.

(** ** C104.  Command lines: an unknown switch, a switch repeated after it has got a value, a missing table, or no dictionary: makerus ends with EFAULT and writes nothing.
    makeeng then ends by an exception nobody catches.  A dictionary that cannot be opened ends makerus with EFAULT.  compile-dict ends with EINVAL for unknown
    switches and a third file. *)
Theorem C104_makerus : forall load_findex load_mindex depth conv cut can fs args, args <> [] ->
  ~ in_order rus_keys_known args \/
  (exists key, In key (map text ["flex-table"; "flex-index"; "intr-table"; "intr-index"]%string) /\ (value_of key args [] \/ exists n, value_of key args n /\ fs n = None)) \/
  plain args [] ->
  makerus load_findex load_mindex depth conv cut can fs args = Ok (Run (Exit efault) []).
Proof. exact makerus_refuses. Qed.
Print Assumptions C104_makerus.

Theorem C104_dictionary_missing : forall load_findex load_mindex depth conv cut can fs args dicts n, plain args dicts -> In n dicts -> fs n = None ->
  forall r, makerus load_findex load_mindex depth conv cut can fs args = Ok r -> r_ending r = Exit efault.
Proof. exact makerus_missing. Qed.
Print Assumptions C104_dictionary_missing.

Theorem C104_makeeng : forall conv cut can fs about_length args, args <> [] -> ~ in_order eng_keys_known args \/ plain args [] ->
  makeeng conv cut can fs about_length args = Ok (Run Terminated []).
Proof. exact makeeng_refuses. Qed.
Print Assumptions C104_makeeng.

Theorem C104_compile_dict : forall parse dict_pieces default_ns sort can fs argv0 args,
  ~ switches_known args \/ switches_known args /\ (exists a b c l, plain args (a :: b :: c :: l)) ->
  compile_dict parse dict_pieces default_ns sort can fs argv0 args = Ok (Run (Exit einval) []).
Proof.
  intros parse dict_pieces default_ns sort can fs argv0 args [H|(H & a & b & c & l & Hp)]; unfold compile_dict.
  - rewrite guess_args_unknown by assumption. reflexivity.
  - rewrite (guess_args_eq args None None None (a :: b :: c :: l)) by auto. reflexivity.
Qed.
Print Assumptions C104_compile_dict.

Example C104_case : (* a switch without value may be repeated *)
  ~ in_order rus_keys_known (rus_demo_args ++ [text "-unknown=again"]) /\ ~ in_order rus_keys_known [text "-flex=f.tab"] /\ in_order rus_keys_known rus_demo_args /\
  ~ in_order eng_keys_known (map text ["-target-dir=a"; "x"; "-target-dir:b"]%string) /\ plain [text "-target-dir=a"] [] /\
  plain (map text ["a"; "-ns=q"; "b"; "c"]%string) (map text ["a"; "b"; "c"]%string) /\ switches_known (map text ["a"; "-ns=q"; "b"; "c"]%string) /\ ~ switches_known [text "-name=x"].
Proof.
  split; [apply rus_disorder; vm_compute; reflexivity|]. split; [apply rus_disorder; vm_compute; reflexivity|]. split; [exact (proj1 rus_demo_options)|].
  split; [apply eng_disorder; vm_compute; reflexivity|]. split; [apply plain_filter; reflexivity|]. split; [apply plain_filter; reflexivity|]. split.
  - intros arg Ha (x & ->). cbn [map In] in Ha. destruct Ha as [H|[H|[H|[H|[]]]]]; try discriminate. exists (text "q"). left. symmetry. exact H.
  - intros H. destruct (H (text "-name=x") (or_introl eq_refl)) as (v & [E|E]); [eexists; reflexivity| |]; discriminate.
Qed.

(** ** C105.  makerus: the files it writes define the arrays compiled from the tables and the dictionaries named, in the folder and the namespace named, and list the lines
    it has not understood; there are no other files.  If it fails before the arrays, or anywhere when files can be created, it writes none of the arrays. *)
Theorem C105_makerus : forall load_findex load_mindex depth conv cut can fs args ftab fidx mtab midx folder unk ns dicts ft fi fit mt mi mit files A unknown,
  (forall b, concat (cut b) = b) -> rus_options args ftab fidx mtab midx folder unk ns dicts ->
  ftab <> [] -> fidx <> [] -> mtab <> [] -> midx <> [] -> dicts <> [] ->
  fs ftab = Some ft -> fs fidx = Some fit -> load_findex fit = Some fi -> fs mtab = Some mt -> fs midx = Some mit -> load_mindex mit = Some mi ->
  Forall2 (fun d f => fs d = Some f) dicts files ->
  rcompile depth (Tables ft fi mt mi) conv files = Ok (Some (A, unknown)) ->
  unk = [] \/ can unk = true -> (forall a path, In a (rus_arrays A) -> in_folder folder (fst a ++ text ".cpp") path -> can path = true) ->
  is_name ns = true -> Forall (fun a => array_contents (snd a)) (rus_arrays A) ->
  exists ul ws, makerus load_findex load_mindex depth conv cut can fs args = Ok (Run (Exit 0) (ul ++ ws)) /\
    lists_lines unk unknown ul /\ defines_arrays folder ns (rus_arrays A) ws.
Proof.
  intros load_findex load_mindex depth conv cut can fs args ftab fidx mtab midx folder unk ns dicts ft fi fit mt mi mit files A unknown Hcut Ho H1 H2 H3 H4 H5 E1 E2 E3 E4 E5 E6.
  apply (makerus_run load_findex load_mindex depth conv cut can fs args ftab fidx mtab midx folder unk ns dicts (Tables ft fi mt mi) files A unknown Hcut Ho H1 H2 H3 H4 H5).
  unfold load_tables. rewrite E1, E2, E4, E5, E3, E6. reflexivity.
Qed.
Print Assumptions C105_makerus.

Theorem C105_fails : forall load_findex load_mindex depth conv cut can fs args, (forall p, can p = true) ->
  forall r, makerus load_findex load_mindex depth conv cut can fs args = Ok r -> r_ending r <> Exit 0 ->
  r_ending r = Exit efault /\ forall p t, In (p, t) (r_written r) -> value_of (text "unknown") args p.
Proof. exact makerus_fails. Qed.
Print Assumptions C105_fails.

Definition names_and_ends (r : res run) : option (ending * list bytes) := match r with Ok r => Some (r_ending r, map fst (r_written r)) | Ub => None end.
Example C105_case : (forall b, concat (by_two b) = b) /\
  rus_options rus_demo_args (text "f.tab") (text "f.idx") (text "m.tab") (text "m.idx") (text "out") (text "unk.txt") (text "__libmorphrus__") [text "words.txt"] /\
  rus_demo_fs (text "f.tab") = Some (tb_flex demo_tables) /\
  match rus_demo_fs (text "f.idx") with Some t => rus_demo_findex t | None => None end = Some (tb_findex demo_tables) /\
  rus_demo_fs (text "m.tab") = Some (tb_mix demo_tables) /\
  match rus_demo_fs (text "m.idx") with Some t => rus_demo_mindex t | None => None end = Some (tb_mindex demo_tables) /\
  Forall2 (fun d f => rus_demo_fs d = Some f) [text "words.txt"] [demo_file] /\
  rcompile 8 demo_tables (fun c => c) [demo_file] = Ok (Some (ys_compiled, demo_unknown)) /\ Forall (fun a => array_contents (snd a)) (rus_arrays ys_compiled) /\
  names_and_ends (makerus rus_demo_findex rus_demo_mindex 8 (fun c => c) by_two (fun _ => true) rus_demo_fs rus_demo_args) =
    Some (Exit 0, map text ["unk.txt"; "out/stemtree.cpp"; "out/lidstree.cpp"; "out/mxTables.cpp"; "out/flexTree.cpp"; "out/mixTypes.cpp"; "out/classmap.cpp"]%string) /\
  (* the second dictionary is missing *)
  names_and_ends (makerus rus_demo_findex rus_demo_mindex 8 (fun c => c) by_two (fun _ => true) rus_demo_fs (rus_demo_args ++ [text "more.txt"])) = Some (Exit efault, [text "unk.txt"]).
Proof.
  split; [exact by_two_ok|]. split; [exact rus_demo_options|]. do 4 (split; [vm_compute; reflexivity|]). split; [constructor; [vm_compute; reflexivity|constructor]|].
  split; [vm_compute; reflexivity|]. split; [exact rus_demo_contents|]. split; vm_compute; reflexivity.
Qed.

(** ** C106.  makeeng: the same; every failure ends the program by an exception that nobody catches. *)
Theorem C106_makeeng : forall conv cut can fs about_length args folder unk ns dicts files A us,
  (forall b, concat (cut b) = b) -> eng_options args folder unk ns dicts -> dicts <> [] ->
  Forall2 (fun d f => fs d = Some f) dicts files ->
  ecompile (flat_map (file_lines conv) files) = Ok (Some A) -> comments (flat_map (file_lines conv) files) us ->
  unk = [] \/ can unk = true -> (forall a path, In a (eng_arrays A) -> in_folder folder (fst a ++ text ".cpp") path -> can path = true) ->
  is_name ns = true -> Forall (fun a => array_contents (snd a)) (eng_arrays A) ->
  exists ul ws, makeeng conv cut can fs about_length args = Ok (Run (Exit 0) (ul ++ ws)) /\
    lists_lines unk us ul /\ defines_arrays folder ns (eng_arrays A) ws.
Proof. exact makeeng_run. Qed.
Print Assumptions C106_makeeng.

Theorem C106_fails : forall conv cut can fs about_length args, (forall p, can p = true) ->
  forall r, makeeng conv cut can fs about_length args = Ok r -> args <> [] -> r_ending r <> Exit 0 ->
  r_ending r = Terminated /\ forall p t, In (p, t) (r_written r) -> value_of (text "unknown") args p.
Proof. exact makeeng_fails. Qed.
Print Assumptions C106_fails.

Example C106_case : eng_options eng_demo_args (text "./") (text "notes") (text "demo") [text "eng.txt"] /\
  Forall2 (fun d f => eng_demo_fs d = Some f) [text "eng.txt"] [eng_demo_file] /\
  ecompile (flat_map (file_lines (fun c => c)) [eng_demo_file]) = Ok (Some (arrays_of elines)) /\ comments (flat_map (file_lines (fun c => c)) [eng_demo_file]) [text "// names"] /\
  is_name (text "demo") = true /\ Forall (fun a => array_contents (snd a)) (eng_arrays (arrays_of elines)) /\
  names_and_ends (makeeng (fun c => c) by_two (fun _ => true) eng_demo_fs 99 eng_demo_args) =
    Some (Exit 0, map text ["notes"; "./stemtree.cpp"; "./lidstree.cpp"; "./flexTree.cpp"; "./classmap.cpp"]%string) /\
  names_and_ends (makeeng (fun c => c) by_two (fun _ => true) eng_demo_fs 99 (eng_demo_args ++ [text "more.txt"])) = Some (Terminated, [text "notes"]).
Proof.
  split; [exact eng_demo_options|]. split; [constructor; [reflexivity|constructor]|]. split; [exact eng_demo_compiles|]. split; [exact eng_demo_comments|]. split; [reflexivity|]. split; [exact eng_demo_contents|].
  split; vm_compute; reflexivity.
Qed.

(** ** C107.  compile-dict: the file it writes defines the number of classes and the three arrays of the guesser (C42-C45); it writes nothing else, and nothing at all
    unless source and output are named and all classes are accepted. *)
Theorem C107_arrays : forall parse dict_pieces default_ns sort can fs argv0 args src output ns file cs t F,
  switches_known args -> plain args [src; output] -> ns_of default_ns args ns -> fs src = Some file -> parse file = Some cs -> cs <> [] ->
  Forall (fun c => class_accepted c = true) cs -> output <> [] -> can output = true -> ns = [] \/ is_name ns = true ->
  compiled sort cs t F -> concat (dict_pieces (index_classes 0 cs [])) = reverse_dict F ->
  array_contents (reverse_dict F) -> array_contents (class_tables F) -> N.of_nat (length (class_tables F)) < 2 ^ 32 -> N.of_nat (length cs) < 2 ^ 32 ->
  exists s, compile_dict parse dict_pieces default_ns sort can fs argv0 args = Ok (Run (Exit 0) [(output, s)]) /\
    read_source s = Some (Source (match ns with [] => None | _ => Some ns end)
      [Unsigned_variable (text "ClassNumber") (N.of_nat (length cs)); Unsigned_array (text "ClassOffset") (class_offset F);
       Bytes_array (text "ClassTables") (class_tables F); Bytes_array (text "ReverseDict") (reverse_dict F)]).
Proof. exact compile_dict_arrays. Qed.
Print Assumptions C107_arrays.

Theorem C107_writes : forall parse dict_pieces default_ns sort can fs argv0 args r, compile_dict parse dict_pieces default_ns sort can fs argv0 args = Ok r -> r_written r <> [] ->
  exists src output, switches_known args /\ plain args [src; output] /\ r_ending r = Exit 0 /\ map fst (r_written r) = [output] /\
    exists file cs, fs src = Some file /\ parse file = Some cs /\ cs <> [] /\ Forall (fun c => class_accepted c = true) cs.
Proof. exact compile_dict_writes. Qed.
Print Assumptions C107_writes.

(** Not when the output has an empty name, which makes a string of a null pointer; and the help needs a slash in the name of the program. *)
Theorem C107_empty_output_refuted : exists parse dict_pieces fs args, switches_known args /\ plain args [text "in.json"; []] /\ fs (text "in.json") <> None /\
  compile_dict parse dict_pieces (text "ns") (fun l => l) (fun _ => true) fs (text "./compile-dict") args = Ub.
Proof.
  exists guess_demo_parse, guess_demo_pieces, guess_demo_fs, [text "in.json"; []]. split; [|split; [apply plain_filter; reflexivity|split; [discriminate|vm_compute; reflexivity]]].
  intros arg Ha (x & ->). destruct Ha as [H|[H|[]]]; discriminate.
Qed.
Print Assumptions C107_empty_output_refuted.
Theorem C107_help_refuted : forall parse dict_pieces default_ns sort can fs, compile_dict parse dict_pieces default_ns sort can fs (text "compile-dict") [] = Ub /\
  compile_dict parse dict_pieces default_ns sort can fs (text "./compile-dict") [] = Ok (Run (Exit 0) []).
Proof. intros. split; reflexivity. Qed.
Print Assumptions C107_help_refuted.

Example C107_case : switches_known guess_demo_args /\ plain guess_demo_args [text "in.json"; text "out.cpp"] /\ ns_of (text "d") guess_demo_args (text "two") /\
  Forall (fun c => class_accepted c = true) guess_src /\ compiled (fun l => l) guess_src guess_tree guess_arrays /\
  concat (guess_demo_pieces (index_classes 0 guess_src [])) = reverse_dict guess_arrays /\ array_contents (reverse_dict guess_arrays) /\ array_contents (class_tables guess_arrays) /\
  N.of_nat (length (class_tables guess_arrays)) < 2 ^ 32 /\
  names_and_ends (compile_dict guess_demo_parse guess_demo_pieces (text "d") (fun l => l) (fun _ => true) guess_demo_fs [] guess_demo_args) = Some (Exit 0, [text "out.cpp"]).
Proof.
  split. { intros arg Ha (x & ->). cbn [guess_demo_args map In] in Ha. destruct Ha as [H|[H|[H|[H|[]]]]]; try discriminate; [exists (text "one"); left|exists (text "two"); right]; symmetry; exact H. }
  split; [apply plain_filter; reflexivity|]. split; [apply ns_of_iff; reflexivity|]. split; [repeat constructor|]. split; [exact guess_compiled|]. split; [vm_compute; reflexivity|].
  split; [apply contentsb_ok; vm_compute; reflexivity|]. split; [apply contentsb_ok; vm_compute; reflexivity|]. split; vm_compute; reflexivity.
Qed.
