(** * Properties C26, C27: search by pattern (FindMatch of the windows-1251 Russian analyser).  STATEMENTS ONLY.
    [glob], [has_form], [matching], [runs], [deliver], [call_fits] are in WildSpec.v, the dictionary vocabulary in RusSpec.v.
    The search reads one byte behind the last node unless some record has the empty stem: [rest <> [] \/ lookup [] (words L) <> None].
    [add] is the caller's AddLexeme; [junk] and [buf] are the previous contents of the two 48-byte stack arrays. *)
From Verif Require Import Base Serial WordTree TreeSpec Stems StemSpec CharTables CapScheme CapSpec GramMap RusRuntime RusSpec RusDemo RusDemo2
  Wild WildSpec WildProofs4 PropWildLemmas.
Local Open Scope N_scope.

(** ** C26.  What is delivered are forms described by the pattern (in lower case), with their identifiers, and every such form
    is delivered, except that forms with a postfix directly after the stem may be missed.
    Missing to the full property: words without inflexion but with a postfix (refuted below), postfixes directly after the
    stem (refuted below). *)
Theorem C26_find_match_partial : forall A L w psz cch rest,
  holds A L -> fixed_plain L -> strings_within 47 L ->
  stemtree A = stemtree_bytes (words L) ++ rest -> rest <> [] \/ lookup [] (words L) <> None ->
  (forall key e, has_record (words L) key e -> nlexid e <> 0) ->
  given w psz cch -> is_bytes w -> w <> [] -> (length w < 48)%nat -> (length (parts rus_casing w) <= 16)%nat ->
  exists evs : list (N * bytes * N),
    (forall U (add : U -> N -> list (bytes * N) -> U * Z) junk buf u, length junk = 48%nat -> length buf = 48%nat ->
       Forall call_fits (runs evs) -> find_match add A junk buf psz cch u = Ok (deliver add (runs evs) u)) /\
    (forall lid str id, In (lid, str, id) evs -> matching L (map (locase rus_casing) w) lid str id) /\
    (bounds_ok L -> forall key e part str id, has_form L key e part str id -> glob (map (locase rus_casing) w) str -> ~ In 42 str ->
       part <> [] \/ match stpost e with [] => True | b :: _ => chrmin e <= b <= chrmax e end -> In (nlexid e, str, id) evs).
Proof.
  intros A L w psz cch rest H1 H2 H3 H4 H5 H6 H7 H8 H9 H10 H11.
  destruct (find_match_eq A L w psz cch rest H1 H2 H3 H4 H5 H6 H7 H8 H9 H10 H11) as (evs & K1 & K2 & K3). exists evs. split; [|auto].
  intros U add junk buf u J1 J2 F. apply (K1 U add junk buf u J1 J2). exact F.
Qed.
Print Assumptions C26_find_match_partial.

(** no pattern, and patterns that do not fit *)
Theorem C26_degenerate : forall U (add : U -> N -> list (bytes * N) -> U * Z) A junk buf u cch,
  find_match add A junk buf None cch u = Ok (u, (-5)%Z) /\
  (forall psz, given [] psz cch -> find_match add A junk buf psz cch u = Ok (u, 0%Z)) /\
  (forall w psz, given w psz cch -> (48 <= length w)%nat -> find_match add A junk buf psz cch u = Ok (u, (-4)%Z)).
Proof. exact @find_match_degenerate. Qed.
Print Assumptions C26_degenerate.

(** a word without inflexion but with a postfix is reported by its stem alone, for patterns that describe the stem *)
Theorem C26_fixed_postfix_refuted : exists A L w lid str id, holds A L /\ strings_within 47 L /\ is_bytes w /\ length w = 3%nat /\
  (exists ms, find_match note A (repeat 7 48) (repeat 9 48) (Some w) 3 [] = Ok ([(3, [(str, id)]); (lid, ms)], 0%Z) /\ In (str, id) ms) /\
  ~ matching L (map (locase rus_casing) w) lid str id.
Proof. exact fixed_wrong. Qed.
Print Assumptions C26_fixed_postfix_refuted.

(** a form with a postfix directly after the stem is not found even by its own spelling *)
Theorem C26_postfix_refuted : exists A L w key e str id, holds A L /\ bounds_ok L /\ strings_within 47 L /\
  has_form L key e [] str id /\ glob (map (locase rus_casing) w) str /\ ~ In 42 str /\
  find_match note A (repeat 7 48) (repeat 9 48) (Some w) (N.of_nat (length w)) [] = Ok ([], 0%Z).
Proof. exact postfix_missed. Qed.
Print Assumptions C26_postfix_refuted.

Example C26_case : holds wild_arrays demo2_lexicon /\ fixed_plain demo2_lexicon /\ strings_within 47 demo2_lexicon /\
  stemtree wild_arrays = stemtree_bytes (words demo2_lexicon) ++ [0] /\
  (forall key e, has_record (words demo2_lexicon) key e -> nlexid e <> 0) /\ bounds_ok demo2_lexicon /\
  (* "?о?" *) searched wild_arrays [63; 238; 63] = Ok ([(2, [([241; 238; 237], 0); ([241; 238; 237], 3)]); (300, [([239; 238; 228], 255)]);
                                                         (1, [([228; 238; 236], 0); ([228; 238; 236], 3)])], 0%Z) /\
  (* "С*О" *) searched wild_arrays [209; 42; 206] = Ok ([(6, [([241; 237; 251; 45; 242; 238], 10); ([241; 237; 224; 45; 242; 238], 10);
       ([241; 237; 224; 45; 242; 238], 1); ([241; 238; 237; 45; 242; 238], 0); ([241; 238; 237; 45; 242; 238], 3)])], 0%Z).
Proof.
  split; [apply wild_holds|]. split; [apply wild_plain|]. split; [apply wild_within|]. split; [reflexivity|]. split; [apply wild_ids|].
  split; [exact (small_bounds demo2_items demo2_items_ok)|]. split; vm_compute; reflexivity.
Qed.

(** ** C27.  The search is defined exactly when every call fits the match arrays: at most 512 matches and 24576 bytes.
    Missing to the full property: nothing in the code ensures this, and matches are repeated (both refuted below). *)
Theorem C27_defined_partial : forall A L w psz cch rest,
  holds A L -> fixed_plain L -> strings_within 47 L ->
  stemtree A = stemtree_bytes (words L) ++ rest -> rest <> [] \/ lookup [] (words L) <> None ->
  (forall key e, has_record (words L) key e -> nlexid e <> 0) ->
  given w psz cch -> is_bytes w -> w <> [] -> (length w < 48)%nat -> (length (parts rus_casing w) <= 16)%nat ->
  exists evs : list (N * bytes * N),
    (forall lid str id, In (lid, str, id) evs -> matching L (map (locase rus_casing) w) lid str id) /\
    forall U (add : U -> N -> list (bytes * N) -> U * Z) junk buf u, length junk = 48%nat -> length buf = 48%nat ->
      (Forall call_fits (runs evs) -> find_match add A junk buf psz cch u = Ok (deliver add (runs evs) u)) /\
      (~ Forall call_fits (runs evs) -> find_match add A junk buf psz cch u = Ub).
Proof.
  intros A L w psz cch rest H1 H2 H3 H4 H5 H6 H7 H8 H9 H10 H11.
  destruct (find_match_eq A L w psz cch rest H1 H2 H3 H4 H5 H6 H7 H8 H9 H10 H11) as (evs & K1 & K2 & K3). exists evs. split; [exact K2|exact K1].
Qed.
Print Assumptions C27_defined_partial.

(** "д*а" reports "дома" twice with each of its identifiers *)
Theorem C27_repeated_refuted : exists A L w lid m before between after, holds A L /\ bounds_ok L /\ strings_within 47 L /\ fixed_plain L /\
  find_match note A (repeat 7 48) (repeat 9 48) (Some w) (N.of_nat (length w)) [] = Ok ([(lid, before ++ m :: between ++ m :: after)], 0%Z) /\
  length w = 3%nat.
Proof. exact repeated. Qed.
Print Assumptions C27_repeated_refuted.

(** the repetitions multiply: a letter and six asterisks overrun the match array with a dictionary of six words *)
Theorem C27_overrun_refuted : exists A L w, holds A L /\ bounds_ok L /\ strings_within 47 L /\ fixed_plain L /\ is_bytes w /\ (length w < 48)%nat /\
  forall U (add : U -> N -> list (bytes * N) -> U * Z) u,
    find_match add A (repeat 7 48) (repeat 9 48) (Some w) (N.of_nat (length w)) u = Ub.
Proof. exact overrun. Qed.
Print Assumptions C27_overrun_refuted.

(** the pattern "?" reads the byte behind the stem tree *)
Theorem C27_read_past_refuted : exists A L, holds A L /\ stemtree A = stemtree_bytes (words L) /\ bounds_ok L /\ strings_within 47 L /\ fixed_plain L /\
  forall U (add : U -> N -> list (bytes * N) -> U * Z) u,
    find_match add A (repeat 7 48) (repeat 9 48) (Some [63]) 1 u = Ub.
Proof. exact read_past. Qed.
Print Assumptions C27_read_past_refuted.

(** a match of lexeme 0 is stored through an uninitialised pointer *)
Theorem C27_lexeme_zero_refuted : exists A L rest, holds A L /\ stemtree A = stemtree_bytes (words L) ++ rest /\ rest <> [] /\ bounds_ok L /\ strings_within 47 L /\ fixed_plain L /\
  forall U (add : U -> N -> list (bytes * N) -> U * Z) u,
    find_match add A (repeat 7 48) (repeat 9 48) (Some [228; 238; 236]) 3 u = Ub.
Proof. exact zero_id. Qed.
Print Assumptions C27_lexeme_zero_refuted.

Example C27_case : searched wild_arrays [42] <> Ub /\ searched wild_arrays (42 :: 42 :: nil) <> Ub.
Proof. split; vm_compute; discriminate. Qed.
