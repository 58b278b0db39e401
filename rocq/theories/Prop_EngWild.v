(** * Property C54: search by pattern with the English analyser.  STATEMENTS ONLY.
    [glob], [deliver] are in WildSpec.v; [ehas_form], [elexeme_form] and the other words in EngWildSpec.v; articles in EngCompileSpec.v.
    [add] is the caller's AddLexeme; [junk] and [buf] are the previous contents of the two 48-byte stack arrays. *)
From Coq Require Import String.
From Verif Require Import Base Serial WordTree TreeSpec Stems StemSpec CharTables CapScheme CapSpec GramMap RusRuntime RusSpec Wild WildSpec
  EngRuntime EngSpec EngFormsSpec EngDemo EngWild EngWildSpec EngWildProofs2 Api EngCompile EngCompileSpec PropEngCompileLemmas PropEngWildLemmas.
Local Open Scope N_scope.
Local Open Scope list_scope.

(** ** C54.  The calls made contain forms described by the pattern (in lower case) with their numbers, and every such form is in
    a call, except that forms with a postfix directly after the stem may be missed; no call is empty or repeats a match.
    Missing to the full property: the excepted forms, fixed words with a postfix ([ebuildable]), lexemes delivered twice, and
    the memory conditions (all refuted below). *)
Theorem C54_find_match_partial : forall A L w psz cch rest,
  eholds A L -> ebuildable L -> estrings_within 47 L -> eforms_at_most 256 L ->
  e_stems A = stemtree_bytes (ewords L) ++ rest -> rest <> [] \/ lookup [] (ewords L) <> None ->
  (forall key e, has_record (ewords L) key e -> nlexid e <> 0) ->
  given w psz cch -> is_bytes w -> w <> [] -> (length w < 48)%nat -> (length (parts eng_casing w) <= 16)%nat ->
  exists calls : list (N * list (bytes * N)),
    (forall U (add : U -> N -> list (bytes * N) -> U * Z) junk buf u, length junk = 48%nat -> length buf = 48%nat ->
       efind_match add A junk buf psz cch u = Ok (deliver add calls u)) /\
    (forall lid ms str id, In (lid, ms) calls -> In (str, id) ms -> elexeme_form L lid str id /\ glob (map (locase eng_casing) w) str) /\
    (ebounds_ok L -> forall key e part str id, ehas_form L key e part str id -> glob (map (locase eng_casing) w) str -> ~ In 42 str ->
       part <> [] \/ match stpost e with [] => True | b :: _ => chrmin e <= b <= chrmax e end ->
       exists ms, In (nlexid e, ms) calls /\ In (str, id) ms) /\
    Forall (fun call => NoDup (snd call) /\ snd call <> []) calls /\ neighbours_differ calls.
Proof. exact efind_match_eq. Qed.
Print Assumptions C54_find_match_partial.

(** when every lexeme id has one record, its forms always fit *)
Theorem C54_forms_fit : forall A L, eholds A L -> single_records L -> eforms_at_most 256 L.
Proof. exact single_few. Qed.
Print Assumptions C54_forms_fit.

(** a dictionary compiled from its source files, one article for each lexeme id, one of them with the empty stem (the verb be) *)
Theorem C54_compiled_partial : forall lines xs A w psz cch,
  lists lines xs -> Forall few_homonyms xs -> N.of_nat (length xs) < 2 ^ 32 -> ecompile lines = Ok (Some A) -> earrays_fit A ->
  Forall abuildable xs -> (forall x y, In x xs -> In y xs -> a_id x = a_id y -> x = y) ->
  (exists x, In x xs /\ a_stem x = []) ->
  (forall x, In x xs -> (length (a_stem x) <= 47)%nat /\ forall part id, aform x part id -> (length (a_stem x) + length part + length (a_post x) <= 47)%nat) ->
  given w psz cch -> is_bytes w -> w <> [] -> (length w < 48)%nat -> (length (parts eng_casing w) <= 16)%nat ->
  exists calls : list (N * list (bytes * N)),
    (forall U (add : U -> N -> list (bytes * N) -> U * Z) junk buf u, length junk = 48%nat -> length buf = 48%nat ->
       efind_match add A junk buf psz cch u = Ok (deliver add calls u)) /\
    (forall lid ms str id, In (lid, ms) calls -> In (str, id) ms ->
       exists x part, In x xs /\ a_id x = lid /\ aform x part id /\ str = to_small (a_stem x) ++ part ++ a_post x /\ glob (map (locase eng_casing) w) str) /\
    (forall x part id, In x xs -> aform x part id -> let str := to_small (a_stem x) ++ part ++ a_post x in
       glob (map (locase eng_casing) w) str -> ~ In 42 str -> part <> [] \/ post_between x ->
       exists ms, In (a_id x, ms) calls /\ In (str, id) ms) /\
    Forall (fun call => NoDup (snd call) /\ snd call <> []) calls /\ neighbours_differ calls.
Proof. exact english_search. Qed.
Print Assumptions C54_compiled_partial.

(** no pattern, and patterns that do not fit *)
Theorem C54_degenerate : forall U (add : U -> N -> list (bytes * N) -> U * Z) A junk buf u cch,
  efind_match add A junk buf None cch u = Ok (u, (-5)%Z) /\
  (forall psz, given [] psz cch -> efind_match add A junk buf psz cch u = Ok (u, 0%Z)) /\
  (forall w psz, given w psz cch -> (48 <= length w)%nat -> efind_match add A junk buf psz cch u = Ok (u, (-4)%Z)).
Proof. exact @efind_match_degenerate. Qed.
Print Assumptions C54_degenerate.

(** a fixed word with a postfix is reported by its stem alone *)
Theorem C54_fixed_postfix_refuted : exists A L w lid str id rest, eholds A L /\ ebounds_ok L /\ estrings_within 47 L /\
  e_stems A = stemtree_bytes (ewords L) ++ rest /\ rest <> [] /\
  is_bytes w /\ length w = 2%nat /\ esearched A w = Ok ([(lid, [(str, id)])], 0%Z) /\ ~ elexeme_form L lid str id.
Proof. exact efixed_wrong. Qed.
Print Assumptions C54_fixed_postfix_refuted.

(** a form with a postfix directly after the stem is not found even by its own spelling *)
Theorem C54_postfix_refuted : exists A L w key e str id rest, eholds A L /\ ebuildable L /\ ebounds_ok L /\ estrings_within 47 L /\ eforms_at_most 256 L /\
  e_stems A = stemtree_bytes (ewords L) ++ rest /\ rest <> [] /\ ehas_form L key e [] str id /\ glob (map (locase eng_casing) w) str /\ ~ In 42 str /\
  esearched A w = Ok ([], 0%Z).
Proof. exact epostfix_missed. Qed.
Print Assumptions C54_postfix_refuted.

(** a lexeme and its match are delivered twice for "b*s*" *)
Theorem C54_repeated_refuted : exists A L w rest lid ms1 between ms2 after str id, eholds A L /\ ebuildable L /\ ebounds_ok L /\ estrings_within 47 L /\ single_records L /\
  e_stems A = stemtree_bytes (ewords L) ++ rest /\ rest <> [] /\ length w = 4%nat /\
  esearched A w = Ok ((lid, ms1) :: between ++ (lid, ms2) :: after, 0%Z) /\ In (str, id) ms1 /\ In (str, id) ms2.
Proof. exact erepeated. Qed.
Print Assumptions C54_repeated_refuted.

(** without a record for the empty stem the pattern "?" reads behind the array *)
Theorem C54_read_past_refuted : exists A L, eholds A L /\ ebuildable L /\ e_stems A = stemtree_bytes (ewords L) /\ ebounds_ok L /\ estrings_within 47 L /\ single_records L /\
  forall U (add : U -> N -> list (bytes * N) -> U * Z) u, efind_match add A (repeat 7 48) (repeat 9 48) (Some [63]) 1 u = Ub.
Proof. exact eread_past. Qed.
Print Assumptions C54_read_past_refuted.

(** lexeme 0 is written through an uninitialised pointer *)
Theorem C54_lexeme_zero_refuted : exists A L rest, eholds A L /\ ebuildable L /\ e_stems A = stemtree_bytes (ewords L) ++ rest /\ rest <> [] /\ ebounds_ok L /\
  estrings_within 47 L /\ single_records L /\
  forall U (add : U -> N -> list (bytes * N) -> U * Z) u, efind_match add A (repeat 7 48) (repeat 9 48) (Some (text "cat")) 3 u = Ub.
Proof. exact ezero_id. Qed.
Print Assumptions C54_lexeme_zero_refuted.

(** articles that share a lexeme id and have more than 256 forms together overrun the array of matches *)
Theorem C54_overrun_refuted : exists lines xs A w, lists lines xs /\ Forall few_homonyms xs /\ ecompile lines = Ok (Some A) /\ earrays_fit A /\ Forall abuildable xs /\
  (exists x, In x xs /\ a_stem x = []) /\ is_bytes w /\ (length w < 48)%nat /\
  forall U (add : U -> N -> list (bytes * N) -> U * Z) u, efind_match add A (repeat 7 48) (repeat 9 48) (Some w) (N.of_nat (length w)) u = Ub.
Proof. exact eoverrun. Qed.
Print Assumptions C54_overrun_refuted.

Example C54_case : eholds (etailed edemo_arrays [0]) edemo_lexicon /\ ebuildable edemo_lexicon /\ estrings_within 47 edemo_lexicon /\ eforms_at_most 256 edemo_lexicon /\
  e_stems (etailed edemo_arrays [0]) = stemtree_bytes (ewords edemo_lexicon) ++ [0] /\
  (forall key e, has_record (ewords edemo_lexicon) key e -> nlexid e <> 0) /\ ebounds_ok edemo_lexicon /\
  esearched (etailed edemo_arrays [0]) (text "?At*") = Ok ([(1, [(text "cat", 0); (text "cat's", 2); (text "cats", 1); (text "cats'", 3)])], 0%Z).
Proof.
  assert (HL : eholds (etailed edemo_arrays [0]) edemo_lexicon) by (apply etailed_holds, edemo_holds).
  split; [exact HL|]. split; [apply edemo_buildable|]. split; [apply esmall_within; [apply edemo_ok|repeat constructor]|].
  split; [apply (single_few _ _ HL), edemo_single|]. split; [reflexivity|]. split; [apply edemo_ids|]. split; [apply edemo_bounds|]. vm_compute. reflexivity.
Qed.

Example C54_compiled_case : lists elines edict /\ Forall few_homonyms edict /\ ecompile elines = Ok (Some (arrays_of elines)) /\ earrays_fit (arrays_of elines) /\
  Forall abuildable edict /\ (forall x y, In x edict -> In y edict -> a_id x = a_id y -> x = y) /\ (exists x, In x edict /\ a_stem x = []) /\
  (forall x, In x edict -> (length (a_stem x) <= 47)%nat /\ forall part id, aform x part id -> (length (a_stem x) + length part + length (a_post x) <= 47)%nat) /\
  Forall post_between edict /\
  esearched (arrays_of elines) (text "a*") = Ok ([(131072, [(text "abel", 0); (text "abel's", 1)]); (128, [(text "aaronical", 255)]);
                                                  (141312, [(text "am", 1); (text "are", 3)])], 0%Z) /\
  esearched (arrays_of elines) (text "*-?n-*") = Ok ([(44344, [(text "brother-in-law", 0); (text "brother's-in-law", 2); (text "brothers-in-law", 1);
                                                               (text "brothers'-in-law", 3)])], 0%Z).
Proof.
  destruct (compiles_ok _ edict_compiles) as (C1 & C2 & _). split; [apply edict_lists|]. split; [apply edict_few|]. split; [exact C1|]. split; [exact C2|].
  split; [apply edict_buildable|]. split; [intros x y Hx Hy E; symmetry; apply edict_unique; [exact Hx|exact Hy|congruence]|].
  split; [exists to_be; split; [right; right; right; left; reflexivity|reflexivity]|]. split; [exact edict_within|]. split; [exact edict_between|].
  split; vm_compute; reflexivity.
Qed.
