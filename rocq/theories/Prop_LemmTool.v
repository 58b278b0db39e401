(** * Properties C112, C113: the program utils/lemmatize.  STATEMENTS ONLY.
    The vocabulary is in LemmToolSpec.v: [read_json] reads JSON; [tells_json rows room r] - the output [r] is read as the list of [rows] if there
    is [room] for them, as the empty list otherwise.  [junk], [lexset], [stbuff], [grbuff] are what the local arrays hold before the call. *)
From Coq Require Import String.
From Verif Require Import Base Serial WordTree TreeSpec FlatScan Stems StemSpec CharTables CapScheme CapSpec GramMap RusRuntime LevelSpec RusSpec RusProofs RusDemo RusDemo2
  RusBuild RusBuildSpec RusReadings RusLemmaSpec PropBuildLemmas2 PropLemmasLemmas EngRuntime EngSpec EngFormsSpec EngLemmaSpec EngDemo
  Codepage CodepageSpec Utf8 CodepageProofs3 Guess GuessSpec GuessProofs Api ApiSpec PropApiLemmas Dump DumpSpec PyApi LemmTool LemmToolSpec LemmToolProofs LemmToolProofs2 LemmToolProofs3 LemmToolProofs4.
Notation length := List.length.
Local Open Scope N_scope.
Local Open Scope list_scope.

(** ** C112.  What is printed is JSON and tells the lexemes of the word: normal form, identifier, part of speech, form identifiers.
    Capitals are ignored.  [P] is the code page of the object, [w] the word of the command line, [t] the same in windows-1251. *)
Theorem C112_lemmatize_partial : forall P A L, page_ok P -> holds A L -> buildable L -> forall t,
  is_bytes t -> t <> [] -> (length t < 48)%nat -> (length (parts rus_casing t) <= 8)%nat -> (length t + slack (coding P) <= 48)%nat ->
  exists hs, found L true t hs /\
    forall w junk lexset stbuff grbuff, spells (coding P) w t -> ~ In 0 w ->
      length lexset = 16%nat -> length stbuff = 256%nat -> length grbuff = 64%nat -> tool_safe (grouped hs) ->
    exists ls, length ls = length (grouped hs) /\ Forall2 (fun g l => lemma_of 0 (lx_first g) l) (grouped hs) ls /\
      (Forall (fun l => quotable (encode (coding P) l)) ls ->
       tells_json (map (rus_told (encode (coding P))) (combine (grouped hs) ls)) (tool_room (grouped hs) (fit_in (coding P) 256 ls))
        (tool_lemmatize P A junk lexset stbuff grbuff w)).
Proof. exact tool_answer. Qed.
Print Assumptions C112_lemmatize_partial.
Theorem C112_english_lemmatize_partial : forall A L, eholds A L -> ebuildable L -> forall w,
  is_bytes w -> w <> [] -> (length w < 48)%nat -> (length (parts eng_casing w) <= 8)%nat ->
  exists hs, efound L true w hs /\
    forall junk lexset stbuff grbuff, ~ In 0 w ->
      length lexset = 16%nat -> length stbuff = 256%nat -> length grbuff = 64%nat -> tool_esafe (egrouped hs) ->
    exists ls, length ls = length (egrouped hs) /\ Forall2 (fun g l => elemma_of (ex_first g) l) (egrouped hs) ls /\
      (Forall quotable ls ->
       tells_json (map eng_told (combine (egrouped hs) ls)) (tool_eroom (egrouped hs) (fit 256 ls)) (tool_elemmatize A junk lexset stbuff grbuff w)).
Proof. exact tool_eanswer. Qed.
Print Assumptions C112_english_lemmatize_partial.
Definition lexset0 := repeat (Lemm 7 (Some 9%nat) 5 5) 16.
Definition stbuff0 := repeat 9 256.
Definition grbuff0 := repeat (Gram 1 2 3 4) 64.
(** "Сна" in UTF-8 and in windows-1251, the word "cats", and no word *)
Example C112_case : page_ok (Utf8 (utf8 1)) /\ holds demo2_arrays demo2_lexicon /\ buildable demo2_lexicon /\ eholds edemo_arrays edemo_lexicon /\ ebuildable edemo_lexicon /\
  (let out := tool_lemmatize (Utf8 (utf8 1)) demo2_arrays (repeat 7 48) lexset0 stbuff0 grbuff0 (encode (utf8 1) [209; 237; 224]) in
   out = Ok (text "[" ++ [10] ++ text "  { ""lemma"": """ ++ [209; 129; 208; 190; 208; 189] ++ text """," ++ [9] ++ text """lexid"":      2, ""psp"":  7, ""forms"": [10, 1] }" ++ [10] ++ text "]") /\
   (let! o := out in Ok (read_json o)) = Ok (Some (JArr [JObj [(text "lemma", JStr [209; 129; 208; 190; 208; 189]); (text "lexid", JNum 2); (text "psp", JNum 7); (text "forms", JArr [JNum 10; JNum 1])]]))) /\
  (let! o := tool_elemmatize edemo_arrays (repeat 7 48) lexset0 stbuff0 grbuff0 (text "CATS") in Ok (read_json o)) =
    Ok (Some (JArr [JObj [(text "lemma", JStr (text "cat")); (text "lexid", JNum 1); (text "psp", JNum 7); (text "forms", JArr [JNum 1])]])) /\
  tool_elemmatize edemo_arrays (repeat 7 48) lexset0 stbuff0 grbuff0 (text "caat") = Ok (text "[]").
Proof.
  split; [apply utf8_ok|]. split; [apply demo2_holds|]. split; [apply demo2_buildable|]. split; [apply edemo_holds|]. split; [apply edemo_buildable|].
  split; [split; vm_compute; reflexivity|]. split; vm_compute; reflexivity.
Qed.

(** Normal forms of letters, apostrophes and hyphens need no escapes: C112 holds for them without the condition. *)
Definition ordinary (c : N) : Prop := c = 39 \/ c = 45 \/ 65 <= c <= 90 \/ 97 <= c <= 122 \/ c = 168 \/ c = 184 \/ 192 <= c <= 255.
Lemma ordinary_quotable : forall c, ordinary c -> quotable [c] /\ quotable (enc (utf8 1) c).
Proof.
  assert (H : forallb (fun n => let c := N.of_nat n in negb ((c =? 39) || (c =? 45) || ((65 <=? c) && (c <=? 90)) || ((97 <=? c) && (c <=? 122)) || (c =? 168) || (c =? 184) || (192 <=? c)) ||
    (in_string c && forallb in_string (enc (utf8 1) c))) (seq 0 256) = true) by (vm_compute; reflexivity).
  intros c Hc. rewrite forallb_forall in H. specialize (H (N.to_nat c)). cbv zeta in H. rewrite N2Nat.id in H.
  assert (Hi : In (N.to_nat c) (seq 0 256)). { apply in_seq. unfold ordinary in Hc. lia. } specialize (H Hi). clear Hi.
  assert (E : negb ((c =? 39) || (c =? 45) || ((65 <=? c) && (c <=? 90)) || ((97 <=? c) && (c <=? 122)) || (c =? 168) || (c =? 184) || (192 <=? c)) = false).
  { apply negb_false_iff. unfold ordinary in Hc. rewrite !orb_true_iff, !andb_true_iff, !N.eqb_eq, !N.leb_le. lia. }
  rewrite E in H. cbn [orb] in H. apply andb_true_iff in H as [H1 H2]. split; [constructor; [exact H1|constructor]|]. unfold quotable. apply Forall_forall. rewrite forallb_forall in H2. exact H2.
Qed.
Theorem C112_ordinary_words : forall l, Forall ordinary l -> quotable (encode (coding Win1251) l) /\ quotable (encode (coding (Utf8 (utf8 1))) l).
Proof.
  intros l H. unfold quotable, encode. cbn [coding]. split; induction H as [|c l Hc _ IH]; [constructor| |constructor|]; cbn [flat_map]; apply Forall_app; (split; [|exact IH]);
    destruct (ordinary_quotable c Hc); assumption.
Qed.
Print Assumptions C112_ordinary_words.

(** "an empty list means an unknown word": a word of 17 lexemes is right and has none *)
Definition seventeen : list (bytes * entry) := map (fun n => (text "cat", Entry 0 115 (N.of_nat n) 0 [])) (seq 1 17).
Lemma seventeen_ok : eitemsb seventeen = true.
Proof. vm_compute. reflexivity. Qed.
Theorem C112_empty_means_unknown_refuted : exists A L, eholds A L /\ ebuildable L /\
  echeck_word A (repeat 7 48) (Some (text "cat" ++ [0])) (2 ^ 64 - 1) 2 = Ok 1%Z /\
  tool_elemmatize A (repeat 7 48) lexset0 stbuff0 grbuff0 (text "cat") = Ok (text "[" ++ [10] ++ text "]").
Proof.
  exists (earrays_of (words_of seventeen)), (elexicon_of (words_of seventeen)). split; [exact (esmall_holds seventeen seventeen_ok)|].
  split; [apply (esmall_buildable seventeen seventeen_ok); [repeat constructor; cbn; lia|apply eplainb_ok; vm_compute; reflexivity]|]. split; vm_compute; reflexivity.
Qed.
Print Assumptions C112_empty_means_unknown_refuted.

(** Quotes are not escaped: a dictionary that has a word with a quote makes the output no JSON. *)
Definition quoted : list (bytes * entry) := [ ([99; 34; 116], Entry 0 115 1 0 []) ].
Lemma quoted_ok : eitemsb quoted = true.
Proof. vm_compute. reflexivity. Qed.
Theorem C112_always_json_refuted : exists A L, eholds A L /\ ebuildable L /\
  exists out, tool_elemmatize A (repeat 7 48) lexset0 stbuff0 grbuff0 [99; 34; 116] = Ok out /\ read_json out = None.
Proof.
  exists (earrays_of (words_of quoted)), (elexicon_of (words_of quoted)). split; [exact (esmall_holds quoted quoted_ok)|].
  split; [apply (esmall_buildable quoted quoted_ok); [repeat constructor; cbn; lia|apply eplainb_ok; vm_compute; reflexivity]|]. eexists. split; vm_compute; reflexivity.
Qed.
Print Assumptions C112_always_json_refuted.

(** ** C113.  The command line of lemmatize (key [MORPH_MAGIC]) and stematize (key [FUZZY_MAGIC]): library, function and word; behind a colon the code page, UTF-8 without one.
    [load] opens libraries and finds functions in them, [run i word] is what is printed when the instance [i] is asked for the word. *)
Theorem C113_code_page : forall magic load run lib find name cp word rest,
  magic = MORPH_MAGIC \/ magic = FUZZY_MAGIC -> load lib = Some find -> find name = Some (rus_get_api magic) -> ~ In 58 name -> ~ In 0 cp ->
  (exists i, names i cp /\ tool_main magic load run (lib :: (name ++ 58 :: cp) :: word :: rest) = (let! t := run i word in Ok (Printed t))) \/
  (forall i, ~ names i cp) /\ tool_main magic load run (lib :: (name ++ 58 :: cp) :: word :: rest) = Ok No_codepage.
Proof. exact main_page. Qed.
Print Assumptions C113_code_page.
Theorem C113_default_utf8 : forall magic load run lib find name word rest,
  magic = MORPH_MAGIC \/ magic = FUZZY_MAGIC -> load lib = Some find -> find name = Some (rus_get_api magic) -> ~ In 58 name ->
  tool_main magic load run (lib :: name :: word :: rest) = (let! t := run MbUtf8 word in Ok (Printed t)).
Proof. exact main_default. Qed.
Print Assumptions C113_default_utf8.
Theorem C113_english : forall magic load run lib find name cp word rest,
  magic = MORPH_MAGIC \/ magic = FUZZY_MAGIC -> load lib = Some find -> find name = Some (eng_get_api magic) -> ~ In 58 name -> ~ In 0 cp -> ~ names WcInstance cp ->
  tool_main magic load run (lib :: (name ++ 58 :: cp) :: word :: rest) = (let! t := run Mb1251 word in Ok (Printed t)) /\
  tool_main magic load run (lib :: name :: word :: rest) = (let! t := run Mb1251 word in Ok (Printed t)).
Proof. exact main_english. Qed.
Print Assumptions C113_english.
Theorem C113_errors : forall magic load run lib fn name cp word rest,
  tool_main magic load run [] = Ok Usage /\ tool_main magic load run [lib] = Ok Usage /\ tool_main magic load run [lib; fn] = Ok Usage /\
  (load lib = None -> tool_main magic load run (lib :: fn :: word :: rest) = Ok No_library) /\
  (forall find, load lib = Some find -> find name = None -> ~ In 58 name ->
     tool_main magic load run (lib :: name :: word :: rest) = Ok No_function /\ tool_main magic load run (lib :: (name ++ 58 :: cp) :: word :: rest) = Ok No_function).
Proof. exact main_errors. Qed.
Print Assumptions C113_errors.
(** the guessers have another key: lemmatize reports a wrong code page for them, whatever is asked *)
Theorem C113_guessers_refuted : forall load run lib find name cp word rest,
  load lib = Some find -> find name = Some (rus_get_api FUZZY_MAGIC) -> ~ In 58 name ->
  tool_main MORPH_MAGIC load run (lib :: (name ++ 58 :: cp) :: word :: rest) = Ok No_codepage /\ tool_main MORPH_MAGIC load run (lib :: name :: word :: rest) = Ok No_codepage.
Proof. exact main_guesser. Qed.
Print Assumptions C113_guessers_refuted.
(** the program calls the narrow interface of whatever it gets: "utf-16" gets it the wide one *)
Theorem C113_narrow_refuted : forall magic load run lib find name cp word rest,
  magic = MORPH_MAGIC \/ magic = FUZZY_MAGIC -> load lib = Some find -> find name = Some (rus_get_api magic) -> ~ In 58 name -> ~ In 0 cp -> names WcInstance cp ->
  tool_main magic load run (lib :: (name ++ 58 :: cp) :: word :: rest) = (let! t := run WcInstance word in Ok (Printed t)).
Proof.
  intros magic load run lib find name cp word rest Hm H1 H2 H3 H4 H5. destruct (main_page magic load run lib find name cp word rest Hm H1 H2 H3 H4) as [(i & Hi & ->)|(Hno & _)].
  - rewrite (names_unique i WcInstance cp Hi H5). reflexivity.
  - exfalso. exact (Hno _ H5).
Qed.
Print Assumptions C113_narrow_refuted.
(** "lemmatize lib mlmaruGetAPI сна", "... mlmaruGetAPI:1251 ...", "... mlmaruGetAPI:utf ...", "... GetAPI ..." *)
Definition one_library (lib : bytes) : option (bytes -> option accessor) :=
  if list_eq_dec N.eq_dec lib (text "lib") then Some (fun f => if list_eq_dec N.eq_dec f (text "mlmaruGetAPI") then Some (rus_get_api MORPH_MAGIC) else None) else None.
Definition run_page (i : instance) (word : bytes) : res bytes :=
  match i with
  | MbUtf8 => tool_lemmatize (Utf8 (utf8 1)) demo2_arrays (repeat 7 48) lexset0 stbuff0 grbuff0 word
  | Mb1251 => tool_lemmatize Win1251 demo2_arrays (repeat 7 48) lexset0 stbuff0 grbuff0 word
  | _ => Ub
  end.
Example C113_case :
  let main fn word := tool_main MORPH_MAGIC one_library run_page [text "lib"; text fn; word] in
  main "mlmaruGetAPI"%string (encode (utf8 1) [241; 237; 224]) = (let! t := run_page MbUtf8 (encode (utf8 1) [241; 237; 224]) in Ok (Printed t)) /\
  (exists t, main "mlmaruGetAPI:Win-1251"%string [241; 237; 224] = Ok (Printed t) /\
     read_json t = Some (JArr [JObj [(text "lemma", JStr [241; 238; 237]); (text "lexid", JNum 2); (text "psp", JNum 7); (text "forms", JArr [JNum 10; JNum 1])]])) /\
  main "mlmaruGetAPI:utf"%string [241; 237; 224] = Ok No_codepage /\ main "mlmaruGetAPI:"%string [241; 237; 224] = Ok No_codepage /\
  main "mlmaruLoad:utf-8"%string [241; 237; 224] = Ok No_function /\ ~ In 58 (text "mlmaruGetAPI") /\ names MbUtf8 (text "utf-8").
Proof.
  split; [vm_compute; reflexivity|]. split; [eexists; split; vm_compute; reflexivity|]. split; [vm_compute; reflexivity|]. split; [vm_compute; reflexivity|]. split; [vm_compute; reflexivity|].
  split; [vm_compute; intuition discriminate|]. apply main_utf8_name.
Qed.
