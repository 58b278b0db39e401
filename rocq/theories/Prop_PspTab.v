(** * Properties C114, C115: the program make-psp-tab, which counts parts of speech and forms in a text.  STATEMENTS ONLY.
    The vocabulary is in PspTabSpec.v: [rus_words], [eng_words] - the words of a line; [tabulates votes t] - the table [t] holds the shares of the
    parts of speech and forms among the [votes].  Numbers are rational: rounding is not modelled. *)
From Coq Require Import QArith.
From Verif Require Import Base Serial WordTree TreeSpec FlatScan Stems StemSpec CharTables CapScheme CapSpec GramMap RusRuntime LevelSpec RusSpec RusProofs RusDemo RusDemo2
  RusBuild RusBuildSpec RusReadings RusLemmaSpec PropBuildLemmas2 PropLemmasLemmas EngRuntime EngSpec EngFormsSpec EngLemmaSpec EngDemo
  Codepage Guess Dicdump PspTab PspTabSpec PspTabProofs PspTabProofs2 PspTabProofs3 PspTabProofs4.
Notation length := List.length.
Local Open Scope N_scope.
Local Open Scope list_scope.

(** ** C114.  The words looked up are those of the line, and the loop over the line ends. *)
Theorem C114_russian_words : forall line, line_words rus_counting (S (length line)) line = Ok (rus_words line).
Proof. exact rus_line_words. Qed.
Print Assumptions C114_russian_words.
Theorem C114_english_words : forall line, line_words eng_counting (S (length line)) line = Ok (eng_words line).
Proof. exact eng_line_words. Qed.
Print Assumptions C114_english_words.
(** a line of words with blanks between them has these words *)
Theorem C114_plain_line : forall ws, Forall (fun w => (3 < length w)%nat /\ (exists c w', w = c :: w' /\ 0xc0 < c) /\ Forall (fun c => 0xc0 <= c) w) ws ->
  line_words rus_counting (S (length (concat (map (fun w => w ++ [32]) ws)))) (concat (map (fun w => w ++ [32]) ws)) = Ok ws.
Proof. exact plain_line. Qed.
Print Assumptions C114_plain_line.
(** "и сон, в-четвёртых" - the ё of the second word is not among the letters *)
Example C114_case : rus_words [232; 32; 241; 238; 237; 251; 44; 32; 226; 45; 247; 229; 242; 226; 229; 240; 242; 251; 245; 10] = [[241; 238; 237; 251]; [226; 45; 247; 229; 242; 226; 229; 240; 242; 251; 245]] /\
  eng_words [45; 45; 100; 111; 110; 39; 116; 32; 97; 32; 99; 97; 116; 115; 46; 10] = [[100; 111; 110; 39; 116]; [99; 97; 116; 115]].
Proof. split; vm_compute; reflexivity. Qed.
(** a capital A at the front of a word is taken off: "Алла" and "Анна" are not counted at all *)
Theorem C114_capital_a_refuted : forall rest, rus_words (0xc0 :: rest) = rus_words rest.
Proof. exact capital_a. Qed.
Print Assumptions C114_capital_a_refuted.
(** a word that does not fit the buffer with the rest of its line is cut in two *)
Theorem C114_long_line_refuted : exists file, flat_map rus_words (lines_of (length file) file) = [] /\ rus_words file = [[240; 243; 241; 235; 224; 237]].
Proof. exists (repeat 32 (N.to_nat 16380) ++ [240; 243; 241; 235; 224; 237]). split; vm_compute; reflexivity. Qed.
Print Assumptions C114_long_line_refuted.

(** ** C115.  The table printed: each part of speech has its share of the words counted, each form its share of the lexemes of its part of
    speech; both are distributions.  [look w] is the answer to the word [w]: each lexeme with its first description and all of them. *)
Definition file_of (lines : list bytes) : bytes := concat (map (fun l => l ++ [10]) lines).
Theorem C115_russian_table : forall look ans lines, Forall (fun l => N.of_nat (length l) < 0x3fff /\ ~ In 10 l) lines -> let ws := flat_map rus_words lines in
  (forall w, In w ws -> look w = Ok (ans w) /\ Forall (fun l => snd l <> []) (ans w)) ->
  exists t, psp_table rus_counting look (file_of lines) = Ok t /\ tabulates (flat_map (fun w => votes_of rus_counting (ans w)) ws) t.
Proof. exact rus_table. Qed.
Print Assumptions C115_russian_table.
Theorem C115_english_table : forall look ans lines, Forall (fun l => N.of_nat (length l) < 0x3fff /\ ~ In 10 l) lines -> let ws := flat_map eng_words lines in
  (forall w, In w ws -> look w = Ok (ans w) /\ Forall (fun l => snd l <> []) (ans w)) ->
  exists t, psp_table eng_counting look (file_of lines) = Ok t /\ tabulates (flat_map (fun w => votes_of eng_counting (ans w)) ws) t.
Proof. exact eng_table. Qed.
Print Assumptions C115_english_table.
(** the dictionaries answer like that: with the lexemes of the word and their descriptions, or with nothing if there is no room for them *)
Theorem C115_dictionary_partial : forall A L, holds A L -> buildable L -> forall w, is_bytes w -> w <> [] -> (length w < 48)%nat -> (length (parts rus_casing w) <= 8)%nat ->
  exists hs, found L true w hs /\ forall after junk lemmas gramma, length lemmas = 32%nat -> length gramma = 64%nat -> (forall g, nth_error (grouped hs) 31 = Some g -> lx_more g = []) ->
    looks_up (map (fun g => rd_shown (lx_first g)) (grouped hs)) ((length (grouped hs) <= 32)%nat /\ grams_fit 64 (flat_map stored (grouped hs))) (rus_look A junk lemmas gramma (w, after)).
Proof. exact rus_look_ok. Qed.
Print Assumptions C115_dictionary_partial.
Theorem C115_english_dictionary_partial : forall A L, eholds A L -> ebuildable L -> forall w, is_bytes w -> w <> [] -> (length w < 48)%nat -> (length (parts eng_casing w) <= 8)%nat ->
  exists hs, efound L true w hs /\ forall after junk lemmas gramma, length lemmas = 32%nat -> length gramma = 64%nat -> (forall g, nth_error (egrouped hs) 31 = Some g -> ex_more g = []) ->
    looks_up (map (fun g => er_shown (ex_first g)) (egrouped hs)) ((length (egrouped hs) <= 32)%nat /\ grams_fit 64 (flat_map estored (egrouped hs))) (eng_look A junk lemmas gramma (w, after)).
Proof. exact eng_look_ok. Qed.
Print Assumptions C115_english_dictionary_partial.
(** the forms of verbs 6 to 17 are counted as 18 to 29, all others as they are *)
Theorem C115_russian_forms : forall p f, form_no rus_counting p f = if (p =? 1) && (6 <=? f) && (f <=? 17) then f + 12 else f.
Proof. exact rus_forms. Qed.
Print Assumptions C115_russian_forms.
(** what is counted, and as what *)
Theorem C115_russian_parts : forall w f n, w < 64 ->
  (part_sp rus_counting w = 1 <-> 1 <= w <= 6) /\ (part_sp rus_counting w = 7 <-> 7 <= w <= 9) /\ (part_sp rus_counting w = 13 <-> 13 <= w <= 15) /\
  (part_sp rus_counting w = 16 <-> 16 <= w <= 18) /\ (part_sp rus_counting w = 25 <-> 25 <= w <= 26) /\
  (forall p, 38 <= p -> (part_sp rus_counting w = p <-> w = p /\ p <= 46 /\ p <> 43)) /\
  (left_out rus_counting (part_sp rus_counting w) f n = true <-> f = 255 \/ part_sp rus_counting w = 0 \/ part_sp rus_counting w = 1 /\ f = 2 /\ (1 < n)%Z).
Proof. exact rus_parts. Qed.
Print Assumptions C115_russian_parts.
Theorem C115_english_parts : forall w f n, part_sp eng_counting w = w /\ form_no eng_counting w f = f /\
  (left_out eng_counting (part_sp eng_counting w) f n = false <-> f <> 255 /\ In w [1; 2; 3; 4; 17]).
Proof. exact eng_parts. Qed.
Print Assumptions C115_english_parts.

(** the parts of speech 38 to 46 keep the flags above their number, so one part of speech may have several rows *)
Theorem C115_one_row_refuted : forall w, In w [38; 39; 40; 41; 42; 44; 45; 46] -> part_sp rus_counting w = w /\ part_sp rus_counting (w + 64) = w + 64 /\ part_sp rus_counting (w + 128) = w + 128.
Proof. intros w H. repeat (destruct H as [<-|H]; [repeat split; vm_compute; reflexivity|]). destruct H. Qed.
Print Assumptions C115_one_row_refuted.

(** "Домы, дома" and "сонны", which is no word: all are nouns, three quarters of the forms are number 10, one quarter number 1 *)
Definition psp_lemmas := repeat (Lemm 7 (Some 9%nat) 5 5) 32.
Definition psp_gramma := repeat (Gram 1 2 3 4) 64.
Definition demo_look w := rus_look demo2_arrays (repeat 7 48) psp_lemmas psp_gramma (w, [10]).
Definition demo_lines : list bytes := [[196; 238; 236; 251; 44; 32; 228; 238; 236; 224]; [241; 238; 237; 237; 251]].
Definition demo_answer (w : bytes) : list (gram * list gram) := match demo_look w with Ok a => a | Ub => [] end.
Example C115_case : holds demo2_arrays demo2_lexicon /\ buildable demo2_lexicon /\ Forall (fun l => N.of_nat (length l) < 0x3fff /\ ~ In 10 l) demo_lines /\
  flat_map rus_words demo_lines = [[196; 238; 236; 251]; [228; 238; 236; 224]; [241; 238; 237; 237; 251]] /\
  (forall w, In w (flat_map rus_words demo_lines) -> demo_look w = Ok (demo_answer w) /\ Forall (fun l => snd l <> []) (demo_answer w)) /\
  flat_map (fun w => votes_of rus_counting (demo_answer w)) (flat_map rus_words demo_lines) = [Vote 7 (1 / 1) [10]; Vote 7 (1 / 1) [10; 1]] /\
  exists t, psp_table rus_counting demo_look (file_of demo_lines) = Ok t /\ length t = 8%nat /\ (weight_in t 7 == 1)%Q /\ (form_in t 7 10 == 3 # 4)%Q /\ (form_in t 7 1 == 1 # 4)%Q.
Proof.
  split; [apply demo2_holds|]. split; [apply demo2_buildable|]. split; [repeat constructor; cbn; intuition discriminate|]. split; [vm_compute; reflexivity|]. split.
  - assert (E : flat_map rus_words demo_lines = [[196; 238; 236; 251]; [228; 238; 236; 224]; [241; 238; 237; 237; 251]]) by (vm_compute; reflexivity). rewrite E.
    intros w H. repeat (destruct H as [<-|H]; [split; [vm_compute; reflexivity|apply Forall_forall; vm_compute; intuition (subst; discriminate)]|]). destruct H.
  - split; [vm_compute; reflexivity|]. eexists. split; [vm_compute; reflexivity|]. repeat split; vm_compute; reflexivity.
Qed.
