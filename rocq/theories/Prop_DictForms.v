(** * Prop_DictForms: from the texts of tables, alternations and articles to the answers of the calls. *)
From Coq Require Import String.
From Verif Require Import Base Serial WordTree TreeSpec Stems StemSpec CharTables CapScheme CapSpec GramMap RusRuntime LevelSpec RusSpec RusBuild RusBuildSpec RusReadings RusLemmaSpec Wild WildSpec Compile CompileSpec CompileDemo CompileFormsSpec ResolveSpec StripSpec Api EngCompileSpec
  Utf8 RusText RusTextSpec Tfc TfcSpec TfcDemo Makeich MakeichSpec DictTextSpec DictFormsSpec PropDictFormsLemmas DictTextDemo DictFormsDemo.
Local Open Scope N_scope.
Local Open Scope list_scope.
Notation length := List.length.
Notation tells := TfcSpec.tells.

(** ** C100.  By number: the lexeme id is the number written in the article.  BuildForm gives, once each, the forms that the texts tell of for the number of the form, in
    the capitalisation of the word; GetWdInfo the type of the word; for other numbers there is nothing.
    Missing to the full property: articles that share their number or tell of two words (a//b). *)
Theorem C100_build_form_partial : forall alphabet ds ms xs A x tw id junk mem,
  built ds ms xs A -> dictionary_valid alphabet ds ms xs -> arrays_fit A -> 
  N.of_nat (length (lidstree A)) < 2 ^ 32 -> (forall x tw, meant ds ms xs x tw -> word_buildable ds x tw) ->
  In x xs -> (forall x', In x' xs -> r_id x' = r_id x -> x' = x) -> meanings ds ms x [tw] -> mem <> [] -> (length (lexkeylen (r_id x) ++ junk) = 16)%nat ->
  exists ps, NoDup ps /\ (forall p, In p ps <-> word_number tw id /\ word_asked ds tw (GetGramInfo (tw_class tw) id) p) /\
    let fs := map (word_spelled x tw) ps in delivered mem fs (small fs) (build_form A junk (Some mem) (r_id x) id).
Proof. intros alphabet ds ms xs A x tw id junk mem HB HV Hfit. exact (built_forms alphabet ds ms xs A HB HV Hfit x tw id junk mem). Qed.
Print Assumptions C100_build_form_partial.

Theorem C100_class_partial : forall alphabet ds ms xs A x tw junk,
  built ds ms xs A -> dictionary_valid alphabet ds ms xs -> arrays_fit A -> 
  N.of_nat (length (lidstree A)) < 2 ^ 32 -> (forall x tw, meant ds ms xs x tw -> word_buildable ds x tw) ->
  meant ds ms xs x tw -> (forall x' tw', meant ds ms xs x' tw' -> r_id x' = r_id x -> tw_class tw' mod 64 = tw_class tw mod 64) -> (length (lexkeylen (r_id x) ++ junk) = 16)%nat ->
  get_wd_info A junk (r_id x) = Ok (1%Z, Some (tw_class tw mod 64)).
Proof. intros alphabet ds ms xs A x tw junk HB HV Hfit. exact (built_class alphabet ds ms xs A HB HV Hfit x tw junk). Qed.
Print Assumptions C100_class_partial.

Theorem C100_absent_partial : forall alphabet ds ms xs A id idform junk mem,
  built ds ms xs A -> dictionary_valid alphabet ds ms xs -> arrays_fit A -> 
  N.of_nat (length (lidstree A)) < 2 ^ 32 -> (forall x tw, meant ds ms xs x tw -> word_buildable ds x tw) ->
  id < 2 ^ 32 -> (forall x tw, meant ds ms xs x tw -> r_id x <> id) -> mem <> [] -> (length (lexkeylen id ++ junk) = 16)%nat ->
  get_wd_info A junk id = Ok (0%Z, None) /\ build_form A junk (Some mem) id idform = Ok (0%Z, Some mem).
Proof. intros alphabet ds ms xs A id idform junk mem HB HV Hfit. exact (built_absent alphabet ds ms xs A HB HV Hfit id idform junk mem). Qed.
Print Assumptions C100_absent_partial.

(** The forms built are recognised (see C25). *)
Theorem C100_built_recognised_partial : forall alphabet ds ms xs A x tw id n mem mem' junk,
  built ds ms xs A -> dictionary_valid alphabet ds ms xs -> arrays_fit A -> 
  N.of_nat (length (lidstree A)) < 2 ^ 32 -> (forall x tw, meant ds ms xs x tw -> word_buildable ds x tw) -> (forall x tw, meant ds ms xs x tw -> word_recognisable ds x tw) ->
  In x xs -> (forall x', In x' xs -> r_id x' = r_id x -> x' = x) -> meanings ds ms x [tw] -> mem <> [] -> (length (lexkeylen (r_id x) ++ junk) = 16)%nat ->
  build_form A junk (Some mem) (r_id x) id = Ok (n, Some mem') -> (0 < n)%Z ->
  exists fs, n = Z.of_nat (length fs) /\ mem' = filled fs mem /\
    forall form, In form fs -> form <> [] -> (length form < 48)%nat -> forall psz cch dwsets junk', given form psz cch ->
      bit 1 dwsets = true /\ (length (parts rus_casing form) <= 8)%nat \/ casable (required_case (tw_class tw)) (map (locase rus_casing) form) ->
      check_word A junk' psz cch dwsets = Ok 1%Z.
Proof. intros alphabet ds ms xs A x tw id n mem mem' junk HB HV Hfit. exact (built_recognised alphabet ds ms xs A HB HV Hfit x tw id n mem mem' junk). Qed.
Print Assumptions C100_built_recognised_partial.

(** The dictionary of C92: what its articles mean; сна is form 1 of сон (article 2), сна-то of сон-то (article 6), под (300) is a preposition, глокая (8) is not in the dictionary. *)
Example C100_case : built dt_defs dt_mixes dt_articles dt_A /\ dictionary_valid cyrillic dt_defs dt_mixes dt_articles /\ arrays_fit dt_A /\ N.of_nat (length (lidstree dt_A)) < 2 ^ 32 /\
  (forall x tw, meant dt_defs dt_mixes dt_articles x tw -> word_buildable dt_defs x tw) /\ (forall x tw, meant dt_defs dt_mixes dt_articles x tw -> word_recognisable dt_defs x tw) /\
  (forall x x', In x dt_articles -> In x' dt_articles -> r_id x' = r_id x -> x' = x) /\ meanings dt_defs dt_mixes dt_son [dt_son_word] /\ meanings dt_defs dt_mixes dt_sonto [dt_sonto_word] /\
  (forall x tw, meant dt_defs dt_mixes dt_articles x tw <-> In (x, tw) dt_words) /\
  build_form dt_A (repeat 9 15) (Some (repeat 1 9)) 2 1 = Ok (1%Z, Some (cyr "сна" ++ [0; 0; 1; 1; 1; 1])) /\
  build_form dt_A (repeat 9 15) (Some (repeat 1 9)) 6 1 = Ok (1%Z, Some (cyr "сна-то" ++ [0; 0; 1])) /\
  get_wd_info dt_A (repeat 9 14) 300 = Ok (1%Z, Some 51) /\ get_wd_info dt_A (repeat 9 15) 8 = Ok (0%Z, None).
Proof.
  split; [exact dt_built|]. split; [exact dt_valid|]. split; [exact dt_fit|]. split; [vm_compute; reflexivity|]. split; [exact dt_buildable|]. split; [exact dt_recognisable|]. split; [exact dt_ids|]. split; [exact dt_son_means|]. split; [exact dt_sonto_means|]. split; [exact dt_meant|].
  repeat match goal with |- _ /\ _ => split end; vm_compute; reflexivity.
Qed.
(** So the texts tell that сон has the changing part на in form 1: the alternation's second string, the ending а. *)
Example C100_told : word_number dt_son_word 1 /\ word_asked dt_defs dt_son_word (GetGramInfo 7 1) (cyr "на") /\ word_spelled dt_son dt_son_word (cyr "на") = cyr "сна".
Proof.
  split; [split; [intros [K _]; discriminate K|intros _; split; [discriminate|vm_compute; discriminate]]|]. split; [|vm_compute; reflexivity].
  apply asked_listed; [vm_compute; reflexivity|]. vm_compute. left. reflexivity.
Qed.

(** ** C101.  By word: FindForms delivers the forms with the number asked for of the words that have a form spelled so, Lemmatize the numbers of the articles, normal forms and
    descriptions that the texts tell of; no such word is missing.
    Missing to the full property: as C92; words without a dictionary form. *)
Theorem C101_find_forms_partial : forall alphabet ds ms xs A w psz cch id dwsets junk mem,
  built ds ms xs A -> dictionary_valid alphabet ds ms xs -> arrays_fit A -> 
  (forall x tw, meant ds ms xs x tw -> word_buildable ds x tw) ->
  given w psz cch -> is_bytes w -> w <> [] -> (length w < 48)%nat -> (length (parts rus_casing w) <= 8)%nat -> mem <> [] ->
  exists groups : list (list bytes),
    delivered mem (concat groups) (Forall small groups) (find_forms A junk (Some mem) psz cch id dwsets) /\
    (forall group, In group groups -> exists x tw part g f, dictionary_word ds ms xs (bit 1 dwsets) w x tw part g f /\ forms_told ds x tw (word_found_number tw id) id group) /\
    ((forall x tw part g f, dictionary_word ds ms xs true w x tw part g f -> postfix_reached ds x tw part) ->
       forall x tw part g f, dictionary_word ds ms xs (bit 1 dwsets) w x tw part g f -> exists group, In group groups /\ forms_told ds x tw (word_found_number tw id) id group).
Proof. intros alphabet ds ms xs A w psz cch id dwsets junk mem HB HV Hfit. exact (built_find_forms alphabet ds ms xs A HB HV Hfit w psz cch id dwsets junk mem). Qed.
Print Assumptions C101_find_forms_partial.

Theorem C101_lemmatize_partial : forall alphabet ds ms xs A w dwsets,
  built ds ms xs A -> dictionary_valid alphabet ds ms xs -> arrays_fit A -> 
  (forall x tw, meant ds ms xs x tw -> word_buildable ds x tw) -> (forall x tw gf, meant ds ms xs x tw -> exists part, word_dict ds tw dwsets gf part) ->
  is_bytes w -> w <> [] -> (length w < 48)%nat -> (length (parts rus_casing w) <= 8)%nat ->
  exists n : nat, forall psz cch lemmas forms grams junk z plemma' pforms' pgrams', given w psz cch -> (n < length lemmas)%nat ->
    lemmatize A junk psz cch (Some lemmas) (Some forms) (Some grams) dwsets = Ok (z, (plemma', pforms', pgrams')) -> (0 <= z)%Z ->
    exists lemmas' forms' grams', plemma' = Some lemmas' /\ pforms' = Some forms' /\ pgrams' = Some grams' /\ z = Z.of_nat n /\
      (forall i, (i < n)%nat -> exists cell x tw part gfs o s before after before' after',
         nth_error lemmas' i = Some cell /\ lm_id cell = r_id x /\
         gfs <> [] /\ (forall g f, In (g, f) gfs -> dictionary_word ds ms xs (bit 1 dwsets) w x tw part g f) /\
         lm_form cell = Some o /\ word_lemma ds x tw dwsets (hd (0, 0) gfs) s /\ forms' = before ++ s ++ 0 :: after /\ length before = o /\
         grams' = before' ++ map (word_shown tw) gfs ++ after' /\ N.of_nat (length before') = lm_grams cell /\ N.of_nat (length gfs) = lm_ngrams cell) /\
      ((forall x tw part g f, dictionary_word ds ms xs true w x tw part g f -> postfix_reached ds x tw part) ->
         forall x tw part g f, dictionary_word ds ms xs (bit 1 dwsets) w x tw part g f -> exists i cell, (i < n)%nat /\ nth_error lemmas' i = Some cell /\ lm_id cell = r_id x).
Proof. intros alphabet ds ms xs A w dwsets HB HV Hfit. exact (built_lemmatize alphabet ds ms xs A HB HV Hfit w dwsets). Qed.
Print Assumptions C101_lemmatize_partial.

Example C101_case : (forall x tw, meant dt_defs dt_mixes dt_articles x tw -> word_buildable dt_defs x tw) /\ (forall x tw gf, meant dt_defs dt_mixes dt_articles x tw -> exists part, word_dict dt_defs tw 0 gf part) /\
  (forall w x tw part g f, dictionary_word dt_defs dt_mixes dt_articles true w x tw part g f -> postfix_reached dt_defs x tw part) /\
  find_forms dt_A (repeat 7 48) (Some (repeat 1 6)) (Some (cyr "сна")) 3 10 0 = Ok (1%Z, Some (cyr "сны" ++ [0; 0; 1])) /\
  exists lemmas' grams',
    lemmatize dt_A (repeat 7 48) (Some (cyr "сна")) 3 (Some (repeat (Lemm 0 None 0 0) 3)) (Some (repeat 1 6)) (Some (repeat (Gram 0 0 0 0) 3)) 0 = Ok (1%Z, (Some lemmas', Some (cyr "сон" ++ [0; 0; 1]), Some grams')) /\
    map lm_id lemmas' = [2; 0; 0] /\ map lm_ngrams lemmas' = [1; 0; 0] /\ firstn 1 grams' = [word_shown dt_son_word (0x1000, 3)].
Proof.
  split; [exact dt_buildable|]. split; [exact dt_dict|]. split; [|split; [vm_compute; reflexivity|eexists _, _; split; [vm_compute; reflexivity|repeat split]]].
  intros w x tw part g f (Hx & Hm & _). apply dt_all_reached. split; assumption.
Qed.

(** ** C102.  By pattern: FindMatch delivers exactly the forms told by the texts that match, with the number of the article and of the form.  [tl] lies behind the tree of stems
    in memory.  Missing to the full property: see C26, C27. *)
Theorem C102_find_match_partial : forall alphabet ds ms xs A tl w psz cch,
  built ds ms xs A -> dictionary_valid alphabet ds ms xs -> arrays_fit A -> 
  (forall x tw, meant ds ms xs x tw -> word_searchable ds x tw) -> tl <> [] \/ (exists x tw, meant ds ms xs x tw /\ tw_stem tw = []) ->
  given w psz cch -> is_bytes w -> w <> [] -> (length w < 48)%nat -> (length (parts rus_casing w) <= 16)%nat ->
  exists evs : list (N * bytes * N),
    (forall U (add : U -> N -> list (bytes * N) -> U * Z) junk buf u, length junk = 48%nat -> length buf = 48%nat ->
       (Forall call_fits (runs evs) -> find_match add (followed_by A tl) junk buf psz cch u = Ok (deliver add (runs evs) u)) /\
       (~ Forall call_fits (runs evs) -> find_match add (followed_by A tl) junk buf psz cch u = Ub)) /\
    (forall lid str id, In (lid, str, id) evs -> exists x tw part g f, meant ds ms xs x tw /\ r_id x = lid /\ word_part ds tw part g f /\ str = tw_stem tw ++ part ++ post_of (r_notes x) /\
       id = word_form_id tw g f /\ glob (map (locase rus_casing) w) str) /\
    (forall x tw str part g f, meant ds ms xs x tw -> word_part ds tw part g f -> str = tw_stem tw ++ part ++ post_of (r_notes x) -> glob (map (locase rus_casing) w) str -> ~ In 42 str ->
       postfix_between ds x tw part -> In (r_id x, str, word_form_id tw g f) evs).
Proof. intros alphabet ds ms xs A tl w psz cch HB HV Hfit. exact (built_search alphabet ds ms xs A HB HV Hfit tl w psz cch). Qed.
Print Assumptions C102_find_match_partial.

(** с?а* *)
Example C102_case : (forall x tw, meant dt_defs dt_mixes dt_articles x tw -> word_searchable dt_defs x tw) /\
  find_match (fun u id l => (u ++ [(id, map fst l)], 0%Z)) (followed_by dt_A [0]) (repeat 7 48) (repeat 7 48) (Some (cyr "с?а*")) 4 [] =
    Ok ([(2, map cyr ["сна"; "снах"; "снам"; "снами"]); (6, map cyr ["снах-то"; "снами-то"; "снам-то"; "сна-то"])]%string, 0%Z).
Proof. split; [exact dt_searchable|]. vm_compute. reflexivity. Qed.
