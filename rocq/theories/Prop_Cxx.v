(** * Prop_Cxx: the C++ classes of api.hpp: vectors of strings (C55), vectors of lexemes (C56), handles (C57). *)
From Coq Require Import Permutation.
From Verif Require Import Base Serial WordTree TreeSpec FlatScan Stems StemSpec CharTables CapScheme CapSpec GramMap RusRuntime LevelSpec RusSpec
  RusBuild RusBuildSpec RusReadings RusLemmaSpec RusDemo RusDemo2 PropLemmasLemmas EngRuntime EngSpec EngFormsSpec EngLemmaSpec EngDemo Fuzzy FuzzySpec PropFuzzyLemmas
  CxxApi CxxSpec CxxProofs2 CxxProofs3 CxxProofs4 CxxProofs5 PropCxxLemmas.
Local Open Scope N_scope.

(** ** C55.  The vectors of strings BuildForm, FindForms and GetModels return, and the number GetWdInfo returns, whatever the local
    arrays hold: all the strings the interface has to deliver, if they fit the local array. *)
Theorem C55_build_form : forall A L, holds A L -> buildable L -> indexed A L -> forall junk buffer id idform,
  length buffer = 256%nat -> id < 2 ^ 32 -> (length (lexkeylen id ++ junk) = 16)%nat ->
  (exists key e, has_record (words L) key e /\ nlexid e = id) ->
  exists key e st c, has_record (words L) key e /\ nlexid e = id /\ class_of L (oclass e) = Some (st, c) /\
    let fs := requested c key (stpost e) idform in all_or_none 256 fs (small fs) (cxx_build_form A junk buffer id idform).
Proof. exact cxx_build_some. Qed.
Print Assumptions C55_build_form.

Theorem C55_build_form_unknown : forall A L, holds A L -> buildable L -> indexed A L -> forall junk buffer id idform,
  length buffer = 256%nat -> id < 2 ^ 32 -> (length (lexkeylen id ++ junk) = 16)%nat ->
  (forall key e, has_record (words L) key e -> nlexid e <> id) -> cxx_build_form A junk buffer id idform = Ok [].
Proof. exact cxx_build_unknown. Qed.
Print Assumptions C55_build_form_unknown.

Theorem C55_find_forms : forall A L, holds A L -> buildable L -> forall w dwsets,
  is_bytes w -> w <> [] -> (length w < 48)%nat -> (length (parts rus_casing w) <= 8)%nat ->
  exists hs, found L (bit 1 dwsets) w hs /\
    forall psz cch buffer idform junk, given w psz cch -> length buffer = 256%nat ->
      all_or_none 256 (flat_map (reading_forms idform) hs) (Forall (fun r => small (reading_forms idform r)) hs)
        (cxx_find_forms A junk buffer psz cch idform dwsets).
Proof. exact cxx_find_found. Qed.
Print Assumptions C55_find_forms.

Theorem C55_english_build_form : forall A L, eholds A L -> ebuildable L -> eindexed A L -> forall junk buffer id idform,
  length buffer = 256%nat -> id < 2 ^ 32 -> (length (lexkeylen id ++ junk) = 16)%nat ->
  (exists key e, has_record (ewords L) key e /\ nlexid e = id) ->
  exists key e st c, has_record (ewords L) key e /\ nlexid e = id /\ eclass_of L (oclass e) = Some (st, c) /\
    let fs := erequested c key (stpost e) idform in all_or_none 256 fs (small fs) (cxx_ebuild_form A junk buffer id idform).
Proof. exact cxx_ebuild_some. Qed.
Print Assumptions C55_english_build_form.

Theorem C55_english_build_form_unknown : forall A L, eholds A L -> ebuildable L -> eindexed A L -> forall junk buffer id idform,
  length buffer = 256%nat -> id < 2 ^ 32 -> (length (lexkeylen id ++ junk) = 16)%nat ->
  (forall key e, has_record (ewords L) key e -> nlexid e <> id) -> cxx_ebuild_form A junk buffer id idform = Ok [].
Proof. exact cxx_ebuild_unknown. Qed.
Print Assumptions C55_english_build_form_unknown.

Theorem C55_english_find_forms : forall A L, eholds A L -> ebuildable L -> forall w dwsets,
  is_bytes w -> w <> [] -> (length w < 48)%nat -> (length (parts eng_casing w) <= 8)%nat ->
  exists hs, efound L (bit 1 dwsets) w hs /\
    forall psz cch buffer idform junk, given w psz cch -> length buffer = 256%nat ->
      all_or_none 256 (flat_map (ereading_forms idform) hs) (Forall (fun r => small (ereading_forms idform r)) hs)
        (cxx_efind_forms A junk buffer psz cch idform dwsets).
Proof. exact cxx_efind_found. Qed.
Print Assumptions C55_english_find_forms.

Theorem C55_guesser_build_form : forall F lojunk junk buffer w psz cch i c id,
  has_class F i c -> by_form (c_inflex c) -> proper w -> given w psz cch ->
  length buffer = 256%nat -> stopped junk -> (forall f, In f (c_inflex c) -> fst f = id -> (length w + length (snd f) <= 63)%nat) ->
  all_or_none 256 (variants c (map (locase rus_casing) w) id) True (cxx_fuzzy_build_form F lojunk junk buffer psz cch i id).
Proof. exact cxx_fuzzy_build. Qed.
Print Assumptions C55_guesser_build_form.

(** the models: as many of the samples, from the first on, as fit 1024 bytes *)
Theorem C55_models : forall F i models, length models = 1024%nat ->
  (forall c, has_class F i c -> Forall (fun m => ~ In 0 (m_sample m)) (c_models c) -> cxx_models F models i = Ok (fitting 1024 (map m_sample (c_models c)))) /\
  (N.of_nat (length (class_offset F)) <= i -> cxx_models F models i = Ok []).
Proof.
  intros F i models Hl. split; [intros c Hc Hz; apply cxx_models_eq; assumption|apply cxx_models_unknown].
Qed.
Print Assumptions C55_models.

(** the part of speech, 0 for what is unknown *)
Theorem C55_word_class :
  (forall A L key e st c junk,
     holds A L -> indexed A L -> has_record (words L) key e -> class_of L (oclass e) = Some (st, c) ->
     (forall key' e' st' c', has_record (words L) key' e' -> nlexid e' = nlexid e -> class_of L (oclass e') = Some (st', c') ->
        N.land (c_word c') 63 = N.land (c_word c) 63) ->
     (length (lexkeylen (nlexid e) ++ junk) = 16)%nat -> cxx_wd_info A junk (nlexid e) = Ok (N.land (c_word c) 63)) /\
  (forall A L id junk, holds A L -> indexed A L -> id < 2 ^ 32 -> (forall key e, has_record (words L) key e -> nlexid e <> id) ->
     (length (lexkeylen id ++ junk) = 16)%nat -> cxx_wd_info A junk id = Ok 0) /\
  (forall A L key e st c junk,
     eholds A L -> eindexed A L -> has_record (ewords L) key e -> eclass_of L (oclass e) = Some (st, c) ->
     (forall key' e' st' c', has_record (ewords L) key' e' -> nlexid e' = nlexid e -> eclass_of L (oclass e') = Some (st', c') ->
        k_word c' mod 64 = k_word c mod 64) ->
     (length (lexkeylen (nlexid e) ++ junk) = 16)%nat -> cxx_ewd_info A junk (nlexid e) = Ok (k_word c mod 64)) /\
  (forall A L id junk, eholds A L -> eindexed A L -> id < 2 ^ 32 -> (forall key e, has_record (ewords L) key e -> nlexid e <> id) ->
     (length (lexkeylen id ++ junk) = 16)%nat -> cxx_ewd_info A junk id = Ok 0) /\
  (forall F i, (forall c, has_class F i c -> cxx_fuzzy_wd_info F i = Ok (c_partsp c)) /\
     (N.of_nat (length (class_offset F)) <= i -> cxx_fuzzy_wd_info F i = Ok 0)).
Proof.
  split; [exact cxx_wd_info_found|]. split; [exact cxx_wd_info_none|]. split; [exact cxx_ewd_info_found|]. split; [exact cxx_ewd_info_none|exact cxx_fuzzy_wd_info_eq].
Qed.
Print Assumptions C55_word_class.

(** "every form is in the vector" is false: seven forms of 40 letters, which the interface delivers into 300 bytes, are an empty vector *)
Theorem C55_all_forms_refuted : exists A L w fs, eholds A L /\ ebuildable L /\ is_bytes w /\ length fs = 7%nat /\
  efind_forms A (repeat 7 48) (Some (repeat 0 300)) (Some w) (N.of_nat (length w)) 0 0 = Ok (7%Z, Some (filled fs (repeat 0 300))) /\
  cxx_efind_forms A (repeat 7 48) (repeat 0 256) (Some w) (N.of_nat (length w)) 0 0 = Ok [].
Proof.
  exists elong_arrays, elong_lexicon, (repeat 97 40), (repeat (repeat 97 40) 7). split; [apply elong_holds|]. split; [apply elong_buildable|].
  split; [repeat constructor|]. split; [reflexivity|]. split; vm_compute; reflexivity.
Qed.
Print Assumptions C55_all_forms_refuted.

(** сна; "cats" of Cat; an unknown lexeme *)
Example C55_case : holds demo2_arrays demo2_lexicon /\ buildable demo2_lexicon /\ indexed demo2_arrays demo2_lexicon /\
  cxx_build_form demo2_arrays (repeat 9 15) (repeat 1 256) 2 1 = Ok [[241; 237; 224]] /\
  eholds edemo_arrays edemo_lexicon /\ ebuildable edemo_lexicon /\
  cxx_efind_forms edemo_arrays (repeat 7 48) (repeat 1 256) (Some [67; 97; 116; 115]) 4 2 0 = Ok [[99; 97; 116; 39; 115]] /\
  cxx_ebuild_form edemo_arrays (repeat 9 15) (repeat 1 256) 77 0 = Ok [] /\
  has_class guess_arrays 0 masc /\ cxx_models guess_arrays (repeat 7 1024) 0 = Ok [[236; 238; 241; 242]; [242; 238; 237]] /\
  cxx_fuzzy_build_form guess_arrays (repeat 0 256) (repeat 0 64) (repeat 7 256) (Some [210; 240; 238; 237]) 4 2 1 = Ok [[210; 240; 238; 237; 224]] /\
  cxx_wd_info demo2_arrays (repeat 9 15) 77 = Ok 0 /\ cxx_ewd_info edemo_arrays (repeat 9 13) 65540 = Ok 7.
Proof.
  split; [apply demo2_holds|]. split; [apply demo2_buildable|]. split; [apply demo2_indexed|]. split; [vm_compute; reflexivity|].
  split; [apply edemo_holds|]. split; [apply edemo_buildable|]. split; [vm_compute; reflexivity|]. split; [vm_compute; reflexivity|].
  split; [apply guess_masc|]. repeat split; vm_compute; reflexivity.
Qed.

(** ** C56.  The vectors of lexemes Lemmatize returns, for words of at most eight parts, with dictionary forms, and the 32nd lexeme
    having one reading only (C21); [grow] tells when the vector moves its elements. *)
Theorem C56_lemmatize_partial : forall A L, holds A L -> buildable L -> forall w dwsets,
  is_bytes w -> w <> [] -> (length w < 48)%nat -> (length (parts rus_casing w) <= 8)%nat ->
  exists hs, found L (bit 1 dwsets) w hs /\
    (Forall (fun g => rd_dict_forms dwsets (lx_first g) <> []) (grouped hs) -> (forall g, nth_error (grouped hs) 31 = Some g -> lx_more g = []) ->
     forall psz cch junk grow lxbuff stbuff grbuff, given w psz cch -> length lxbuff = 32%nat -> length stbuff = 256%nat -> length grbuff = 64%nat ->
     exists ls, Forall2 (fun g l => lemma_of dwsets (lx_first g) l) (grouped hs) ls /\
       reported (map report (combine (grouped hs) ls)) (lexemes_fit dwsets (grouped hs) ls)
         (cxx_lemmatize A junk grow lxbuff stbuff grbuff psz cch dwsets)).
Proof. exact cxx_lemmatize_answer. Qed.
Print Assumptions C56_lemmatize_partial.

Theorem C56_english_lemmatize_partial : forall A L, eholds A L -> ebuildable L -> forall w dwsets,
  is_bytes w -> w <> [] -> (length w < 48)%nat -> (length (parts eng_casing w) <= 8)%nat ->
  exists hs, efound L (bit 1 dwsets) w hs /\
    (Forall (fun g => er_dict_forms (ex_first g) <> []) (egrouped hs) -> (forall g, nth_error (egrouped hs) 31 = Some g -> ex_more g = []) ->
     forall psz cch junk grow lxbuff stbuff grbuff, given w psz cch -> length lxbuff = 32%nat -> length stbuff = 256%nat -> length grbuff = 64%nat ->
     exists ls, Forall2 (fun g l => elemma_of (ex_first g) l) (egrouped hs) ls /\
       reported (map ereport (combine (egrouped hs) ls)) (elexemes_fit (egrouped hs) ls)
         (cxx_elemmatize A junk grow lxbuff stbuff grbuff psz cch dwsets)).
Proof. exact cxx_elemmatize_answer. Qed.
Print Assumptions C56_english_lemmatize_partial.

(** the guesser *)
Theorem C56_guesser_lemmatize : forall rank sort junk F t cls below lojunk grow astems aforms agrams w psz cch dwsets l,
  guesser F t cls -> (forall x, Permutation x (sort x) /\ falling (sort x)) ->
  proper w -> given w psz cch -> readable below t (rev (map (locase rus_casing) w)) -> (forall n, stopped (junk n)) ->
  acceptable_guesses cls (N.testbit dwsets 1) w (guesses (contents t) (map (locase rus_casing) w)) l ->
  length astems = 32%nat -> length aforms = 512%nat -> length agrams = 80%nat ->
  let low := map (locase rus_casing) w in
  let r := cxx_fuzzy_lemmatize rank sort junk F below lojunk grow astems aforms agrams psz cch dwsets in
  (guesses_fit cls low (runs l) -> exists xs, r = Ok (Returned xs) /\ Permutation (map (guess_row cls rank low) (runs l)) (map seen xs) /\
     by_falling_weight (map seen xs) /\ Forall self_contained xs) /\
  (~ guesses_fit cls low (runs l) -> exists e, r = Ok (Thrown e)).
Proof. exact cxx_fuzzy_lemmatize_answer. Qed.
Print Assumptions C56_guesser_lemmatize.

(** the lexemes a word of letters and hyphens is guessed to be give the word back: BuildForm of the lexeme returned and any form it
    describes contains the word in the capitalisation of the part of speech *)
Theorem C56_word_back : forall rank sort msort junk F t cs below lojunk grow astems aforms agrams w psz cch dwsets xs x g lojunk' junk' buffer,
  (forall l, Permutation l (msort l)) -> compiled msort cs t F -> Forall source_ok cs -> N.of_nat (length cs) < 2 ^ 32 -> Forall (fun c => by_form (c_inflex c)) cs ->
  (forall l, Permutation l (sort l) /\ falling (sort l)) ->
  proper w -> (length w <= 49)%nat -> Forall (good_char rus_casing) (map (locase rus_casing) w) -> given w psz cch ->
  readable below t (rev (map (locase rus_casing) w)) -> (forall n, stopped (junk n)) ->
  length astems = 32%nat -> length aforms = 512%nat -> length agrams = 80%nat -> length buffer = 256%nat -> stopped junk' ->
  cxx_fuzzy_lemmatize rank sort junk F below lojunk grow astems aforms agrams psz cch dwsets = Ok (Returned xs) -> In x xs -> In g (x_grams x) ->
  exists fs, all_or_none 256 fs True (cxx_fuzzy_build_of F lojunk' junk' buffer x (gidForm g)) /\
    In (respell rus_casing (required_case (gwdInfo g)) (map (locase rus_casing) w)) fs.
Proof. exact cxx_guess_back. Qed.
Print Assumptions C56_word_back.

(** no word: no lexemes; too long a word: an exception *)
Theorem C56_degenerate :
  (forall A junk grow lxbuff stbuff grbuff psz cch dwsets,
     (psz = None \/ given [] psz cch -> cxx_lemmatize A junk grow lxbuff stbuff grbuff psz cch dwsets = Ok (Returned [])) /\
     (forall w, given w psz cch -> (48 <= length w)%nat -> (length (parts rus_casing w) <= 16)%nat ->
        cxx_lemmatize A junk grow lxbuff stbuff grbuff psz cch dwsets = Ok (Thrown InvalidString))) /\
  (forall A junk grow lxbuff stbuff grbuff psz cch dwsets,
     (psz = None \/ given [] psz cch -> cxx_elemmatize A junk grow lxbuff stbuff grbuff psz cch dwsets = Ok (Returned [])) /\
     (forall w, given w psz cch -> (48 <= length w)%nat -> (length (parts eng_casing w) <= 16)%nat ->
        cxx_elemmatize A junk grow lxbuff stbuff grbuff psz cch dwsets = Ok (Thrown InvalidString))) /\
  (forall rank sort junk F below lojunk grow astems aforms agrams psz cch dwsets,
     (psz = None \/ given [] psz cch -> cxx_fuzzy_lemmatize rank sort junk F below lojunk grow astems aforms agrams psz cch dwsets = Ok (Returned [])) /\
     (forall w, given w psz cch -> (256 <= length w)%nat -> (length (parts rus_casing w) <= 16)%nat ->
        cxx_fuzzy_lemmatize rank sort junk F below lojunk grow astems aforms agrams psz cch dwsets = Ok (Thrown InvalidString))).
Proof. split; [exact cxx_lemmatize_degenerate|]. split; [exact cxx_elemmatize_degenerate|exact cxx_fuzzy_degenerate]. Qed.
Print Assumptions C56_degenerate.

(** "Brothers" is one lexeme; "сна" two; "Трона" is guessed as a noun and as a town *)
Example C56_case :
  (exists xs, cxx_elemmatize edemo_arrays (repeat 7 48) (fun n => Nat.eqb n 1) (repeat (Lemm 0 None 0 0) 32) (repeat 1 256) (repeat (Gram 0 0 0 0) 64)
     (Some [66; 114; 111; 116; 104; 101; 114; 115]) 8 0 = Ok (Returned xs) /\ map seen xs = [(6, [98; 114; 111; 116; 104; 101; 114], [Gram 7 1 0 0])]) /\
  (exists xs, cxx_lemmatize demo4_arrays (repeat 7 48) (fun n => Nat.eqb n 1) (repeat (Lemm 0 None 0 0) 32) (repeat 1 256) (repeat (Gram 0 0 0 0) 64)
     (Some [241; 237; 224]) 3 0 = Ok (Returned xs) /\ map x_lemma xs = [[241; 238; 237]; [241; 238; 237]] /\ map (fun x => map gidForm (x_grams x)) xs = [[10; 1]; [10; 1]] /\
     Forall self_contained xs) /\
  (exists x y, cxx_fuzzy_lemmatize some_rank by_weight (fun _ => repeat 0 64) guess_arrays [0] (repeat 0 256) (fun _ => true)
     (repeat (StemInfo None 0 0 0 0 0) 32) (repeat 7 512) (repeat (Gram 9 9 9 9) 80) (Some [210; 240; 238; 237; 224]) 5 0 = Ok (Returned [x; y]) /\
   seen x = (4, 0, 42%Z, [242; 240; 238; 237], [Gram 7 1 0 0]) /\ seen y = (4, 2, 7%Z, [210; 240; 238; 237], [Gram 39 1 0 0]) /\
   cxx_fuzzy_build_of guess_arrays (repeat 0 256) (repeat 0 64) (repeat 7 256) y 1 = Ok [[210; 240; 238; 237; 224]]).
Proof.
  split; [eexists; split; vm_compute; reflexivity|]. split.
  - eexists. split; [vm_compute; reflexivity|]. split; [reflexivity|]. split; [reflexivity|]. repeat constructor.
  - eexists _, _. split; [vm_compute; reflexivity|]. repeat split; vm_compute; reflexivity.
Qed.

(** ** C57.  Handles.  Whatever is done with handles, every interface has been attached as often as it has been detached, and once more
    for every handle that holds it now. *)
Theorem C57_balanced : forall os evs s i, hrun [] os = Some (evs, s) -> attached i evs = (detached i evs + holders i s)%nat.
Proof. intros os evs s i H. pose proof (hrun_balance i os [] evs s H) as E. cbn [holders filter length Nat.add] in E. unfold holders in *. cbn in E. lia. Qed.
Print Assumptions C57_balanced.

(** With an interface that counts its references and frees itself at zero, a well-behaved program never calls a freed interface, and
    in the end exactly the interfaces it owns or a handle holds exist, with the right counters. *)
Theorem C57_alive : forall ps own s evs, history ps own s evs ->
  exists l, live_run (fun _ => None) evs = Ok l /\
    forall i, l i = (let n := (times i own + holders i s)%nat in if Nat.eqb n 0 then None else Some (Z.of_nat n)).
Proof. exact history_alive. Qed.
Print Assumptions C57_alive.

(** assigning a handle to itself, when it is the last to hold the interface, calls the interface after it was freed *)
Theorem C57_self_assignment_refuted : exists ps own s evs evs' s', history ps own s evs /\
  hstep s (HAssign 0 0) = Some (evs', s') /\ live_run (fun _ => None) (evs ++ evs') = Ub.
Proof.
  exists [Load 0; Use (HFrom (Some 0%nat)); Release 0], [], [Some (Some 0%nat)], [Create 0; Attach 0; Attach 0; Detach 0], [Detach 0; Attach 0], [Some (Some 0%nat)].
  split; [|split; reflexivity].
  apply (hi_step [Load 0; Use (HFrom (Some 0%nat))] [0%nat] [Some (Some 0%nat)] [Create 0; Attach 0; Attach 0] (Release 0) [] [Some (Some 0%nat)] [Detach 0]); [|apply (be_release _ _ 0 [] []); reflexivity|reflexivity].
  apply (hi_step [Load 0] [0%nat] [] [Create 0; Attach 0] (Use (HFrom (Some 0%nat))) [0%nat] [Some (Some 0%nat)] [Attach 0]); [|apply be_from; left; left; reflexivity|reflexivity].
  apply (hi_step [] [] [] [] (Load 0) [0%nat] [] [Create 0; Attach 0]); [constructor|apply be_load; [intros []|reflexivity]|reflexivity].
Qed.
Print Assumptions C57_self_assignment_refuted.

(** two handles, one copied from the other, then destroyed one after the other *)
Example C57_case : hrun [] [HFrom (Some 5%nat); HCopy 0; HDestroy 0; HDestroy 1] = Some ([Attach 5; Attach 5; Detach 5; Detach 5], [None; None]) /\
  hrun [] [HFrom (Some 5%nat); HCopy 0; HNew; HAssign 0 2] = Some ([Attach 5; Attach 5; Detach 5], [Some None; Some (Some 5%nat); Some None]) /\
  history [Load 3] [3%nat] [] [Create 3; Attach 3].
Proof.
  split; [reflexivity|]. split; [reflexivity|].
  apply (hi_step [] [] [] [] (Load 3) [3%nat] [] [Create 3; Attach 3]); [constructor|apply be_load; [intros []|reflexivity]|reflexivity].
Qed.
