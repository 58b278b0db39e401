(** * Properties C09, C17-C19, C38: the Russian analyser.  STATEMENTS ONLY.
    The vocabulary ([holds], [word_of], [given], ...) is in RusSpec.v. *)
From Verif Require Import Base Serial WordTree TreeSpec FlatScan Stems StemSpec CharTables CapScheme CapSpec GramMap GramSpec RusRuntime RusSpec
  RusProofs3 RusDemo PropRusLemmas.
Local Open Scope N_scope.

(** ** C09: ids of up to three bytes (four-byte ids collide, see C02) *)
Theorem C09_word_class_partial : forall A L key e st c junk,
  holds A L -> indexed A L -> has_record (words L) key e -> class_of L (oclass e) = Some (st, c) ->
  (forall key' e' st' c', has_record (words L) key' e' -> nlexid e' = nlexid e -> class_of L (oclass e') = Some (st', c') ->
     N.land (c_word c') 63 = N.land (c_word c) 63) ->
  (length (lexkeylen (nlexid e) ++ junk) = 16)%nat ->
  get_wd_info A junk (nlexid e) = Ok (1%Z, Some (N.land (c_word c) 63)).
Proof. exact wd_info_found. Qed.
Print Assumptions C09_word_class_partial.

Theorem C09_unknown_id : forall A L id junk,
  holds A L -> indexed A L -> id < 2 ^ 32 -> (forall key e, has_record (words L) key e -> nlexid e <> id) ->
  (length (lexkeylen id ++ junk) = 16)%nat -> get_wd_info A junk id = Ok (0%Z, None).
Proof. exact wd_info_none. Qed.
Print Assumptions C09_unknown_id.

Example C09_case : holds demo_arrays demo_lexicon /\ indexed demo_arrays demo_lexicon /\
  get_wd_info demo_arrays (repeat 9 13) 65540 = Ok (1%Z, Some 38) /\ get_wd_info demo_arrays (repeat 9 15) 77 = Ok (0%Z, None).
Proof. split; [apply demo_holds|]. split; [apply demo_indexed|]. split; vm_compute; reflexivity. Qed.

(** ** C17 (CheckWord; Lemmatize is in Prop_Lemmas.v): bit 1 of the settings is sfIgnoreCapitals *)
Theorem C17_check_word_case_blind : forall A L w w' psz cch psz' cch' dwsets junk junk',
  holds A L -> given w psz cch -> given w' psz' cch' -> is_bytes w -> is_bytes w' ->
  map (locase rus_casing) w = map (locase rus_casing) w' -> bit 1 dwsets = true -> (length (parts rus_casing w) <= 8)%nat ->
  check_word A junk psz cch dwsets = check_word A junk' psz' cch' dwsets.
Proof. exact check_case_blind. Qed.
Print Assumptions C17_check_word_case_blind.

Example C17_case : check_word demo_arrays (repeat 7 48) (Some [232; 194; 224; 237]) 4 2 = Ok 1%Z /\
  check_word demo_arrays (repeat 7 48) (Some [232; 194; 224; 237]) 4 0 = Ok 0%Z.
Proof. split; vm_compute; reflexivity. Qed.

(** ** C18 *)
Theorem C18_identifier_round_trip : forall wd id, proper_form wd id ->
  let fi := GetGramInfo wd id in MapWordInfo wd (gramm fi) (flags fi) = id /\ fi <> noflex.
Proof. exact form_round_trip. Qed.
Print Assumptions C18_identifier_round_trip.

Theorem C18_descriptions_differ : forall wd id id',
  proper_form wd id -> proper_form wd id' -> GetGramInfo wd id = GetGramInfo wd id' -> id = id'.
Proof. exact form_distinct. Qed.
Print Assumptions C18_descriptions_differ.

(** beyond the proper identifiers adjectives do not reject but alias *)
Theorem C18_alias_refuted : exists wd id id', id < 256 /\ id' < 256 /\ id <> id' /\ IsAdjective wd = true /\
  GetGramInfo wd id = GetGramInfo wd id' /\ GetGramInfo wd id <> noflex.
Proof. exact form_alias. Qed.
Print Assumptions C18_alias_refuted.

Example C18_case : proper_form 1 233 /\ proper_form 25 65 /\ proper_form 7 14 /\ GetGramInfo 7 14 = Flexinfo 0x3800 1.
Proof. repeat split; try reflexivity. right. split; discriminate. Qed.

(** ** C19: exactly the dictionary words, unless a postfix takes the whole rest of the word and starts above the bound (see C11), and for at most eight
    parts (see C14) *)
Theorem C19_check_word_exact_partial : forall A L w psz cch dwsets junk,
  holds A L -> bounds_ok L -> given w psz cch -> is_bytes w -> w <> [] -> (length w < 48)%nat -> (length (parts rus_casing w) <= 8)%nat ->
  (forall key e part g f, word_of L (bit 1 dwsets) w key e part g f -> reachable e part) ->
  check_word A junk psz cch dwsets = Ok 1%Z /\ (exists key e part g f, word_of L (bit 1 dwsets) w key e part g f) \/
  check_word A junk psz cch dwsets = Ok 0%Z /\ ~ (exists key e part g f, word_of L (bit 1 dwsets) w key e part g f).
Proof. exact check_exact. Qed.
Print Assumptions C19_check_word_exact_partial.

(** a positive answer is always right *)
Theorem C19_check_word_sound : forall A L, holds A L -> forall w psz cch dwsets junk,
  given w psz cch -> is_bytes w -> w <> [] -> (length w < 48)%nat -> (length (parts rus_casing w) <= 8)%nat ->
  exists r, check_word A junk psz cch dwsets = Ok r /\ (r = 0%Z \/ r = 1%Z) /\
    (r = 1%Z -> exists key e part g f, word_of L (bit 1 dwsets) w key e part g f).
Proof. exact check_word_sound. Qed.
Print Assumptions C19_check_word_sound.

(** a word with a changing part before its postfix, without postfix, or with a postfix not above the bound of the record is found *)
Theorem C19_check_word_complete : forall A L, holds A L -> forall w psz cch dwsets junk key e part g f,
  given w psz cch -> is_bytes w -> w <> [] -> (length w < 48)%nat -> (length (parts rus_casing w) <= 8)%nat ->
  bounds_ok L -> word_of L (bit 1 dwsets) w key e part g f -> reachable e part ->
  check_word A junk psz cch dwsets = Ok 1%Z.
Proof. exact check_word_complete. Qed.
Print Assumptions C19_check_word_complete.

(** no word, and words that do not fit *)
Theorem C19_check_word_degenerate : forall A psz cch dwsets junk,
  (psz = None \/ given [] psz cch -> check_word A junk psz cch dwsets = Ok 0%Z) /\
  (forall w, given w psz cch -> (48 <= length w)%nat -> (length (parts rus_casing w) <= 16)%nat ->
     check_word A junk psz cch dwsets = Ok (-4)%Z).
Proof. intros; split; [apply check_word_empty|intros w; apply check_word_long]. Qed.
Print Assumptions C19_check_word_degenerate.

(** "exactly" fails: a dictionary with как and как-то, where как-то is rejected whatever the settings *)
Theorem C19_check_word_refuted : exists A L w key e g f,
  holds A L /\ bounds_ok L /\ word_of L true w key e [] g f /\ word_of L false w key e [] g f /\ is_bytes w /\ (length w < 48)%nat /\
  length (parts rus_casing w) = 2%nat /\
  forall junk dwsets, check_word A junk (Some w) (N.of_nat (length w)) dwsets = Ok 0%Z.
Proof. exact check_postfix_lost. Qed.
Print Assumptions C19_check_word_refuted.

(** and a word of seventeen one-letter parts is undefined behaviour in any dictionary *)
Theorem C19_many_parts_refuted : exists w, is_bytes w /\ (length w < 48)%nat /\ forall A junk dwsets,
  check_word A junk (Some w) (N.of_nat (length w)) dwsets = Ub.
Proof. exact check_many_parts. Qed.
Print Assumptions C19_many_parts_refuted.

Example C19_case : holds demo_arrays demo_lexicon /\ bounds_ok demo_lexicon /\
  check_word demo_arrays (repeat 7 48) (Some [228; 238; 236; 251; 45; 242; 238]) 7 0 = Ok 1%Z /\
  check_word demo_arrays (repeat 7 48) (Some [209; 237; 224; 0; 1]) (2 ^ 64 - 1) 0 = Ok 1%Z /\
  check_word demo_arrays (repeat 7 48) (Some [241; 238; 237; 224]) 4 0 = Ok 0%Z.
Proof. split; [apply demo_holds|]. split; [apply demo_bounds|]. repeat split; vm_compute; reflexivity. Qed.

(** ** C38 *)
Theorem C38_inflexion_lookup_exact : forall ft filter infl tail rest, flex_ok ft -> (length infl < 64)%nat ->
  exists gs, scan_tables (serialize C8 flex_ser flex_len ft ++ rest) filter (Frag (infl ++ tail) (N.of_nat (length infl)))
             = Ok (gs, Z.of_nat (length gs)) /\
    (forall l, lookup infl ft = Some l ->
       gs = map (fun gf => Gram 0 0 (fst gf) (snd gf)) (List.filter (fun gf => filter (fst gf) (snd gf)) l)) /\
    (lookup infl ft = None -> gs = []).
Proof. exact scan_tables_exact. Qed.
Print Assumptions C38_inflexion_lookup_exact.

Example C38_case : flex_ok endings1 /\ lookup [224] endings1 = Some [(0x0800, 3); (0x1000, 3)].
Proof. split; [apply endings1_ok|reflexivity]. Qed.
