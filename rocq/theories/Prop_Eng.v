(** * Properties C34, C46-C49: the English analyser.  STATEMENTS ONLY.
    The vocabulary is in EngSpec.v ([eholds], [eword_of], ...) and EngFormsSpec.v ([erequested], [efound], ...); [given] is in RusSpec.v,
    [delivered] in RusBuildSpec.v, [reachable] in StemSpec.v. *)
From Verif Require Import Base Serial WordTree TreeSpec FlatScan Stems StemSpec CharTables CapScheme CapSpec GramMap RusRuntime RusSpec RusProofs3
  RusBuild RusBuildSpec EngRuntime EngSpec EngProofs2 EngFormsSpec EngDemo EngRecognised PropEngLemmas.
Local Open Scope N_scope.

(** ** C34: the forms listed with the ending, in the order of the table; nothing else *)
Theorem C34_endings_exact : forall wd t infl tail rest, etable_ok t ->
  escan_tables wd (table_ser t ++ rest) (Frag (infl ++ tail) (N.of_nat (length infl))) =
  Ok (map (fun id => Gram (N.land wd 0x7f) id 0 0) (ids_of t infl)).
Proof. exact escan_exact. Qed.
Print Assumptions C34_endings_exact.

(** the order of the table and the number of forms with one ending matter *)
Theorem C34_unsorted_refuted : exists t infl, (length t < 256)%nat /\ Forall (fun ie => fst ie < 256 /\ (length (snd ie) < 256)%nat) t /\
  ids_of t infl = [5] /\ forall wd, escan_tables wd (table_ser t) (Frag infl (N.of_nat (length infl))) = Ok [].
Proof. exact escan_unsorted. Qed.
Print Assumptions C34_unsorted_refuted.

Theorem C34_many_refuted : exists t infl, (length t < 256)%nat /\ Forall (fun ie => fst ie < 256 /\ (length (snd ie) < 256)%nat) t /\ ascending (map snd t) /\
  forall wd, escan_tables wd (table_ser t) (Frag infl (N.of_nat (length infl))) = Ub.
Proof. exact escan_many. Qed.
Print Assumptions C34_many_refuted.

Example C34_case : etable_ok eends1 /\ ids_of eends1 [115] = [1] /\ ids_of eends1 [115; 39] = [3] /\ ids_of eends1 [39] = [] /\
  escan_tables 7 (table_ser eends1) (Frag [115; 39; 1] 2) = Ok [Gram 7 3 0 0].
Proof. split; [apply eends1_ok|]. repeat split; vm_compute; reflexivity. Qed.

(** ** C46: exactly the dictionary words, for at most eight parts (see C14), unless a postfix above the bound takes the whole rest (C11) *)
Theorem C46_check_word_exact_partial : forall A L w psz cch dwsets junk,
  eholds A L -> ebounds_ok L -> given w psz cch -> is_bytes w -> w <> [] -> (length w < 48)%nat -> (length (parts eng_casing w) <= 8)%nat ->
  (forall key e part id, eword_of L (bit 1 dwsets) w key e part id -> reachable e part) ->
  echeck_word A junk psz cch dwsets = Ok 1%Z /\ (exists key e part id, eword_of L (bit 1 dwsets) w key e part id) \/
  echeck_word A junk psz cch dwsets = Ok 0%Z /\ ~ (exists key e part id, eword_of L (bit 1 dwsets) w key e part id).
Proof. exact echeck_exact. Qed.
Print Assumptions C46_check_word_exact_partial.

Theorem C46_check_word_sound : forall A L, eholds A L -> forall w psz cch dwsets junk,
  given w psz cch -> is_bytes w -> w <> [] -> (length w < 48)%nat -> (length (parts eng_casing w) <= 8)%nat ->
  exists r, echeck_word A junk psz cch dwsets = Ok r /\ (r = 0%Z \/ r = 1%Z) /\
    (r = 1%Z -> exists key e part id, eword_of L (bit 1 dwsets) w key e part id).
Proof. exact echeck_word_sound. Qed.
Print Assumptions C46_check_word_sound.

Theorem C46_check_word_complete : forall A L, eholds A L -> forall w psz cch dwsets junk key e part id,
  given w psz cch -> is_bytes w -> w <> [] -> (length w < 48)%nat -> (length (parts eng_casing w) <= 8)%nat ->
  ebounds_ok L -> eword_of L (bit 1 dwsets) w key e part id -> reachable e part ->
  echeck_word A junk psz cch dwsets = Ok 1%Z.
Proof. exact echeck_word_complete. Qed.
Print Assumptions C46_check_word_complete.

Theorem C46_check_word_degenerate : forall A psz cch dwsets junk,
  (psz = None \/ given [] psz cch -> echeck_word A junk psz cch dwsets = Ok 0%Z) /\
  (forall w, given w psz cch -> (48 <= length w)%nat -> (length (parts eng_casing w) <= 16)%nat ->
     echeck_word A junk psz cch dwsets = Ok (-4)%Z).
Proof. intros; split; [apply echeck_word_empty|intros w; apply echeck_word_long]. Qed.
Print Assumptions C46_check_word_degenerate.

(** with bit 1 of the settings (ignore capitals) the answer does not depend on letter case *)
Theorem C46_case_blind : forall A L w w' psz cch psz' cch' dwsets junk junk',
  eholds A L -> given w psz cch -> given w' psz' cch' -> is_bytes w -> is_bytes w' ->
  map (locase eng_casing) w = map (locase eng_casing) w' -> bit 1 dwsets = true -> (length (parts eng_casing w) <= 8)%nat ->
  echeck_word A junk psz cch dwsets = echeck_word A junk' psz' cch' dwsets.
Proof. exact echeck_case_blind. Qed.
Print Assumptions C46_case_blind.

(** as-is is rejected whatever the settings when as is in the dictionary too *)
Theorem C46_check_word_refuted : exists A L w key e id,
  eholds A L /\ ebounds_ok L /\ eword_of L true w key e [] id /\ eword_of L false w key e [] id /\ is_bytes w /\ (length w < 48)%nat /\
  length (parts eng_casing w) = 2%nat /\
  forall junk dwsets, echeck_word A junk (Some w) (N.of_nat (length w)) dwsets = Ok 0%Z.
Proof. exact echeck_postfix_lost. Qed.
Print Assumptions C46_check_word_refuted.

Theorem C46_many_parts_refuted : exists w, is_bytes w /\ (length w < 48)%nat /\ forall A junk dwsets,
  echeck_word A junk (Some w) (N.of_nat (length w)) dwsets = Ub.
Proof. exact echeck_many_parts. Qed.
Print Assumptions C46_many_parts_refuted.

(** cats', Brothers-in-law is not a word of the dictionary but brothers-in-law and brother-in-law are; adam, Adam, usa, USA *)
Example C46_case : eholds edemo_arrays edemo_lexicon /\ ebounds_ok edemo_lexicon /\
  map (fun w => echeck_word edemo_arrays (repeat 7 48) (Some w) (N.of_nat (length w)) 0)
    [[99; 97; 116; 115; 39]; [98; 114; 111; 116; 104; 101; 114; 115; 45; 105; 110; 45; 108; 97; 119]; [98; 114; 111; 116; 104; 101; 114; 45; 105; 110; 45; 108; 97; 119];
     [97; 100; 97; 109]; [65; 100; 97; 109; 39; 115]; [117; 115; 97]; [85; 83; 65]; [97; 115; 115]]
    = [Ok 1%Z; Ok 1%Z; Ok 1%Z; Ok 0%Z; Ok 1%Z; Ok 0%Z; Ok 1%Z; Ok 0%Z].
Proof. split; [apply edemo_holds|]. split; [apply edemo_bounds|]. vm_compute. reflexivity. Qed.

(** ** C47: part of speech and forms by lexeme id; ids of up to three bytes (see C02) *)
Theorem C47_word_class : forall A L key e st c junk,
  eholds A L -> eindexed A L -> has_record (ewords L) key e -> eclass_of L (oclass e) = Some (st, c) ->
  (forall key' e' st' c', has_record (ewords L) key' e' -> nlexid e' = nlexid e -> eclass_of L (oclass e') = Some (st', c') ->
     k_word c' mod 64 = k_word c mod 64) ->
  (length (lexkeylen (nlexid e) ++ junk) = 16)%nat ->
  eget_wd_info A junk (nlexid e) = Ok (1%Z, Some (k_word c mod 64)).
Proof. exact ewd_info_found. Qed.
Print Assumptions C47_word_class.

Theorem C47_unknown_class : forall A L id junk,
  eholds A L -> eindexed A L -> id < 2 ^ 32 -> (forall key e, has_record (ewords L) key e -> nlexid e <> id) ->
  (length (lexkeylen id ++ junk) = 16)%nat -> eget_wd_info A junk id = Ok (0%Z, None).
Proof. exact ewd_info_none. Qed.
Print Assumptions C47_unknown_class.

Theorem C47_build_form_exact : forall A L, eholds A L -> ebuildable L -> eindexed A L -> forall junk mem key e st c idform,
  mem <> [] -> has_record (ewords L) key e -> eclass_of L (oclass e) = Some (st, c) ->
  (forall key' e', has_record (ewords L) key' e' -> nlexid e' = nlexid e -> key' = key /\ e' = e) ->
  (length (lexkeylen (nlexid e) ++ junk) = 16)%nat ->
  let fs := erequested c key (stpost e) idform in delivered mem fs (small fs) (ebuild_form A junk (Some mem) (nlexid e) idform).
Proof. exact ebuild_exact. Qed.
Print Assumptions C47_build_form_exact.

Theorem C47_build_form_shared : forall A L, eholds A L -> ebuildable L -> eindexed A L -> forall junk mem id idform,
  mem <> [] -> id < 2 ^ 32 -> (length (lexkeylen id ++ junk) = 16)%nat ->
  (exists key e, has_record (ewords L) key e /\ nlexid e = id) ->
  exists key e st c, has_record (ewords L) key e /\ nlexid e = id /\ eclass_of L (oclass e) = Some (st, c) /\
    let fs := erequested c key (stpost e) idform in delivered mem fs (small fs) (ebuild_form A junk (Some mem) id idform).
Proof. exact ebuild_some. Qed.
Print Assumptions C47_build_form_shared.

Theorem C47_build_form_unknown : forall A L, eholds A L -> ebuildable L -> eindexed A L -> forall junk mem id idform,
  mem <> [] -> id < 2 ^ 32 -> (length (lexkeylen id ++ junk) = 16)%nat ->
  (forall key e, has_record (ewords L) key e -> nlexid e <> id) ->
  ebuild_form A junk (Some mem) id idform = Ok (0%Z, Some mem).
Proof. exact ebuild_unknown. Qed.
Print Assumptions C47_build_form_unknown.

Theorem C47_build_form_no_buffer : forall A junk id idform,
  ebuild_form A junk None id idform = Ok ((-5)%Z, None) /\ ebuild_form A junk (Some []) id idform = Ok ((-5)%Z, Some []).
Proof. exact ebuild_nowhere. Qed.
Print Assumptions C47_build_form_no_buffer.

(** [ebuildable] asks that fixed words have no postfix: otherwise the builders drop it, at for at-it *)
Theorem C47_fixed_postfix_refuted : exists A L key e c st, eholds A L /\ eindexed A L /\ ebounds_ok L /\
  has_record (ewords L) key e /\ eclass_of L (oclass e) = Some (st, c) /\ stpost e = [45; 105; 116] /\ etakes c 255 = true /\
  (forall key' e', has_record (ewords L) key' e' -> nlexid e' = nlexid e -> key' = key /\ e' = e) /\
  echeck_word A (repeat 7 48) (Some (key ++ stpost e)) 5 0 = Ok 1%Z /\
  ebuild_form A (repeat 9 15) (Some (repeat 1 20)) (nlexid e) 255 = Ok (1%Z, Some (filled [key] (repeat 1 20))) /\
  efind_forms A (repeat 7 48) (Some (repeat 1 20)) (Some (key ++ stpost e)) 5 255 0 = Ok (1%Z, Some (filled [key] (repeat 1 20))).
Proof. exact ebuild_fixed_postfix. Qed.
Print Assumptions C47_fixed_postfix_refuted.

(** brothers-in-law, Adam's, USA; the plural of as *)
Example C47_case : eholds edemo_arrays edemo_lexicon /\ ebuildable edemo_lexicon /\ eindexed edemo_arrays edemo_lexicon /\
  ebuild_form edemo_arrays (repeat 9 15) (Some (repeat 1 18)) 2 1 =
    Ok (1%Z, Some (filled [[98; 114; 111; 116; 104; 101; 114; 115; 45; 105; 110; 45; 108; 97; 119]] (repeat 1 18))) /\
  ebuild_form edemo_arrays (repeat 9 13) (Some (repeat 1 9)) 65540 2 = Ok (1%Z, Some [65; 100; 97; 109; 39; 115; 0; 0; 1]) /\
  ebuild_form edemo_arrays (repeat 9 14) (Some (repeat 1 4)) 300 0 = Ok ((-1)%Z, Some [85; 83; 65; 0]) /\
  ebuild_form edemo_arrays (repeat 9 15) (Some (repeat 1 4)) 3 1 = Ok (0%Z, Some (repeat 1 4)) /\
  eget_wd_info edemo_arrays (repeat 9 13) 65540 = Ok (1%Z, Some 7) /\ eget_wd_info edemo_arrays (repeat 9 15) 77 = Ok (0%Z, None).
Proof.
  split; [apply edemo_holds|]. split; [apply edemo_buildable|]. split; [apply edemo_indexed|]. repeat split; vm_compute; reflexivity.
Qed.

(** ** C48 *)
Theorem C48_find_forms_exact : forall A L, eholds A L -> ebuildable L -> forall w dwsets,
  is_bytes w -> w <> [] -> (length w < 48)%nat -> (length (parts eng_casing w) <= 8)%nat ->
  exists hs, efound L (bit 1 dwsets) w hs /\
    forall psz cch mem idform junk, given w psz cch -> mem <> [] ->
      delivered mem (flat_map (ereading_forms idform) hs) (Forall (fun r => small (ereading_forms idform r)) hs)
        (efind_forms A junk (Some mem) psz cch idform dwsets).
Proof. exact efind_found. Qed.
Print Assumptions C48_find_forms_exact.

(** no array, no word, a word too long: the answer without a search, and the array is left as it was *)
Theorem C48_find_degenerate : forall A junk psz cch idform dwsets,
  (psz = None \/ given [] psz cch -> forall mem, mem <> [] -> efind_forms A junk (Some mem) psz cch idform dwsets = Ok (0%Z, Some mem)) /\
  (forall w, given w psz cch -> (length (parts eng_casing w) <= 16)%nat -> (48 <= length w)%nat -> forall mem, mem <> [] ->
     efind_forms A junk (Some mem) psz cch idform dwsets = Ok ((-4)%Z, Some mem)) /\
  (forall w, psz = None \/ given w psz cch /\ (length w = 0 \/ 48 <= length w)%nat /\ (length (parts eng_casing w) <= 16)%nat ->
     efind_forms A junk None psz cch idform dwsets = Ok ((-5)%Z, None) /\ efind_forms A junk (Some []) psz cch idform dwsets = Ok ((-5)%Z, Some [])).
Proof.
  intros A junk psz cch idform dwsets.
  assert (Hlong : forall w, given w psz cch -> (length (parts eng_casing w) <= 16)%nat -> (48 <= length w)%nat -> exists x, eto_canonic psz cch = Ok x).
  { intros w Hg Hp Hl. assert (Hne : w <> []) by (destruct w; [cbn in Hl; lia|discriminate]). rewrite (eto_canonic_given w psz cch Hg Hne). unfold cap_get.
    destruct (get_loop_nofit' eng_casing w (S (length w)) 48 0 0 true []) as (out & ->); [lia|lia|lia|]. eexists. reflexivity. }
  split; [|split].
  - intros H mem Hm. destruct mem as [|m mem]; [congruence|]. unfold efind_forms, eprologue. rewrite (eto_canonic_empty psz cch H). reflexivity.
  - intros w Hg Hp Hl mem Hm. destruct mem as [|m mem]; [congruence|]. unfold efind_forms. destruct (Hlong w Hg Hp Hl) as (x & ->). cbn [bind].
    apply (eprologue_long w psz cch dwsets junk (fun r => (r, Some (m :: mem)))); assumption.
  - intros w H.
    assert (Hc : exists x, eto_canonic psz cch = Ok x).
    { destruct H as [->|(Hg & [H0|Hl] & Hp)]; [eexists; reflexivity| |exact (Hlong w Hg Hp Hl)]. destruct w; [|discriminate]. rewrite (eto_canonic_empty psz cch (or_intror Hg)). eexists. reflexivity. }
    destruct Hc as (x & Hc). unfold efind_forms. rewrite Hc. split; reflexivity.
Qed.
Print Assumptions C48_find_degenerate.

(** Cats has one reading; its possessive *)
Example C48_case : eholds edemo_arrays edemo_lexicon /\ ebuildable edemo_lexicon /\
  length (ereadings edemo_lexicon [99; 97; 116; 115]) = 1%nat /\
  efind_forms edemo_arrays (repeat 7 48) (Some (repeat 1 9)) (Some [67; 97; 116; 115]) 4 2 0 = Ok (1%Z, Some [99; 97; 116; 39; 115; 0; 0; 1; 1]).
Proof. split; [apply edemo_holds|]. split; [apply edemo_buildable|]. split; vm_compute; reflexivity. Qed.

(** ** C49 *)
Theorem C49_built_recognised_partial : forall A L, eholds A L -> ebuildable L -> eindexed A L -> erecognisable L ->
  forall junk mem id idform n mem', mem <> [] -> id < 2 ^ 32 -> (length (lexkeylen id ++ junk) = 16)%nat ->
  ebuild_form A junk (Some mem) id idform = Ok (n, Some mem') -> (0 < n)%Z ->
  exists key e st c fs, has_record (ewords L) key e /\ nlexid e = id /\ eclass_of L (oclass e) = Some (st, c) /\
    n = Z.of_nat (length fs) /\ mem' = filled fs mem /\
    forall form, In form fs -> form <> [] -> (length form < 48)%nat -> forall psz cch dwsets junk', given form psz cch ->
      bit 1 dwsets = true /\ (length (parts eng_casing form) <= 8)%nat \/ ecasable (ecase c) (map (locase eng_casing) form) ->
      echeck_word A junk' psz cch dwsets = Ok 1%Z.
Proof. exact ebuild_recognised. Qed.
Print Assumptions C49_built_recognised_partial.

(** the possessive of an abbreviation is built, USA'S, and not recognised *)
Theorem C49_possessive_refuted : exists A L id idform form, eholds A L /\ ebuildable L /\ eindexed A L /\ erecognisable L /\ is_bytes form /\ (length form < 48)%nat /\
  ebuild_form A (repeat 9 14) (Some (repeat 1 20)) id idform = Ok (1%Z, Some (filled [form] (repeat 1 20))) /\
  echeck_word A (repeat 7 48) (Some form) (N.of_nat (length form)) 0 = Ok 0%Z.
Proof. exact epossessive. Qed.
Print Assumptions C49_possessive_refuted.

Example C49_case : erecognisable edemo_lexicon /\ ecasable 1 [97; 100; 97; 109; 39; 115] /\
  ebuild_form edemo_arrays (repeat 9 13) (Some (repeat 1 9)) 65540 2 = Ok (1%Z, Some [65; 100; 97; 109; 39; 115; 0; 0; 1]) /\
  echeck_word edemo_arrays (repeat 7 48) (Some [65; 100; 97; 109; 39; 115]) 6 0 = Ok 1%Z.
Proof.
  split; [apply edemo_recognisable|]. split; [|split; vm_compute; reflexivity].
  split; [repeat constructor; discriminate|]. split; [vm_compute; repeat constructor|]. split; [|discriminate].
  intros _. split; [|left; reflexivity]. repeat constructor. intros c r [= <- <-]. reflexivity.
Qed.
