(** * Codepage: the Russian analyser for callers that do not use windows-1251 (UTF-8, KOI8-R, ...).  MODEL ONLY.
    lang-rus/libdict/mlmamain.cpp declares the template [CMlmaMb<codepage>] (lines 77-105) and instantiates it for six code pages
    (107-112).  [RusRuntime], [RusBuild] and [Wild] model the instance for windows-1251; here are the others.  They differ in the
    conversion of the caller's strings before, and of the strings found after the search.
    The converters [codepages::mbcstombcs], [mbcstowide] and [widetombcs] come from the library moonycode, which is not in the
    repository: they are parameters. *)
From Verif Require Import Base Serial WordTree FlatScan Stems CharTables CapScheme GramMap RusRuntime RusBuild Wild.
Local Open Scope N_scope.

(** A code page: the bytes of a windows-1251 character; the windows-1251 text meant by a string of bytes; and whether the converters
    demand room for a terminator behind their output ([slack] 1) or store one only if there is room left ([slack] 0). *)
Record encoding := Encoding { enc : N -> bytes; dec : bytes -> bytes; slack : nat }.
Definition encode (E : encoding) (s : bytes) : bytes := flat_map (enc E) s.

(** [codepages::...( ..., out, cch, ... )] when the converted text is [text]: what is stored in [out], [None] for -1. *)
Definition convert (k : nat) (cch : nat) (text : list N) : option (list N) :=
  if Nat.ltb cch (length text + k) then None
  else Some (if Nat.ltb (length text) cch then text ++ [0] else text).

Section Put.
  (** [append( p, l ) && append( '\0' )] of the output buffer. *)
  Variable put : coder -> bytes -> res (coder * bool).

  (** lang-rus/libdict/buildform.cpp:240-248, as [put_forms]. *)
  Fixpoint put_forms_with (st : steminfo) (nforms : nat) (p : bytes) (s : coder * Z) : res (coder * Z * Z) :=
    match nforms with
    | O => Ok (s, 0%Z)
    | S n =>
        let! form := cstr p in
        let! p := cap_set rus_casing p (length form) (min_cap st) in
        let! (c, ok) := put (fst s) (firstn (length form) p) in
        if ok then put_forms_with st n (skipn (S (length form)) p) (c, (snd s + 1)%Z) else Ok ((c, snd s), (-1)%Z)
    end.

  (** buildform.cpp:214-252, as [form_build]. *)
  Definition form_build_with (A : arrays) (szstem : bytes) (idform : N)
    (s : coder * Z) (lid : N) (st : steminfo) (inflex suffix : frag) (gr : list gram) : res (coder * Z * Z) :=
    let grinfo := GetGramInfo (wdinfo st) idform in
    if flexinfo_eq grinfo noflex && negb (idform =? 255) then Ok (s, 0%Z)
    else if negb (Bool.eqb (negb (tfoffs st =? 0)) (negb (idform =? 255))) then Ok (s, 0%Z)
    else
      let! (c, nforms) := get_word_forms A fmbuff st grinfo
                            (Frag szstem (N.of_nat (length szstem - length (fstr inflex)))) suffix in
      if (nforms <=? 0)%Z then Ok (s, nforms) else put_forms_with st (Z.to_nat nforms) (cout c) s.

  (** mlmamain.cpp:174-204, as [build_form]. *)
  Definition build_form_with (A : arrays) (junk : bytes) (output : option bytes) (nlexid idform : N) : res (Z * option bytes) :=
    match output with
    | None => Ok ((-5)%Z, None)
    | Some [] => Ok ((-5)%Z, Some [])
    | Some mem =>
        let! found := find_lid (lidstree A) junk nlexid in
        match found with
        | None => Ok (0%Z, Some mem)
        | Some ofsptr =>
            let! (off, _) := getserial ofsptr in
            let! dicpos := advance off (stemtree A) in
            let dicpos := length dicpos in
            let! (s, nerror) :=
              get_track C8 (fun s pstems track => select_view (build_class A (form_build_with A track idform)) dicpos s pstems track)
                        49 (Some dicpos) (stemtree A) [] (Coder mem 0, 0%Z) in
            Ok (if (nerror <? 0)%Z then nerror else snd s, Some (cmem (fst s)))
        end
    end.

  (** lang-rus/libdict/lemmatize.cpp:120-149, as [put_lemma]. *)
  Definition put_lemma_with (A : arrays) (szstem : bytes) (dwsets : N) (c : coder) (st : steminfo) (inflex suffix : frag) (grs : list gram)
    : res (coder * option Z) :=
    match grs with
    | [] => Ub
    | g :: _ =>
        let! (col, nforms) := get_dict_forms A fmbuff dwsets st (Flexinfo (ggrInfo g) (gbFlags g))
                                (Frag szstem (N.of_nat (length szstem - length (fstr inflex)))) suffix in
        if (nforms <=? 0)%Z then Ok (c, Some nforms)
        else
          let! select := select_min (Z.to_nat (nforms - 1)) (cout col) (cout col) in
          let! form := cstr select in
          let! p := cap_set rus_casing select (length form) (min_cap st) in
          let! (c, ok) := put c (firstn (length form) p) in
          Ok (c, if ok then None else Some (-1)%Z)
    end.

  (** lemmatize.cpp:94-180, as [lemmatizer]. *)
  Definition lemmatizer_with (A : arrays) (szstem : bytes) (dwsets : N)
    (s : lstate) (nlexid : N) (st : steminfo) (inflex suffix : frag) (grs : list gram) : res (lstate * Z) :=
    if (l_built s <? 0)%Z then Ok (s, l_built s)
    else
      let! started := start_lemm s nlexid in
      match started with
      | None => Ok (LState (l_lemms s) (l_forms s) (l_grams s) (-2)%Z, (-2)%Z)
      | Some (s, merge) =>
          let! (s, ret) :=
            (match l_forms s with
             | Some c =>
                 if merge then Ok (s, None)
                 else
                   let! (c, ret) := put_lemma_with A szstem dwsets c st inflex suffix grs in
                   Ok (LState (l_lemms s) (Some c) (l_grams s) (l_built s), ret)
             | None => Ok (s, None)
             end) in
          match ret with
          | Some r => Ok (s, r)
          | None =>
              let! (s, ret) := put_infos s merge st grs in
              match ret with
              | Some r => Ok (s, r)
              | None =>
                  if merge then Ok (s, 0%Z)
                  else Ok (LState (match l_lemms s with None => None | Some (mem, cur) => Some (mem, S cur) end)
                                  (l_forms s) (l_grams s) (l_built s + 1)%Z, 0%Z)
              end
          end
      end.
End Put.

(** mlmamain.cpp:124-130 and twins, as [prologue]; [canonic] is the result of [ToCanonic]. *)
Definition prologue_with {B} (canonic : res (N * bytes)) (dwsets : N) (junk : bytes) (failed : Z -> B) (go : bytes -> N -> N -> res B) : res B :=
  let! (scheme, out) := canonic in
  if scheme =? 2 ^ 32 - 1 then Ok (failed (-4)%Z)
  else if scheme =? 0 then Ok (failed 0%Z)
  else if (N.land scheme 0xff =? 0xff) && negb (bit 1 dwsets) then Ok (failed 0%Z)
  else go (overwrite out junk) (N.shiftr scheme 16) (N.land scheme 0xffff).

Section Calls.
  Variable put : coder -> bytes -> res (coder * bool).
  Variable canonic : res (N * bytes).

  (** mlmamain.cpp:117-138, as [check_word]. *)
  Definition check_word_with (A : arrays) (junk : bytes) (dwsets : N) : res Z :=
    prologue_with canonic dwsets junk (fun r => r)
      (fun locase len scheme =>
         let! (_, r) := scan_words A anyway_ok scheme dwsets locase len tt in Ok r).

  (** mlmamain.cpp:206-240, as [find_forms]. *)
  Definition find_forms_with (A : arrays) (junk : bytes) (output : option bytes) (idform dwsets : N) : res (Z * option bytes) :=
    let! _ := canonic in
    match output with
    | None => Ok ((-5)%Z, None)
    | Some [] => Ok ((-5)%Z, Some [])
    | Some mem =>
        prologue_with canonic dwsets junk (fun r => (r, Some mem))
          (fun locase len scheme =>
             let! (s, nerror) := scan_words A (form_build_with put A locase idform) scheme dwsets locase len (Coder mem 0, 0%Z) in
             Ok (if (nerror <? 0)%Z then nerror else snd s, Some (cmem (fst s))))
    end.

  (** mlmamain.cpp:140-172, as [lemmatize]. *)
  Definition lemmatize_with (A : arrays) (junk : bytes)
    (plemma : option (list lemm)) (pforms : option bytes) (pgrams : option (list gram)) (dwsets : N)
    : res (Z * (option (list lemm) * option bytes * option (list gram))) :=
    prologue_with canonic dwsets junk (fun r => (r, (plemma, pforms, pgrams)))
      (fun locase len scheme =>
         let! (s, nerror) :=
           scan_words A (lemmatizer_with put A locase dwsets) scheme dwsets locase len
             (LState (option_map (fun m => (m, 0%nat)) plemma) (option_map (fun m => Coder m 0) pforms)
                     (option_map (fun m => (m, 0%nat)) pgrams) 0%Z) in
         Ok (if (nerror <? 0)%Z then nerror else l_built s,
             (option_map fst (l_lemms s), option_map cmem (l_forms s), option_map fst (l_grams s)))).
End Calls.

(** ** The windows-1251 instance is the one of [RusRuntime] and [RusBuild]. *)
Lemma check_word_1251 A junk psz cch dwsets : check_word A junk psz cch dwsets = check_word_with (to_canonic psz cch) A junk dwsets.
Proof. reflexivity. Qed.
Lemma build_form_1251 A junk output id idform : build_form A junk output id idform = build_form_with coder_put A junk output id idform.
Proof. reflexivity. Qed.
Lemma find_forms_1251 A junk output psz cch idform dwsets :
  find_forms A junk output psz cch idform dwsets = find_forms_with coder_put (to_canonic psz cch) A junk output idform dwsets.
Proof. reflexivity. Qed.
Lemma lemmatize_1251 A junk psz cch plemma pforms pgrams dwsets :
  lemmatize A junk psz cch plemma pforms pgrams dwsets = lemmatize_with coder_put (to_canonic psz cch) A junk plemma pforms pgrams dwsets.
Proof. reflexivity. Qed.

(** ** The other instances *)

(** xmorph/codepages.hpp:56-61 [ToCodepage] with different code pages and 89-94 [MbcsCoder::append]: [None] is [false]. *)
Definition cp_append (E : encoding) (c : coder) (s : bytes) : res (option coder) :=
  match convert (slack E) (length (cmem c) - cpos c) (encode E s) with
  | None => Ok None
  | Some out => let! m := mem_writes (cmem c) (cpos c) out in Ok (Some (Coder m (cpos c + length (encode E s))))
  end.

(** [append( p, l ) && append( '\0' )]. *)
Definition cp_put (E : encoding) (c : coder) (s : bytes) : res (coder * bool) :=
  let! r := cp_append E c s in
  match r with
  | None => Ok (c, false)
  | Some c1 =>
      let! r := cp_append E c1 [0] in
      match r with None => Ok (c1, false) | Some c2 => Ok (c2, true) end
  end.

(** mlmamain.cpp:358-382 [ToCanonic] when [codepage] is not windows-1251; [mbsstr] has 48 bytes. *)
Definition cp_canonic (E : encoding) (psz : option bytes) (cch : N) : res (N * bytes) :=
  match psz with
  | None => Ok (0, [])
  | Some p =>
      let! w := (if cch =? 2 ^ 64 - 1 then cstr p
                 else if N.of_nat (length p) <? cch then Ub else Ok (firstn (N.to_nat cch) p)) in
      match w with
      | [] => Ok (0, [])
      | _ => match convert (slack E) 48 (dec E w) with
             | None => Ok (2 ^ 32 - 1, [])
             | Some _ => cap_get rus_casing 48 (dec E w)
             end
      end
  end.

(** mlmamain.cpp:117-240 for such a code page. *)
Definition cp_check_word (E : encoding) A junk psz cch dwsets := check_word_with (cp_canonic E psz cch) A junk dwsets.
Definition cp_build_form (E : encoding) A junk output nlexid idform := build_form_with (cp_put E) A junk output nlexid idform.
Definition cp_find_forms (E : encoding) A junk output psz cch idform dwsets :=
  find_forms_with (cp_put E) (cp_canonic E psz cch) A junk output idform dwsets.
Definition cp_lemmatize (E : encoding) A junk psz cch plemma pforms pgrams dwsets :=
  lemmatize_with (cp_put E) (cp_canonic E psz cch) A junk plemma pforms pgrams dwsets.

Section CpFindMatch.
  Context {U : Type}.
  Variable E : encoding.
  (** The caller's [IMlmaMatch::AddLexeme]. *)
  Variable AddLexeme : U -> N -> list (bytes * N) -> U * Z.

  (** mlmamain.cpp:280-313 [reglex] with the conversion at 301-306 into [strbuf[96]]; a failed conversion makes [length] -1, and the
      loop at 308-309 then runs out of the array. *)
  Definition cp_reglex (lid : N) (str : bytes) (gr : gram) (s : @reglex_state U) : res (@reglex_state U * Z) :=
    match convert (slack E) 96 (encode E str) with
    | None => Ub
    | Some _ => reglex AddLexeme lid (encode E str) gr s
    end.

  (** mlmamain.cpp:268-356 [FindMatch], [pmatch] not null.  The length is checked before the conversion (332 before 336-341);
      [cpsstr] holds the converted pattern first and is the buffer of the search afterwards. *)
  Definition cp_find_match (A : arrays) (junk buf : bytes) (psz : option bytes) (cch : N) (u : U) : res (U * Z) :=
    match psz with
    | None => Ok (u, (-5)%Z)
    | Some p =>
        let! n := (if cch =? 2 ^ 64 - 1 then let! w := cstr p in Ok (N.of_nat (length w)) else Ok cch) in
        if n =? 0 then Ok (u, 0%Z)
        else if 48 <=? n then Ok (u, (-4)%Z)
        else if N.of_nat (length p) <? n then Ub
        else
          match convert (slack E) 48 (dec E (firstn (N.to_nat n) p)) with
          | None => Ok (u, (-4)%Z)
          | Some cps =>
              let w := dec E (firstn (N.to_nat n) p) in
              let n := length w in
              let! (_, out) := cap_get rus_casing 48 w in
              let! locase := mem_write (overwrite out junk) n 0 in
              let! (_, s, nerror) :=
                wild_tree (match_model A cp_reglex) (S (length (stemtree A) + n)) (stemtree A) (firstn n locase)
                          (overwrite cps buf) 0 (Reglex 0 [] None u) in
              if negb (Z.eqb nerror 0) then Ok (rg_user s, nerror)
              else if rg_last s =? 0 then Ok (rg_user s, 0%Z)
              else Ok (AddLexeme (rg_user s) (rg_last s) (rg_match s))
          end
    end.
End CpFindMatch.
