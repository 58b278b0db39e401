(** * EngRuntime: the English analyser on its compiled dictionary.  MODEL ONLY.
    Only the instance without conversion of codepages is modelled.  The walk over trees and stem lists, capitalisation schemes and
    output buffers are the shared code modelled in [FlatScan], [Stems], [CapScheme] and [RusBuild]. *)
From Verif Require Import Base Serial WordTree FlatScan Stems CharTables CapScheme GramMap RusRuntime RusBuild.
Local Open Scope N_scope.

(** lang-eng/libdict/mlmadefs.h:43-46: the compiled arrays. *)
Record earrays := EArrays { e_flex : bytes; e_class : bytes; e_stems : bytes; e_lids : bytes }.

(** mlmadefs.h:66-69 [steminfo]. *)
Record estem := EStem { e_wdinfo : N; e_tfoffs : N }.

(** mlmadefs.h:80-85 [steminfo::Load]; 72-76 the constructor: with 0xffff the fields stay uninitialised. *)
Definition eload (p : bytes) : res estem :=
  let! (wd, p) := getword16 p in
  let! (tf, _) := getword16 p in
  Ok (EStem wd tf).
Definition estem_at (A : earrays) (oclass : N) : res estem :=
  if oclass =? 0xffff then Ub else let! p := advance oclass (e_class A) in eload p.

(** mlmadefs.h:86-89 [MinCapScheme], 90-93 [GetFlexTable]. *)
Definition emincap (s : estem) : N := N.land (N.shiftr (e_wdinfo s) 7) 3.
Definition eflex_table (A : earrays) (s : estem) : res (option bytes) :=
  if negb (e_tfoffs s =? 0) then let! p := advance (e_tfoffs s) (e_flex A) in Ok (Some p) else Ok None.

(** [memcmp] of [n] bytes; reading beyond either array is undefined. *)
Fixpoint mem_cmp (n : nat) (p q : bytes) : res comparison :=
  match n with
  | O => Ok Eq
  | S n' =>
      let! (a, p) := rd p in
      let! (b, q) := rd q in
      if a <? b then Ok Lt else if b <? a then Ok Gt else mem_cmp n' p q
  end.

(** lang-eng/libdict/scanClass.hpp:49-68, the loop of [ScanTables]: [ncount] items left at [ptable]; [vector] is the part of
    [buffer[0x40]] in use, storing beyond it is undefined. *)
Fixpoint escan_loop (wd : N) (inflex : frag) (ncount : nat) (ptable : bytes) (vector : list gram) : res (list gram) :=
  match ncount with
  | O => Ok vector
  | S n =>
      let! (idform, p) := rd ptable in
      let! (ccflex, szflex) := rd p in
      let cmplen := if flen inflex <? ccflex then flen inflex else ccflex in
      let! rescmp := (if 0 <? cmplen then mem_cmp (N.to_nat cmplen) szflex (fstr inflex) else Ok Eq) in
      match rescmp with
      | Gt => Ok vector
      | _ =>
          let! next := advance ccflex szflex in
          if negb (ccflex =? flen inflex) || match rescmp with Lt => true | _ => false end
          then escan_loop wd inflex n next vector
          else if Nat.ltb (length vector) 64
               then escan_loop wd inflex n next (vector ++ [Gram (N.land wd 0x7f) idform 0 0]) else Ub
      end
  end.

(** scanClass.hpp:41-69 [ScanDict::ScanTables]. *)
Definition escan_tables (wd : N) (ptable : bytes) (inflex : frag) : res (list gram) :=
  let! (ncount, p) := rd ptable in escan_loop wd inflex (N.to_nat ncount) p [].

Section Match.
  Context {St : Type}.
  Variable A : earrays.
  (** The target functor: lexeme id, class, inflexion, postfix, grammatical descriptions. *)
  Variable target : St -> N -> estem -> frag -> frag -> list gram -> res (St * Z).

  (** scanClass.hpp:82-90 [BuildClass::operator()]. *)
  Definition ebuild_class (s : St) (nlexid oclass : N) (inflex suffix : frag) : res (St * Z) :=
    let! st := estem_at A oclass in
    let! p := advance (flen inflex) (fstr inflex) in
    target s nlexid st (Frag p 0) suffix [].

  Variable scheme : N.        (* SetCapitalization *)
  Variable dwsets : N.        (* SetSearchSettings *)

  (** scanClass.hpp:110-139 [MatchClass::operator()]. *)
  Definition ematch_class (s : St) (nlexid oclass : N) (inflex suffix : frag) : res (St * Z) :=
    let! lextem := estem_at A oclass in
    if negb (bit 1 dwsets) && negb (IsGoodSheme scheme (emincap lextem)) then Ok (s, 0%Z)
    else
      let! flex := eflex_table A lextem in
      match flex with
      | None =>
          if flen inflex =? 0
          then target s nlexid (EStem (e_wdinfo lextem) 0) inflex suffix [Gram 0 0 (e_tfoffs lextem) 0]
          else Ok (s, 0%Z)
      | Some ptable =>
          let! grbuff := escan_tables (e_wdinfo lextem) ptable inflex in
          match grbuff with [] => Ok (s, 0%Z) | _ => target s nlexid lextem inflex suffix grbuff end
      end.

  (** The search shared by lang-eng/libdict/mlmamain.cpp:126-128, 156-159, 224-227. *)
  Definition escan_words (locase : bytes) (len : N) (s : St) : res (St * Z) :=
    scan_tree C8 (lookup_list ematch_class) 64 (e_stems A) (Frag locase len) s.
End Match.

(** mlmamain.cpp:335-359 [ToCanonic] without conversion; see [to_canonic]. *)
Definition eto_canonic (psz : option bytes) (cch : N) : res (N * bytes) :=
  match psz with
  | None => Ok (0, [])
  | Some p =>
      let! w := (if cch =? 2 ^ 64 - 1 then cstr p
                 else if N.of_nat (length p) <? cch then Ub else Ok (firstn (N.to_nat cch) p)) in
      match w with
      | [] => Ok (0, [])
      | _ => cap_get eng_casing 48 w
      end
  end.

(** mlmamain.cpp:114-123 and twins 138-148, 205-218: the tests made before searching. *)
Definition eprologue {B} (psz : option bytes) (cch dwsets : N) (junk : bytes) (failed : Z -> B) (go : bytes -> N -> N -> res B) : res B :=
  let! (scheme, out) := eto_canonic psz cch in
  if scheme =? 2 ^ 32 - 1 then Ok (failed (-4)%Z)
  else if scheme =? 0 then Ok (failed 0%Z)
  else if (N.land scheme 0xff =? 0xff) && negb (bit 1 dwsets) then Ok (failed 0%Z)
  else go (overwrite out junk) (N.shiftr scheme 16) (N.land scheme 0xffff).

(** mlmamain.cpp:54-58 [anyway_ok], 111-130 [CheckWord]. *)
Definition eanyway_ok (s : unit) (lid : N) (st : estem) (inflex suffix : frag) (gr : list gram) : res (unit * Z) := Ok (s, 1%Z).
Definition echeck_word (A : earrays) (junk : bytes) (psz : option bytes) (cch dwsets : N) : res Z :=
  eprologue psz cch dwsets junk (fun r => r)
    (fun locase len scheme =>
       let! (_, r) := escan_words A eanyway_ok scheme dwsets locase len tt in Ok r).

(** mlmamain.cpp:233-256 [GetWdInfo]: the value returned and what is stored in [*pwinfo], if anything. *)
Definition eget_wd_info (A : earrays) (junk : bytes) (lexkey : N) : res (Z * option N) :=
  let! found := find_lid (e_lids A) junk lexkey in
  match found with
  | None => Ok (0%Z, None)
  | Some ofsptr =>
      let! (off, _) := getserial ofsptr in
      let! dicpos := advance (off + 2) (e_stems A) in
      let! (nlexid, dicpos) := getserial dicpos in
      let! (oclass, _) := getword16 dicpos in
      if negb (nlexid =? lexkey) then Ok ((-2)%Z, None)
      else
        let! p := advance (N.land oclass 0x7fff) (e_class A) in
        let! st := eload p in
        Ok (1%Z, Some (N.land (e_wdinfo st) 0x3f))
  end.

(** ** Building forms *)

(** lang-eng/libdict/buildform.cpp:46-61, the loop of [GetFlexForms]: [fcount] items left at [ptflex]. *)
Fixpoint eflex_loop (pre suf : bytes) (idform : N) (fcount : nat) (ptflex : bytes) (c : collector) (ntails : Z) : res (collector * Z) :=
  match fcount with
  | O => Ok (c, ntails)
  | S n =>
      let! (formid, p) := rd ptflex in
      let! (len, p) := rd p in
      let! inflex := fbytes (Frag p len) in
      let! next := advance len p in
      if negb (formid =? idform) then eflex_loop pre suf idform n next c ntails
      else
        let '(c, ok) := col_appends c [pre; inflex; suf; [0]] in
        if ok then eflex_loop pre suf idform n next c (ntails + 1)%Z else Ok (c, (-1)%Z)
  end.

(** buildform.cpp:37-63 [GetFlexForms]; prefix and suffix are read even when no form uses them. *)
Definition eget_flex_forms (c : collector) (prefix suffix : frag) (ptflex : bytes) (idform : N) : res (collector * Z) :=
  let! pre := fbytes prefix in
  let! suf := fbytes suffix in
  let! (fcount, p) := rd ptflex in
  eflex_loop pre suf idform (N.to_nat fcount) p c 0%Z.

(** buildform.cpp:71-87 [GetWordForms]: without table the suffix is not appended. *)
Definition eget_word_forms (A : earrays) (c : collector) (prefix suffix : frag) (st : estem) (idform : N) : res (collector * Z) :=
  let! flex := eflex_table A st in
  match flex with
  | None =>
      let! pre := fbytes prefix in
      let '(c, ok) := col_appends c [pre; [0]] in
      Ok (c, if ok then 1%Z else (-1)%Z)
  | Some ptflex => eget_flex_forms c prefix suffix ptflex idform
  end.

(** buildform.cpp:95-108 [GetDictForms]: forms 0..15 are tried in turn; [n] are left, starting with [id]. *)
Fixpoint eget_dict_forms (A : earrays) (c : collector) (prefix suffix : frag) (st : estem) (n : nat) (id : N) : res (collector * Z) :=
  match n with
  | O => Ok (c, 0%Z)
  | S n' =>
      let! (c, nforms) := eget_word_forms A c prefix suffix st id in
      if Z.eqb nforms 0 then eget_dict_forms A c prefix suffix st n' (id + 1) else Ok (c, nforms)
  end.

(** buildform.cpp:160-168, the loop of [FormBuild::operator()]: [p] is [fmbuff] from the next form on. *)
Fixpoint eput_forms (st : estem) (nforms : nat) (p : bytes) (s : coder * Z) : res (coder * Z * Z) :=
  match nforms with
  | O => Ok (s, 0%Z)
  | S n =>
      let! form := cstr p in
      let! p := cap_set eng_casing p (length form) (emincap st) in
      let! (c, ok) := coder_put (fst s) (firstn (length form) p) in
      if ok then eput_forms st n (skipn (S (length form)) p) (c, (snd s + 1)%Z) else Ok ((c, snd s), (-1)%Z)
  end.

(** buildform.cpp:138-171 [FormBuild::operator()]. *)
Definition eform_build (A : earrays) (szstem : bytes) (idform : N)
  (s : coder * Z) (lid : N) (st : estem) (inflex suffix : frag) (gr : list gram) : res (coder * Z * Z) :=
  if negb (Bool.eqb (negb (e_tfoffs st =? 0)) (negb (idform =? 255))) then Ok (s, 0%Z)
  else
    let! (c, nforms) := eget_word_forms A fmbuff (Frag szstem (N.of_nat (length szstem - length (fstr inflex)))) suffix st idform in
    if (nforms <=? 0)%Z then Ok (s, nforms) else eput_forms st (Z.to_nat nforms) (cout c) s.

(** mlmamain.cpp:165-196 [BuildForm]; see [build_form]. *)
Definition ebuild_form (A : earrays) (junk : bytes) (output : option bytes) (nlexid idform : N) : res (Z * option bytes) :=
  match output with
  | None => Ok ((-5)%Z, None)
  | Some [] => Ok ((-5)%Z, Some [])
  | Some mem =>
      let! found := find_lid (e_lids A) junk nlexid in
      match found with
      | None => Ok (0%Z, Some mem)
      | Some ofsptr =>
          let! (off, _) := getserial ofsptr in
          let! dicpos := advance off (e_stems A) in
          let dicpos := length dicpos in
          let! (s, nerror) :=
            get_track C8 (fun s pstems track => select_view (ebuild_class A (eform_build A track idform)) dicpos s pstems track)
                      49 (Some dicpos) (e_stems A) [] (Coder mem 0, 0%Z) in
          Ok (if (nerror <? 0)%Z then nerror else snd s, Some (cmem (fst s)))
      end
  end.

(** mlmamain.cpp:198-231 [FindForms]. *)
Definition efind_forms (A : earrays) (junk : bytes) (output : option bytes) (psz : option bytes) (cch idform dwsets : N)
  : res (Z * option bytes) :=
  let! _ := eto_canonic psz cch in
  match output with
  | None => Ok ((-5)%Z, None)
  | Some [] => Ok ((-5)%Z, Some [])
  | Some mem =>
      eprologue psz cch dwsets junk (fun r => (r, Some mem))
        (fun locase len scheme =>
           let! (s, nerror) := escan_words A (eform_build A locase idform) scheme dwsets locase len (Coder mem 0, 0%Z) in
           Ok (if (nerror <? 0)%Z then nerror else snd s, Some (cmem (fst s))))
  end.

(** ** Lemmatizer *)

(** lang-eng/libdict/lemmatize.cpp:50-60 [set_graminfo]: the value stored. *)
Definition eset_graminfo (st : estem) (g : gram) : gram :=
  if negb (e_tfoffs st =? 0) then g else Gram (N.ldiff (e_wdinfo st) 0xe000) 0xff (ggrInfo g) (gbFlags g).

(** lemmatize.cpp:145-149. *)
Fixpoint eput_grams (st : estem) (grbuff : list gram) (mem : list gram) (cur : nat) : res (nat * list gram * nat) :=
  match grbuff with
  | [] => Ok (0%nat, mem, cur)
  | g :: gs =>
      if Nat.eqb cur (length mem) then Ok (length grbuff, mem, cur)
      else let! mem := mem_write mem cur (eset_graminfo st g) in eput_grams st gs mem (S cur)
  end.

(** lemmatize.cpp:138-144, merging with the description [last]. *)
Fixpoint emerge_grams (st : estem) (last : lemm) (grbuff : list gram) (mem : list gram) (cur : nat) : res (nat * list gram * nat) :=
  match grbuff with
  | [] => Ok (0%nat, mem, cur)
  | g :: gs =>
      if Nat.eqb cur (length mem) then Ok (length grbuff, mem, cur)
      else
        let! has := has_graminfo mem (N.to_nat (lm_grams last)) (N.to_nat (lm_ngrams last)) (gidForm g) in
        if has then emerge_grams st last gs mem cur
        else let! mem := mem_write mem cur (eset_graminfo st g) in emerge_grams st last gs mem (S cur)
  end.

(** lemmatize.cpp:115-133: building the normal form; [Some r] is an early [return r]. *)
Definition eput_lemma (A : earrays) (szstem : bytes) (c : coder) (st : estem) (inflex suffix : frag) : res (coder * option Z) :=
  let! (col, nforms) := eget_dict_forms A fmbuff (Frag szstem (N.of_nat (length szstem - length (fstr inflex)))) suffix st 16 0 in
  if (nforms <=? 0)%Z then Ok (c, Some nforms)
  else
    let! form := cstr (cout col) in
    let! p := cap_set eng_casing (cout col) (length form) (emincap st) in
    let! (c, ok) := coder_put c (firstn (length form) p) in
    Ok (c, if ok then None else Some (-1)%Z).

(** lemmatize.cpp:135-153: the descriptions.  The count is stored in the element at the current position. *)
Definition eput_infos (s : lstate) (merge : bool) (st : estem) (grs : list gram) : res (lstate * option Z) :=
  match l_lemms s, l_grams s with
  | Some (lmem, cur), Some (gmem, gcur) =>
      let! (togo, gmem', gcur') :=
        (if merge
         then match cur with
              | O => Ub
              | S prev => let! last := mem_read lmem prev in emerge_grams st last grs gmem gcur
              end
         else eput_grams st grs gmem gcur) in
      if Nat.eqb togo 0
      then
        let! cell := mem_read lmem cur in
        let n := (N.of_nat gcur' + 2 ^ 64 - lm_grams cell mod 2 ^ 64) mod 2 ^ 32 in
        let! lmem' := mem_write lmem cur (Lemm (lm_id cell) (lm_form cell) (lm_grams cell) n) in
        Ok (LState (Some (lmem', cur)) (l_forms s) (Some (gmem', gcur')) (l_built s), None)
      else Ok (LState (l_lemms s) (l_forms s) (Some (gmem', gcur')) (l_built s), Some (-3)%Z)
  | _, _ => Ok (s, None)
  end.

(** lemmatize.cpp:89-163 [Lemmatizer::operator()]; lines 99-113 are those of the Russian one, [start_lemm]. *)
Definition elemmatizer (A : earrays) (szstem : bytes)
  (s : lstate) (nlexid : N) (st : estem) (inflex suffix : frag) (grs : list gram) : res (lstate * Z) :=
  if (l_built s <? 0)%Z then Ok (s, l_built s)
  else
    let! started := start_lemm s nlexid in
    match started with
    | None => Ok (LState (l_lemms s) (l_forms s) (l_grams s) (-2)%Z, (-2)%Z)
    | Some (s, merge) =>
        let! (s, ret) :=
          (match l_forms s with
           | Some c =>
               if merge then Ok (s, None)
               else
                 let! (c, ret) := eput_lemma A szstem c st inflex suffix in
                 Ok (LState (l_lemms s) (Some c) (l_grams s) (l_built s), ret)
           | None => Ok (s, None)
           end) in
        match ret with
        | Some r => Ok (s, r)
        | None =>
            let! (s, ret) := eput_infos s merge st grs in
            match ret with
            | Some r => Ok (s, r)
            | None =>
                if merge then Ok (s, 0%Z)
                else Ok (LState (match l_lemms s with None => None | Some (mem, cur) => Some (mem, S cur) end)
                                (l_forms s) (l_grams s) (l_built s + 1)%Z, 0%Z)
            end
        end
    end.

(** mlmamain.cpp:132-163 [Lemmatize]: the value returned and the three arrays afterwards. *)
Definition elemmatize (A : earrays) (junk : bytes) (psz : option bytes) (cch : N)
  (plemma : option (list lemm)) (pforms : option bytes) (pgrams : option (list gram)) (dwsets : N)
  : res (Z * (option (list lemm) * option bytes * option (list gram))) :=
  eprologue psz cch dwsets junk (fun r => (r, (plemma, pforms, pgrams)))
    (fun locase len scheme =>
       let! (s, nerror) :=
         escan_words A (elemmatizer A locase) scheme dwsets locase len
           (LState (option_map (fun m => (m, 0%nat)) plemma) (option_map (fun m => Coder m 0) pforms)
                   (option_map (fun m => (m, 0%nat)) pgrams) 0%Z) in
       Ok (if (nerror <? 0)%Z then nerror else l_built s,
           (option_map fst (l_lemms s), option_map cmem (l_forms s), option_map fst (l_grams s)))).
