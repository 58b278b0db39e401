(** * RusRuntime: matching a word against the compiled Russian dictionary.  MODEL ONLY.
    Only the windows-1251 instance is modelled: conversion between codepages is done by an external library. *)
From Verif Require Import Base Serial WordTree FlatScan Stems CharTables CapScheme GramMap.
Local Open Scope N_scope.

(** lang-rus/libdict/mlmadefs.h:43-48: the compiled arrays; [mixTypes] is the fixed table below. *)
Record arrays := Arrays {
  flexTree : bytes; mxTables : bytes; classmap : bytes; stemtree : bytes; lidstree : bytes }.

(** lang-rus/libdict/tools/buildic/makerus.cpp:42-88 [mixTypes]. *)
Definition mixTypes : list N :=
  [0; 1; 1; 1; 1; 1; 1; 2; 3; 4; 5; 6; 6; 5; 6; 7; 5; 6; 7; 5; 6; 5; 6; 5; 5; 8; 0; 0; 0; 0; 0; 0; 0; 0; 0; 0; 0; 0;
   6; 6; 0; 6; 0; 0; 0; 0; 0; 0; 0; 0; 0; 0; 0; 0; 0; 0; 0; 0; 0; 0; 0; 0; 0; 0].

(** lang-rus/libdict/mlmadefs.h:138-142 [steminfo]. *)
Record steminfo := Steminfo { wdinfo : N; tfoffs : N; mtoffs : N }.

(** mlmadefs.h:154-160 [steminfo::Load]: bit 13 wfFlexes, bit 14 wfMixTab. *)
Definition load (p : bytes) : res steminfo :=
  let! (wd, p) := getword16 p in
  let! (tf, p) := (if bit 13 wd || (N.land wd 0x3f =? 51) then getword16 p else Ok (0, p)) in
  let! (mt, _) := (if bit 14 wd then getword16 p else Ok (0, p)) in
  Ok (Steminfo wd tf mt).

(** mlmadefs.h:145-149 [steminfo( uint16_t )]; with 0xffff the fields stay uninitialised. *)
Definition steminfo_at (A : arrays) (offset : N) : res steminfo :=
  if offset =? 0xffff then Ub else let! p := advance offset (classmap A) in load p.

(** mlmadefs.h:161-164 [MinCapScheme] on lang-rus/chartype.cpp:206 [pspMinCapValue]. *)
Definition MinCapScheme (s : steminfo) : N := nth (N.to_nat (N.land (wdinfo s) 0x3f)) rus_pspMinCapValue 0.

(** mlmadefs.h:165-172 [GetFlexTable], [GetSwapTable]. *)
Definition GetFlexTable (A : arrays) (s : steminfo) : res (option bytes) :=
  if negb (tfoffs s =? 0) && negb (N.land (wdinfo s) 0x3f =? 51)
  then let! p := advance (N.shiftl (tfoffs s) 4) (flexTree A) in Ok (Some p) else Ok None.
Definition GetSwapTable (A : arrays) (s : steminfo) : res (option bytes) :=
  if negb (mtoffs s =? 0) then let! p := advance (mtoffs s) (mxTables A) in Ok (Some p) else Ok None.

(** mlmadefs.h:61-115, the level of alternation of a form. *)
Definition GetVerbMixPowerType3 (g : N) : N := let t := N.land g 7 in if (t =? 4) || (t =? 3) then 2 else 1.
Definition GetVerbMixPowerType2 (g : N) : N :=
  let t := N.land g 7 in
  if (t =? 5) && (N.land g 0x60 =? 0x40) then 3 else if negb (t =? 5) && negb (t =? 1) then 2 else 1.
Definition GetVerbMixPowerType1 (g : N) : N :=
  if N.land g 0x67 =? 0x45 then 3 else if N.land g 0x818 =? 8 then 2 else 1.
Definition GetVerbMixPower (st g : N) : N :=
  match N.shiftr (N.land st 0x1800) 11 with
  | 0 => GetVerbMixPowerType1 g | 1 => GetVerbMixPowerType2 g | 2 => GetVerbMixPowerType3 g | _ => 1
  end.
Definition MascNotAnimMixPower (g : N) : N := if (N.land g 0x7800 =? 0) || (N.land g 0x7800 =? 0x3000) then 1 else 2.
Definition MascAnimateMixPower (g : N) : N := if N.land g 0x7800 =? 0 then 1 else 2.
Definition MascMixedMixPower (g f : N) : N := if bit 0 f then MascAnimateMixPower g else MascNotAnimMixPower g.
Definition FemnNotAnimMixPower (g : N) : N := if N.land g 0x7800 =? 0x1800 then 2 else 1.
Definition FemnAnimateMixPower (g : N) : N := if (N.land g 0x7800 =? 0x1800) || (N.land g 0x7800 =? 0x3800) then 2 else 1.
Definition FemnMixedMixPower (g f : N) : N := if bit 0 f then FemnAnimateMixPower g else FemnNotAnimMixPower g.
Definition GetAdjectivMixPower (g : N) : N := if g =? 0x80 then 3 else if g =? 0x300 then 2 else 1.

(** mlmadefs.h:173-187 [GetSwapLevel]. *)
Definition GetSwapLevel (wd g f : N) : N :=
  match nth (N.to_nat (N.land wd 0x3f)) mixTypes 0 with
  | 1 => GetVerbMixPower wd g | 2 => MascNotAnimMixPower g | 3 => MascAnimateMixPower g
  | 4 => MascMixedMixPower g f | 5 => FemnNotAnimMixPower g | 6 => FemnAnimateMixPower g
  | 7 => FemnMixedMixPower g f | 8 => GetAdjectivMixPower g | _ => 1
  end.

(** api.h [SGramInfo]. *)
Record gram := Gram { gwdInfo : N; gidForm : N; ggrInfo : N; gbFlags : N }.

(** lang-rus/libdict/scanClass.hpp:62-66, the loop of [Grammar::list]: [nforms] descriptions left at [p]; passing ones
    are appended to the vector of [room] elements. *)
Fixpoint gram_loop (filter : N -> N -> bool) (room : nat) (nforms : nat) (p : bytes) (vector : list gram) : res (list gram) :=
  match nforms with
  | O => Ok vector
  | S n =>
      let! (g, p) := getword16 p in
      let! (f, p) := rd p in
      if filter g f
      then if Nat.ltb (length vector) room then gram_loop filter room n p (vector ++ [Gram 0 0 g f]) else Ub
      else gram_loop filter room n p vector
  end.

(** scanClass.hpp:57-70 [Grammar::list::operator()]; the state is the vector filled so far. *)
Definition gram_list (filter : N -> N -> bool) (room : nat) (vector : list gram) (ftable : bytes) (inflex : frag)
  : res (list gram * Z) :=
  let! v := (if flen inflex =? 0
             then let! (nforms, p) := rd ftable in gram_loop filter room (N.to_nat nforms) p vector
             else Ok vector) in
  Ok (v, Z.of_nat (length v)).

(** scanClass.hpp:73-82 [anyvalue], [multiple]; 84-108 [altlevel]. *)
Definition any_or_multiple (wd g : N) : bool := if bit 6 wd then bit 11 g else true.
Definition altlevel (wd powers g f : N) : bool := N.testbit powers (GetSwapLevel wd g f - 1).

(** scanClass.hpp:118-151 [ScanTables] without and with the mask of levels; [grbuff] has 0x40 elements. *)
Definition scan_tables (ptable : bytes) (filter : N -> N -> bool) (inflex : frag) : res (list gram * Z) :=
  scan_tree C8 (gram_list filter 64) 64 ptable inflex [].

(** scanClass.hpp:244-245, comparing an alternation with the word; the pointer into the word advances. *)
Fixpoint mix_compare (cmplen : nat) (curmix flextr : bytes) : res (comparison * bytes) :=
  match cmplen with
  | O => Ok (Eq, flextr)
  | S n =>
      let! (m, curmix) := rd curmix in
      let! (c, flextr) := rd flextr in
      if m =? c then mix_compare n curmix flextr else Ok (if m <? c then Lt else Gt, flextr)
  end.

Section Match.
  Context {St : Type}.
  Variable A : arrays.
  (** The target functor: lexeme id, class, inflexion, postfix, grammatical descriptions. *)
  Variable target : St -> N -> steminfo -> frag -> frag -> list gram -> res (St * Z).

  (** scanClass.hpp:164-172 [BuildClass::operator()]. *)
  Definition build_class (s : St) (nlexid oclass : N) (inflex suffix : frag) : res (St * Z) :=
    let! st := steminfo_at A oclass in
    let! p := advance (flen inflex) (fstr inflex) in
    target s nlexid st (Frag p 0) suffix [].

  Variable scheme : N.        (* SetCapitalization *)
  Variable dwsets : N.        (* SetSearchSettings *)

  (** scanClass.hpp:230-262, the loop over alternations: [mixcnt] left at [mixtab].  The address of the next alternation is
      formed before the current one is examined instead of after; it differs only for a truncated table. *)
  Fixpoint mix_loop (lid : N) (lextem : steminfo) (ptable : bytes) (inflex suffix : frag) (mixcnt : nat) (mixtab : bytes) (s : St)
    : res (St * Z) :=
    match mixcnt with
    | O => Ok (s, 0%Z)
    | S n =>
        let! (head, curmix) := rd mixtab in
        let mixlen := N.land head 0x0f in
        let powers := N.shiftr head 4 in
        let! next := advance mixlen curmix in
        let cmplen := if mixlen <? flen inflex then mixlen else flen inflex in
        let! (rescmp, flextr) := mix_compare (N.to_nat cmplen) curmix (fstr inflex) in
        match (match rescmp with Eq => if 0 <? mixlen - cmplen then Gt else Eq | c => c end) with
        | Gt => Ok (s, 0%Z)
        | Lt => mix_loop lid lextem ptable inflex suffix n next s
        | Eq =>
            let! (grbuff, ngrams) :=
              scan_tables ptable (fun g f => altlevel (wdinfo lextem) powers g f && any_or_multiple (wdinfo lextem) g)
                          (Frag flextr (flen inflex - cmplen)) in
            if Z.eqb ngrams 0 then mix_loop lid lextem ptable inflex suffix n next s
            else
              let! (s', r) := target s lid lextem inflex suffix (firstn (Z.to_nat ngrams) grbuff) in
              if Z.eqb r 0 then mix_loop lid lextem ptable inflex suffix n next s' else Ok (s', r)
        end
    end.

  (** scanClass.hpp:192-264 [MatchClass::operator()]. *)
  Definition match_class (s : St) (nlexid oclass : N) (inflex suffix : frag) : res (St * Z) :=
    let! lextem := steminfo_at A oclass in
    if negb (bit 1 dwsets) && negb (IsGoodSheme scheme (MinCapScheme lextem)) then Ok (s, 0%Z)
    else
      let! flex := GetFlexTable A lextem in
      match flex with
      | None =>
          if flen inflex =? 0
          then target s nlexid (Steminfo (wdinfo lextem) 0 0) inflex suffix [Gram 0 0 (tfoffs lextem) 0]
          else Ok (s, 0%Z)
      | Some ptable =>
          let! swap := GetSwapTable A lextem in
          match swap with
          | None =>
              let! (grbuff, ngrams) := scan_tables ptable (fun g _ => any_or_multiple (wdinfo lextem) g) inflex in
              if Z.eqb ngrams 0 then Ok (s, 0%Z)
              else target s nlexid lextem inflex suffix (firstn (Z.to_nat ngrams) grbuff)
          | Some mixtab =>
              let! (mixcnt, mixtab) := rd mixtab in
              mix_loop nlexid lextem ptable inflex suffix (N.to_nat mixcnt) mixtab s
          end
      end.

  (** The search shared by lang-rus/libdict/mlmamain.cpp:133-136, 165-168, 234-237: scan the stem tree for [locase]. *)
  Definition scan_words (locase : bytes) (len : N) (s : St) : res (St * Z) :=
    scan_tree C8 (lookup_list match_class) 64 (stemtree A) (Frag locase len) s.
End Match.

(** mlmamain.cpp:358-382 [ToCanonic] of the 1251 instance: [psz] is [None] for a null pointer, else the memory from the
    string on; [cch] is the [size_t] length.  The result is the scheme and the bytes stored in [output[48]]. *)
Definition to_canonic (psz : option bytes) (cch : N) : res (N * bytes) :=
  match psz with
  | None => Ok (0, [])
  | Some p =>
      let! w := (if cch =? 2 ^ 64 - 1 then cstr p
                 else if N.of_nat (length p) <? cch then Ub else Ok (firstn (N.to_nat cch) p)) in
      match w with
      | [] => Ok (0, [])
      | _ => cap_get rus_casing 48 w
      end
  end.

(** The array [locase[48]] after [stored] bytes were written over its [junk] contents. *)
Definition overwrite (stored junk : bytes) : bytes := stored ++ skipn (length stored) junk.

(** mlmamain.cpp:60-64 [anyway_ok]. *)
Definition anyway_ok (s : unit) (lid : N) (st : steminfo) (inflex suffix : frag) (gr : list gram) : res (unit * Z) := Ok (s, 1%Z).

(** mlmamain.cpp:124-130 and twins 151-157, 221-227: the tests made before searching. *)
Definition prologue {B} (psz : option bytes) (cch dwsets : N) (junk : bytes) (failed : Z -> B) (go : bytes -> N -> N -> res B) : res B :=
  let! (scheme, out) := to_canonic psz cch in
  if scheme =? 2 ^ 32 - 1 then Ok (failed (-4)%Z)
  else if scheme =? 0 then Ok (failed 0%Z)
  else if (N.land scheme 0xff =? 0xff) && negb (bit 1 dwsets) then Ok (failed 0%Z)
  else go (overwrite out junk) (N.shiftr scheme 16) (N.land scheme 0xffff).

(** mlmamain.cpp:117-138 [CheckWord]. *)
Definition check_word (A : arrays) (junk : bytes) (psz : option bytes) (cch dwsets : N) : res Z :=
  prologue psz cch dwsets junk (fun r => r)
    (fun locase len scheme =>
       let! (_, r) := scan_words A anyway_ok scheme dwsets locase len tt in Ok r).

(** mlmamain.cpp:242-266 [GetWdInfo]: the value returned and what is stored in [*pwinfo], if anything. *)
Definition get_wd_info (A : arrays) (junk : bytes) (lexkey : N) : res (Z * option N) :=
  let! found := find_lid (lidstree A) junk lexkey in
  match found with
  | None => Ok (0%Z, None)
  | Some ofsptr =>
      let! (off, _) := getserial ofsptr in
      let! dicpos := advance (off + 2) (stemtree A) in
      let! (nlexid, dicpos) := getserial dicpos in
      let! (oclass, _) := getword16 dicpos in
      if negb (nlexid =? lexkey) then Ok ((-2)%Z, None)
      else
        let! p := advance (N.land oclass 0x7fff) (classmap A) in
        let! st := load p in
        Ok (1%Z, Some (N.land (wdinfo st) 0x3f))
  end.
