(** * Wild: search by pattern (xmorph/wildscan.h, lang-rus/libdict/wildClass.hpp, FindMatch).  MODEL ONLY.
    A [fragment] is here the list of its bytes: all accesses in these files are guarded by [empty()] or [size()].
    [mem] is the array [smatch] (its whole contents), threaded through all calls since callees write to it. *)
From Verif Require Import Base Serial WordTree FlatScan Stems CapScheme GramMap RusRuntime RusBuild.
Local Open Scope N_scope.

(** xmorph/wildscan.h:40-43 [IsWildcard( uint8_t )]: 42 is the asterisk, 63 the question mark. *)
Definition is_wildcard (c : N) : bool := (c =? 42) || (c =? 63).
(** xmorph/wildscan.h:52-64 [IsAsterisk]. *)
Definition is_asterisk (s : bytes) : bool := nonempty s && forallb (fun c => c =? 42) s.

(** What a search step answers: the array, the state of the target object, the returned int. *)
Definition wres (St : Type) : Type := res (bytes * St * Z).

Section Tree.
  Context {St : Type}.
  (** The action: lexeme id, class, rest of the pattern, postfix, [smatch], [nmatch]. *)
  Variable target : N -> N -> bytes -> bytes -> bytes -> nat -> St -> wres St.

  (** xmorph/wildscan.h:137-173 [Wild::ScanList], the loop. *)
  Fixpoint wild_list_loop (ucount : nat) (p : bytes) (thestr : bytes) (mem : bytes) (n : nat) (s : St) : wres St :=
    match ucount with
    | O => Ok (mem, s, 0%Z)
    | S ucount' =>
        let! (cmin, p) := rd p in
        let! (cmax, p) := rd p in
        let! (lid, p) := getserial p in
        let! (ocl, p) := getword16 p in
        let! (suffix, p) := (if N.testbit ocl 15
                             then let! (k, q) := rd p in let! p' := advance k q in Ok (firstn (N.to_nat k) q, p')
                             else Ok ([], p)) in
        let call := let! (mem, s, r) := target lid (N.land ocl 0x7fff) thestr suffix mem n s in
                    if Z.eqb r 0 then wild_list_loop ucount' p thestr mem n s else Ok (mem, s, r) in
        match thestr with
        | [] => call
        | chnext :: _ =>
            if is_wildcard chnext then call
            else if cmax <? chnext then Ok (mem, s, 0%Z)
            else if chnext <? cmin then wild_list_loop ucount' p thestr mem n s
            else call
        end
    end.
  Definition wild_list (pstems : bytes) (thestr : bytes) (mem : bytes) (n : nat) (s : St) : wres St :=
    let! (ucount, p) := getserial pstems in
    wild_list_loop (N.to_nat ucount) p thestr mem n s.

  Section Level.
    (** The recursive call on a subtree. *)
    Variable descend : bytes -> bytes -> St -> wres St.
    Variable n : nat.

    (** xmorph/wildscan.h:97-99 and 108-110: the loop over all children; [smatch[nmatch] = *thedic] is also executed after
        the last child. *)
    Fixpoint wild_all (ncount : nat) (p : bytes) (mem : bytes) (s : St) : res (bytes * bytes * St * Z) :=
      let! (c, _) := rd p in
      let! mem := mem_write mem n c in
      match ncount with
      | O => Ok (p, mem, s, 0%Z)
      | S k =>
          let! (_, subdic, p') := getchild p in
          let! (mem, s, r) := descend subdic mem s in
          if Z.eqb r 0 then wild_all k p' mem s else Ok (p', mem, s, r)
      end.

    (** xmorph/wildscan.h:115-119: the children with the byte looked for. *)
    Fixpoint wild_one (chfind : N) (ncount : nat) (p : bytes) (mem : bytes) (s : St) : res (bytes * bytes * St * Z) :=
      match ncount with
      | O => Ok (p, mem, s, 0%Z)
      | S k =>
          let! (c, subdic, p') := getchild p in
          let! mem := mem_write mem n c in
          if negb (c =? chfind) then wild_one chfind k p' mem s
          else
            let! (mem, s, r) := descend subdic mem s in
            if Z.eqb r 0 then wild_one chfind k p' mem s else Ok (p', mem, s, r)
      end.

    (** xmorph/wildscan.h:124-125: skipping the children. *)
    Fixpoint wild_skip (ncount : nat) (p : bytes) : res bytes :=
      match ncount with
      | O => Ok p
      | S k => let! (_, _, p') := getchild p in wild_skip k p'
      end.
  End Level.

  (** xmorph/wildscan.h:74-129 [Wild::ScanTree<uint8_t>].  The C++ recursion is not limited; [fuel] only makes the
      definition structural (every call shortens the tree or the pattern). *)
  Fixpoint wild_tree (fuel : nat) (thedic : bytes) (thestr : bytes) (mem : bytes) (n : nat) (s : St) : wres St :=
    match fuel with
    | O => Ub
    | S fuel' =>
        let! (uflags, p) := getcounter C8 thedic in
        let ncount := getlower C8 uflags in
        let! (p, mem, s, r) :=
          (match thestr with
           | [] => let! p := wild_skip ncount p in Ok (p, mem, s, 0%Z)
           | chfind :: next =>
               if chfind =? 63 then
                 wild_all (fun subdic mem s => wild_tree fuel' subdic next mem (S n) s) n ncount p mem s
               else if chfind =? 42 then
                 let! (mem, s, r) := (match next with
                                      | [] => Ok (mem, s, 0%Z)
                                      | _ => wild_tree fuel' thedic next mem n s
                                      end) in
                 if Z.eqb r 0
                 then wild_all (fun subdic mem s => wild_tree fuel' subdic thestr mem (S n) s) n ncount p mem s
                 else Ok (p, mem, s, r)
               else
                 wild_one (fun subdic mem s => wild_tree fuel' subdic next mem (S n) s) n chfind ncount p mem s
           end) in
        if Z.eqb r 0 then
          if hasupper C8 uflags then wild_list p thestr mem n s else Ok (mem, s, 0%Z)
        else Ok (mem, s, r)
    end.
End Tree.

Section Classes.
  Context {St : Type}.
  (** The output functor, wildClass.hpp:247-255: the string in [smatch[0 .. lmatch)] and the description. *)
  Variable output : bytes -> gram -> St -> res (St * Z).

  (** The call [target( smatch, lmatch, grinfo )]. *)
  Definition wild_call (mem : bytes) (l : nat) (gr : gram) (s : St) : wres St :=
    if Nat.ltb (length mem) l then Ub
    else let! (s, r) := output (firstn l mem) gr s in Ok (mem, s, r).

  (** wildClass.hpp:48-94 [ScanSuffix]; the loop that skips equal bytes is one of the cases. *)
  Fixpoint scan_suffix (inflex : bytes) (gr : gram) : bytes -> bytes -> nat -> St -> wres St :=
    fix inner (suffix : bytes) (mem : bytes) (l : nat) (s : St) : wres St :=
      match inflex with
      | [] => match suffix with [] => wild_call mem l gr s | _ => Ok (mem, s, 0%Z) end
      | a :: inflex' =>
          match suffix with
          | [] =>
              if a =? 42 then
                let! (mem, s, r) := scan_suffix inflex' gr [] mem l s in
                if Z.eqb r 0 then Ok (mem, s, 0%Z) else Ok (mem, s, r)
              else Ok (mem, s, 0%Z)
          | b :: suffix' =>
              if a =? b then let! mem := mem_write mem l b in scan_suffix inflex' gr suffix' mem (S l) s
              else if a =? 42 then
                let! (mem, s, r) := scan_suffix inflex' gr suffix mem l s in
                if Z.eqb r 0 then let! mem := mem_write mem l b in inner suffix' mem (S l) s else Ok (mem, s, r)
              else if a =? 63 then let! mem := mem_write mem l b in scan_suffix inflex' gr suffix' mem (S l) s
              else Ok (mem, s, 0%Z)
          end
      end.

  Variable filter : N -> N -> bool.

  (** wildClass.hpp:163-171: the descriptions of an ending. *)
  Fixpoint wild_descs (nforms : nat) (p : bytes) (inflex suffix : bytes) (mem : bytes) (l : nat) (s : St) : wres St :=
    match nforms with
    | O => Ok (mem, s, 0%Z)
    | S k =>
        let! (g, p) := getword16 p in
        let! (f, p) := rd p in
        if filter g f then
          let! (mem, s, r) := scan_suffix inflex (Gram 0 0 g f) suffix mem l s in
          if Z.eqb r 0 then wild_descs k p inflex suffix mem l s else Ok (mem, s, r)
        else wild_descs k p inflex suffix mem l s
    end.

  Section FlexLevel.
    (** The calls [FlexSearch( lmatch + 1, inflex.next(), subdic )] and [FlexSearch( lmatch + 1, inflex, subdic, false )]. *)
    Variable go_next go_more : bytes -> bytes -> St -> wres St.
    Variable l : nat.
    Variable chfind : N.

    (** wildClass.hpp:127-150, the loop over children. *)
    Fixpoint flex_level (ucount : nat) (p : bytes) (mem : bytes) (s : St) : res (bytes * bytes * St * Z) :=
      match ucount with
      | O => Ok (p, mem, s, 0%Z)
      | S k =>
          let! (chnext, subdic, p') := getchild p in
          let! mem := mem_write mem l chnext in
          if (chfind =? 63) || (chnext =? chfind) then
            let! (mem, s, r) := go_next subdic mem s in
            if Z.eqb r 0 then flex_level k p' mem s else Ok (p', mem, s, r)
          else if chfind =? 42 then
            let! (mem, s, r) := go_next subdic mem s in
            if Z.eqb r 0 then
              let! (mem, s, r) := go_more subdic mem s in
              if Z.eqb r 0 then flex_level k p' mem s else Ok (p', mem, s, r)
            else Ok (p', mem, s, r)
          else flex_level k p' mem s
      end.
  End FlexLevel.

  (** wildClass.hpp:101-174 [FlexSearch]; [fuel] as in [wild_tree].  After the loop over children [ucount] (an [int]) is -1,
      so the loop at 156 does nothing then. *)
  Fixpoint flex_search (fuel : nat) (ptable : bytes) (inflex suffix : bytes) (goZero : bool) (mem : bytes) (l : nat) (s : St)
    : wres St :=
    match fuel with
    | O => Ub
    | S fuel' =>
        let! (uflags, p) := getcounter C8 ptable in
        let ucount := getlower C8 uflags in
        let! (p, mem, s, r) :=
          (match inflex with
           | [] => let! p := wild_skip ucount p in Ok (p, mem, s, 0%Z)
           | chfind :: next =>
               let! (mem, s, r) := (if (chfind =? 42) && goZero then flex_search fuel' ptable next suffix true mem l s
                                    else Ok (mem, s, 0%Z)) in
               if Z.eqb r 0
               then flex_level (fun sub mem s => flex_search fuel' sub next suffix true mem (S l) s)
                               (fun sub mem s => flex_search fuel' sub inflex suffix false mem (S l) s) l chfind ucount p mem s
               else Ok (p, mem, s, r)
           end) in
        if Z.eqb r 0 then
          if (negb (nonempty inflex) || nonempty suffix) && hasupper C8 uflags then
            let! (nforms, p) := getserial p in
            wild_descs (N.to_nat nforms) p inflex suffix mem l s
          else Ok (mem, s, 0%Z)
        else Ok (mem, s, r)
    end.

  (** wildClass.hpp:181-225 [SwapSearch]; the loop that skips equal bytes is one of the cases.  Between the two recursive
      calls for the asterisk the array is not written. *)
  Fixpoint swap_search (szswap : bytes) (ptable : bytes) (suffix : bytes) : bytes -> bytes -> nat -> St -> wres St :=
    fix inner (inflex : bytes) (mem : bytes) (n : nat) (s : St) : wres St :=
      match szswap with
      | [] => flex_search (S (length ptable + length inflex)) ptable inflex suffix true mem n s
      | z :: szswap' =>
          match inflex with
          | [] => Ok (mem, s, 0%Z)
          | a :: inflex' =>
              let! mem := mem_write mem n z in
              if z =? a then swap_search szswap' ptable suffix inflex' mem (S n) s
              else if negb (is_wildcard a) then Ok (mem, s, 0%Z)
              else if a =? 63 then swap_search szswap' ptable suffix inflex' mem (S n) s
              else
                let! (mem, s, r) := inner inflex' mem n s in
                if Z.eqb r 0 then swap_search szswap' ptable suffix inflex mem (S n) s else Ok (mem, s, r)
          end
      end.
End Classes.

(** wildClass.hpp:247-255: the description passed on. *)
Definition wild_gram (lextem : steminfo) (gr : gram) : gram :=
  Gram (wdinfo lextem)
       (if gidForm gr =? 255 then gidForm gr else MapWordInfo (wdinfo lextem) (ggrInfo gr) (gbFlags gr))
       (ggrInfo gr) (gbFlags gr).

Section Model.
  Context {St : Type}.
  Variable A : arrays.
  Variable target : N -> bytes -> gram -> St -> res (St * Z).

  (** wildClass.hpp:293-321: the loop over alternations. *)
  Fixpoint wild_mixes (mixcnt : nat) (mixtab : bytes) (lid : N) (lextem : steminfo) (ptable : bytes)
    (inflex suffix : bytes) (mem : bytes) (l : nat) (s : St) : wres St :=
    match mixcnt with
    | O => Ok (mem, s, 0%Z)
    | S k =>
        let! (head, curmix) := rd mixtab in
        let mixlen := N.land head 0x0f in
        let powers := N.shiftr head 4 in
        let! next := advance mixlen curmix in
        let! (mem, s, r) :=
          swap_search (fun str gr s => target lid str (wild_gram lextem gr) s)
            (fun g f => altlevel (wdinfo lextem) powers g f && any_or_multiple (wdinfo lextem) g)
            (firstn (N.to_nat mixlen) curmix) ptable suffix inflex mem l s in
        if Z.eqb r 0 then wild_mixes k next lid lextem ptable inflex suffix mem l s else Ok (mem, s, r)
    end.

  (** wildClass.hpp:239-324 [MatchModel::operator()]. *)
  Definition match_model (lid oclass : N) (inflex suffix : bytes) (mem : bytes) (l : nat) (s : St) : wres St :=
    let! lextem := steminfo_at A oclass in
    let output := fun str gr s => target lid str (wild_gram lextem gr) s in
    let! flex := GetFlexTable A lextem in
    match flex with
    | None =>
        if negb (nonempty inflex) || is_asterisk inflex
        then wild_call output mem l (Gram 0 255 0 0) s else Ok (mem, s, 0%Z)
    | Some ptable =>
        let! swap := GetSwapTable A lextem in
        match swap with
        | None =>
            flex_search output (fun g _ => any_or_multiple (wdinfo lextem) g)
              (S (length ptable + length inflex)) ptable inflex suffix true mem l s
        | Some mixtab =>
            let! (mixcnt, mixtab) := rd mixtab in
            wild_mixes (N.to_nat mixcnt) mixtab lid lextem ptable inflex suffix mem l s
        end
    end.
End Model.

Section FindMatch.
  Context {U : Type}.
  (** The caller's [IMlmaMatch::AddLexeme] (api.h:229-231): lexeme id, then for every match its string and form id. *)
  Variable AddLexeme : U -> N -> list (bytes * N) -> U * Z.

  (** mlmamain.cpp:274-279: [lastId]; [amatch[0 .. nmatch)], each with the string it points to in [sforms]; the distance of
      [pforms] from the beginning of [sforms], [None] while [pforms] is not initialised. *)
  Record reglex_state := Reglex { rg_last : N; rg_match : list (bytes * N); rg_forms : option N; rg_user : U }.

  (** mlmamain.cpp:280-313 the lambda [reglex] of the 1251 instance; [amatch] has 512 elements, [sforms] 24576 bytes. *)
  Definition reglex (lid : N) (str : bytes) (gr : gram) (s : reglex_state) : res (reglex_state * Z) :=
    let s := (if lid =? rg_last s then s
              else Reglex lid [] (Some 0)
                     (if rg_last s =? 0 then rg_user s else fst (AddLexeme (rg_user s) (rg_last s) (rg_match s)))) in
    match rg_forms s with
    | None => Ub
    | Some used =>
        let used' := used + N.of_nat (length str) + 1 in
        if (512 <=? N.of_nat (length (rg_match s))) || (24576 <? used') then Ub
        else Ok (Reglex (rg_last s) (rg_match s ++ [(str, gidForm gr)]) (Some used') (rg_user s), 0%Z)
    end.

  (** mlmamain.cpp:268-356 [FindMatch] of the 1251 instance, [pmatch] not null; [junk] is what [locase] holds before,
      [buf] what [cpsstr] holds: 48 bytes each. *)
  Definition find_match (A : arrays) (junk buf : bytes) (psz : option bytes) (cch : N) (u : U) : res (U * Z) :=
    match psz with
    | None => Ok (u, (-5)%Z)
    | Some p =>
        let! n := (if cch =? 2 ^ 64 - 1 then let! w := cstr p in Ok (N.of_nat (length w)) else Ok cch) in
        if n =? 0 then Ok (u, 0%Z)
        else if 48 <=? n then Ok (u, (-4)%Z)
        else if N.of_nat (length p) <? n then Ub
        else
          let n := N.to_nat n in
          let w := firstn n p in
          let! (_, out) := cap_get rus_casing 48 w in
          let! locase := mem_write (overwrite out junk) n 0 in
          let! (_, s, nerror) :=
            wild_tree (match_model A reglex) (S (length (stemtree A) + n)) (stemtree A) (firstn n locase) buf 0
                      (Reglex 0 [] None u) in
          if negb (Z.eqb nerror 0) then Ok (rg_user s, nerror)
          else if rg_last s =? 0 then Ok (rg_user s, 0%Z)
          else Ok (AddLexeme (rg_user s) (rg_last s) (rg_match s))
    end.
End FindMatch.
