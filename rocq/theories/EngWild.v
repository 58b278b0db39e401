(** * EngWild: search by pattern of the English analyser (lang-eng/libdict/wildClass.hpp, FindMatch).  MODEL ONLY.
    The walk over the stem tree and its lists is the shared code modelled in [Wild]; [mem] is the array [smatch]. *)
From Verif Require Import Base Serial WordTree FlatScan Stems CharTables CapScheme GramMap RusRuntime RusBuild Wild EngRuntime.
Local Open Scope N_scope.

Section Classes.
  Context {St : Type}.
  (** The output functor, lang-eng/libdict/wildClass.hpp:241-249: the string in [smatch[0 .. lmatch)] and the description. *)
  Variable output : bytes -> gram -> St -> res (St * Z).

  (** lang-eng/libdict/wildClass.hpp:46-90 [ScanSuffix] is the Russian one, [scan_suffix] (line 69-81 returns 0 at once for an empty
      suffix; lines 88-89 cannot be reached with one). *)

  (** wildClass.hpp:92-131 [ScanString]; the loop that skips equal bytes is one of the cases.  Between the two recursive calls for
      the asterisk the array is not written by this call. *)
  Fixpoint escan_string (stflex : bytes) (suffix : bytes) (gr : gram) : bytes -> bytes -> nat -> St -> wres St :=
    fix inner (inflex : bytes) (mem : bytes) (l : nat) (s : St) : wres St :=
      match stflex with
      | [] => scan_suffix output inflex gr suffix mem l s
      | z :: stflex' =>
          match inflex with
          | [] => Ok (mem, s, 0%Z)
          | a :: inflex' =>
              let! mem := mem_write mem l z in
              if z =? a then escan_string stflex' suffix gr inflex' mem (S l) s
              else if a =? 63 then escan_string stflex' suffix gr inflex' mem (S l) s
              else if a =? 42 then
                let! (mem, s, r) := inner inflex' mem l s in
                if Z.eqb r 0 then escan_string stflex' suffix gr inflex mem (S l) s else Ok (mem, s, r)
              else Ok (mem, s, 0%Z)
          end
      end.

  (** wildClass.hpp:138-168 [FlexSearch], the loop: [ncount] items left at [ptable]. *)
  Fixpoint eflex_search (ncount : nat) (ptable : bytes) (inflex suffix : bytes) (mem : bytes) (l : nat) (s : St) : wres St :=
    match ncount with
    | O => Ok (mem, s, 0%Z)
    | S k =>
        let! (idform, p) := rd ptable in
        let! (ccflex, szflex) := rd p in
        let! next := advance ccflex szflex in
        let! (mem, s, r) :=
          (if ccflex =? 0 then scan_suffix output inflex (Gram 0 idform idform 0) suffix mem l s
           else escan_string (firstn (N.to_nat ccflex) szflex) suffix (Gram 0 idform idform 0) inflex mem l s) in
        if Z.eqb r 0 then eflex_search k next inflex suffix mem l s else Ok (mem, s, r)
    end.
End Classes.

(** wildClass.hpp:241-249: the description passed on. *)
Definition ewild_gram (st : estem) (gr : gram) : gram := Gram (e_wdinfo st) (gidForm gr) (ggrInfo gr) (gbFlags gr).

(** wildClass.hpp:231-270 [MatchModel::operator()]. *)
Definition ematch_model {St} (A : earrays) (target : N -> bytes -> gram -> St -> res (St * Z))
  (lid oclass : N) (inflex suffix : bytes) (mem : bytes) (l : nat) (s : St) : wres St :=
  let! lextem := estem_at A oclass in
  let output := fun str gr s => target lid str (ewild_gram lextem gr) s in
  let! flex := eflex_table A lextem in
  match flex with
  | None =>
      if negb (nonempty inflex) || is_asterisk inflex
      then wild_call output mem l (Gram 0 255 0 0) s else Ok (mem, s, 0%Z)
  | Some ptable =>
      let! (ncount, p) := rd ptable in eflex_search output (N.to_nat ncount) p inflex suffix mem l s
  end.

(** [strncpy( dst, src, n )] for [n] readable bytes: what follows the first NUL becomes NUL. *)
Fixpoint strncpy_of (s : bytes) : bytes :=
  match s with [] => [] | c :: s' => if c =? 0 then repeat 0 (length s) else c :: strncpy_of s' end.

Section FindMatch.
  Context {U : Type}.
  (** The caller's [IMlmaMatch::AddLexeme] (api.h:229-231): lexeme id, then for every match its string and form id. *)
  Variable AddLexeme : U -> N -> list (bytes * N) -> U * Z.

  (** lang-eng/libdict/mlmamain.cpp:258-289, the lambda [reglex]: as the Russian one, but a match already stored for the lexeme is
      not stored again; [amatch] has 256 elements, [sforms] 24576 bytes. *)
  Definition ereglex (lid : N) (str : bytes) (gr : gram) (s : @reglex_state U) : res (@reglex_state U * Z) :=
    let s := (if lid =? rg_last s then s
              else Reglex lid [] (Some 0)
                     (if rg_last s =? 0 then rg_user s else fst (AddLexeme (rg_user s) (rg_last s) (rg_match s)))) in
    if existsb (fun m => (snd m =? gidForm gr) && (if list_eq_dec N.eq_dec (fst m) str then true else false)) (rg_match s)
    then Ok (s, 0%Z)
    else
      match rg_forms s with
      | None => Ub
      | Some used =>
          let used' := used + N.of_nat (length str) + 1 in
          if (256 <=? N.of_nat (length (rg_match s))) || (24576 <? used') then Ub
          else Ok (Reglex (rg_last s) (rg_match s ++ [(strncpy_of str, gidForm gr)]) (Some used') (rg_user s), 0%Z)
      end.

  (** mlmamain.cpp:258-333 [FindMatch] without conversion of codepages, [pmatch] not null; [junk] is what [locase] holds before,
      [buf] what [cpsstr] holds: 48 bytes each. *)
  Definition efind_match (A : earrays) (junk buf : bytes) (psz : option bytes) (cch : N) (u : U) : res (U * Z) :=
    match psz with
    | None => Ok (u, (-5)%Z)
    | Some p =>
        let! n := (if cch =? 2 ^ 64 - 1 then let! w := cstr p in Ok (N.of_nat (length w)) else Ok cch) in
        if n =? 0 then Ok (u, 0%Z)
        else if 48 <=? n then Ok (u, (-4)%Z)
        else if N.of_nat (length p) <? n then Ub
        else
          let n := N.to_nat n in
          let w := firstn n p in
          let! (_, out) := cap_get eng_casing 48 w in
          let! locase := mem_write (overwrite out junk) n 0 in
          let! (_, s, nerror) :=
            wild_tree (ematch_model A ereglex) (S (length (e_stems A) + n)) (e_stems A) (firstn n locase) buf 0
                      (Reglex 0 [] None u) in
          if negb (Z.eqb nerror 0) then Ok (rg_user s, nerror)
          else if rg_last s =? 0 then Ok (rg_user s, 0%Z)
          else Ok (AddLexeme (rg_user s) (rg_last s) (rg_match s))
    end.
End FindMatch.
