(** * DicdumpBuild: the lines of a dump.  MODEL ONLY. *)
From Verif Require Import Base RusRuntime RusBuild CxxApi Dump Dicdump.
Local Open Scope N_scope.

(** ** lang-rus/dicdump/dicdump.cpp:49-157, 182-189.  [build] and [info] are [BuildForm] with an array of 256 bytes and [GetWdInfo] of the
    interface; [stack]: what the uninitialised array [buf] holds when [Get] is entered. *)
Section Dump.
  Variable build : bytes -> N -> N -> res (Z * bytes).
  Variable info : N -> res Z.
  Variable stack : N -> bytes.

  (** dicdump.cpp:128-140 [Get( lexeme_t )]: [map.insert] keeps the first string of an identifier; the identifiers come in ascending order, so
      the list is the map. *)
  Fixpoint forms_from (ids : list N) (lex : N) (buf : bytes) : res (list (N * bytes)) :=
    match ids with
    | [] => Ok []
    | formid :: ids' =>
        let! (fms, buf) := build buf lex formid in
        let! here := (if (0 <? fms)%Z then let! ss := take_strings (Z.to_nat fms) buf in Ok (match ss with [] => [] | s :: _ => [(formid, s)] end) else Ok []) in
        let! more := forms_from ids' lex buf in
        Ok (here ++ more)
    end.

  (** dicdump.cpp:102-126 [Cut]; [strncmp] of [cc] bytes, [cc] not above the length of [base]. *)
  Fixpoint shorten (cc : nat) (base s : bytes) : nat :=
    match cc with O => O | S cc' => if same_line (firstn cc base) (firstn cc s) then cc else shorten cc' base s end.
  Fixpoint common_length (cc : nat) (base : bytes) (m : list (N * bytes)) : nat :=
    match m with
    | [] => cc
    | (_, s) :: m' => if (cc =? 0)%nat then O else common_length (shorten cc base s) base m'
    end.
  Definition cut (m : list (N * bytes)) : list (N * bytes) :=
    match m with
    | [] => []
    | (id, s) :: m' => let cc := common_length (length s) s m' in (id, s) :: map (fun e => (fst e, skipn cc (snd e))) m'
    end.
  Definition form_ids : list N := map N.of_nat (seq 0 256).
  Definition get_forms (lex : N) : res (list (N * bytes)) := let! m := forms_from form_ids lex (stack lex) in Ok (cut m).

  (** dicdump.cpp:142-157 [Map]: [str] has 256 bytes. *)
  Fixpoint map_forms (div : bytes) (m : list (N * bytes)) : res bytes :=
    match m with
    | [] => Ok []
    | (id, s) :: m' =>
        let str := div ++ s ++ [124] ++ print_hex 2 id in
        if (256 <=? length str)%nat then Ub else let! out := map_forms [47] m' in Ok (str ++ out)
    end.
  Definition map_line (lex : N) (m : list (N * bytes)) : res bytes := let! out := map_forms [] m in Ok (print_hex 0 lex ++ [9] ++ out).

  (** dicdump.cpp:84-100 [Get]: the line and the new [nlexid].  [fuel] bounds the rounds by the identifiers left. *)
  Definition left_from (n : N) : nat := S (N.to_nat (0x40000 - n)).
  Fixpoint skip_unknown (fuel : nat) (n : N) : res N :=
    match fuel with
    | O => Ok n
    | S fuel' => if n <=? 0x3ffff then let! z := info n in if (z =? 0)%Z then skip_unknown fuel' (n + 1) else Ok n else Ok n
    end.
  Fixpoint next_line (fuel : nat) (n : N) : res (bytes * N) :=
    match fuel with
    | O => Ok ([], n)
    | S fuel' =>
        if n <=? 0x3ffff then
          let! formap := get_forms n in
          match formap with
          | [] => let! n' := skip_unknown (left_from (n + 1)) (n + 1) in next_line fuel' n'
          | _ => let! line := map_line n formap in Ok (line, n + 1)
          end
        else Ok ([], n)
    end.
  Definition libmorph_get (n : N) : res (bytes * N) := next_line (left_from n) n.

  (** dicdump.cpp:182-189 [DumpDict] from the identifier [n] on: the text printed. *)
  Fixpoint dump_lines (fuel : nat) (n : N) : res bytes :=
    match fuel with
    | O => Ok []
    | S fuel' =>
        let! (st, n') := libmorph_get n in
        match st with [] => Ok [] | _ => let! more := dump_lines fuel' n' in Ok (st ++ [10] ++ more) end
    end.
  Definition dump_dict : res bytes := dump_lines (left_from 0) 0.
End Dump.

(** The interface of the dictionary with an array [mem]; [junk]: previous contents of the stack behind the key of the identifier. *)
Definition dict_build (A : arrays) (junk : N -> bytes) (mem : bytes) (lex formid : N) : res (Z * bytes) :=
  let! (z, out) := build_form A (junk lex) (Some mem) lex formid in
  match out with Some mem' => Ok (z, mem') | None => Ok (z, mem) end.
Definition dict_info (A : arrays) (junk : N -> bytes) (lex : N) : res Z := let! (z, _) := get_wd_info A (junk lex) lex in Ok z.
