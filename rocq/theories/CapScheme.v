(** * CapScheme: capitalisation of words.  MODEL ONLY. *)
From Verif Require Import Base CharTables.
Local Open Scope N_scope.

(** xmorph/capsheme.h:72-76: the three tables of a [CapScheme] object, as functions of a byte. *)
Record casing := Casing { ctype : N -> N; locase : N -> N; upcase : N -> N }.

(** Indexing a 256-byte table with a byte; the default is never used for bytes. *)
Definition tab (l : list N) (c : N) : N := nth (N.to_nat c) l 3.

(** The instances: lang-rus/libdict/mlmamain.cpp, lang-eng/libdict/mlmamain.cpp and lang-ukr pass the tables of
    their chartype.cpp to the constructor. *)
Definition rus_casing := Casing (tab rus_charTypeMatrix) (tab rus_toLoCaseMatrix) (tab rus_toUpCaseMatrix).
Definition eng_casing := Casing (tab eng_charTypeMatrix) (tab eng_toLoCaseMatrix) (tab eng_toUpCaseMatrix).
Definition ukr_casing := Casing (tab ukr_charTypeMatrix) (tab ukr_toLoCaseMatrix) (tab ukr_toUpCaseMatrix).

(** xmorph/capsheme.cpp:37-45 [capStateMatrix]; states of xmorph/capsheme.h:62-70: undefined 0, all_small 1,
    first_cap 2, word_caps 3, first_was 4, error_cap 5. *)
Definition capStateMatrix : list (list N) :=
  [[4; 1; 5; 5]; [5; 1; 1; 5]; [5; 2; 2; 5]; [3; 5; 3; 5]; [3; 2; 3; 5]; [5; 5; 5; 5]].
Definition capstate (s t : N) : N := nth (N.to_nat t) (nth (N.to_nat s) capStateMatrix []) 5.

(** [(unsigned)-1] *)
Definition bad_cap : N := 2 ^ 32 - 1.

Section Get.
  Variable cs : casing.

  (** xmorph/capsheme.cpp:66-70, the inner loop of [Get]: final [subcap], bytes stored, source left, room left. *)
  Fixpoint get_part (src : bytes) (room : nat) (subcap : N) : N * bytes * bytes * nat :=
    match src, room with
    | c :: src', S room' =>
        if ctype cs c =? 2 then (subcap, [], src, room)
        else let '(s, got, r, m) := get_part src' room' (capstate subcap (ctype cs c)) in
             (s, locase cs c :: got, r, m)
    | _, _ => (subcap, [], src, room)
    end.

  (** xmorph/capsheme.cpp:61-94, the outer loop of [Get] and its result.  [out] is what has been stored, [room] how
      many bytes of the output buffer are free.  A shift by 32 or more is undefined.  [fuel] bounds the iterations;
      each takes at least one source byte. *)
  Fixpoint get_loop (fuel : nat) (src : bytes) (room : nat) (cdefis scheme : N) (bvalid : bool) (out : bytes)
    : res (N * bytes) :=
    match fuel with
    | O => Ub
    | S fuel' =>
        match src, room with
        | _ :: _, S _ =>
            let '(subcap, got, src', room') := get_part src room 0 in
            match room' with
            | O => Ok (bad_cap, out ++ got)
            | S room'' =>
                let subcap := capstate subcap 2 in
                let bvalid := bvalid && negb (subcap =? 5) in
                if 32 <=? 2 * cdefis then Ub
                else
                  let scheme := N.lor scheme (N.shiftl (subcap - 1) (2 * cdefis) mod 2 ^ 32) in
                  match src' with
                  | [] => get_loop fuel' [] room' cdefis scheme bvalid (out ++ got)
                  | d :: src'' =>
                      if ctype cs d =? 2
                      then get_loop fuel' src'' room'' (cdefis + 1) scheme bvalid (out ++ got ++ [d])
                      else Ok (bad_cap, out ++ got ++ [d])
                  end
            end
        | _, O => Ok (bad_cap, out)
        | [], S _ =>
            Ok (N.lor (N.lor (N.shiftl (N.of_nat (length out)) 16 mod 2 ^ 32) (N.shiftl (cdefis + 1) 8 mod 2 ^ 32))
                      (if bvalid then scheme else 0xff),
                out ++ [0])
        end
    end.

  (** xmorph/capsheme.cpp:51-95 [Get] for a source of known length: the value returned and the bytes stored. *)
  Definition cap_get (outlen : nat) (src : bytes) : res (N * bytes) :=
    get_loop (S (length src)) src outlen 0 0 true [].

  (** xmorph/capsheme.cpp:60-61: with [srclen == (size_t)-1] the source extends to its terminator. *)
  Fixpoint cstr (p : bytes) : res bytes :=
    match p with
    | [] => Ub
    | c :: p' => if c =? 0 then Ok [] else let! w := cstr p' in Ok (c :: w)
    end.

  (** xmorph/capsheme.cpp:109-119, counting parts in [Set]. *)
  Fixpoint count_parts (w : bytes) : nat :=
    match w with [] => 1%nat | c :: w' => if ctype cs c =? 2 then S (count_parts w') else count_parts w' end.

  (** xmorph/capsheme.cpp:122-135: the scheme for the number of parts. *)
  Definition set_scheme (nparts : nat) (min : N) : N :=
    match nparts with
    | 1%nat => min
    | 2%nat => N.lor min (N.shiftl min 2) mod 2 ^ 16
    | 3%nat => N.lor (N.lor min (N.shiftl min 4)) (N.shiftl (N.land min 2) 2) mod 2 ^ 16
    | _ => 0
    end.

  (** xmorph/capsheme.cpp:142-143, the inner loop of [Set]: bytes rewritten, and memory from where it stopped. *)
  Fixpoint set_part (str : bytes) (strcap : N) : res (bytes * bytes) :=
    match str with
    | [] => Ub
    | c :: str' =>
        if (c =? 0) || (ctype cs c =? 2) then Ok ([], str)
        else let! (done, rest) := set_part str' (N.land strcap (2 ^ 32 - 2)) in
             Ok ((if strcap =? 0 then c else upcase cs c) :: done, rest)
    end.

  (** xmorph/capsheme.cpp:138-146, the outer loop of [Set]: the new contents of the memory from [str]. *)
  Fixpoint set_loop (nparts : nat) (str : bytes) (scheme : N) : res bytes :=
    match nparts with
    | O => Ok str
    | S nparts' =>
        match str with
        | [] => Ub
        | c :: _ =>
            if c =? 0 then Ok str
            else
              let! (done, rest) := set_part str (N.land scheme 3) in
              let! (d, rest') := rd rest in
              if ctype cs d =? 2
              then let! out := set_loop nparts' rest' (N.shiftr scheme 2) in Ok (done ++ d :: out)
              else let! out := set_loop nparts' rest (N.shiftr scheme 2) in Ok (done ++ out)
        end
    end.

  (** xmorph/capsheme.cpp:102-148 [Set] with a given length: [str] is the memory from the string on, [len] its
      length. *)
  Definition cap_set (str : bytes) (len : nat) (min : N) : res bytes :=
    if Nat.ltb (length str) len then Ub
    else
      let nparts := count_parts (firstn len str) in
      set_loop nparts str (set_scheme nparts min).
End Get.

(** xmorph/capsheme.h:125-150 [IsGoodShemeMin2], [IsGoodShemeMin1], [IsGoodShemeMin0], [IsGoodSheme]. *)
Definition IsGoodShemeMin2 (s : N) : bool := (s =? 0x0102) || (s =? 0x020A) || (s =? 0x032A).
Definition IsGoodShemeMin1 (s : N) : bool := (s =? 0x0101) || (s =? 0x0205) || (s =? 0x0311) || IsGoodShemeMin2 s.
Definition IsGoodShemeMin0 (s : N) : bool :=
  (s =? 0x0100) || (s =? 0x0200) || (s =? 0x0300) || (s =? 0x0201) || (s =? 0x0301) || IsGoodShemeMin1 s.
Definition IsGoodSheme (s minCap : N) : bool :=
  if minCap =? 2 then IsGoodShemeMin2 s
  else if minCap =? 1 then IsGoodShemeMin1 s
  else if minCap =? 0 then IsGoodShemeMin0 s else false.
