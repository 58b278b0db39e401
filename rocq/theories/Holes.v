(** * Holes: utils/get-holes.cpp, the map of lexeme ids of a dictionary and its holes.  MODEL ONLY.
    Lines hold no byte 0. *)
From Coq Require Import String.
From Verif Require Import Base Api EngCompile Dump.
Local Open Scope N_scope.
Local Open Scope list_scope.
Notation length := List.length.

(** utils/get-holes.cpp:41-48: elements of 32 bits. *)
Definition lexid_map := list N.

(** get-holes.cpp:50-64 [InsertLexId]: the map, and whether the id has been there (a message on stderr). *)
Fixpoint set_word (map : lexid_map) (i : nat) (v : N) : lexid_map :=
  match map, i with [], _ => [] | _ :: map', O => v :: map' | w :: map', S i' => w :: set_word map' i' v end.
Definition insert_lex (map : lexid_map) (lex : N) : lexid_map * bool :=
  let uindex := N.to_nat (lex / 32) in
  let lxmask := 2 ^ (lex mod 32) in
  let map := if Nat.leb (length map) uindex then map ++ repeat 0 (S uindex - length map) else map in
  let w := nth uindex map 0 in
  if negb (N.land w lxmask =? 0) then (map, true) else (set_word map uindex (N.lor w lxmask), false).

(** get-holes.cpp:66-78 [GetMinLexId]: the first word that is not 0; [bit] stays 1.  [2^32 - 1] is -1. *)
Definition none : N := 2 ^ 32 - 1.
Fixpoint first_word (map : lexid_map) (i : N) : option (N * N) :=
  match map with [] => None | w :: map' => if w =? 0 then first_word map' (i + 1) else Some (i, w) end.
Fixpoint min_bit (n : nat) (off w : N) : option N :=
  match n with O => None | S n' => if negb (N.land w 1 =? 0) then Some off else min_bit n' (off + 1) w end.
Definition get_min (map : lexid_map) : N :=
  match first_word map 0 with
  | None => none
  | Some (i, w) => match min_bit 32 0 w with Some off => (off + i * 32) mod 2 ^ 32 | None => none end
  end.

(** get-holes.cpp:80-93 [GetMaxLexId]. *)
Fixpoint max_bit (n : nat) (w : N) : option N :=
  match n with O => None | S n' => if negb (N.land w (2 ^ N.of_nat n') =? 0) then Some (N.of_nat n') else max_bit n' w end.
Fixpoint last_word (map : lexid_map) (i : N) : option (N * N) :=
  match map with
  | [] => None
  | w :: map' => match last_word map' (i + 1) with Some r => Some r | None => if w =? 0 then None else Some (i, w) end
  end.
Definition get_max (map : lexid_map) : N :=
  match last_word map 0 with
  | None => none
  | Some (i, w) => match max_bit 32 w with Some off => (off + i * 32) mod 2 ^ 32 | None => none end
  end.

(** get-holes.cpp:95-101 [TestIfLexId]. *)
Definition test_lex (map : lexid_map) (lex : N) : bool :=
  match nth_error map (N.to_nat (lex / 32)) with Some w => negb (N.land w (2 ^ (lex mod 32)) =? 0) | None => false end.

(** get-holes.cpp:103-127 [GetNextHole]: the first bit that is 0; outside the map it reads beyond it. *)
Fixpoint zero_bit (n : nat) (shift w : N) : option N :=
  match n with O => None | S n' => if N.land w (2 ^ shift) =? 0 then Some shift else zero_bit n' (shift + 1) w end.
Fixpoint hole_words (map : lexid_map) (i : N) : N :=
  match map with
  | [] => none
  | w :: map' =>
      if w =? 2 ^ 32 - 1 then hole_words map' (i + 1)
      else match zero_bit 32 0 w with Some s => (s + i * 32) mod 2 ^ 32 | None => hole_words map' (i + 1) end
  end.
Definition next_hole (map : lexid_map) (lex : N) : res N :=
  let uindex := lex / 32 in
  match nth_error map (N.to_nat uindex) with
  | None => Ub
  | Some w =>
      match zero_bit (N.to_nat (32 - lex mod 32)) (lex mod 32) w with
      | Some s => Ok ((s + uindex * 32) mod 2 ^ 32)
      | None => Ok (hole_words (skipn (S (N.to_nat uindex)) map) (uindex + 1))
      end
  end.

(** get-holes.cpp:145-155, the loop over the holes: their bounds.  [fuel] bounds the iterations. *)
Fixpoint hole_end (fuel : nat) (map : lexid_map) (maxlex h : N) : N :=
  match fuel with O => h | S fuel' => if (h <? maxlex) && negb (test_lex map h) then hole_end fuel' map maxlex (h + 1) else h end.
Fixpoint holes (fuel : nat) (map : lexid_map) (minlex maxlex : N) : res (list (N * N)) :=
  match fuel with
  | O => Ok []
  | S fuel' =>
      if minlex <? maxlex then
        let! l := next_hole map (minlex + 1) in
        if l =? none then Ok []
        else
          let h := hole_end (N.to_nat maxlex) map maxlex ((l + 1) mod 2 ^ 32) in
          let! hs := holes fuel' map h maxlex in Ok ((l, h - 1) :: hs)
      else Ok []
  end.
(** get-holes.cpp:129-160 [PrintLexMap]: what is printed: nothing found, or the minimal and the maximal id and the holes. *)
Inductive listing := No_lexemes | Lexemes (minlex maxlex : N) (holes : list (N * N)).
Definition print_map (map : lexid_map) : res listing :=
  let minlex := get_min map in let maxlex := get_max map in
  if (minlex =? none) || (maxlex =? none) then Ok No_lexemes
  else let! hs := holes (S (N.to_nat maxlex)) map minlex maxlex in Ok (Lexemes minlex maxlex hs).

(** get-holes.cpp:167-181 [GetStringLID]; [strtol( s, &end, 0 )] as [EngCompile.strtoul], with the limits of a signed 64-bit long. *)
Definition strtol (s : bytes) : N :=
  let s := skip_blank s in
  let '(negative, s) := match s with 43 :: s' => (false, s') | 45 :: s' => (true, s') | _ => (false, s) end in
  let n := match s with
           | 48 :: x :: d :: s' =>
               if ((x =? 120) || (x =? 88)) && match EngCompile.digit d with Some k => k <? 16 | None => false end
               then digits 16 (d :: s') 0 else digits 8 s 0
           | 48 :: s' => digits 8 s' 0
           | _ => digits 10 s 0
           end in
  if negative then if 2 ^ 63 <=? n then 2 ^ 63 else (2 ^ 64 - n) mod 2 ^ 64
  else if 2 ^ 63 <=? n then 2 ^ 63 - 1 else n.
(** [before] is the byte in front of [str].  Behind a number that is 0 the search goes on one byte behind the colon: beyond the end of the line,
    if it ends there. *)
Fixpoint string_lid (fuel : nat) (before : N) (str : bytes) : res N :=
  match fuel with
  | O => Ok 0
  | S fuel' =>
      match strstr (text "LID:") str with
      | None => Ok 0
      | Some (a, at_) =>
          if last (before :: a) 0 <=? 32 then
            let lid := strtol (skipn 4 at_) in
            if lid =? 0 then match skipn 4 at_ with [] => Ub | c :: rest => string_lid fuel' c rest end
            else Ok (lid mod 2 ^ 32)
          else match at_ with c :: rest => string_lid fuel' c rest | [] => Ub end
      end
  end.
Definition get_lid (line : bytes) : res N := match line with [] => Ub | c :: str => string_lid (length line) c str end.

(** get-holes.cpp:186-199 [GetLexemeMap]: [fgets] with 1024 bytes; the map and the ids reported as used already. *)
Fixpoint fgets_split (size room : nat) (line : bytes) (file : bytes) : list bytes :=
  match file with
  | [] => match line with [] => [] | _ => [line] end
  | c :: file' =>
      if (c =? 10) || Nat.leb room 1 then (line ++ [c]) :: fgets_split size size [] file'
      else fgets_split size (pred room) (line ++ [c]) file'
  end.
Fixpoint map_lines (map : lexid_map) (used : list N) (lines : list bytes) : res (lexid_map * list N) :=
  match lines with
  | [] => Ok (map, used)
  | l :: lines' =>
      let! lid := get_lid l in
      if lid =? 0 then map_lines map used lines'
      else let '(map, again) := insert_lex map lid in map_lines map (if again then used ++ [lid] else used) lines'
  end.
Definition get_holes (file : bytes) : res (listing * list N) :=
  let! (map, used) := map_lines [] [] (fgets_split 1023 1023 [] file) in
  let! l := print_map map in Ok (l, used).
