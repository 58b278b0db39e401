(** * Wildcards: the program lang-rus/libdict/utils/wildcards.  MODEL ONLY. *)
From Coq Require Import String.
From Verif Require Import Base Api Holes.
Local Open Scope N_scope.
Local Open Scope list_scope.

(** wildcards.cpp:17-18: [strptr] runs to the terminator: what is behind a byte 0 of the line is not seen. *)
Fixpoint before_null (l : bytes) : bytes := match l with [] => [] | c :: l' => if c =? 0 then [] else c :: before_null l' end.
(** wildcards.cpp:20-21: bytes below 0x20 are taken off the end; written on the reversed line. *)
Fixpoint drop_controls (l : bytes) : bytes := match l with [] => [] | c :: l' => if c <? 0x20 then drop_controls l' else l end.
Definition trim_line (l : bytes) : bytes := rev (drop_controls (rev (before_null l))).

Section Find.
(** [find] is FindMatch of the UTF-8 interface (Codepage.v, [cp_find_match]): the strings of the matches of each call of the callback, in order. *)
Variable find : bytes -> res (list (list bytes)).

(** wildcards.cpp:27-31, the callback: only the first match of the array is printed. *)
Fixpoint print_batches (bs : list (list bytes)) : res bytes :=
  match bs with
  | [] => Ok []
  | [] :: _ => Ub
  | (m :: _) :: bs' => let! more := print_batches bs' in Ok ([9] ++ m ++ [10] ++ more)
  end.
(** wildcards.cpp:13-33: the loop over the lines. *)
Fixpoint wild_lines (lines : list bytes) : res bytes :=
  match lines with
  | [] => Ok []
  | l :: lines' =>
      match trim_line l with
      | [] => Ok []
      | t => let! bs := find t in let! out := print_batches bs in let! more := wild_lines lines' in Ok (out ++ more)
      end
  end.
(** wildcards.cpp:7-35 [main]: what is printed for the standard input [file]; the line buffer holds 256 bytes. *)
Definition wildcards (file : bytes) : res bytes := wild_lines (fgets_split 255 255 [] file).
End Find.
