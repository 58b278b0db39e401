(** * StemTool: the program utils/stematize.  MODEL ONLY.
    Its [main] is [tool_main] with the key [FUZZY_MAGIC] (LemmTool.v). *)
From Coq Require Import String.
From Verif Require Import Base GramMap RusRuntime RusBuild Codepage Fuzzy Guess Api Dump LemmTool.
Local Open Scope N_scope.
Local Open Scope list_scope.
Notation length := List.length.

(** utils/stematize.cpp:26-43.  [score] is what "%.4f" prints for a weight: floating point numbers are not modelled. *)
Definition stem_row (score : Z -> bytes) (prefix st : bytes) (gr : list gram) (next : stem_info) : res bytes :=
  let! lemma := tool_string st (splemma next) in
  let! first := tool_gram gr (spgrams next) in
  let! forms := tool_forms gr [] (spgrams next) (sngrams next) in
  Ok (prefix ++ [10] ++ text "  { ""lemma"": """ ++ lemma ++ text """," ++ [9] ++ text """score"": " ++ space_padded 6 (score (sweight next)) ++
      text ", ""class"": " ++ space_padded 3 (print_dec (snclass next)) ++
      text ", ""psp"": " ++ space_padded 2 (print_dec (N.land (gwdInfo first) 0x3f)) ++ text ", ""forms"": [" ++ forms ++ text "] }").
Fixpoint stem_rows (score : Z -> bytes) (prefix st : bytes) (gr : list gram) (stmset : list stem_info) (scount : nat) : res bytes :=
  match scount with
  | O => Ok []
  | S n =>
      match stmset with
      | [] => Ub
      | next :: stmset' =>
          let! t := stem_row score prefix st gr next in let! more := stem_rows score (text ",") st gr stmset' n in Ok (t ++ more)
      end
  end.

(** utils/stematize.cpp:10-46 [Stematize]: the text printed.  The word is passed with its terminator and the length -1 (api.hpp);
    [stmset], [stbuff], [grbuff] are the local arrays of 64, 256 and 64 elements; [sfIgnoreCapitals] is 2.  The other parameters are those of
    [glemmatize]. *)
Definition stem_tool T P score rank sort junk F below lojunk (stmset : list stem_info) (stbuff : bytes) (grbuff : list gram) (word : bytes) : res bytes :=
  let! (scount, lx, st, gr) := glemmatize T P rank sort junk F below lojunk (Some (word ++ [0])) (2 ^ 64 - 1) (Some stmset) (Some stbuff) (Some grbuff) 2 in
  if (scount =? 0)%Z then Ok (text "[]")
  else
    match lx, st, gr with
    | Some lx, Some st, Some gr => let! rows := stem_rows score [] st gr lx (Z.to_nat scount) in Ok (text "[" ++ rows ++ [10] ++ text "]")
    | _, _, _ => Ub
    end.
