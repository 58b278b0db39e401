(** * Letters: the game of five letters, lang-rus/libdict/utils/5-letters.cpp.  MODEL ONLY.
    A string is a list of 16-bit characters.  [find] is what FindMatch of the wide interface hands over for a pattern: the calls of the
    callback, each a lexeme with its matches (string and form); [wd] is GetWdInfo.  Printing is the list of lines printed. *)
From Verif Require Import Base.
Local Open Scope N_scope.

Definition wstring := list N.

(** 5-letters.cpp:18, 26, 35: [1 << (c - u'а')]; a negative or too great shift is undefined. *)
Definition letter_bit (c : N) : res N := if (1072 <=? c) && (c <=? 1103) then Ok (2 ^ (c - 1072)) else Ub.

(** 5-letters.cpp:14-20 [IsExcluded] *)
Fixpoint is_excluded (str : wstring) (exc : N) : res bool :=
  match str with
  | [] => Ok false
  | c :: str' => let! b := letter_bit c in if negb (N.land exc b =? 0) then Ok true else is_excluded str' exc
  end.
(** 5-letters.cpp:22-27 [IsIncluded] *)
Fixpoint is_included (str : wstring) (exc : N) : res bool :=
  match str with
  | [] => Ok (exc =? 0)
  | c :: str' => let! b := letter_bit c in is_included str' (N.ldiff exc b)
  end.
(** 5-letters.cpp:29-37 [MakeMask] *)
Fixpoint make_mask (str : wstring) (mask : N) : res N :=
  match str with
  | [] => Ok mask
  | c :: str' => let! b := letter_bit c in make_mask str' (N.lor mask b)
  end.

(** 5-letters.cpp:53-57: a match of a lexeme *)
Definition take_match (exclude include : N) (ws : wstring) (id : N) : res (list wstring) :=
  if (id =? 0) || (id =? 255)
  then let! ex := is_excluded ws exclude in if ex then Ok [] else let! inc := is_included ws include in Ok (if inc then [ws] else [])
  else Ok [].
(** 5-letters.cpp:52-60: the matches of a lexeme *)
Fixpoint take_matches (exclude include : N) (ms : list (wstring * N)) : res (list wstring) :=
  match ms with
  | [] => Ok []
  | (ws, id) :: ms' =>
      let! pushed := take_match exclude include ws id in
      let! more := take_matches exclude include ms' in
      Ok (pushed ++ more)
  end.
(** 5-letters.cpp:39-66 [GetWordset] *)
Fixpoint take_calls (wd : N -> N) (exclude include : N) (calls : list (N * list (wstring * N))) : res (list wstring) :=
  match calls with
  | [] => Ok []
  | (lex, ms) :: calls' =>
      let! found := (if (7 <=? wd lex) && (wd lex <=? 23) then take_matches exclude include ms else Ok []) in
      let! more := take_calls wd exclude include calls' in
      Ok (found ++ more)
  end.
Definition get_wordset (find : wstring -> list (N * list (wstring * N))) (wd : N -> N) (templ : wstring) (exclude include : N) : res (list wstring) :=
  take_calls wd exclude include (find templ).

Definition same_word (a b : wstring) : bool := if list_eq_dec N.eq_dec a b then true else false.

(** 5-letters.cpp:68-83 [CheckWord], letter by letter: 43 is '+', 45 is '-'.  Words of other lengths are not compared (FindMatch of five
    question marks and letters gives words of five letters). *)
Fixpoint check_letters (task rest word : wstring) : res (wstring * bool) :=
  match rest, word with
  | [], [] => Ok ([], true)
  | t :: rest', c :: word' =>
      let! (show, match_) := check_letters task rest' word' in
      if t =? c then Ok (t :: show, match_) else Ok ((if existsb (N.eqb c) task then 43 else 45) :: show, false)
  | _, _ => Ub
  end.
Definition check_guess (task word : wstring) : res (wstring * bool) := check_letters task task word.

(** lang-rus/libdict/utils/5-samples.cpp:8-42 [charRank]; six of the numbers begin with 0 and are octal. *)
Definition char_rank : list N :=
  [8010; 1590; 4540; 1700; 2980; 8450; 940; 1650; 7350; 1210; 3490; 4400; 3210; 6700; 1097; 2810; 4730; 5470; 6260; 2620; 176; 970; 480; 1440; 472; 240; 32; 1900;
   1740; 208; 416; 2010].
(** 5-letters.cpp:85-93 [GetWordRank] *)
Fixpoint word_rank (word : wstring) (rank : N) : res N :=
  match word with
  | [] => Ok rank
  | c :: word' =>
      if c <? 1072 then Ub
      else match nth_error char_rank (N.to_nat (c - 1072)) with Some r => word_rank word' ((rank + r) mod 2 ^ 32) | None => Ub end
  end.

(** 5-letters.cpp:115-125: the heaviest hypothesis not yet tested, the first of them. *)
Fixpoint select_word (tested hypots : list wstring) (best : option (wstring * N)) : res (option wstring) :=
  match hypots with
  | [] => Ok (option_map fst best)
  | w :: hypots' =>
      if existsb (same_word w) tested then select_word tested hypots' best
      else
        let! wdrank := word_rank w 0 in
        select_word tested hypots'
          (match best with None => Some (w, wdrank) | Some (_, serank) => if serank <? wdrank then Some (w, wdrank) else best end)
  end.

(** 5-letters.cpp:146-154: what the marks tell *)
Fixpoint learn (sample word markup search : wstring) (incset excset : N) : res (wstring * N * N) :=
  match sample, word, markup, search with
  | [], [], [], [] => Ok ([], incset, excset)
  | s :: sample', c :: word', m :: markup', q :: search' =>
      if m =? c then let! (search', i, e) := learn sample' word' markup' search' incset excset in Ok (s :: search', i, e)
      else if m =? 43 then let! b := make_mask [c] 0 in let! (search', i, e) := learn sample' word' markup' search' (N.lor incset b) excset in Ok (q :: search', i, e)
      else if m =? 45 then let! b := make_mask [c] 0 in let! (search', i, e) := learn sample' word' markup' search' incset (N.lor excset b) in Ok (q :: search', i, e)
      else let! (search', i, e) := learn sample' word' markup' search' incset excset in Ok (q :: search', i, e)
  | _, _, _, _ => Ub
  end.

Inductive verdict := Guessed | Not_guessed | Unfinished.

(** 5-letters.cpp:105-158: the lines printed (word and marks) and the verdict; [Unfinished] if [fuel] rounds are not enough. *)
Fixpoint play (find : wstring -> list (N * list (wstring * N))) (wd : N -> N) (sample : wstring) (fuel : nat) (search : wstring) (incset excset : N)
  (hypots tested : list wstring) : res (list (wstring * wstring) * verdict) :=
  match fuel with
  | O => Ok ([], Unfinished)
  | S fuel' =>
      match hypots with
      | [] => Ok ([], Not_guessed)
      | _ =>
          let! select := select_word tested hypots None in
          match select with
          | None => Ok ([], Not_guessed)
          | Some w =>
              let! (markup, bcheck) := check_guess sample w in
              if bcheck then Ok ([(w, markup)], Guessed)
              else
                let! (search, incset, excset) := learn sample w markup search incset excset in
                let! hypots := get_wordset find wd search excset incset in
                let! (lines, v) := play find wd sample fuel' search incset excset hypots (tested ++ [w]) in
                Ok ((w, markup) :: lines, v)
          end
      end
  end.

(** 5-letters.cpp:97-104: [main] for a word to be guessed, the pattern of the letters known and those ruled out at first. *)
Definition letters_game find wd (fuel : nat) (sample search unused : wstring) : res (list (wstring * wstring) * verdict) :=
  let! exclude := make_mask unused 0 in
  let! hypots := get_wordset find wd search exclude 0 in
  play find wd sample fuel search 0 0 hypots [].
(** The constants of [main]: шляпа, те???, видойкалунсь. *)
Definition shipped_sample : wstring := [1096; 1083; 1103; 1087; 1072].
Definition shipped_search : wstring := [1090; 1077; 63; 63; 63].
Definition shipped_unused : wstring := [1074; 1080; 1076; 1086; 1081; 1082; 1072; 1083; 1091; 1085; 1089; 1100].
