(** * Tasks: a word for the game of five letters, lang-rus/libdict/utils/5-samples.cpp.  MODEL ONLY.
    [help] is what CheckHelp writes for a beginning and an asterisk (cut to the length it returns), [find] the calls of FindMatch, [wd] GetWdInfo;
    [rnd] is the sequence of the values of rand(), of which the n-th is the next. *)
From Verif Require Import Base Letters.
Local Open Scope N_scope.

(** RAND_MAX of glibc *)
Definition rand_max : N := 2147483647.

(** 5-samples.cpp:46-49: the sums of the ranks; of the at most 64 characters of [szhelp], so they do not exceed 32 bits (simplified: no wrapping). *)
Fixpoint rank_sums (acc : N) (src : wstring) : res (list N) :=
  match src with
  | [] => Ok []
  | c :: src' =>
      if c <? 1072 then Ub
      else match nth_error char_rank (N.to_nat (c - 1072)) with
           | None => Ub
           | Some r => let! more := rank_sums (acc + r) src' in Ok (acc + r :: more)
           end
  end.
(** 5-samples.cpp:53-57; the exception is [Ub] here. *)
Fixpoint first_ge (rndval : N) (ranked : list N) : res nat :=
  match ranked with
  | [] => Ub
  | x :: ranked' => if rndval <=? x then Ok 0%nat else let! i := first_ge rndval ranked' in Ok (S i)
  end.
(** 5-samples.cpp:44-58 [SelectChar]; the product is below 2^53, so exact in a double; the quotient is cut to an integer (simplified: exact). *)
Definition select_char (src : wstring) (r : N) : res nat :=
  let! ranked := rank_sums 0 src in
  match ranked with
  | [] => Ub
  | _ => first_ge (r * last ranked 0 / rand_max) ranked
  end.

(** 5-samples.cpp:110-117: the fifth letters, each once; 64 is the size of [szhelp]. *)
Fixpoint fifth_letters (ms : list (wstring * N)) (szhelp : wstring) : res wstring :=
  match ms with
  | [] => Ok szhelp
  | (ws, id) :: ms' =>
      if (id =? 0) || (id =? 255)
      then match nth_error ws 4 with
           | None => Ub
           | Some c => if existsb (N.eqb c) szhelp then fifth_letters ms' szhelp else if (length szhelp <? 64)%nat then fifth_letters ms' (szhelp ++ [c]) else Ub
           end
      else fifth_letters ms' szhelp
  end.
(** 5-samples.cpp:90-120: the callback *)
Fixpoint task_calls (wd : N -> N) (calls : list (N * list (wstring * N))) (szhelp : wstring) : res wstring :=
  match calls with
  | [] => Ok szhelp
  | (lex, ms) :: calls' =>
      if (wd lex <? 7) || (23 <? wd lex) then task_calls wd calls' szhelp
      else if (192512 <=? lex) && (lex <=? 192641) then task_calls wd calls' szhelp
      else let! szhelp := fifth_letters ms szhelp in task_calls wd calls' szhelp
  end.

(** 5-samples.cpp:81-90: the loop over the letters; [inner] is the recursive call. *)
Fixpoint try_letters (inner : wstring -> nat -> res (option wstring * nat)) (rnd : nat -> N) (buffer : wstring) (cchelp : nat) (szhelp : wstring) (n : nat) : res (option wstring * nat) :=
  match cchelp with
  | O => Ok (None, n)
  | S cchelp' =>
      let! cindex := select_char szhelp (rnd n) in
      match nth_error szhelp cindex with
      | None => Ub
      | Some c =>
          let! (found, n) := inner (buffer ++ [c]) (S n) in
          match found with
          | Some w => Ok (Some w, n)
          | None => try_letters inner rnd buffer cchelp' (firstn cindex szhelp ++ skipn (S cindex) szhelp) n
          end
      end
  end.
(** 5-samples.cpp:60-128 [GetNewTask]: [left] is 4 less the length of the beginning. *)
Fixpoint get_new_task (help : wstring -> wstring) (find : wstring -> list (N * list (wstring * N))) (wd : N -> N) (rnd : nat -> N) (left : nat) (buffer : wstring) (n : nat)
  : res (option wstring * nat) :=
  match left with
  | S left' =>
      let szhelp := filter (fun c => negb (c <? 1072)) (help buffer) in
      try_letters (get_new_task help find wd rnd left') rnd buffer (length szhelp) szhelp n
  | O =>
      let! szhelp := task_calls wd (find (buffer ++ [63])) [] in
      match szhelp with
      | [] => Ok (None, n)
      | _ =>
          let! i := select_char szhelp (rnd n) in
          match nth_error szhelp i with None => Ub | Some c => Ok (Some (buffer ++ [c]), S n) end
      end
  end.
Definition new_task help find wd rnd : res (option wstring) := let! (w, _) := get_new_task help find wd rnd 4 [] 0 in Ok w.
