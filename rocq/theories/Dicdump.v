(** * Dicdump: the program that dumps a dictionary and checks it against an earlier dump.  MODEL ONLY.
    Lines are C strings: no byte 0. *)
From Verif Require Import Base.
Local Open Scope N_scope.

(** [strcmp( ... ) == 0] *)
Definition same_line (a b : bytes) : bool := if list_eq_dec N.eq_dec a b then true else false.

(** ** lang-rus/dicdump/dicdump.cpp:191-275, the comparison.  A source is a state and its [Get]: the next line, empty at the end. *)
Section Diff.
  Context {S1 S2 : Type} (get1 : S1 -> bytes * S1) (get2 : S2 -> bytes * S2).

  (** dicdump.cpp:191-201 [LoadList]: [while ( vec.size() < lim )], so at most [lim - size] rounds. *)
  Fixpoint load_more {S : Type} (get : S -> bytes * S) (room : nat) (vec : list bytes) (s : S) : list bytes * S :=
    match room with
    | O => (vec, s)
    | S room' => let '(str, s') := get s in
                 match str with [] => (vec, s') | _ => load_more get room' (vec ++ [str]) s' end
    end.
  Definition load_list {S : Type} (get : S -> bytes * S) (vec : list bytes) (s : S) (lim : nat) : list bytes * S :=
    load_more get (lim - length vec) vec s.

  (** What is printed: "<< %s\n", ">> %s\n", "!!! diff too big !!!\n". *)
  Inductive printed := Left (st : bytes) | Right (st : bytes) | Too_big.

  (** dicdump.cpp:227-232 *)
  Fixpoint skip_matching (v1 v2 : list bytes) : list bytes * list bytes :=
    match v1, v2 with
    | x :: v1', y :: v2' => if same_line x y then skip_matching v1' v2' else (v1, v2)
    | _, _ => (v1, v2)
    end.

  (** dicdump.cpp:234-246 and 248-260: lines are printed and dropped up to the first that is in the other list. *)
  Fixpoint dump_front (how : bytes -> printed) (v other : list bytes) : list printed * list bytes :=
    match v with
    | [] => ([], [])
    | st :: v' => if existsb (same_line st) other then ([], v)
                  else let '(out, rest) := dump_front how v' other in (how st :: out, rest)
    end.

  (** dicdump.cpp:225-264, the inner loop; [None]: it has not ended within [fuel] rounds. *)
  Fixpoint compare_lists (fuel : nat) (v1 v2 : list bytes) (s1 : S1) (s2 : S2) : option (list printed * list bytes * list bytes * S1 * S2) :=
    match v1, v2 with
    | _ :: _, _ :: _ =>
        match fuel with
        | O => None
        | S fuel' =>
            let '(v1, v2) := skip_matching v1 v2 in
            let '(out1, v1) := dump_front Left v1 v2 in
            let '(out2, v2) := dump_front Right v2 v1 in
            let '(v1, s1) := load_list get1 v1 s1 (length v2) in
            let '(v2, s2) := load_list get2 v2 s2 (length v1) in
            match compare_lists fuel' v1 v2 s1 s2 with
            | None => None
            | Some (out, v1, v2, s1, s2) => Some (out1 ++ out2 ++ out, v1, v2, s1, s2)
            end
        end
    | _, _ => Some ([], v1, v2, s1, s2)
    end.

  (** dicdump.cpp:203-275 [DumpDiff]; [None]: it has not ended within [fuel] rounds of either loop. *)
  Fixpoint dump_diff (fuel : nat) (s1 : S1) (s2 : S2) : option (list printed) :=
    match fuel with
    | O => None
    | S fuel' =>
        let '(l1, s1) := get1 s1 in
        let '(l2, s2) := get2 s2 in
        match l1, l2 with
        | [], [] => Some []
        | _, _ =>
            if same_line l1 l2 then dump_diff fuel' s1 s2
            else
              let '(v1, s1) := load_list get1 [l1] s1 1024 in
              let '(v2, s2) := load_list get2 [l2] s2 1024 in
              match compare_lists fuel v1 v2 s1 s2 with
              | None => None
              | Some (out, [], [], s1, s2) => option_map (app out) (dump_diff fuel' s1 s2)
              | Some (out, _, _, _, _) => Some (out ++ [Too_big])
              end
        end
    end.
End Diff.

(** ** dicdump.cpp:159-180 [DumpedQueue::Get] over the rest of the file. *)

(** [fgets] with an array of [room + 1] bytes: up to [room] bytes, none behind a newline. *)
Fixpoint fgets (room : nat) (t : bytes) : bytes * bytes :=
  match room, t with
  | S room', c :: t' => if c =? 10 then ([c], t') else let '(chunk, rest) := fgets room' t' in (c :: chunk, rest)
  | _, _ => ([], t)
  end.
(** The chunk as a C string, without a newline at its end, and whether there was one. *)
Fixpoint c_string (t : bytes) : bytes := match t with [] => [] | c :: t' => if c =? 0 then [] else c :: c_string t' end.
Definition chomp (chunk : bytes) : bytes * bool :=
  let s := c_string chunk in match rev s with c :: r => if c =? 10 then (rev r, true) else (s, false) | [] => (s, false) end.
Fixpoint queue_loop (fuel : nat) (output t : bytes) : bytes * bytes :=
  match fuel with
  | O => (output, t)
  | S fuel' =>
      match t with
      | [] => (output, [])
      | _ => let '(chunk, rest) := fgets 1023 t in
             let '(piece, ended) := chomp chunk in
             if ended then (output ++ piece, rest) else queue_loop fuel' (output ++ piece) rest
      end
  end.
Definition queue_get (t : bytes) : bytes * bytes := queue_loop (S (length t)) [] t.
