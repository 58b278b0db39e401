(** * FlatStack: [Flat::ScanTree] with its explicit stack [astack[0x40]], as written.  MODEL ONLY.
    FlatStackProofs.v shows it equal to the recursive [scan_tree] of FlatScan.v. *)
From Verif Require Import Base Serial WordTree FlatScan.
Local Open Scope N_scope.

(** xmorph/scandict.h:80-86 [scan_stack]; [aflags] only matters through [hasupper], kept as [s_upper]. *)
Record frame := Frame { s_str : frag; s_ch : N; s_dic : bytes; s_upper : bool; s_count : nat }.

(** xmorph/scandict.h:89-96 [setlevel]. *)
Definition setlevel (w : cwidth) (p : bytes) (s : frag) : res frame :=
  let! (aflags, p) := getcounter w p in
  let! ch := chfind s in
  Ok (Frame s ch p (hasupper w aflags) (getlower w aflags)).

(** xmorph/scandict.h:97-111 [findchar]: the found subtree, if any, the advanced [thedic] and remaining count. *)
Fixpoint findchar (ch : N) (upper : bool) (ccount : nat) (p : bytes) : res (option bytes * bytes * nat) :=
  match ccount with
  | O => Ok (None, p, O)
  | S ccount' =>
      let! (chnext, subdic, p') := getchild p in
      if ch =? chnext then Ok (Some subdic, p', ccount')
      else if (chnext <? ch) && negb upper then Ok (None, p', ccount')
      else findchar ch upper ccount' p'
  end.

Section Machine.
  Context {St : Type}.
  Variable w : cwidth.
  Variable doitem : St -> bytes -> frag -> res (St * Z).
  (** number of elements of [astack], 0x40 in the source (line 169) *)
  Variable capacity : nat.

  (** [(pstack + 1)->setlevel( ... )], line 192: writing past the end of [astack] is undefined. *)
  Definition push (p : bytes) (s : frag) (below : list frame) : res (list frame) :=
    if (length below <? capacity)%nat then let! f := setlevel w p s in Ok (f :: below) else Ub.

  (** The loop, lines 173-194; [None] is "not finished within [fuel] iterations". *)
  Fixpoint run (fuel : nat) (stack : list frame) (s : St) : option (res (St * Z)) :=
    match fuel with
    | O => None
    | S fuel' =>
        match stack with
        | [] => Some (Ok (s, 0%Z))
        | f :: below =>
            match findchar (s_ch f) (s_upper f) (s_count f) (s_dic f) with
            | Ub => Some Ub
            | Ok (None, p, _) =>
                if s_upper f then
                  match doitem s p (s_str f) with
                  | Ub => Some Ub
                  | Ok (s', r) => if Z.eqb r 0 then run fuel' below s' else Some (Ok (s', r))
                  end
                else run fuel' below s
            | Ok (Some subdic, p, n) =>
                match push subdic (fnext (s_str f)) (Frame (s_str f) (s_ch f) p (s_upper f) n :: below) with
                | Ub => Some Ub
                | Ok stack' => run fuel' stack' s
                end
            end
        end
    end.

  (** xmorph/scandict.h:165-189 [ScanTree]. *)
  Definition scan_machine (fuel : nat) (thedic : bytes) (src : frag) (s : St) : option (res (St * Z)) :=
    match push thedic src [] with Ub => Some Ub | Ok stack => run fuel stack s end.
End Machine.
