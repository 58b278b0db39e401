(** * FlatScan: the analyser's walk over a compiled tree (xmorph/scandict.h).  MODEL ONLY. *)
From Verif Require Import Base Serial WordTree.
Local Open Scope N_scope.

(** xmorph/typedefs.h:57-89 [fragment]: [fstr] is the pointer (all bytes of the containing buffer from there on),
    [flen] the [size_t] length. *)
Record frag := Frag { fstr : bytes; flen : N }.

(** xmorph/typedefs.h:74 [next]: the pointer moves by one, the length is decremented modulo 2^64. *)
Definition fnext (f : frag) : frag := Frag (tl (fstr f)) ((flen f + (size_max1 - 1)) mod size_max1).

(** xmorph/scandict.h:46-72 [Counters]: reading a counter, its flag and its value. *)
Definition getcounter (w : cwidth) (p : bytes) : res (N * bytes) :=
  match w with C8 => rd p | C16 => getword16 p end.
Definition hasupper (w : cwidth) (a : N) : bool :=
  match w with C8 => N.testbit a 7 | C16 => N.testbit a 15 end.
Definition getlower (w : cwidth) (a : N) : nat :=
  match w with C8 => N.to_nat (N.land a 0x7f) | C16 => N.to_nat (N.land a 0x7fff) end.

(** xmorph/scandict.h:93-94, in [setlevel]: the byte to look for; 0 once the string is exhausted. *)
Definition chfind (s : frag) : res N :=
  if 0 <? flen s then let! (b, _) := rd (fstr s) in Ok b else Ok 0.

(** One child record: byte, length, subtree (xmorph/scandict.h:101-103, 144-146). *)
Definition getchild (p : bytes) : res (N * bytes * bytes) :=
  let! (chnext, p) := rd p in
  let! (sublen, p) := getserial p in
  let! rest := advance sublen p in
  Ok (chnext, p, rest).

Section Scan.
  Context {St : Type}.
  Variable w : cwidth.
  Variable doitem : St -> bytes -> frag -> res (St * Z).

  (** The loop at one stack frame, xmorph/scandict.h:97-111 [findchar] and 173-187 of [ScanTree]: [ccount] child
      records are left at [p], [ch] is the byte looked for, [upper] tells whether the node has data.  [descend] is
      what happens in the frame pushed for a found child; when that frame is popped the loop resumes at the next
      sibling. *)
  Section Level.
    Variable ch : N.
    Variable upper : bool.
    Variable src : frag.
    Variable descend : bytes -> St -> res (St * Z).
    Fixpoint scan_level (ccount : nat) (p : bytes) (s : St) : res (St * Z) :=
      match ccount with
      | O => if upper then doitem s p src else Ok (s, 0%Z)
      | S ccount' =>
          let! (chnext, subdic, p') := getchild p in
          if ch =? chnext then
            let! (s', r) := descend subdic s in
            if Z.eqb r 0 then scan_level ccount' p' s' else Ok (s', r)
          else if (chnext <? ch) && negb upper then Ok (s, 0%Z)
          else scan_level ccount' p' s
      end.
  End Level.

  (** xmorph/scandict.h:79-112 and 165-189 [Flat::ScanTree] with [scan_stack::setlevel].
      The C++ code keeps the walk in [astack[0x40]]; here [depth] is the number of stack slots left (a push with
      no slot left is [Ub]) and the frames are the frames of this recursion. [FlatStack.v] has the explicit stack.
      [St] is the mutable state of the callback object. *)
  Fixpoint scan_tree (depth : nat) (thedic : bytes) (src : frag) (s : St) : res (St * Z) :=
    match depth with
    | O => Ub
    | S depth' =>
        let! (aflags, p) := getcounter w thedic in
        let! ch := chfind src in
        scan_level ch (hasupper w aflags) src (fun subdic s => scan_tree depth' subdic (fnext src) s)
                   (getlower w aflags) p s
    end.

  (** xmorph/scandict.h:132-158 [Flat::GetTrack].  [dicpos] is an address; addresses inside one array are compared
      by the number of bytes from them to the end of the array, [None] is [nullptr].  [track] is the contents of
      [ptrack[0 .. ltrack)]; [depth] is one more than the number of bytes of [ptrack] still free, so that storing a
      byte when none is free ends in [Ub].  The handler gets the string collected so far. *)
  Variable dovisit : St -> bytes -> bytes -> res (St * Z).
  Section TrackLevel.
    Variable upper : bool.
    Variable dicpos : option nat.
    Variable track : bytes.
    Variable descend : bytes -> bytes -> St -> res (St * Z).
    Fixpoint track_level (ncount : nat) (p : bytes) (s : St) : res (St * Z) :=
      match ncount with
      | O => if upper then dovisit s p track else Ok (s, 0%Z)
      | S ncount' =>
          let! (chnext, subdic, p') := getchild p in
          if (match dicpos with
              | None => true
              | Some d => (Nat.leb d (length subdic)) && (Nat.leb (length p') d)
              end)
          then
            let! (s', r) := descend subdic (track ++ [chnext]) s in
            if Z.eqb r 0 then track_level ncount' p' s' else Ok (s', r)
          else track_level ncount' p' s
      end.
  End TrackLevel.

  Fixpoint get_track (depth : nat) (dicpos : option nat) (thedic : bytes) (track : bytes) (s : St)
    : res (St * Z) :=
    match depth with
    | O => Ub
    | S depth' =>
        let! (uflags, p) := getcounter w thedic in
        track_level (hasupper w uflags) dicpos track (get_track depth' dicpos) (getlower w uflags) p s
    end.
End Scan.
