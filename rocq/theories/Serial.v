(** * Serial: integers in compiled tables and lexeme-id keys.  MODEL ONLY. *)
From Verif Require Import Base.
Local Open Scope N_scope.

(** xmorph/typedefs.h:108-117 [getserial], the loop: one more 7-bit group is or-ed in while the previous byte
    had its top bit set.  [nshift] is the C++ variable; a shift count of 32 or more is undefined. *)
Fixpoint getserial_rest (nshift serial : N) (p : bytes) : res (N * bytes) :=
  match p with
  | [] => Ub
  | b :: p' =>
      if 32 <=? nshift * 7 then Ub
      else
        let serial' := N.lor serial (N.shiftl (N.land b 127) (nshift * 7) mod 2 ^ 32) in
        if N.testbit b 7 then getserial_rest (nshift + 1) serial' p' else Ok (serial', p')
  end.

(** xmorph/typedefs.h:108-117 [getserial]: value and advanced pointer. *)
Definition getserial (p : bytes) : res (N * bytes) :=
  match p with
  | [] => Ub
  | b :: p' =>
      let serial := N.land b 127 in
      if N.testbit b 7 then getserial_rest 1 serial p' else Ok (serial, p')
  end.

(** xmorph/typedefs.h:119-125 [getword16]; also xmorph/scandict.h:54-60 [Counters::getvalue(unsigned short)]. *)
Definition getword16 (p : bytes) : res (N * bytes) :=
  let! (lo, p) := rd p in
  let! (hi, p) := rd p in
  Ok (N.lor lo (N.shiftl hi 8 mod 2 ^ 16), p).

(** Writer of unsigned integers used by tools/wordtree.h:174-180 through mtc's [::Serialize].  mtc is not in the
    repo: the assumed encoding is the one [getserial] reads, 7 bits per byte, least significant group first, top
    bit set on every byte but the last.  A [size_t] needs at most 10 groups. *)
Fixpoint putserial_loop (groups : nat) (n : N) : bytes :=
  match groups with
  | O => []
  | S g => if n <? 128 then [n] else N.lor (N.land n 127) 128 :: putserial_loop g (N.shiftr n 7)
  end.
Definition putserial (n : N) : bytes := putserial_loop 10 n.

(** mtc's [::GetBufLen] of an unsigned integer (tools/wordtree.h:158,190): the number of groups. *)
Fixpoint seriallen_loop (groups : nat) (n : N) : N :=
  match groups with
  | O => 0
  | S g => if n <? 128 then 1 else 1 + seriallen_loop g (N.shiftr n 7)
  end.
Definition seriallen (n : N) : N := seriallen_loop 10 n.

(** Writer of 16-bit words, little endian: tools/wordtree.h:48-63 [serializer], and
    lang-rus/libdict/tools/buildic/makerus.cpp:334-344 / lresolve.h:77-90. *)
Definition putword16 (n : N) : bytes := [n mod 256; N.shiftr n 8 mod 256].

(** xmorph/typedefs.h:127-140 [lexkeylen]: the analyser's key for a lexeme id, most significant byte first. *)
Definition lexkeylen (id : N) : bytes :=
  if N.land id 0xffffff00 =? 0 then [id mod 256]
  else if N.land id 0xffff0000 =? 0 then [N.shiftr id 8 mod 256; id mod 256]
  else if N.land id 0xff000000 =? 0 then [N.shiftr id 16 mod 256; N.shiftr id 8 mod 256; id mod 256]
  else [N.shiftr id 24 mod 256; N.shiftr id 16 mod 256; N.shiftr id 8 mod 256; id mod 256].

(** tools/buildmorph.h:41-54 [lexkeybuf]: the compiler's key for a lexeme id. *)
Definition lexkeybuf (id : N) : bytes :=
  if N.land id 0xffffff00 =? 0 then [id mod 256]
  else if N.land id 0xffff0000 =? 0 then [N.shiftr id 8 mod 256; id mod 256]
  else if N.land id 0xff000000 =? 0 then [N.shiftr id 16 mod 256; N.shiftr id 8 mod 256; id mod 256]
  else [N.shiftr id 24 mod 256; N.shiftr id 8 mod 256; id mod 256].
