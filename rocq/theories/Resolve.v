(** * Resolve: how the compiler finds the stem of a headword, its alternation and the bounds of its first letters.  MODEL ONLY.
    Type, table, postfix, flags, remark are found in the text of the entry by code that is not modelled; they are arguments here. *)
From Verif Require Import Base Serial WordTree Stems GramMap RusRuntime Compile.
Local Open Scope N_scope.

(** ** Bounds of first letters *)

(** tools/ftables.h:189-236 [FlexStripper::GetMinMaxChar].  Elements are read whole ([read_item]), the source reads the fields it needs. *)
Fixpoint flex_minmax (depth : nat) (tables : bytes) (tfoffs : N) : res (N * N) :=
  match depth with
  | O => Ub
  | S depth' =>
      let! ptable := advance (N.shiftl tfoffs 1) tables in
      let! (nitems, ptable) := rd ptable in
      (fix items (n : nat) (ptable : bytes) (clower cupper : Z) : res (N * N) :=
         match n with
         | O => Ok (Z.to_N (clower mod 256), Z.to_N (cupper mod 256))
         | S n' =>
             let! (it, ptable) := read_item ptable in
             match fi_text it with
             | c :: _ => items n' ptable (Z.min (Z.of_N c) clower) (Z.max (Z.of_N c) cupper)
             | [] =>
                 if negb (bit 7 (fi_flags it)) then items n' ptable 0%Z (if (0 <=? cupper)%Z then cupper else 0%Z)
                 else let! (cl, cu) := flex_minmax depth' tables (fi_next it) in
                      items n' ptable (Z.min clower (Z.of_N cl)) (Z.max cupper (Z.of_N cu))
             end
         end) (N.to_nat (N.land nitems 0x7f)) ptable 256%Z (-1)%Z
  end.

(** lang-rus/libdict/tools/buildic/mtables.cpp:191-203, the loop of [Alternator::GetMinMaxChar]. *)
Fixpoint alt_minmax_loop (n : nat) (mixtab : bytes) (mixmin mixmax : Z) : res (Z * Z) :=
  match n with
  | O => Ok (mixmin, mixmax)
  | S n' =>
      let! (mflags, mixtab) := rd mixtab in
      let len := N.land mflags 0x0f in
      let! (mixmin, mixmax) :=
        (if 0 <? len then let! (c, _) := rd mixtab in Ok (Z.min mixmin (Z.of_N c), Z.max mixmax (Z.of_N c)) else Ok (0%Z, 0%Z)) in
      let! mixtab := advance len mixtab in
      alt_minmax_loop n' mixtab mixmin mixmax
  end.
(** mtables.cpp:183-208 [Alternator::GetMinMaxChar]. *)
Definition alt_minmax (tables : bytes) (tboffs chrmin chrmax : N) : res (N * N) :=
  let! mixtab := advance tboffs tables in
  let! (tablen, mixtab) := rd mixtab in
  let! (mixmin, mixmax) := alt_minmax_loop (N.to_nat tablen) mixtab 0xff%Z (-1)%Z in
  Ok (if (mixmin =? 0)%Z then chrmin else Z.to_N (mixmin mod 256), if (mixmax <=? 0)%Z then chrmax else Z.to_N (mixmax mod 256)).

(** lang-rus/libdict/tools/buildic/lresolve.cpp:357-366, 429-440, the bounds stored for a stem of class [m]. *)
Definition letter_bounds (depth : nat) (ftable mtable : bytes) (m : morphclass) : res (N * N) :=
  if (m_tfoffs m =? 0) || (N.land (m_wdinfo m) 0x3f =? 51) then Ok (0, 0)
  else
    let! (lo, hi) := flex_minmax depth ftable (m_tfoffs m) in
    if m_mtoffs m =? 0 then Ok (lo, hi) else alt_minmax mtable (m_mtoffs m) lo hi.

(** ** The stem of a headword *)

(** tools/ftables.h:73-85 [NounLevels], [VerbLevels]. *)
Definition noun_levels : list N := [0xffff; 0; 0].
Definition verb_levels : list N := [0x007f; 0x7f80; 0x8000].
(** tools/ftables.h:63-70 [GetUpLevels]. *)
Definition up_levels (levels : list N) (clevel : nat) : N := fold_left N.lor (skipn (S clevel) levels) 0.

(** tools/ftables.h:105-111 [StringHasTail], mtables.cpp:144-150 [StemHasTail]: the low four bits of the first byte are the length. *)
Definition has_tail (stem : bytes) (count : N) (tail : bytes) : bool :=
  let n := N.to_nat (N.land count 0x0f) in
  (n <=? length stem)%nat && (if list_eq_dec N.eq_dec (skipn (length stem - n) stem) (firstn n tail) then true else false).
(** [ststem.resize( ststem.length() - n )]; a length below zero is an exception, counted as undefined here. *)
Definition cut (stem : bytes) (n : N) : res bytes :=
  if N.of_nat (length stem) <? n then Ub else Ok (firstn (length stem - N.to_nat n) stem).

(** tools/ftables.h:142-187 [FlexStripper::StripStr].  The string is an in-out argument: the result has it even on failure. *)
Fixpoint strip_str (depth : nat) (levels : list N) (tables : bytes) (ststem : bytes) (grinfo tfoffs : N) (clevel : nat) : res (bool * bytes) :=
  match depth with
  | O => Ub
  | S depth' =>
      let! ptable := advance (N.shiftl tfoffs 1) tables in
      let! (nitems, ptable) := rd ptable in
      let level := nth clevel levels 0 in
      (fix items (n : nat) (ptable : bytes) (ststem : bytes) : res (bool * bytes) :=
         match n with
         | O => if (clevel <? 2)%nat && negb (up_levels levels clevel =? 0) then strip_str depth' levels tables ststem grinfo tfoffs (S clevel)
                else Ok (false, ststem)
         | S n' =>
             let! (it, ptable) := read_item ptable in
             let count := N.of_nat (length (fi_text it)) in
             if negb (N.land grinfo level =? N.land (fi_info it) level) then items n' ptable ststem
             else if (N.land grinfo level =? 0) && negb (level =? 0xffff) then items n' ptable ststem
             else if (clevel <? 2)%nat && bit 7 (fi_flags it) then
               let! (done, ststem) := strip_str depth' levels tables ststem grinfo (fi_next it) clevel in
               if done && has_tail ststem count (fi_text it) then let! ststem := cut ststem count in Ok (true, ststem)
               else items n' ptable ststem
             else if has_tail ststem count (fi_text it) then let! ststem := cut ststem count in Ok (true, ststem)
             else items n' ptable ststem
         end) (N.to_nat (N.land nitems 0x7f)) ptable ststem
  end.

(** mtables.cpp:169-181 [GetDefaultStr]: the first string of level 1; none is undefined (a null pointer is dereferenced). *)
Fixpoint default_loop (n : nat) (mixtab : bytes) : res (N * bytes) :=
  match n with
  | O => Ub
  | S n' =>
      let! (flags, tail) := rd mixtab in
      if negb (N.land flags 0x10 =? 0) then Ok (flags, tail)
      else let! mixtab := advance (N.land flags 0x0f) tail in default_loop n' mixtab
  end.
(** [int tablen = *mixtab++] reads a (signed) char: above 127 there are no rounds. *)
Definition default_str (tables : bytes) (off : N) : res (N * bytes) :=
  let! mixtab := advance off tables in
  let! (tablen, mixtab) := rd mixtab in
  default_loop (if tablen <? 128 then N.to_nat tablen else 0%nat) mixtab.

(** mtables.cpp:101-114 [typeList] in code page 1251, in the order of the source, and 129-142 [MapMixType] (strcmp; the list ascends). *)
Definition mix_types : list (bytes * N) :=
  [([227; 229], 1); ([233], 5); ([234], 3); ([235; 229], 0); ([238], 6); ([248], 2); ([252], 4)].
Fixpoint map_mix_type (l : list (bytes * N)) (cond : bytes) : option N :=
  match l with
  | [] => None
  | (s, id) :: l' => match strcmp cond s with Gt => map_mix_type l' cond | Lt => None | Eq => Some id end
  end.

(** mtables.cpp:116-123, 152-165: vowels, hissing, кгх; strchr also finds the terminator. *)
Definition vowels : bytes := [224; 229; 232; 238; 243; 251; 253; 254; 255; 0].
Definition hissing : bytes := [230; 246; 247; 248; 249; 0].
Definition kgh : bytes := [234; 227; 245; 0].
Definition one_of (c : N) (l : bytes) : bool := existsb (N.eqb c) l.

(** mtables.cpp:210-270 [Alternator::tab::Find], the list of (offset, condition). *)
Definition suits_cond (type : N) (cond stem rems : bytes) : bool :=
  let back k := nth (length stem - k) stem 0 in
  let len := length stem in
  if (1 <=? N.land type 0x3f) && (N.land type 0x3f <=? 6)
  then (match strcmp cond rems with Eq => true | _ => false end) || (match strcmp cond [238] with Eq => true | _ => false end)
  else match map_mix_type mix_types cond with
       | Some 0 => (3 <=? len)%nat && (back 3%nat =? 235) && (back 2%nat =? 229)
       | Some 1 => (3 <=? len)%nat && one_of (back 3%nat) vowels && (back 2%nat =? 229)
       | Some 2 => (2 <=? len)%nat && one_of (back 2%nat) hissing
       | Some 3 => (2 <=? len)%nat && one_of (back 2%nat) kgh
       | Some 4 => (2 <=? len)%nat && (back 2%nat =? 252)
       | Some 5 => (2 <=? len)%nat && (back 2%nat =? 233)
       | Some 6 => true
       | _ => false
       end.
Fixpoint find_alt (mtable : bytes) (alts : list (N * bytes)) (type : N) (stem rems : bytes) : res N :=
  match alts with
  | [] => Ok 0
  | (off, cond) :: alts' =>
      let! (count, tail) := default_str mtable off in
      if negb (has_tail stem count tail) then find_alt mtable alts' type stem rems
      else if suits_cond type cond stem rems then Ok off else find_alt mtable alts' type stem rems
  end.

(** lresolve.cpp:379-422: the description of the normal form and the levels to look at.  [Reflexive] (272-277): the stem ends with ся. *)
Definition reflexive (s : bytes) : bool := (2 <? length s)%nat && (if list_eq_dec N.eq_dec (skipn (length s - 2) s) [241; 255] then true else false).
Definition normal_form (wdinfo : N) (stem : bytes) : N * list N :=
  let t := N.land wdinfo 0x3f in
  let '(nf, levels) :=
    if (1 <=? t) && (t <=? 6) then (0x8001, verb_levels)
    else if existsb (N.eqb t) [25; 26; 27; 28; 34; 36; 42; 52] then (0x200 + (if reflexive stem then 0x8000 else 0), noun_levels)
    else (0, noun_levels) in
  (N.lor nf (if N.land wdinfo 0x40 =? 0 then 0 else 0x0800), levels).

(** lresolve.cpp:319-478 [ResolveClassInfo] after the lookups: [word] is the headword without '=' and with е for ё; [at_mark] is where it
    has '@', if it does; [colon] tells whether the class name has ':'; [mixkind] is mixIndex.  [None] means the entry is rejected. *)
Definition resolve (depth : nat) (ftable mtable : bytes) (alts : list (N * bytes)) (word post rems : bytes) (wdinfo tfoffs cases : N) (at_mark : option nat)
    (colon : bool) (mixkind : N) (id : N) : res (option lexeme) :=
  let! ststem := cut word (N.of_nat (length post)) in
  if tfoffs =? 0 then
    Ok (Some (Lexeme ststem (Morphclass wdinfo (if N.land wdinfo 0x3f =? 51 then cases else 0) 0) 0 0 post id))
  else
    let! (done, ststem) :=
      (match at_mark with
       | Some n => Ok (true, firstn n ststem)
       | None => let '(nf, levels) := normal_form wdinfo ststem in strip_str depth levels ftable ststem nf tfoffs 0
       end) in
    if negb done && negb colon then Ok None
    else
      let! (lo, hi) := flex_minmax depth ftable tfoffs in
      let! mtoffs := find_alt mtable alts wdinfo ststem rems in
      if mtoffs =? 0 then Ok (Some (Lexeme ststem (Morphclass wdinfo tfoffs 0) lo hi post id))
      else
        let! (lo, hi) := alt_minmax mtable mtoffs lo hi in
        let! (count, _) := default_str mtable mtoffs in
        let! ststem := cut ststem (N.land count 0x0f) in
        Ok (Some (Lexeme ststem (Morphclass (N.lor wdinfo (N.shiftl mixkind 11)) tfoffs mtoffs) lo hi post id)).
