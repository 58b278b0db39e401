(** * GramMap: form identifiers and grammatical descriptions of Russian word forms.  MODEL ONLY.
    [bit n x] is [(x & 2^n) != 0]. *)
From Verif Require Import Base.
Local Open Scope N_scope.

Definition bit (n x : N) : bool := N.testbit x n.
(** C++ [cond ? a : b] on a byte result *)
Definition u8 (n : N) : N := n mod 256.

(** lang-rus/libdict/mlmadefs.h:119-130 [IsVerb], [IsAdjective]; 132-135 [IsParticiple]. *)
Definition IsVerb (wb : N) : bool := N.land wb 0x3f <=? 6.
Definition IsAdjective (wb : N) : bool :=
  let w := N.land wb 0x3f in
  ((25 <=? w) && (w <=? 28)) || (w =? 34) || (w =? 36) || (w =? 42).
Definition IsParticiple (gr : N) : bool := (N.land gr 0x60 =? 0x20) || (N.land gr 0x60 =? 0x40).

(** lang-rus/libdict/grammap.h:45-52 [mapCaseInfo]: [info] has the flags in bits 16-23. *)
Definition mapCaseInfo (info : N) : N :=
  let idcase := N.shiftr (N.land info 0x7000) 12 in
  if 3 <? idcase then u8 (idcase + 1)
  else if idcase <? 3 then idcase
  else if bit 17 info then 3 else 4.

(** grammap.h:58-61 [mapGenderOf]; the subtraction is on [unsigned], then cut to a byte. *)
Definition mapGenderOf (info : N) : N :=
  if bit 11 info then 3 else u8 (N.shiftr (N.land info 0x600) 9 + (2 ^ 32 - 1)).

(** grammap.h:69-72 [mapGendInfo]. *)
Definition mapGendInfo (info : N) : N :=
  u8 (mapGenderOf info * 8 + (if bit 8 info then 7 else mapCaseInfo info)).

(** grammap.h:78-82 [MapDefsInfo]. *)
Definition MapDefsInfo (info : N) : N :=
  if bit 6 info then 65 else if bit 7 info then 64 else u8 ((if bit 15 info then 32 else 0) + mapGendInfo info).

(** grammap.h:88-91 [MapNounInfo]. *)
Definition MapNounInfo (info : N) : N := u8 ((if bit 11 info then 10 else 0) + mapCaseInfo info).

(** grammap.h:97-100 [mapVerbTant]. *)
Definition mapVerbTant (info : N) : N := (if bit 15 info then 2 else 0) + (if bit 11 info then 1 else 0).

(** grammap.h:106-109 [mapPersonal]: the cast applies to the parenthesised difference only. *)
Definition mapPersonal (info : N) : N :=
  u8 (u8 (N.shiftr (N.land info 0x18) 3 + (2 ^ 32 - 1)) * 4 + mapVerbTant info).

(** grammap.h:114-117 [mapActvPart]. *)
Definition mapActvPart (info : N) : N := u8 ((if bit 15 info then 32 else 0) + mapGendInfo info).

(** grammap.h:123-128 [mapAllParts]. *)
Definition mapAllParts (info : N) : N :=
  if N.land info 0x60 =? 0x20 then mapActvPart info
  else if N.land info 0x60 =? 0x40 then u8 (64 + mapGendInfo info)
  else 96 + (if bit 15 info then 1 else 0).

(** grammap.h:130-159 [MapVerbInfo]. *)
Definition MapVerbInfo (info : N) : N :=
  match N.land info 7 with
  | 1 => if bit 15 info then 1 else 0
  | 2 => 2 + mapVerbTant info
  | 3 => u8 (6 + mapPersonal info)
  | 4 => if N.land info 0x60 =? 0 then u8 (18 + mapPersonal info) else u8 (30 + mapAllParts info)
  | 5 => if N.land info 0x60 =? 0 then u8 (128 + (if bit 15 info then 4 else 0) + mapGenderOf info)
         else u8 (136 + mapAllParts info)
  | _ => 255
  end.

(** grammap.h:161-169 [MapWordInfo]. *)
Definition MapWordInfo (wdInfo grInfo bflags : N) : N :=
  let dwinfo := N.lor (N.shiftl bflags 16) grInfo in
  if IsVerb wdInfo then MapVerbInfo dwinfo
  else if IsAdjective wdInfo then MapDefsInfo dwinfo else MapNounInfo dwinfo.

(** xmorph/typedefs.h:91-101 [flexinfo]. *)
Record flexinfo := Flexinfo { gramm : N; flags : N }.
Definition u16 (n : N) : N := n mod 2 ^ 16.
(** [{ uint16_t(-1), uint8_t(-1) }] *)
Definition noflex : flexinfo := Flexinfo 0xffff 0xff.
Definition flexinfo_eq (a b : flexinfo) : bool := (gramm a =? gramm b) && (flags a =? flags b).

(** grammap.h:171-184 [getCaseInfo]. *)
Definition getCaseInfo (idform grbase : N) : flexinfo :=
  if 5 <=? idform then Flexinfo (u16 (N.lor grbase (N.shiftl (idform - 1) 12))) 3
  else if idform <=? 2 then Flexinfo (u16 (N.lor grbase (N.shiftl idform 12))) 3
  else Flexinfo (u16 (N.lor grbase (N.shiftl 3 12))) (if idform =? 3 then 2 else 1).

(** grammap.h:186-199 [getGendInfo]; [grbase] is an [uint16_t]. *)
Definition getGendInfo (idform grbase : N) : flexinfo :=
  let grbase := if 24 <=? idform then N.lor grbase 0x800 else u16 (N.lor grbase (N.shiftl (idform / 8 + 1) 9)) in
  if idform mod 8 =? 7 then Flexinfo (u16 (N.lor grbase 0x100)) 3
  else if idform <? 32 then getCaseInfo (idform mod 8) grbase
  else noflex.

(** grammap.h:201-204 [getGenderOf], 206-210 [getVerbTant]. *)
Definition getGenderOf (form : N) : N := if form =? 3 then 0x800 else N.shiftl (form + 1) 9.
Definition getVerbTant (form : N) : N := N.lor (if 2 <=? form then 0x8000 else 0) (if form mod 2 =? 1 then 0x800 else 0).

(** grammap.h:212-217 [getPersonal]. *)
Definition getPersonal (idform tenses : N) : flexinfo :=
  Flexinfo (u16 (N.lor (N.lor tenses (N.shiftl (idform / 4 + 1) 3)) (getVerbTant (idform mod 4)))) 3.

(** grammap.h:219-229 [getAllParts]. *)
Definition getAllParts (idform tenses : N) : flexinfo :=
  if 96 <=? idform then Flexinfo (u16 (N.lor (N.lor tenses 0x60) (if idform mod 2 =? 1 then 0x8000 else 0))) 3
  else if 64 <=? idform then getGendInfo (idform - 64) (N.lor tenses 0x40)
  else getGendInfo (idform mod 32) (N.lor (N.lor tenses 0x20) (if 32 <=? idform then 0x8000 else 0)).

(** grammap.h:231-241 [GetDefsInfo]. *)
Definition GetDefsInfo (idform : N) : flexinfo :=
  if idform =? 65 then Flexinfo 0x40 3
  else if idform =? 64 then Flexinfo 0x80 3
  else getGendInfo (idform mod 32) (if 32 <=? idform then 0x8000 else 0).

(** grammap.h:243-250 [GetNounInfo]. *)
Definition GetNounInfo (idform : N) : flexinfo :=
  if idform <=? 17 then getCaseInfo (idform mod 10) (if 10 <=? idform then 0x800 else 0) else noflex.

(** grammap.h:252-288 [GetVerbInfo]. *)
Definition GetVerbInfo (idform : N) : flexinfo :=
  if idform <? 2 then Flexinfo (u16 (N.lor 1 (if idform =? 1 then 0x8000 else 0))) 3
  else if idform <? 6 then Flexinfo (u16 (N.lor 2 (getVerbTant (idform - 2)))) 3
  else if idform <? 18 then getPersonal (idform - 6) 3
  else if idform <? 30 then getPersonal (idform - 18) 4
  else if idform <? 128 then getAllParts (idform - 30) 4
  else if idform <? 136 then
    Flexinfo (u16 (N.lor (N.lor 5 (getGenderOf (idform mod 4))) (if 132 <=? idform then 0x8000 else 0))) 3
  else if idform <? 234 then getAllParts (idform - 136) 5
  else noflex.

(** grammap.h:289-302 [GetGramInfo]; [wdinfo] arrives cut to a byte. *)
Definition GetGramInfo (wdinfo idform : N) : flexinfo :=
  let wdinfo := u8 wdinfo in
  if IsVerb wdinfo then GetVerbInfo idform
  else if IsAdjective wdinfo then GetDefsInfo idform
  else if bit 6 wdinfo && (idform <? 10) then noflex
  else GetNounInfo idform.
