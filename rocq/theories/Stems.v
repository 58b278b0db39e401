(** * Stems: stem records — their order, storage and lookup.  MODEL ONLY. *)
From Verif Require Import Base Serial WordTree FlatScan.
Local Open Scope N_scope.

(** lang-rus/libdict/tools/buildic/makerus.cpp:102-108 [entry_type]. *)
Record entry := Entry { chrmin : N; chrmax : N; nlexid : N; oclass : N; stpost : bytes }.

(** C's [strcmp] on [c_str()]s without embedded zeros: sign only. *)
Fixpoint strcmp (a b : bytes) : comparison :=
  match a, b with
  | [], [] => Eq
  | [], _ :: _ => Lt
  | _ :: _, [] => Gt
  | x :: a', y :: b' => if x <? y then Lt else if y <? x then Gt else strcmp a' b'
  end.

(** makerus.cpp:346-355 [entry_type::compare] used through [operator <] (line 111): greater upper bound first,
    then smaller lower bound, then the postfix, then the id.  The last difference is an [unsigned] subtraction
    converted to [int]: negative when bit 31 of the difference is set. *)
Definition entry_lt (a b : entry) : bool :=
  if chrmax b <? chrmax a then true
  else if chrmax a <? chrmax b then false
  else if chrmin a <? chrmin b then true
  else if chrmin b <? chrmin a then false
  else match strcmp (stpost a) (stpost b) with
       | Lt => true
       | Gt => false
       | Eq => N.testbit ((nlexid a + 2 ^ 32 - nlexid b) mod 2 ^ 32) 31
       end.

(** tools/buildmorph.h:219-229, the insertion in [DictReader]: before the first record that is not less. *)
Fixpoint insert_entry (e : entry) (l : list entry) : list entry :=
  match l with
  | [] => [e]
  | x :: l' => if entry_lt x e then x :: insert_entry e l' else e :: l
  end.

(** tools/buildmorph.h:175-231 [DictReader], reduced to what it does with the parsed stems: each (stem, record) is
    inserted in the tree.  Reading and parsing of the text is not modelled. *)
Definition dict_reader (items : list (bytes * entry)) (t : wtree (list entry)) : wtree (list entry) :=
  fold_left (fun t ke => insert [] (fst ke) (insert_entry (snd ke)) t) items t.

Definition nonempty {A} (l : list A) : bool := match l with [] => false | _ => true end.

(** makerus.cpp:329-332 [entry_type::GetBufLen]. *)
Definition entry_len (e : entry) : N :=
  2 + seriallen (nlexid e) + 2 + (if nonempty (stpost e) then N.of_nat (length (stpost e)) + 1 else 0).

(** makerus.cpp:334-344 [entry_type::Serialize]. *)
Definition entry_ser (e : entry) : bytes :=
  let wstore := N.lor (oclass e) (if nonempty (stpost e) then 0x8000 else 0) in
  [chrmin e; chrmax e] ++ putserial (nlexid e) ++ putword16 wstore
  ++ (if N.testbit wstore 15 then putserial (N.of_nat (length (stpost e))) ++ stpost e else []).

(** mtc's [::GetBufLen] / [::Serialize] of a [std::vector]: the count, then the elements. *)
Definition stems_len (l : list entry) : N :=
  seriallen (N.of_nat (length l)) + fold_right (fun e n => entry_len e + n) 0 l.
Definition stems_ser (l : list entry) : bytes :=
  putserial (N.of_nat (length l)) ++ flat_map entry_ser l.

(** tools/buildmorph.h:142-153, the body of the lambda given to [Enumerate] in [CreateDict]: every record of the
    list is filed in the id tree under its key with its offset; an existing element is overwritten. *)
Fixpoint file_lids (l : list entry) (offset : N) (lids : wtree N) : wtree N :=
  match l with
  | [] => lids
  | e :: l' => file_lids l' (offset + entry_len e)
                         (insert 0 (lexkeybuf (nlexid e)) (fun _ => offset mod 2 ^ 32) lids)
  end.

(** tools/buildmorph.h:141-153, in [CreateDict]: the id tree made from the stem tree. *)
Definition create_lids (t : wtree (list entry)) : wtree N :=
  fold_left (fun lids lo => file_lids (fst lo) (snd lo + seriallen (N.of_nat (length (fst lo)))) lids)
            (fst (enumerate C8 stems_len t 0)) wempty.

(** The two dumped arrays (tools/buildmorph.h:160-172); an [unsigned] element is dumped as a varint. *)
Definition stemtree_bytes (t : wtree (list entry)) : bytes := serialize C8 stems_ser stems_len t.
Definition lidstree_bytes (lids : wtree N) : bytes := serialize C16 putserial seriallen lids.

(** [memcmp( p, q, n ) == 0]; reading beyond either array is undefined. *)
Definition mem_eq (p q : bytes) (n : N) : res bool :=
  if (N.of_nat (length p) <? n) || (N.of_nat (length q) <? n) then Ub
  else Ok (if list_eq_dec N.eq_dec (firstn (N.to_nat n) p) (firstn (N.to_nat n) q) then true else false).

(** The postfix block, xmorph/scandict.h:217-219 and 270-271: suffix fragment and advanced pointer. *)
Definition getpostfix (oclass : N) (p : bytes) : res (frag * bytes) :=
  if N.testbit oclass 15 then
    let! (n, q) := rd p in
    let! p' := advance n q in
    Ok (Frag q n, p')
  else Ok (Frag [] 0, p).

Section Lists.
  Context {St : Type}.
  Variable output : St -> N -> N -> frag -> frag -> res (St * Z).

  (** xmorph/scandict.h:206-241, the loop of [LookupList::operator()]; [ucount] records left at [p]. *)
  Fixpoint lookup_loop (ucount : nat) (p : bytes) (thestr : frag) (s : St) : res (St * Z) :=
    match ucount with
    | O => Ok (s, 0%Z)
    | S ucount' =>
        let! (cmin, p) := rd p in
        let! (cmax, p) := rd p in
        let! (lid, p) := getserial p in
        let! (ocl, p) := getword16 p in
        let! (suffix, p) := getpostfix ocl p in
        let has := N.testbit ocl 15 in
        if has && (flen thestr <? flen suffix) then lookup_loop ucount' p thestr s
        else
          let! same := (if has then
                          let! tl := advance (flen thestr - flen suffix) (fstr thestr) in
                          mem_eq tl (fstr suffix) (flen suffix)
                        else Ok true) in
          if negb same then lookup_loop ucount' p thestr s
          else
            let ccflex := flen thestr - flen suffix in
            let! first := (if 0 <? ccflex then let! (c, _) := rd (fstr thestr) in Ok (Some c) else Ok None) in
            match first with
            | Some c =>
                if cmax <? c then Ok (s, 0%Z)
                else if c <? cmin then lookup_loop ucount' p thestr s
                else
                  let! (s', r) := output s lid (N.land ocl 0x7fff) (Frag (fstr thestr) ccflex) suffix in
                  if Z.eqb r 0 then lookup_loop ucount' p thestr s' else Ok (s', r)
            | None =>
                let! (s', r) := output s lid (N.land ocl 0x7fff) (Frag (fstr thestr) ccflex) suffix in
                if Z.eqb r 0 then lookup_loop ucount' p thestr s' else Ok (s', r)
            end
    end.

  (** xmorph/scandict.h:193-243 [Flat::LookupList]. *)
  Definition lookup_list (s : St) (pstems : bytes) (thestr : frag) : res (St * Z) :=
    let! (ucount, p) := getserial pstems in
    lookup_loop (N.to_nat ucount) p thestr s.

  (** xmorph/scandict.h:247-280 [Flat::SelectView]; addresses are compared by the bytes left in the array. *)
  Fixpoint select_loop (dicpos : nat) (ucount : nat) (p : bytes) (thestr : bytes) (s : St) : res (St * Z) :=
    match ucount with
    | O => Ok (s, 0%Z)
    | S ucount' =>
        let thepos := length p in
        let! p := advance 2 p in
        let! (lid, p) := getserial p in
        let! (ocl, p) := getword16 p in
        let! (suffix, p) := getpostfix ocl p in
        if Nat.eqb thepos dicpos
        then output s lid (N.land ocl 0x7fff) (Frag thestr (N.of_nat (length thestr))) suffix
        else select_loop dicpos ucount' p thestr s
    end.

  Definition select_view (dicpos : nat) (s : St) (pstems : bytes) (thestr : bytes) : res (St * Z) :=
    let! (ucount, p) := getserial pstems in
    select_loop dicpos (N.to_nat ucount) p thestr s.
End Lists.

(** lang-rus/libdict/mlmamain.cpp:181,248 [getofs], the handler for the id tree: it answers the pointer to the
    data when the key is exhausted, otherwise null.  The returned pointer is kept in the state. *)
Definition getofs (s : option bytes) (thedic : bytes) (str : frag) : res (option bytes * Z) :=
  if flen str =? 0 then Ok (Some thedic, 1%Z) else Ok (s, 0%Z).

(** lang-rus/libdict/mlmamain.cpp:179-190 and 246-252: [lidkey[0x10]] holds the key followed by whatever was on the
    stack, [junk]; 0x40 stack slots. *)
Definition find_lid (lidstree : bytes) (junk : bytes) (id : N) : res (option bytes) :=
  let key := lexkeylen id in
  let! (s, _) := scan_tree C16 getofs 64 lidstree (Frag (key ++ junk) (N.of_nat (length key))) None in
  Ok s.
