(** * Compile: the dictionary compiler from resolved lexemes to the compiled arrays.  MODEL ONLY.
    The text of the dictionary (lresolve.cpp) is not read here: a lexeme comes with its stem, postfix, class and letter bounds. *)
From Verif Require Import Base Serial WordTree Stems GramMap RusRuntime.
Local Open Scope N_scope.

(** ** Compact inflexion tables *)

(** tools/plaintable.h:124-133, also tools/ftables.h:124-145: one element at [p]: flags, grammar, text, reference to the next table (0
    when the flags have none), and the address of the following element. *)
Record flexitem := FlexItem { fi_flags : N; fi_info : N; fi_text : bytes; fi_next : N }.
Definition read_item (p : bytes) : res (flexitem * bytes) :=
  let! (bflags, p) := rd p in
  let! (grinfo, p) := getword16 p in
  let! (ccflex, p) := rd p in
  let! q := advance ccflex p in
  let! (ofnext, q) := (if N.land bflags 0xc0 =? 0 then Ok (0, q) else getword16 q) in
  Ok (FlexItem bflags grinfo (firstn (N.to_nat ccflex) p) ofnext, q).

(** tools/plaintable.h:71-75 [Insert]: append unless present. *)
Definition add_gram (g f : N) (l : list (N * N)) : list (N * N) :=
  if existsb (fun gf => (fst gf =? g) && (snd gf =? f)) l then l else l ++ [(g, f)].

(** tools/plaintable.h:116-143 [FlexTree::CreateTree].  [prefix] is the part of [char szflex[0x100]] in use; copying beyond the buffer
    is undefined.  [depth] bounds the recursion: running out of stack is undefined. *)
Fixpoint create_tree (depth : nat) (tables : bytes) (tfoffs grInfo bFlags : N) (prefix : bytes) (wotree : wtree (list (N * N)))
  : res (wtree (list (N * N))) :=
  match depth with
  | O => Ub
  | S depth' =>
      let! ftable := advance (N.shiftl tfoffs 1) tables in
      let! (nitems, ftable) := rd ftable in
      (fix items (n : nat) (ftable : bytes) (wotree : wtree (list (N * N))) : res (wtree (list (N * N))) :=
         match n with
         | O => Ok wotree
         | S n' =>
             let! (it, ftable) := read_item ftable in
             let prefix' := prefix ++ fi_text it in
             if 0x100 <? N.of_nat (length prefix') then Ub
             else
               let g := N.lor grInfo (fi_info it) in
               let f := N.land bFlags (fi_flags it) in
               let wotree := if bit 7 (fi_flags it) then wotree else insert [] prefix' (add_gram g f) wotree in
               let! wotree := (if fi_next it =? 0 then Ok wotree else create_tree depth' tables (fi_next it) g f prefix' wotree) in
               items n' ftable wotree
         end) (N.to_nat nitems) ftable wotree
  end.

(** mtc's vector writer with tools/plaintable.h:63-69 [graminfo::Serialize]: the count, then (grammar, flags) each. *)
Definition gramlist_ser (l : list (N * N)) : bytes :=
  putserial (N.of_nat (length l)) ++ flat_map (fun gf => putword16 (fst gf) ++ [snd gf]) l.
Definition gramlist_len (l : list (N * N)) : N := seriallen (N.of_nat (length l)) + 3 * N.of_nat (length l).

(** tools/plaintable.h:100-113, 154-157 [CreatePlainTable]. *)
Definition create_plain_table (depth : nat) (tables : bytes) (tfoffs : N) : res bytes :=
  let! t := create_tree depth tables tfoffs 0 0xff [] wempty in Ok (serialize C8 gramlist_ser gramlist_len t).

(** ** The class table *)

(** lang-rus/libdict/tools/buildic/lresolve.h:38-54 [morphclass] and its comparison. *)
Record morphclass := Morphclass { m_wdinfo : N; m_tfoffs : N; m_mtoffs : N }.
Definition class_eqb (a b : morphclass) : bool :=
  (m_wdinfo a =? m_wdinfo b) && (m_tfoffs a =? m_tfoffs b) && (m_mtoffs a =? m_mtoffs b).

(** lresolve.h:57-75 [morphclass::GetBufLen], [Serialize]; bit 13 wfFlexes, bit 14 wfMixTab (mlmadefs.h:129-130). *)
Definition morphclass_len (m : morphclass) : N := 2 + (if m_tfoffs m =? 0 then 0 else 2) + (if m_mtoffs m =? 0 then 0 else 2).
Definition morphclass_ser (m : morphclass) : bytes :=
  putword16 (N.lor (N.lor (m_wdinfo m) (if m_tfoffs m =? 0 then 0 else 0x2000)) (if m_mtoffs m =? 0 then 0 else 0x4000))
  ++ (if m_tfoffs m =? 0 then [] else putword16 (m_tfoffs m)) ++ (if m_mtoffs m =? 0 then [] else putword16 (m_mtoffs m)).

(** tools/classtable.h:37-42 [classtable]: elements with their offsets, total length. *)
Record classtable := Classtable { clsset : list (morphclass * N); clslength : N }.

(** tools/classtable.h:50-65 [AddClass]; [None] is the exception "class offset is too big". *)
Definition add_class (t : classtable) (m : morphclass) : option (classtable * N) :=
  match find (fun r => class_eqb (fst r) m) (clsset t) with
  | Some r => Some (t, snd r)
  | None =>
      let off := clslength t mod 2 ^ 16 in
      let t' := Classtable (clsset t ++ [(m, off)]) (clslength t + morphclass_len m) in
      if 0xffff <? clslength t' then None else Some (t', off)
  end.

(** tools/classtable.h:73-81 [Serialize]. *)
Definition classtable_ser (t : classtable) : bytes := flat_map (fun r => morphclass_ser (fst r)) (clsset t).

(** ** Plain tables *)

(** lang-rus/libdict/tools/buildic/makerus.cpp:88-99, the members of [ResolveRus]: plain tables, where each compact table went, classes;
    and buildmorph's [stemtree]. *)
Record builder := Builder { aplain : bytes; iplain : list (N * N); classes : classtable; tree : wtree (list entry) }.

(** makerus.cpp:175 [(aplain.size() + 0x0f) & ~0x0f], as the number of zero bytes appended by [resize]. *)
Definition padding (n : N) : bytes := repeat 0 (N.to_nat (N.ldiff (n + 0x0f) 0x0f - n)).

Fixpoint map_find (k : N) (l : list (N * N)) : option N :=
  match l with [] => None | (k', v) :: l' => if k' =? k then Some v else map_find k l' end.

(** makerus.cpp:159-184 [MapTables]. *)
Definition map_tables (depth : nat) (ftable : bytes) (b : builder) (m : morphclass) : res (builder * morphclass) :=
  if negb (m_tfoffs m =? 0) && negb (m_wdinfo m =? 51) then
    match map_find (m_tfoffs m) (iplain b) with
    | None =>
        let! atable := create_plain_table depth ftable (m_tfoffs m) in
        let theofs := N.of_nat (length (aplain b)) in
        let plain := aplain b ++ atable in
        let plain := plain ++ padding (N.of_nat (length plain)) in
        Ok (Builder plain ((m_tfoffs m, theofs) :: iplain b) (classes b) (tree b),
            Morphclass (m_wdinfo m) (N.shiftr theofs 4 mod 2 ^ 16) (m_mtoffs m))
    | Some o => Ok (b, Morphclass (m_wdinfo m) (N.shiftr o 4 mod 2 ^ 16) (m_mtoffs m))
    end
  else Ok (b, m).

(** lresolve.h:79-88 [lexemeinfo] with the lexeme id read by tools/buildmorph.h:209. *)
Record lexeme := Lexeme { l_stem : bytes; l_class : morphclass; l_min : N; l_max : N; l_post : bytes; l_id : N }.

(** makerus.cpp:185-195 [MapLexStem] and tools/buildmorph.h:219-229, the insertion of one stem. *)
Definition add_lexeme (depth : nat) (ftable : bytes) (b : builder) (x : lexeme) : res (option builder) :=
  let! (b, m) := map_tables depth ftable b (l_class x) in
  match add_class (classes b) m with
  | None => Ok None
  | Some (cls, off) =>
      let e := Entry (l_min x) (l_max x) (l_id x) off (l_post x) in
      Ok (Some (Builder (aplain b) (iplain b) cls (insert [] (l_stem x) (insert_entry e) (tree b))))
  end.

(** tools/buildmorph.h:175-231 [DictReader], the loop. *)
Fixpoint add_lexemes (depth : nat) (ftable : bytes) (b : builder) (xs : list lexeme) : res (option builder) :=
  match xs with
  | [] => Ok (Some b)
  | x :: xs' => let! o := add_lexeme depth ftable b x in match o with None => Ok None | Some b => add_lexemes depth ftable b xs' end
  end.

(** makerus.cpp:362-364 [amagic]: "*inflex by Keva*". *)
Definition amagic : bytes := [42; 105; 110; 102; 108; 101; 120; 32; 98; 121; 32; 75; 101; 118; 97; 42].
Definition new_builder : builder := Builder amagic [] (Classtable [] 0) wempty.

(** makerus.cpp:373-401 [SaveTables] and tools/buildmorph.h:160-172: the dumped arrays. *)
Definition save_tables (mtable : bytes) (b : builder) : arrays :=
  Arrays (aplain b) mtable (classtable_ser (classes b)) (stemtree_bytes (tree b)) (lidstree_bytes (create_lids (tree b))).

(** makerus.cpp:265-322, the whole run. *)
Definition compile (depth : nat) (ftable mtable : bytes) (xs : list lexeme) : res (option arrays) :=
  let! o := add_lexemes depth ftable new_builder xs in Ok (option_map (save_tables mtable) o).
