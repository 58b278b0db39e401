(** * EngCompile: the compiler of the English dictionary, from the lines of the source files to the arrays.  MODEL ONLY.
    A line is a C string after the conversion of codepages (mtc, the identity on ASCII); its terminator is not represented. *)
From Coq Require Import String Ascii.
From Verif Require Import Base Serial WordTree Stems CharTables CapScheme GramMap RusRuntime EngRuntime Api.
Local Open Scope N_scope.
Local Open Scope list_scope.
Notation length := List.length.

(** ** Text *)

(** lang-eng/libdict/buildic/makeeng.cpp:312-315 [is_space] and 317-322 [skip_space]. *)
Definition is_space (c : N) : bool := c <=? 0x20.
Fixpoint skip_space (s : bytes) : bytes :=
  match s with c :: s' => if is_space c then skip_space s' else s | [] => [] end.

(** The loops that copy characters up to a stop or the terminator: what is copied and what is left. *)
Fixpoint take_until (stop : N -> bool) (s : bytes) : bytes * bytes :=
  match s with
  | [] => ([], [])
  | c :: s' => if stop c then ([], s) else let '(a, b) := take_until stop s' in (c :: a, b)
  end.

(** [strstr( s, pat )]: what precedes the first occurrence, and the string from it on. *)
Definition starts (pat s : bytes) : bool := if list_eq_dec N.eq_dec (firstn (length pat) s) pat then true else false.
Fixpoint strstr (pat s : bytes) : option (bytes * bytes) :=
  if starts pat s then Some ([], s)
  else match s with [] => None | c :: s' => match strstr pat s' with None => None | Some (a, b) => Some (c :: a, b) end end.

(** makeeng.cpp:412-427 [FindStemPostfix]. *)
Definition find_post (article : bytes) : bytes :=
  match strstr (text "post:") article with
  | None => []
  | Some (_, p) => fst (take_until is_space (skip_space (skipn 5 p)))
  end.

(** ** Tables of endings: lang-eng/libdict/buildic/flexbox.h *)

(** flexbox.h:52-63 [fxinfo] and its comparison: texts, then identifiers. *)
Definition fx_lt (a b : N * bytes) : bool :=
  match strcmp (snd a) (snd b) with Lt => true | Gt => false | Eq => fst a <? fst b end.
(** flexbox.h:145-146 [insert( lower_bound( ... ) )]. *)
Fixpoint fx_insert (x : N * bytes) (l : list (N * bytes)) : list (N * bytes) :=
  match l with [] => [x] | y :: l' => if fx_lt y x then y :: fx_insert x l' else x :: l end.

(** flexbox.h:44-49, 64-75 [ftable]: endings with identifiers, and [tableref]. *)
Record tableref := TableRef { t_offset : N; t_lower : N; t_upper : N }.
Record ftab := FTab { t_items : list (N * bytes); t_ref : tableref }.
(** flexbox.h:66-74 [GetBufLen]. *)
Definition ftab_len (t : ftab) : N := 1 + fold_right (fun ie n => 2 + N.of_nat (length (snd ie)) + n) 0 (t_items t).

(** flexbox.h:143-149: one ending is registered. *)
Definition ftab_add (id : N) (e : bytes) (t : ftab) : ftab :=
  let c := match e with [] => 0 | c :: _ => c end in
  FTab (fx_insert (id, e) (t_items t)) (TableRef (t_offset (t_ref t)) (N.min (t_lower (t_ref t)) c) (N.max (t_upper (t_ref t)) c)).
(** flexbox.h:126-155: the alternatives of a slot, separated by the slash; 48 is the digit 0. *)
Fixpoint add_alts (fuel : nat) (s : bytes) (id : N) (t : ftab) : ftab :=
  match fuel, s with
  | S fuel', c :: _ =>
      let '(alt, rest) := take_until (fun c => c =? 47) s in
      let t := ftab_add id (if c =? 48 then [] else alt) t in
      match rest with [] => t | _ :: rest' => add_alts fuel' rest' id t end
  | _, _ => t
  end.
(** flexbox.h:106-157: the slots, separated by the bar; a slot that is just the hyphen is absent. *)
Fixpoint add_slots (fuel : nat) (s : bytes) (idflex : N) (t : ftab) : ftab :=
  match fuel, s with
  | S fuel', _ :: _ =>
      let '(slot, rest) := take_until (fun c => c =? 124) s in
      let next := match rest with [] => [] | _ :: r => r end in
      add_slots fuel' next (idflex + 1)
        (if list_eq_dec N.eq_dec slot [45] then t else add_alts (length slot) slot (idflex mod 256) t)
  | _, _ => t
  end.

(** flexbox.h:84-87 [CFlexBox]: tables by their texts, in the order they are added. *)
Record flexbox := Flexbox { fb_tables : list (bytes * ftab); fb_length : N }.
Definition new_flexbox : flexbox := Flexbox [] 4.
Fixpoint find_table (flex : bytes) (l : list (bytes * ftab)) : option ftab :=
  match l with [] => None | (k, t) :: l' => if list_eq_dec N.eq_dec k flex then Some t else find_table flex l' end.
(** flexbox.h:92-163 [AddInflex]; the length is a [uint16_t]. *)
Definition add_inflex (fb : flexbox) (flex : bytes) : flexbox * tableref :=
  match find_table flex (fb_tables fb) with
  | Some t => (fb, t_ref t)
  | None =>
      let slots := match flex with 124 :: s => s | s => s end in
      let t := add_slots (length slots) slots 0 (FTab [] (TableRef 0 0xff 0)) in
      let t := FTab (t_items t) (TableRef (fb_length fb) (t_lower (t_ref t)) (t_upper (t_ref t))) in
      (Flexbox (fb_tables fb ++ [(flex, t)]) ((fb_length fb + ftab_len t) mod 2 ^ 16), t_ref t)
  end.

(** [std::sort] by offset; offsets are different unless they have wrapped, then the order of equal ones is not specified. *)
Fixpoint sort_insert {X} (off : X -> N) (x : X) (l : list X) : list X :=
  match l with [] => [x] | y :: l' => if off x <=? off y then x :: l else y :: sort_insert off x l' end.
Definition sort_by {X} (off : X -> N) (l : list X) : list X := fold_right (sort_insert off) [] l.
(** flexbox.h:165-194 [Serialize]; counts, identifiers and lengths are stored as [char]. *)
Definition ftab_ser (t : ftab) : bytes :=
  N.of_nat (length (t_items t)) mod 256
  :: flat_map (fun ie => fst ie mod 256 :: N.of_nat (length (snd ie)) mod 256 :: snd ie) (t_items t).
Definition flexbox_ser (fb : flexbox) : bytes :=
  text "FLEX" ++ flat_map (fun kt => ftab_ser (snd kt)) (sort_by (fun kt => t_offset (t_ref (snd kt))) (fb_tables fb)).

(** ** Classes *)

(** makeeng.cpp:60-88 [ClassTable]: type with capitalisation, table, offset. *)
Record eclasses := EClasses { ec_list : list (N * N * N); ec_length : N }.
(** makeeng.cpp:217-228 [ClassTable::Add]; offsets are [uint16_t], nothing is checked. *)
Definition eclass_add (t : eclasses) (wd fx : N) : eclasses * N :=
  match find (fun r => (fst (fst r) =? wd) && (snd (fst r) =? fx)) (ec_list t) with
  | Some r => (t, snd r)
  | None => let off := ec_length t mod 2 ^ 16 in (EClasses (ec_list t ++ [(wd, fx, off)]) ((ec_length t + 4) mod 2 ^ 32), off)
  end.
(** makeeng.cpp:230-251 [ClassTable::Serialize]. *)
Definition eclasses_ser (t : eclasses) : bytes :=
  flat_map (fun r => putword16 (fst (fst r)) ++ putword16 (snd (fst r))) (sort_by snd (ec_list t)).

(** ** Articles *)

(** makeeng.cpp:287-310: the parts of speech. *)
Definition part_names : list (bytes * N) :=
  [ (text "unknown", 0); (text "N", 1); (text "V", 2); (text "A", 3); (text "ADV", 4); (text "NUM", 5); (text "INT", 6)
  ; (text "CONJ", 7); (text "PREP", 8); (text "REFL", 9); (text "PERS", 10); (text "INDEF", 11); (text "POSS", 12)
  ; (text "DEMO", 13); (text "REL", 14); (text "ART", 15); (text "PARTICLE", 16); (text "INTER", 17); (text "NAME", 18)
  ; (text "V_BE", 19) ].
(** makeeng.cpp:402-410 [MapPartOfSpeech]; [None] is the exception. *)
Fixpoint map_part (l : list (bytes * N)) (ps : bytes) : option N :=
  match l with [] => None | (k, v) :: l' => if list_eq_dec N.eq_dec k ps then Some v else map_part l' ps end.

(** makeeng.cpp:47-50 [IsCapital]: an [unsigned char] of the table is compared with a (signed) [char], so that characters above 127
    always differ; [None] is the terminator. *)
Definition is_capital (c : option N) : bool :=
  match c with
  | None => false
  | Some c => if c <? 128 then negb (tab eng_toLoCaseMatrix c =? c) else true
  end.
(** makeeng.cpp:53-57 [Capitalization::Type]. *)
Definition cap_type (s : bytes) : N :=
  if is_capital (nth_error s 0) then (if is_capital (nth_error s 1) then 2 else 1) else 0.
(** makeeng.cpp:42-43, 378-385: [wfCapFirst], [wfCapOnly]. *)
Definition cap_bits (type : N) : N := match type with 1 => 0x80 | 2 => 0x100 | _ => 0 end.

Record ebuilder := EBuilder { eb_flex : flexbox; eb_classes : eclasses; eb_tree : wtree (list entry) }.

(** makeeng.cpp:324-400 [ResolveEng::operator()]: the builder, the stem and its record (the id comes later); [None] is an
    exception.  Lines of 256 characters fail an [assert] or overflow the arrays, a tag of 64 characters overflows [partSp], a
    postfix longer than the stem is stored before [szstem]: undefined. *)
Definition resolve_eng (b : ebuilder) (article : bytes) : res (option (ebuilder * bytes * entry)) :=
  let post := find_post article in
  if 256 <=? N.of_nat (length article) then Ub
  else
    let '(stem, rest) := take_until (fun c => (c =? 124) || is_space c) (skip_space article) in
    match rest with
    | [] => Ok None
    | _ =>
        if Nat.ltb (length stem) (length post) then Ub
        else
          let stem := firstn (length stem - length post) stem in
          let '(flex, rest) := take_until is_space rest in
          match rest with
          | [] => Ok None
          | _ =>
              let '(part, _) := take_until is_space (skip_space rest) in
              match part with
              | [] => Ok None
              | _ =>
                  if 64 <=? N.of_nat (length part) then Ub
                  else
                    let flex := map (tab eng_toLoCaseMatrix) flex in
                    match map_part part_names part with
                    | None => Ok None
                    | Some wd =>
                        let '(fb, ref) := match flex with [] => (eb_flex b, TableRef 0 0 0) | _ => add_inflex (eb_flex b) flex end in
                        let wd := N.lor wd (cap_bits (cap_type stem)) in
                        let '(cls, off) := eclass_add (eb_classes b) wd (t_offset ref) in
                        Ok (Some (EBuilder fb cls (eb_tree b), map (tab eng_toLoCaseMatrix) stem,
                                  Entry (t_lower ref) (t_upper ref) 0 off post))
                    end
              end
          end
    end.

(** ** Files *)

(** [strtoul( s, &end, 0 )] of the C library in the C locale, on an unsigned 64-bit long. *)
Definition digit (c : N) : option N :=
  if (48 <=? c) && (c <=? 57) then Some (c - 48)
  else if (97 <=? c) && (c <=? 122) then Some (c - 87) else if (65 <=? c) && (c <=? 90) then Some (c - 55) else None.
Fixpoint digits (base : N) (s : bytes) (n : N) : N :=
  match s with
  | [] => n
  | c :: s' => match digit c with Some d => if d <? base then digits base s' (base * n + d) else n | None => n end
  end.
Fixpoint skip_blank (s : bytes) : bytes :=
  match s with c :: s' => if (c =? 32) || ((9 <=? c) && (c <=? 13)) then skip_blank s' else s | [] => [] end.
Definition strtoul (s : bytes) : N :=
  let s := skip_blank s in
  let '(negative, s) := match s with 43 :: s' => (false, s') | 45 :: s' => (true, s') | _ => (false, s) end in
  let n := match s with
           | 48 :: x :: d :: s' =>
               if ((x =? 120) || (x =? 88)) && match digit d with Some k => k <? 16 | None => false end
               then digits 16 (d :: s') 0 else digits 8 s 0
           | 48 :: s' => digits 8 s' 0
           | _ => digits 10 s 0
           end in
  if 2 ^ 64 <=? n then 2 ^ 64 - 1 else if negative then (2 ^ 64 - n) mod 2 ^ 64 else n.

(** tools/buildmorph.h:192-195: white space is removed from both ends. *)
Fixpoint trim_end (s : bytes) : bytes :=
  match s with
  | [] => []
  | c :: s' => match trim_end s' with [] => if is_space c then [] else [c] | t => c :: t end
  end.
(** tools/buildmorph.h:197-210: the line without white space and its lexeme id, unless the line is skipped. *)
Definition dict_line (line : bytes) : option (bytes * N) :=
  let s := trim_end (skip_space line) in
  if negb (nonempty s) || starts (text "//") s then None
  else
    match strstr (text "LID:") s with
    | None => None
    | Some (before, from) =>
        match rev before with
        | c :: _ =>
            if (c =? 9) || (c =? 32)
            then let id := strtoul (skipn 4 from) mod 2 ^ 32 in if id =? 0 then None else Some (s, id)
            else None
        | [] => None
        end
    end.

(** tools/buildmorph.h:175-231 [DictReader]: one line. *)
Definition eadd_line (b : ebuilder) (line : bytes) : res (option ebuilder) :=
  match dict_line line with
  | None => Ok (Some b)
  | Some (s, id) =>
      let! r := resolve_eng b s in
      match r with
      | None => Ok None
      | Some (b, stem, e) =>
          let e := Entry (chrmin e) (chrmax e) id (oclass e) (stpost e) in
          Ok (Some (EBuilder (eb_flex b) (eb_classes b) (insert [] stem (insert_entry e) (eb_tree b))))
      end
  end.
Fixpoint eadd_lines (b : ebuilder) (lines : list bytes) : res (option ebuilder) :=
  match lines with
  | [] => Ok (Some b)
  | l :: lines' => let! o := eadd_line b l in match o with None => Ok None | Some b => eadd_lines b lines' end
  end.

(** makeeng.cpp:197-209 and tools/buildmorph.h:160-172: the dumped arrays. *)
Definition esave (b : ebuilder) : earrays :=
  EArrays (flexbox_ser (eb_flex b)) (eclasses_ser (eb_classes b)) (stemtree_bytes (eb_tree b)) (lidstree_bytes (create_lids (eb_tree b))).
Definition new_ebuilder : ebuilder := EBuilder new_flexbox (EClasses [] 0) wempty.
(** makeeng.cpp:157-212 [Run]: [lines] are those of all the files; [None] is an exception. *)
Definition ecompile (lines : list bytes) : res (option earrays) :=
  let! o := eadd_lines new_ebuilder lines in Ok (option_map esave o).
