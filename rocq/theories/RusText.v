(** * RusText: the compiler of the Russian dictionary from the text of the articles to lexemes and arrays.  MODEL ONLY.
    A line is a C string after the conversion of codepages (moonycode); its terminator is not represented. *)
From Coq Require Import String Ascii.
From Verif Require Import Base Serial WordTree Stems GramMap RusRuntime Compile Resolve Api EngCompile Utf8.
Local Open Scope N_scope.
Local Open Scope list_scope.
Notation length := List.length.

(** tools/utf81251.h:38-48 [utf8to1251], by moonycode's [mbcstombcs]: literals of the sources in windows-1251. *)
Definition cyr (s : string) : bytes := utf8_decode (text s).

(** ** Tables by name *)

(** [std::map<std::string, ...>::find]; tools/references.h:47-62 [TableIndex]: 0 if absent; mtables.cpp:281-286: no alternations. *)
Fixpoint lookup {X} (k : bytes) (l : list (bytes * X)) : option X :=
  match l with [] => None | (k', v) :: l' => if list_eq_dec N.eq_dec k k' then Some v else lookup k l' end.
(** makerus.cpp:90-95, the loaded tables and their indexes. *)
Record tables := Tables { tb_flex : bytes; tb_findex : list (bytes * N); tb_mix : bytes; tb_mindex : list (bytes * list (N * bytes)) }.

(** ** Marks in the articles *)

(** lang-rus/libdict/tools/buildic/lresolve.cpp:58-210 [typesMap]; wfMultiple and wfUnionS are 0x40 (rus.h:107-111). *)
Definition types_map : list (bytes * N) := Eval vm_compute in map (fun p => (cyr (fst p), snd p)) [
   ("# нсв", 1); ("# нсв_нп", 2); ("# св", 3); ("# св_нп", 4); ("# св-нсв", 5); ("# св-нсв_нп", 6); ("# м", 7); ("м мп", 7);
   ("м ммс", 7); ("мн. м", 71); ("# мн._от_м", 71); ("мн._неод. мп", 71); ("# мо", 8); ("мо мпо", 8); ("мо момс", 8); ("мн. мо", 72);
   ("мн._одуш. мпо", 72); ("# м//мо", 9); ("# мо//м", 9); ("м с", 10); ("мо жо", 11); ("мо со", 12); ("# ж", 13); ("ж жп", 13);
   ("ж жмс", 13); ("мн. ж", 77); ("# мн._от_ж", 77); ("# жо", 14); ("жо жпо", 14); ("мн. жо", 78); ("# ж//жо", 15); ("# жо//ж", 15);
   ("# с", 16); ("с сп", 16); ("с смс", 16); ("мн. с", 80); ("# мн._от_с", 80); ("мн._от_с сп", 80); ("# со", 17); ("со спо", 17);
   ("мн. со", 81); ("# с//со", 18); ("# со//с", 18); ("м//ж ж", 19); ("# мо-жо", 20); ("# мо//жо", 20); ("мо-жо жо", 20);
   ("мо//жо жо", 20); ("# м//с", 21); ("# с//м", 21); ("мо//со со", 22); ("# ж//с", 23); ("# с//ж", 23); ("мн. ж//м", 88);
   ("мн. м//ж", 88); ("# п", 25); ("# г-п", 26); ("п мс", 27); ("мс-п мсп", 28); ("# мс-п", 28); ("# мс", 29); ("# мс_мн.", 93);
   ("# мсм", 30); ("# мсж", 31); ("# мсс", 32); ("# числ.", 33); ("# числ._2", 34); ("# числ._с", 35); ("числ.-п мс", 36);
   ("числ.-п мсп", 36); ("числ.-п мс-п", 36); ("# и", 37); ("# им", 38); ("им иж", 38); ("# иж", 39); ("# ом", 40); ("# ож", 41);
   ("# ф", 42); ("ф фп", 42); ("ф фж", 42); ("# г", 43); ("# гп", 43); ("# гм", 44); ("# гмп", 44); ("# гж", 45); ("# гжп", 45);
   ("# гс", 46); ("# гсп", 46); ("# мн._от_гж", 111); ("# мн._от_гм", 111); ("мн. гп", 111); ("# вводн.", 48); ("# межд.", 49);
   ("# предик.", 50); ("# предл.", 51); ("# союз", 52); ("# союз_соч.", 116); ("# част.", 53); ("# н", 54); ("# сокр._сущ.", 55);
   ("# сокр._прил.", 56); ("# сокр._вводн.", 57); ("# сравн.", 58); ("# АБ", 59); ("# аб", 60); ("# #1", 61); ("# #2", 62)]%string.
(** lresolve.cpp:50-55 [TypeMatrix::find]. *)
Definition type_of (s : bytes) : N := match lookup s types_map with Some t => t | None => 0 end.

(** lresolve.cpp:224-230 [lexflags] with rus.h:115-127. *)
Definition lexflags : list (bytes * N) :=
  Eval vm_compute in map (fun p => (cyr (fst p), snd p)) [("{превосх.}", 0x80); ("{исчисл.}", 0x100); ("{разг.}", 0x200); ("{руг.}", 0x400)]%string.
Definition has_text (pat s : bytes) : bool := match strstr pat s with Some _ => true | None => false end.
(** lresolve.cpp:232-241 [LexFlags]. *)
Definition lex_flags (comments : bytes) : N := fold_left (fun u p => if has_text (fst p) comments then N.lor u (snd p) else u) lexflags 0.

(** lresolve.cpp:256-270 [GetRemark]; 45 is the hyphen. *)
Fixpoint get_remark (comment : bytes) : bytes :=
  match comment with
  | [] => []
  | c :: s =>
      if c =? 45 then
        let '(a, b) := take_until (fun c => (c =? 45) || is_space c) s in
        match b with 45 :: _ => a | _ => get_remark s end
      else get_remark s
  end.

(** lresolve.cpp:243-244, 284-295 [CaseScale]. *)
Definition st_casemark : bytes := Eval vm_compute in cyr "ШП:".
Definition st_casescale : bytes := Eval vm_compute in cyr "ИРДВТП".
Fixpoint index_of (c : N) (l : bytes) (i : N) : option N :=
  match l with [] => None | x :: l' => if x =? c then Some i else index_of c l' (i + 1) end.
Fixpoint case_loop (s : bytes) (v : N) : N :=
  match s with
  | [] => v
  | c :: s' => match index_of c st_casescale 0 with Some i => case_loop s' (N.lor v (N.shiftl 1 i)) | None => v end
  end.
Definition case_scale (s : bytes) : N :=
  match strstr st_casemark s with None => 0 | Some (_, p) => case_loop (skipn 3 p) 0 end.

(** lresolve.cpp:302-317 [GetPostfix] does the same as [EngCompile.find_post]. *)

(** lresolve.cpp:344-350: '=' is erased, е stands for ё (also makerus.cpp:216). *)
Definition no_yo (c : N) : N := if c =? 0xb8 then 0xe5 else c.
Definition headword (norm : bytes) : bytes := map no_yo (filter (fun c => negb (c =? 61)) norm).

(** lresolve.cpp:442-474: mixIndex. *)
Definition mix_index (wdinfo : N) (zapart : bytes) : N :=
  let c0 := nth 0 zapart 0 in
  let c1 := nth 1 zapart 0 in
  if N.land wdinfo 0x3f <=? 6 then
    if (c0 =? 54) || (c0 =? 57) then 1
    else if c0 =? 53 then (if starts (text "5c/c") zapart || starts (text "5*c/c") zapart then 1 else 0)
    else if c0 =? 49 then (if (c1 =? 48) || (c1 =? 52) then 1 else if c1 =? 49 then 2 else 0)
    else 0
  else 0.

(** lresolve.cpp:319-477 [ResolveClassInfo]; [None] is the empty [lexemeinfo].  A postfix longer than the word makes [resize] throw: [Ub] here (see [Resolve.cut]). *)
Definition resolve_class (depth : nat) (T : tables) (norm dies type zapart comm : bytes) (id : N) : res (option lexeme) :=
  let wd := type_of (dies ++ 32 :: type) in
  let orig := type ++ 32 :: zapart in
  if wd =? 0 then Ok None
  else
    let tfoffs := if N.land wd 0x3f <? 48 then match lookup orig (tb_findex T) with Some o => o mod 2 ^ 16 | None => 0 end else 0 in
    if (N.land wd 0x3f <? 48) && (tfoffs =? 0) && negb (if list_eq_dec N.eq_dec zapart [48] then true else false) then Ok None
    else
      let word := headword norm in
      let post := find_post comm in
      let wd := N.lor wd (lex_flags comm) in
      let! stem := cut word (N.of_nat (length post)) in
      resolve depth (tb_flex T) (tb_mix T) (match lookup orig (tb_mindex T) with Some l => l | None => [] end) word post (get_remark comm)
        wd tfoffs (case_scale zapart) (option_map N.to_nat (index_of 64 stem 0)) (match index_of 58 zapart 0 with Some _ => true | None => false end)
        (mix_index wd zapart) id.

(** ** Articles *)

(** makerus.cpp:123-138 [GetSubtext]: a field; without room for it the array is not terminated and the following ones are not set:
    whatever is done with them next is undefined. *)
Definition sub_text (room : nat) (s : bytes) : res (bytes * bytes) :=
  let '(a, b) := take_until is_space s in if Nat.leb room (length a) then Ub else Ok (a, skip_space b).

(** makerus.cpp:196-240 [BuildStems]: the lexemes of an article.  [MapLexStem] is in [Compile.add_lexeme], called after all lexemes
    of the article are found, so that the exception of [AddClass] is not thrown before an undefined second lexeme. *)
Definition build_stems (depth : nat) (T : tables) (article : bytes) (id : N) : res (list lexeme) :=
  let! (norm, s) := sub_text 0x100 article in
  let! (dies, s) := sub_text 0x20 s in
  let! (type, s) := sub_text 0x20 s in
  let! (zindex, comm) := sub_text 0x20 s in
  let norm := map no_yo norm in
  let! r := resolve_class depth T norm dies type zindex comm id in
  match r with
  | Some x => Ok [x]
  | None =>
      match strstr (text "//") zindex with
      | None => Ok []
      | Some (zapart, rest) =>
          let! a := resolve_class depth T norm dies type zapart comm id in
          let! b := resolve_class depth T norm dies type (skipn 2 rest) comm id in
          Ok (match a with Some x => [x] | None => [] end ++ match b with Some x => [x] | None => [] end)
      end
  end.

(** ** Files *)

(** tools/buildmorph.h:175-231 [DictReader], one line: the lexemes, and the lines for the file of unknown words. *)
Definition read_line (depth : nat) (T : tables) (line : bytes) : res (list lexeme * list bytes) :=
  let s := trim_end (skip_space line) in
  if starts (text "//") s then Ok ([], [s])
  else
    match dict_line line with
    | None => Ok ([], [])
    | Some (s, id) => let! xs := build_stems depth T s id in Ok (xs, match xs with [] => [s] | _ => [] end)
    end.

(** The builder and the file of unknown words after the lines; [None] is an exception. *)
Fixpoint read_lines (depth : nat) (T : tables) (b : builder) (unknown : list bytes) (lines : list bytes) : res (option (builder * list bytes)) :=
  match lines with
  | [] => Ok (Some (b, unknown))
  | l :: lines' =>
      let! (xs, u) := read_line depth T l in
      let! o := add_lexemes depth (tb_flex T) b xs in
      match o with None => Ok None | Some b => read_lines depth T b (unknown ++ u) lines' end
  end.

(** tools/buildmorph.h:178-182: [fgets( szline, 0x3ff, source )]: up to 0x3fe characters, up to and with the newline. *)
Fixpoint fgets_lines (room : nat) (line : bytes) (file : bytes) : list bytes :=
  match file with
  | [] => match line with [] => [] | _ => [line] end
  | c :: file' =>
      if (c =? 10) || (Nat.leb room 1) then (line ++ [c]) :: fgets_lines 0x3fe [] file'
      else fgets_lines (pred room) (line ++ [c]) file'
  end.
(** tools/buildmorph.h:187-188 converts every line; [conv] is the table of moonycode for codepage 866 (makerus.cpp:262). *)
Definition file_lines (conv : N -> N) (file : bytes) : list bytes := map (map conv) (fgets_lines 0x3fe [] file).

(** makerus.cpp:265-322 [Run] and tools/buildmorph.h:111-173 [CreateDict]: the arrays, and what the file of unknown words has. *)
Definition rcompile_lines (depth : nat) (T : tables) (lines : list bytes) : res (option (arrays * list bytes)) :=
  let! o := read_lines depth T new_builder [] lines in Ok (option_map (fun bu => (save_tables (tb_mix T) (fst bu), snd bu)) o).
Definition rcompile (depth : nat) (T : tables) (conv : N -> N) (files : list bytes) : res (option (arrays * list bytes)) :=
  rcompile_lines depth T (flat_map (file_lines conv) files).
