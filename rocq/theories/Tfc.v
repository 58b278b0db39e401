(** * Tfc: the compiler of inflexion tables, from the text of the tables to the bytes and the index of names.  MODEL ONLY.
    Strings hold no byte 0: they come from C strings; their terminators are not represented. *)
From Coq Require Import String Ascii.
From Verif Require Import Base Serial WordTree Stems GramMap RusRuntime Compile Api EngCompile Utf8 RusText.
Local Open Scope N_scope.
Local Open Scope list_scope.
Notation length := List.length.

(** ** Source files: tools/sourcefile.h *)

(** tools/sourcefile.h:137-139: the comment is cut from the first "//" that begins the line or follows white space. *)
Fixpoint cut_comment (blank : bool) (s : bytes) : bytes :=
  match s with [] => [] | c :: s' => if blank && starts (text "//") s then [] else c :: cut_comment (is_space c) s' end.
(** sourcefile.h:134-147: white space and comments are removed; 156-160: the code page is converted, [conv] is the table of moonycode. *)
Definition clean_line (conv : N -> N) (line : bytes) : bytes := map conv (trim_end (cut_comment true (skip_space line))).
(** sourcefile.h:131, [fgets( chbuff, 0x1000, lpfile )]: up to 0xfff characters, up to and with the newline. *)
Fixpoint fgets_source (room : nat) (line : bytes) (file : bytes) : list bytes :=
  match file with
  | [] => match line with [] => [] | _ => [line] end
  | c :: file' =>
      if (c =? 10) || (Nat.leb room 1) then (line ++ [c]) :: fgets_source 0xfff [] file'
      else fgets_source (pred room) (line ++ [c]) file'
  end.
(** sourcefile.h:124-166 [Source::Get], call after call: the strings it returns; [Source::Put] (168-175) gives one back to be read again. *)
Definition source_lines (conv : N -> N) (file : bytes) : list bytes := filter nonempty (map (clean_line conv) (fgets_source 0xfff [] file)).

(** sourcefile.h:106-119 [Source::Open]: the file is looked for in the folder of the file that includes it; 47 and 92 are the slashes. *)
Fixpoint folder_of (name : bytes) : bytes :=
  match name with
  | [] => []
  | c :: s => match folder_of s with [] => if (c =? 47) || (c =? 92) then [c] else [] | f => c :: f end
  end.
Definition open_name (from name : bytes) : bytes := folder_of from ++ name.

(** ** Grammar: utils/tfc/gramap.cpp *)

(** gramap.cpp:38-44 [gramdata]; the masks as they apply to 16 bits of grammar and 8 bits of flags.  gramap.cpp:79-118 [InitRus]. *)
Record gramdata := GramData { gd_grmask : N; gd_grinfo : N; gd_mflags : N; gd_bflags : N }.
Definition gram_mapper : list (bytes * gramdata) := Eval vm_compute in map (fun p => (cyr (fst p), snd p)) [
  ("В", GramData 0x8fff 0x3000 0xff 3); ("Вн", GramData 0x8fff 0x3000 0xfc 2); ("Во", GramData 0x8fff 0x3000 0xfc 1);
  ("Д", GramData 0x8fff 0x2000 0xff 3); ("И", GramData 0x8fff 0 0xff 3); ("П", GramData 0x8fff 0x5000 0xff 3);
  ("П2", GramData 0x8fff 0x7000 0xff 3); ("Р", GramData 0x8fff 0x1000 0xff 3); ("Р2", GramData 0x8fff 0x6000 0xff 3);
  ("Т", GramData 0x8fff 0x4000 0xff 3); ("время Б", GramData 0 3 0xff 3); ("время Н", GramData 0 4 0xff 3); ("время П", GramData 0 5 0xff 3);
  ("вф", GramData 0xffff 0x8000 0xff 0); ("деепр", GramData 7 0x60 0xff 3); ("действ", GramData 7 0x20 0xff 3);
  ("затрудн", GramData 0xffff 0 0xff 4); ("инфинитив", GramData 0 1 0 3); ("кф", GramData 0xe67 0x100 0xff 3);
  ("лицо 1", GramData 7 8 0xff 3); ("лицо 2", GramData 7 0x10 0xff 3); ("лицо 3", GramData 7 0x18 0xff 3);
  ("нр", GramData 0 0x40 0xff 3); ("повел", GramData 0 2 0xff 3); ("проф", GramData 0xffff 0 0xff 0);
  ("род", GramData 0x867 0 0xff 0); ("род ж", GramData 0x67 0x400 0xff 0); ("род м", GramData 0x67 0x200 0xff 0);
  ("род с", GramData 0x67 0x600 0xff 0); ("соед", GramData 0xffff 0 0xff 8); ("ср", GramData 0 0x80 0xff 3);
  ("страд", GramData 7 0x40 0xff 3); ("число", GramData 0x67 0 0xff 3); ("число Е", GramData 0x67 0 0xff 3); ("число М", GramData 0x67 0x800 0xff 3)]%string.

(** gramap.h:38-42 [graminfo].  gramap.cpp:52-77 [MapInfo]: tokens separated by the bar; [None]: an exception. *)
Record graminfo := GramInfo { gi_info : N; gi_flags : N }.
Definition apply_token (d : gramdata) (cg : graminfo) : graminfo :=
  GramInfo (N.lor (N.land (gi_info cg) (gd_grmask d)) (gd_grinfo d)) (N.lor (N.land (gi_flags cg) (gd_mflags d)) (gd_bflags d)).
Fixpoint map_info (fuel : nat) (s : bytes) (cg : graminfo) : option graminfo :=
  match fuel, s with
  | S fuel', _ :: _ =>
      let '(token, rest) := take_until (fun c => c =? 124) s in
      match lookup token gram_mapper with
      | None => None
      | Some d => map_info fuel' (match rest with [] => [] | _ :: r => r end) (apply_token d cg)
      end
  | _, _ => Some cg
  end.
Definition map_gram (s : bytes) (cg : graminfo) : option graminfo := map_info (length s) s cg.

(** ** Elements and tables: utils/tfc/ftable.h *)

(** ftable.h:43-52 [fxitem], before the references are resolved; 79-90 [comp]. *)
Record fxitem := FxItem { fx_tail : bytes; fx_info : N; fx_flags : N; fx_next : bytes }.
Definition fx_comp (a b : fxitem) : comparison :=
  match strcmp (fx_tail a) (fx_tail b) with
  | Eq => match fx_info a ?= fx_info b with
          | Eq => match fx_flags a ?= fx_flags b with Eq => strcmp (fx_next a) (fx_next b) | c => c end
          | c => c
          end
  | c => c
  end.
(** ftable.h:122-133 [ftable::Insert]. *)
Fixpoint ftable_insert (fx : fxitem) (l : list fxitem) : list fxitem :=
  match l with
  | [] => [fx]
  | y :: l' => match fx_comp y fx with Lt => y :: ftable_insert fx l' | Eq => l | Gt => fx :: l end
  end.

(** tfc.cpp:44-54 [substr] with the filter [flexchar] of line 59: a field ends with a comma or white space (44 is the comma). *)
Definition field_of (s : bytes) : bytes * bytes := take_until (fun c => (c =? 44) || is_space c) s.
(** tfc.cpp:61. *)
Definition no_comma (s : bytes) : bytes := match skip_space s with 44 :: s' => s' | s' => s' end.
(** tfc.cpp:56-87 [MapLine]; 39 is the apostrophe. *)
Definition map_line (s : bytes) (cg : graminfo) : option fxitem :=
  let '(sztail, s) := field_of (skip_space s) in
  let '(grtext, s) := field_of (skip_space (no_comma s)) in
  let '(sznext, s) := field_of (skip_space (no_comma s)) in
  let '(szopts, _) := field_of (skip_space (no_comma s)) in
  let sztail := if list_eq_dec N.eq_dec sztail [39; 39] then [] else sztail in
  match map_gram grtext cg with
  | None => None
  | Some cg =>
      Some (if nonempty sznext then FxItem sztail (gi_info cg) (N.lor (gi_flags cg) 0x80) sznext
            else if nonempty szopts then FxItem sztail (gi_info cg) (N.lor (gi_flags cg) 0x40) szopts
            else FxItem sztail (gi_info cg) (gi_flags cg) [])
  end.

(** tfc.cpp:92-98 [has_command] and the [erase] after it: what follows the command. *)
Definition command (cmd s : bytes) : option bytes :=
  if starts cmd s then match skipn (length cmd) s with c :: s' => if is_space c then Some s' else None | [] => None end else None.
Fixpoint first_command (cmds : list bytes) (s : bytes) : option bytes :=
  match cmds with [] => None | cmd :: cmds' => match command cmd s with None => first_command cmds' s | r => r end end.
(** tfc.cpp:107-112. *)
Definition table_commands : list bytes := Eval vm_compute in map cyr [".таблица"; ".table"; ".тип"; ".type"]%string.
Definition include_commands : list bytes := Eval vm_compute in map cyr [".включить"; ".include"]%string.
(** tools/sweets.h:97-104 [trim]. *)
Definition trim (s : bytes) : bytes := skip_space (trim_end s).

(** tfc.cpp:142-156, the lines of a table up to the brace; [None]: an exception.  46 is the full stop, 125 the brace. *)
Fixpoint table_body (cg : graminfo) (t : list fxitem) (lines : list bytes) : option (list fxitem * list bytes) :=
  match lines with
  | [] => None
  | s :: lines' =>
      if list_eq_dec N.eq_dec s [125] then Some (t, lines')
      else match s with
           | 46 :: s' => match map_gram s' cg with None => None | Some cg => table_body cg t lines' end
           | _ => match map_line s cg with None => None | Some fx => table_body cg (ftable_insert fx t) lines' end
           end
  end.
(** tfc.cpp:114-159 [MakeTab] without the last step: the names and the elements of one table, and the lines left. *)
Definition make_tab (lines : list bytes) : option (bytes * list fxitem * list bytes) :=
  match lines with
  | header :: brace :: lines' =>
      match first_command table_commands header with
      | None => None
      | Some h =>
          let h := trim h in
          if negb (nonempty h) then None
          else if list_eq_dec N.eq_dec brace [123] then
            match table_body (GramInfo 0 3) [] lines' with
            | Some (fx :: t, lines'') => Some (h, fx :: t, lines'')
            | _ => None
            end
          else None
      end
  | _ => None
  end.

(** ** The set of tables: utils/tfc/ftable.cpp *)

(** ftable.h:145-150 [fxlist]. *)
Record fxlist := FxList { fl_tables : list (list fxitem); fl_map : list (bytes * nat) }.
(** ftable.cpp:83-97: the names, separated by commas. *)
Fixpoint split_names (fuel : nat) (ix : bytes) : list bytes :=
  match fuel, skip_space ix with
  | S fuel', c :: s =>
      let name := trim_end (fst (take_until (fun c => c =? 44) (c :: s))) in
      let rest := no_comma (skipn (length name) (c :: s)) in
      if nonempty name then name :: split_names fuel' rest else split_names fuel' rest
  | _, _ => []
  end.
Definition names_in (ix : bytes) : list bytes := split_names (S (length ix)) ix.
(** [std::find_if] with [ftable::operator ==]. *)
Definition fx_eq (a b : fxitem) : bool := match fx_comp a b with Eq => true | _ => false end.
Fixpoint ftable_eq (a b : list fxitem) : bool :=
  match a, b with [], [] => true | x :: a', y :: b' => fx_eq x y && ftable_eq a' b' | _, _ => false end.
Fixpoint find_ftable (t : list fxitem) (l : list (list fxitem)) : option nat :=
  match l with [] => None | u :: l' => if ftable_eq u t then Some O else option_map S (find_ftable t l') end.
(** [std::map::emplace]: nothing happens if the name is there. *)
Definition emplace {X} (k : bytes) (v : X) (m : list (bytes * X)) : list (bytes * X) := match lookup k m with Some _ => m | None => m ++ [(k, v)] end.
(** ftable.cpp:72-98 [fxlist::Insert]. *)
Definition fxlist_insert (ix : bytes) (ft : list fxitem) (fl : fxlist) : fxlist :=
  let '(findex, tables) := match find_ftable ft (fl_tables fl) with
                           | Some i => (i, fl_tables fl)
                           | None => (length (fl_tables fl), fl_tables fl ++ [ft])
                           end in
  FxList tables (fold_left (fun m name => emplace name findex m) (names_in ix) (fl_map fl)).

(** tfc.cpp:161-193 [Compile].  [fs] are the files there are; [None]: an exception.  [depth] bounds the files open at a time; when they are
    too many, the next one cannot be opened.  [steps] bounds the number of lines and includes of a file; the number of its lines is enough. *)
Section Compile.
  Context (fs : bytes -> option bytes) (conv : N -> N).
  Fixpoint tfc_lines (sub : bytes -> fxlist -> option fxlist) (steps : nat) (name : bytes) (lines : list bytes) (fl : fxlist) : option fxlist :=
    match steps, lines with
    | S steps', s :: lines' =>
        match first_command include_commands s with
        | Some h => let h := trim h in
            if nonempty h then match sub (open_name name h) fl with None => None | Some fl => tfc_lines sub steps' name lines' fl end else None
        | None =>
            match make_tab lines with
            | None => None
            | Some (names, t, lines'') => tfc_lines sub steps' name lines'' (fxlist_insert names t fl)
            end
        end
    | _, _ => Some fl
    end.
  Fixpoint tfc_file (depth : nat) (name : bytes) (fl : fxlist) : option fxlist :=
    match depth with
    | O => None
    | S depth' =>
        match fs name with
        | None => None
        | Some file => let lines := source_lines conv file in tfc_lines (tfc_file depth') (length lines) name lines fl
        end
    end.
End Compile.

(** ** Relocation and output *)

(** ftable.h:165-171 [fxitem::GetBufLen] (the length of a string in mtc is written in groups of 7 bits). *)
Definition fx_len (fx : fxitem) : N :=
  3 + (seriallen (N.of_nat (length (fx_tail fx))) + N.of_nat (length (fx_tail fx))) + (if N.land (fx_flags fx) 0xc0 =? 0 then 0 else 2).
(** ftable.cpp:54-66 [RelocateOffsetSize], over the tables (100-106): the offsets; [None]: an exception. *)
Definition even_up (n : N) : N := if N.odd n then n + 1 else n.
Fixpoint relocate (dwoffs : N) (l : list (list fxitem)) : option (list N) :=
  match l with
  | [] => Some []
  | t :: l' =>
      if (0x1ffff <=? dwoffs) || N.odd dwoffs then None
      else option_map (cons (N.shiftr dwoffs 1)) (relocate (even_up (dwoffs + 1 + fold_right (fun fx n => fx_len fx + n) 0 t)) l')
  end.
(** ftable.cpp:41-52 [RelocateReferences]. *)
Definition resolve_next (fl : fxlist) (offsets : list N) (fx : fxitem) : option N :=
  if N.land (fx_flags fx) 0xc0 =? 0 then Some 0
  else match lookup (fx_next fx) (fl_map fl) with None => None | Some i => nth_error offsets i end.
(** ftable.h:173-182 [fxitem::Serialize]. *)
Definition fx_ser (fx : fxitem) (ofnext : N) : bytes :=
  fx_flags fx :: putword16 (fx_info fx) ++ putserial (N.of_nat (length (fx_tail fx))) ++ fx_tail fx
  ++ (if N.land (fx_flags fx) 0xc0 =? 0 then [] else putword16 ofnext).
Fixpoint fx_sers (fl : fxlist) (offsets : list N) (t : list fxitem) : option bytes :=
  match t with
  | [] => Some []
  | fx :: t' => match resolve_next fl offsets fx, fx_sers fl offsets t' with Some o, Some b => Some (fx_ser fx o ++ b) | _, _ => None end
  end.
(** ftable.h:185-196 [ftable::Serialize]: the count is cut to a byte. *)
Definition ftable_ser (fl : fxlist) (offsets : list N) (t : list fxitem) : option bytes :=
  match fx_sers fl offsets t with
  | None => None
  | Some b => Some (N.of_nat (length t) mod 256 :: b ++ (if N.odd (1 + fold_right (fun fx n => fx_len fx + n) 0 t) then [0] else []))
  end.
Fixpoint ftables_ser (fl : fxlist) (offsets : list N) (l : list (list fxitem)) : option bytes :=
  match l with
  | [] => Some []
  | t :: l' => match ftable_ser fl offsets t, ftables_ser fl offsets l' with Some a, Some b => Some (a ++ b) | _, _ => None end
  end.
(** ftable.cpp:100-112 [Relocate], ftable.h:200-219 [StoreTab], [StoreRef]: the bytes of the tables, and the names with the offsets.  How
    mtc writes and reads the index is not modelled; the names are written in alphabetic order. *)
Fixpoint index_of_names (offsets : list N) (m : list (bytes * nat)) : option (list (bytes * N)) :=
  match m with
  | [] => Some []
  | (k, i) :: m' => match nth_error offsets i, index_of_names offsets m' with Some o, Some r => Some ((k, o) :: r) | _, _ => None end
  end.
Definition store (fl : fxlist) : option (bytes * list (bytes * N)) :=
  match relocate 6 (fl_tables fl) with
  | None => None
  | Some offsets =>
      match ftables_ser fl offsets (fl_tables fl), index_of_names offsets (fl_map fl) with
      | Some b, Some ix => Some (text "inflex" ++ b, ix)
      | _, _ => None
      end
  end.

(** tfc.cpp:202-290 [main] without its arguments and files. *)
Definition tfc (depth : nat) (fs : bytes -> option bytes) (conv : N -> N) (name : bytes) : option (bytes * list (bytes * N)) :=
  match tfc_file fs conv depth name (FxList [] []) with None => None | Some fl => store fl end.
