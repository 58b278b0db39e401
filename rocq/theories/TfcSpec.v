(** * TfcSpec: what the text of inflexion tables means.  SPECIFICATION ONLY. *)
From Coq Require Import String.
From Verif Require Import Base Serial WordTree TreeSpec Stems StemSpec GramMap RusRuntime LevelSpec RusSpec Compile CompileSpec Api EngCompileSpec Utf8 RusText Tfc.
Local Open Scope N_scope.
Local Open Scope list_scope.
Notation length := List.length.

(** ** Lines *)

(** White space (up to 32) and the rest. *)
Definition white (s : bytes) : Prop := Forall (fun c => c <= 32) s.
Definition inked (c : N) : Prop := 32 < c.
(** [line] says [s]: white space around it is dropped, and a comment that begins the line or follows white space; [s] has no such comment in it. *)
Definition line_says (conv : N -> N) (line s : bytes) : Prop :=
  exists sp s0 rest, line = sp ++ s0 ++ rest /\ white sp /\ s = map conv s0 /\
    (s0 = [] \/ (exists c t, s0 = c :: t /\ inked c) /\ (exists t c, s0 = t ++ [c] /\ inked c)) /\
    (white rest \/ exists sp' remark, rest = sp' ++ text "//" ++ remark /\ white sp' /\ (sp' <> [] \/ s0 = [])) /\
    (forall a b, s0 = a ++ text "//" ++ b -> exists t c, a = t ++ [c] /\ inked c).
(** [file] consists of [lines] of at most 4095 characters, each with its newline (the last one may have none). *)
Inductive text_lines : bytes -> list bytes -> Prop :=
| tl_nil : text_lines [] []
| tl_last line : ~ In 10 line -> line <> [] -> (length line <= 4095)%nat -> text_lines line [line]
| tl_more line file lines : ~ In 10 line -> (length line < 4095)%nat -> text_lines file lines -> text_lines (line ++ 10 :: file) ((line ++ [10]) :: lines).
(** The strings that the lines of [file] say, those that say nothing left out. *)
Definition file_says (conv : N -> N) (file : bytes) (ss : list bytes) : Prop :=
  exists lines said, text_lines file lines /\ Forall2 (line_says conv) lines said /\ ss = filter (fun s => match s with [] => false | _ => true end) said.

(** ** Grammar *)

(** What a description consists of: bits from [fst] on, [snd] of them. *)
Inductive feature := Tense | Person | VerbForm | Comparative | Short | Gender | Plural | Case | Reflexive.
Definition place (x : feature) : N * N :=
  match x with Tense => (0, 3) | Person => (3, 2) | VerbForm => (5, 2) | Comparative => (7, 1) | Short => (8, 1) | Gender => (9, 2) | Plural => (11, 1) | Case => (12, 3) | Reflexive => (15, 1) end.
Definition value (x : feature) (info : N) : N := info / 2 ^ fst (place x) mod 2 ^ snd (place x).
Definition features : list feature := [Tense; Person; VerbForm; Comparative; Short; Gender; Plural; Case; Reflexive].
(** The tokens: what they keep of the description so far, what they set; the rest becomes 0.  Flags: those kept and those set; 1 for animate, 2
    for inanimate, 4 for forms that are hard to make, 8 for the joining vowel. *)
Record token := Token { tk_name : string; tk_keeps : list feature; tk_sets : list (feature * N); tk_flags_kept : N; tk_flags_set : N }.
Definition but_case : list feature := [Tense; Person; VerbForm; Comparative; Short; Gender; Plural; Reflexive].
Definition tokens : list token := [
  Token "И" but_case [(Case, 0)] 255 3; Token "Р" but_case [(Case, 1)] 255 3; Token "Д" but_case [(Case, 2)] 255 3; Token "В" but_case [(Case, 3)] 255 3;
  Token "Т" but_case [(Case, 4)] 255 3; Token "П" but_case [(Case, 5)] 255 3; Token "Р2" but_case [(Case, 6)] 255 3; Token "П2" but_case [(Case, 7)] 255 3;
  Token "Вн" but_case [(Case, 3)] 252 2; Token "Во" but_case [(Case, 3)] 252 1;
  Token "инфинитив" [] [(Tense, 1)] 0 3; Token "повел" [] [(Tense, 2)] 255 3;
  Token "время Б" [] [(Tense, 3)] 255 3; Token "время Н" [] [(Tense, 4)] 255 3; Token "время П" [] [(Tense, 5)] 255 3;
  Token "лицо 1" [Tense] [(Person, 1)] 255 3; Token "лицо 2" [Tense] [(Person, 2)] 255 3; Token "лицо 3" [Tense] [(Person, 3)] 255 3;
  Token "действ" [Tense] [(VerbForm, 1)] 255 3; Token "страд" [Tense] [(VerbForm, 2)] 255 3; Token "деепр" [Tense] [(VerbForm, 3)] 255 3;
  Token "число Е" [Tense; VerbForm] [(Plural, 0)] 255 3; Token "число М" [Tense; VerbForm] [(Plural, 1)] 255 3; Token "число" [Tense; VerbForm] [] 255 3;
  Token "род м" [Tense; VerbForm] [(Gender, 1)] 255 0; Token "род ж" [Tense; VerbForm] [(Gender, 2)] 255 0; Token "род с" [Tense; VerbForm] [(Gender, 3)] 255 0;
  Token "род" [Tense; VerbForm; Plural] [] 255 0;
  Token "кф" [Tense; VerbForm; Gender; Plural] [(Short, 1)] 255 3; Token "ср" [] [(Comparative, 1)] 255 3; Token "нр" [] [(VerbForm, 2)] 255 3;
  Token "вф" features [(Reflexive, 1)] 255 0; Token "затрудн" features [] 255 4; Token "соед" features [] 255 8; Token "проф" features [] 255 0]%string.
(** A feature after token [t] was applied to the description [info]. *)
Definition becomes (t : token) (info : N) (x : feature) (v : N) : Prop :=
  In (x, v) (tk_sets t) \/ (forall v', ~ In (x, v') (tk_sets t)) /\ (In x (tk_keeps t) /\ v = value x info \/ ~ In x (tk_keeps t) /\ v = 0).
Definition applied (t : token) (cg cg' : graminfo) : Prop :=
  gi_info cg' < 2 ^ 16 /\ (forall x, becomes t (gi_info cg) x (value x (gi_info cg'))) /\ gi_flags cg' = N.lor (N.land (gi_flags cg) (tk_flags_kept t)) (tk_flags_set t).
(** Tokens with bars between them (124); a bar at the end is allowed. *)
Inductive gram_says : bytes -> graminfo -> graminfo -> Prop :=
| gs_nil cg : gram_says [] cg cg
| gs_last t cg cg' : In t tokens -> applied t cg cg' -> gram_says (cyr (tk_name t)) cg cg'
| gs_more t s cg cg' cg'' : In t tokens -> applied t cg cg' -> gram_says s cg' cg'' -> gram_says (cyr (tk_name t) ++ 124 :: s) cg cg''.

(** ** Elements *)

(** Fields have neither white space nor commas (44).  White space, one comma or both separate them; only a comma can be followed by an empty field. *)
Definition field_text (s : bytes) : Prop := Forall (fun c => inked c /\ c <> 44) s.
Inductive fields : bytes -> list bytes -> Prop :=
| fs_last f sp : field_text f -> white sp -> fields (f ++ sp) [f]
| fs_comma f sp sp' s fs : field_text f -> white sp -> white sp' -> fields s fs -> fields (f ++ sp ++ 44 :: sp' ++ s) (f :: fs)
| fs_white f sp g s fs : field_text f -> f <> [] -> white sp -> sp <> [] -> g <> [] -> fields s (g :: fs) -> fields (f ++ sp ++ s) (f :: g :: fs).
(** An element: the ending (two apostrophes stand for the empty one), its description, the table that must follow it, the table that may. *)
Definition element (cg : graminfo) (s : bytes) (it : fxitem) : Prop :=
  exists fs cg', fields s fs /\ gram_says (nth 1 fs []) cg cg' /\
    fx_tail it = (if list_eq_dec N.eq_dec (nth 0 fs []) (text "''") then [] else nth 0 fs []) /\ fx_info it = gi_info cg' /\
    match nth 2 fs [], nth 3 fs [] with
    | [], [] => fx_flags it = gi_flags cg' /\ fx_next it = []
    | [], o => fx_flags it = N.lor (gi_flags cg') 0x40 /\ fx_next it = o
    | n, _ => fx_flags it = N.lor (gi_flags cg') 0x80 /\ fx_next it = n
    end.
(** The lines between the braces: elements, and lines with a full stop (46) that change the description for those below them. *)
Inductive body_says : graminfo -> list bytes -> list fxitem -> Prop :=
| bs_nil cg : body_says cg [] []
| bs_gram s cg cg' ss its : gram_says s cg cg' -> body_says cg' ss its -> body_says cg ((46 :: s) :: ss) its
| bs_element s it cg ss its : s <> [125] -> hd 0 s <> 46 -> element cg s it -> body_says cg ss its -> body_says cg (s :: ss) (it :: its).

(** ** Tables *)

Record definition := Definition_ { d_names : list bytes; d_lines : list fxitem }.
(** Names are separated by commas; white space around them is dropped, empty ones are, too. *)
Definition name_text (s : bytes) : Prop := ~ In 44 s /\ (exists c t, s = c :: t /\ inked c) /\ (exists t c, s = t ++ [c] /\ inked c).
Inductive names_written : bytes -> list bytes -> Prop :=
| nw_end sp : white sp -> names_written sp []
| nw_empty sp s ns : white sp -> names_written s ns -> names_written (sp ++ 44 :: s) ns
| nw_last sp n sp' : white sp -> name_text n -> white sp' -> names_written (sp ++ n ++ sp') [n]
| nw_more sp n sp' s ns : white sp -> name_text n -> white sp' -> names_written s ns -> names_written (sp ++ n ++ sp' ++ 44 :: s) (n :: ns).
Definition commanded (commands : list string) (s rest : bytes) : Prop := exists cmd c, In cmd commands /\ c <= 32 /\ s = cyr cmd ++ c :: rest.
Definition declares (s : bytes) (names : list bytes) : Prop :=
  exists rest, commanded [".таблица"; ".table"; ".тип"; ".type"]%string s rest /\ ~ white rest /\ names_written rest names.
Definition includes (s name : bytes) : Prop :=
  exists sp sp', commanded [".включить"; ".include"]%string s (sp ++ name ++ sp') /\ white sp /\ white sp' /\
    (exists c t, name = c :: t /\ inked c) /\ (exists t c, name = t ++ [c] /\ inked c).
(** The folder of a file, with the slash (47 or 92) at its end. *)
Definition beside (from name path : bytes) : Prop :=
  exists folder base, from = folder ++ base /\ path = folder ++ name /\ ~ In 47 base /\ ~ In 92 base /\ (folder = [] \/ exists t c, folder = t ++ [c] /\ (c = 47 \/ c = 92)).

(** The definitions in file [name], included files in their places; at most [depth] files are open at a time. *)
Inductive file_defines (fs : bytes -> option bytes) (conv : N -> N) : nat -> bytes -> list definition -> Prop :=
| fd_file depth name file ss ds : fs name = Some file -> file_says conv file ss -> lines_define fs conv depth name ss ds -> file_defines fs conv (S depth) name ds
with lines_define (fs : bytes -> option bytes) (conv : N -> N) : nat -> bytes -> list bytes -> list definition -> Prop :=
| ld_nil depth name : lines_define fs conv depth name [] []
| ld_include depth name s sub path ss ds ds' : includes s sub -> beside name sub path -> file_defines fs conv depth path ds ->
    lines_define fs conv depth name ss ds' -> lines_define fs conv depth name (s :: ss) (ds ++ ds')
| ld_table depth name header names body its ss ds : declares header names -> body_says (GramInfo 0 3) body its -> its <> [] ->
    lines_define fs conv depth name ss ds -> lines_define fs conv depth name (header :: [123] :: body ++ [125] :: ss) (Definition_ names its :: ds).

(** ** Meaning *)

(** The table [name] is the first one defined under that name. *)
Definition defined (ds : list definition) (name : bytes) (lines : list fxitem) : Prop :=
  exists before d behind, ds = before ++ d :: behind /\ In name (d_names d) /\ lines = d_lines d /\ Forall (fun d' => ~ In name (d_names d')) before.
Definition linked_to (it : fxitem) : Prop := N.land (fx_flags it) 0xc0 <> 0.
(** [s] is an ending of table [name] described by (g, f): the texts along a chain of tables; grammar adds up, flags must agree. *)
Inductive tells (ds : list definition) : bytes -> bytes -> N -> N -> Prop :=
| tells_here name lines it : defined ds name lines -> In it lines -> N.testbit (fx_flags it) 7 = false -> tells ds name (fx_tail it) (fx_info it) (fx_flags it)
| tells_further name lines it s g f : defined ds name lines -> In it lines -> linked_to it -> tells ds (fx_next it) s g f ->
    tells ds name (fx_tail it ++ s) (N.lor (fx_info it) g) (N.land (fx_flags it) f).

(** The format: endings of less than 128 bytes; at most 255 different elements in a table. *)
Definition fits_format (d : definition) : Prop :=
  Forall (fun it => is_bytes (fx_tail it) /\ (length (fx_tail it) < 128)%nat) (d_lines d) /\
  forall l, NoDup l -> incl l (d_lines d) -> (length l < 256)%nat.
(** All tables that are referred to are defined. *)
Definition links_defined (ds : list definition) : Prop :=
  forall d it, In d ds -> In it (d_lines d) -> linked_to it -> exists lines, defined ds (fx_next it) lines.
(** An element takes 4 bytes, its ending and 2 for a reference; a table its elements, one byte, and is padded to an even number. *)
Definition element_size (it : fxitem) : N := 4 + N.of_nat (length (fx_tail it)) + (if N.land (fx_flags it) 0xc0 =? 0 then 0 else 2).
Definition table_size (lines : list fxitem) : N := 2 + fold_right (fun it n => element_size it + n) 0 lines.
Definition whole_size (ds : list definition) : N := 6 + fold_right (fun d n => table_size (d_lines d) + n) 0 ds.

(** The elements of a table in order: by ending, then by description, flags and reference; each of them once. *)
Definition element_before (a b : fxitem) : Prop :=
  lex_lt (fx_tail a) (fx_tail b) \/ fx_tail a = fx_tail b /\ (fx_info a < fx_info b \/ fx_info a = fx_info b /\
    (fx_flags a < fx_flags b \/ fx_flags a = fx_flags b /\ lex_lt (fx_next a) (fx_next b))).
Fixpoint in_order (l : list fxitem) : Prop := match l with [] => True | a :: l' => Forall (element_before a) l' /\ in_order l' end.
Definition ordered (lines l : list fxitem) : Prop := in_order l /\ forall it, In it l <-> In it lines.
(** Table [off] of the bytes is the table [lines]: its elements in order, each reference is the offset of the table referred to. *)
Definition same_element (ix : list (bytes * N)) (it : fxitem) (fi : flexitem) : Prop :=
  fi_text fi = fx_tail it /\ fi_info fi = fx_info it /\ fi_flags fi = fx_flags it /\
  (linked_to it /\ lookup (fx_next it) ix = Some (fi_next fi) \/ ~ linked_to it /\ fi_next fi = 0).
Definition compiled_as (b : bytes) (ix : list (bytes * N)) (off : N) (lines : list fxitem) : Prop :=
  exists l items, ordered lines l /\ table_at b off items /\ Forall2 (same_element ix) l items.

(** The compiled bytes and the index of names mean the definitions. *)
Definition tables_mean (ds : list definition) (b : bytes) (ix : list (bytes * N)) : Prop :=
  is_bytes b /\ (forall name, (exists off, lookup name ix = Some off) <-> exists lines, defined ds name lines) /\
  forall name off lines, lookup name ix = Some off -> defined ds name lines ->
    0 < off < 2 ^ 16 /\ compiled_as b ix off lines /\ forall s g f, ending b off s g f <-> tells ds name s g f.
(** Lines are of at most 4095 characters; the conversion of code pages keeps white space. *)
Definition readable (fs : bytes -> option bytes) : Prop := forall n f, fs n = Some f -> exists lines, text_lines f lines.
Definition conv_white (conv : N -> N) : Prop := forall c, conv c <= 32 <-> c <= 32.
(** The same tables, whatever the order of their lines and their repetitions. *)
Definition same_lines (l l' : list fxitem) : Prop := forall it, In it l <-> In it l'.
Definition same_tables (ds ds' : list definition) : Prop := Forall2 (fun d d' => d_names d = d_names d' /\ same_lines (d_lines d) (d_lines d')) ds ds'.
