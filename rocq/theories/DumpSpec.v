(** * DumpSpec: how C++ reads the generated source files; what a command line says.  SPECIFICATION ONLY. *)
From Coq Require Import String Ascii.
From Verif Require Import Base Api.
Local Open Scope N_scope.
Local Open Scope list_scope.
Notation length := List.length.

(** ** C++ source text

    The part of C++ the files use: white space and comments between tokens, identifiers and numbers (words), punctuation of one character;
    a namespace, variables of type unsigned, arrays of unsigned and of unsigned char with initialisers. *)

Inductive token := Word (w : bytes) | Punct (c : N).
(** Between tokens; in a word; behind a slash; in a comment up to the end of the line; in a comment up to an asterisk and a slash. *)
Inductive mode := Between | In_word (w : bytes) | Slash | Line | Block | Block_star.

Definition space (c : N) : bool := (c =? 32) || ((9 <=? c) && (c <=? 13)).
Definition digit10 (c : N) : bool := (48 <=? c) && (c <=? 57).
Definition letter (c : N) : bool := ((65 <=? c) && (c <=? 90)) || ((97 <=? c) && (c <=? 122)) || (c =? 95).
Definition word_char (c : N) : bool := letter c || digit10 c.

(** One more character: the new mode and the tokens that are complete. *)
Definition start_token (c : N) : mode * list token :=
  if space c then (Between, [])
  else if word_char c then (In_word [c], [])
  else if c =? 47 then (Slash, [])
  else (Between, [Punct c]).
Definition next_char (m : mode) (c : N) : mode * list token :=
  match m with
  | Between => start_token c
  | In_word w => if word_char c then (In_word (w ++ [c]), []) else let '(m, ts) := start_token c in (m, Word w :: ts)
  | Slash => if c =? 47 then (Line, []) else if c =? 42 then (Block, []) else let '(m, ts) := start_token c in (m, Punct 47 :: ts)
  | Line => (if c =? 10 then Between else Line, [])
  | Block => (if c =? 42 then Block_star else Block, [])
  | Block_star => (if c =? 47 then Between else if c =? 42 then Block_star else Block, [])
  end.
Fixpoint lex (m : mode) (t : bytes) : mode * list token :=
  match t with
  | [] => (m, [])
  | c :: t' => let '(m, ts) := next_char m c in let '(m, ts') := lex m t' in (m, ts ++ ts')
  end.
(** The tokens of a whole text; a comment must be closed. *)
Definition tokens (t : bytes) : option (list token) :=
  let '(m, ts) := lex Between t in
  match m with Between | Line => Some ts | In_word w => Some (ts ++ [Word w]) | Slash => Some (ts ++ [Punct 47]) | Block | Block_star => None end.

(** Numbers: decimal without a zero in front, hexadecimal behind 0x. *)
Definition digit_value (c : N) : option N :=
  if digit10 c then Some (c - 48) else if (97 <=? c) && (c <=? 102) then Some (c - 87) else if (65 <=? c) && (c <=? 70) then Some (c - 55) else None.
Fixpoint number (base acc : N) (w : bytes) : option N :=
  match w with
  | [] => Some acc
  | c :: w' => match digit_value c with Some d => if d <? base then number base (acc * base + d) w' else None | None => None end
  end.
Definition literal (w : bytes) : option N :=
  match w with
  | [] => None
  | [48] => Some 0
  | 48 :: x :: c :: w' => if (x =? 120) || (x =? 88) then number 16 0 (c :: w') else None
  | 48 :: _ => None
  | _ => number 10 0 w
  end.
(** Identifiers; that keywords are none is not looked at. *)
Definition is_name (w : bytes) : bool := match w with [] => false | c :: w' => letter c && forallb word_char w' end.

(** Declarations. *)
Inductive decl :=
| Bytes_array (name : bytes) (values : list N)
| Unsigned_array (name : bytes) (values : list N)
| Unsigned_variable (name : bytes) (value : N).
Record source := Source { s_namespace : option bytes; s_decls : list decl }.

Definition word_is (s : string) (w : bytes) : bool := if list_eq_dec N.eq_dec w (text s) then true else false.
Definition punct_is (c : string) (p : N) : bool := if list_eq_dec N.eq_dec [p] (text c) then true else false.
(** The values of an initialiser, one at least, up to the brace; each at most [limit]. *)
Fixpoint initialiser (limit : N) (ts : list token) : option (list N * list token) :=
  match ts with
  | Word w :: Punct p :: ts' =>
      match literal w with
      | None => None
      | Some v =>
          if limit <? v then None
          else if punct_is "}" p then Some ([v], ts')
          else if punct_is "," p then match initialiser limit ts' with Some (vs, rest) => Some (v :: vs, rest) | None => None end
          else None
      end
  | _ => None
  end.
(** [\[\] = { values };] behind the name of an array. *)
Definition array_of (limit : N) (ts : list token) : option (list N * list token) :=
  match ts with
  | Punct a :: Punct b :: Punct c :: Punct d :: ts' =>
      if punct_is "[" a && punct_is "]" b && punct_is "=" c && punct_is "{" d then
        match initialiser limit ts' with
        | Some (vs, Punct e :: rest) => if punct_is ";" e then Some (vs, rest) else None
        | _ => None
        end
      else None
  | _ => None
  end.
Definition declaration (ts : list token) : option (decl * list token) :=
  match ts with
  | Word u :: Word x :: ts' =>
      if negb (word_is "unsigned" u) then None
      else if word_is "char" x then
        match ts' with
        | Word n :: ts'' => if is_name n then match array_of 255 ts'' with Some (vs, rest) => Some (Bytes_array n vs, rest) | None => None end else None
        | _ => None
        end
      else if is_name x then
        match ts' with
        | Punct a :: Word w :: Punct b :: rest =>
            if punct_is "=" a && punct_is ";" b then
              match literal w with Some v => if v <? 2 ^ 32 then Some (Unsigned_variable x v, rest) else None | None => None end
            else None
        | _ => match array_of (2 ^ 32 - 1) ts' with Some (vs, rest) => Some (Unsigned_array x vs, rest) | None => None end
        end
      else None
  | _ => None
  end.
(** Declarations up to the end of the text, or the brace that closes the namespace. *)
Fixpoint declarations (fuel : nat) (ts : list token) : option (list decl * list token) :=
  match fuel, ts with
  | S fuel', Word _ :: _ =>
      match declaration ts with
      | Some (d, ts) => match declarations fuel' ts with Some (ds, rest) => Some (d :: ds, rest) | None => None end
      | None => None
      end
  | _, _ => Some ([], ts)
  end.
(** What a text declares, if it is C++ of this kind. *)
Definition whole (ts : list token) : option source :=
  match declarations (length ts) ts with Some (ds, []) => Some (Source None ds) | _ => None end.
Definition read_source (t : bytes) : option source :=
  match tokens t with
  | None => None
  | Some (Word k :: ts) =>
      if word_is "namespace" k then
        match ts with
        | Word n :: Punct b :: ts =>
            if is_name n && punct_is "{" b then
              match declarations (length ts) ts with Some (ds, [Punct e]) => if punct_is "}" e then Some (Source (Some n) ds) else None | _ => None end
            else None
        | _ => None
        end
      else whole (Word k :: ts)
  | Some ts => whole ts
  end.
(** Nothing but comments and white space, complete with the next line. *)
Definition only_comments (t : bytes) : Prop := lex Between (t ++ [10]) = (Between, []).

(** ** Command lines *)

(** The name of a file in a folder. *)
Definition in_folder (folder name path : bytes) : Prop :=
  (folder = [] \/ exists f c, folder = f ++ [c] /\ (c = 47 \/ c = 92)) /\ path = folder ++ name \/
  (exists f c, folder = f ++ [c] /\ c <> 47 /\ c <> 92) /\ path = folder ++ [47] ++ name.

(** [-key=value] or [-key:value]. *)
Definition gives (key value arg : bytes) : Prop := arg = [45] ++ key ++ [61] ++ value \/ arg = [45] ++ key ++ [58] ++ value.
Definition is_switch (arg : bytes) : Prop := exists a, arg = 45 :: a.
(** The last value given for a key; empty if there is none. *)
Inductive value_of (key : bytes) : list bytes -> bytes -> Prop :=
| vo_none args : (forall arg v, In arg args -> ~ gives key v arg) -> value_of key args []
| vo_last before arg after v : gives key v arg -> (forall a v, In a after -> ~ gives key v a) -> value_of key (before ++ arg :: after) v.
(** A command line that is in order: every switch is known; none is repeated after it has got a value. *)
Definition in_order (keys args : list bytes) : Prop :=
  (forall arg, In arg args -> is_switch arg -> exists k v, In k keys /\ gives k v arg) /\
  (forall before a1 mid a2 after k v1 v2, args = before ++ a1 :: mid ++ a2 :: after -> In k keys -> gives k v1 a1 -> gives k v2 a2 -> v1 = []).
(** The arguments that are no switches. *)
Inductive plain : list bytes -> list bytes -> Prop :=
| pl_nil : plain [] []
| pl_switch arg args ps : is_switch arg -> plain args ps -> plain (arg :: args) ps
| pl_plain arg args ps : ~ is_switch arg -> plain args ps -> plain (arg :: args) (arg :: ps).

(** ** Files *)

(** The files define the arrays, each in a file of its own name in the folder, and there are no other files. *)
Definition defines_arrays (folder ns : bytes) (arrays files : list (bytes * bytes)) : Prop :=
  Forall2 (fun a f => in_folder folder (fst a ++ text ".cpp") (fst f) /\ read_source (snd f) = Some (Source (Some ns) [Bytes_array (fst a) (snd a)])) arrays files.
(** The lines, if any, are in the file [name], if it has a name, and there are no other files. *)
Definition lists_lines (name : bytes) (lines : list bytes) (files : list (bytes * bytes)) : Prop :=
  (name = [] \/ lines = []) /\ files = [] \/ name <> [] /\ lines <> [] /\ files = [(name, concat (map (fun l => l ++ [10]) lines))].
(** An array that C++ can have: it is not empty, and its elements are bytes. *)
Definition array_contents (b : bytes) : Prop := b <> [] /\ is_bytes b /\ N.of_nat (length b) <= 2 ^ 32.

(** ** compile-dict *)

Definition names_ns (v arg : bytes) : Prop := arg = text "-ns=" ++ v \/ arg = text "-nspace=" ++ v.
Inductive ns_of (default : bytes) : list bytes -> bytes -> Prop :=
| no_none args : (forall arg v, In arg args -> ~ names_ns v arg) -> ns_of default args default
| no_last before arg after v : names_ns v arg -> (forall a v, In a after -> ~ names_ns v a) -> ns_of default (before ++ arg :: after) v.
Definition switches_known (args : list bytes) : Prop := forall arg, In arg args -> is_switch arg -> exists v, names_ns v arg.

(** The comments among the lines of a dictionary: without the white space around them. *)
Inductive comments : list bytes -> list bytes -> Prop :=
| cm_nil : comments [] []
| cm_comment sp0 rest sp5 lines us : Forall (fun c => c <= 32) sp0 -> Forall (fun c => c <= 32) sp5 -> 32 < last (text "//" ++ rest) 0 ->
    comments lines us -> comments ((sp0 ++ (text "//" ++ rest) ++ sp5) :: lines) ((text "//" ++ rest) :: us)
| cm_other line lines us : (forall sp0 rest, Forall (fun c => c <= 32) sp0 -> line <> sp0 ++ text "//" ++ rest) -> comments lines us -> comments (line :: lines) us.
