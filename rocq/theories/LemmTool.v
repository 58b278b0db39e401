(** * LemmTool: the program utils/lemmatize.  MODEL ONLY.
    Strings of the command line are C strings: they hold no byte 0.  Loading of libraries is [mtc::SharedLibrary], not in the repository. *)
From Coq Require Import String.
From Verif Require Import Base CapScheme GramMap RusRuntime RusBuild EngRuntime Codepage Guess Api Dump PyApi.
Local Open Scope N_scope.
Local Open Scope list_scope.
Notation length := List.length.

(** ** utils/lemmatize.cpp:8-42 [Lemmatize] *)

(** [printf] with "%6u" and "%2d": at least [width] characters. *)
Definition space_padded (width : nat) (t : bytes) : bytes := repeat 32 (width - length t) ++ t.

(** [next.plemma] of a null pointer or outside of the array: undefined. *)
Definition tool_string (st : bytes) (at_ : option nat) : res bytes :=
  match at_ with None => Ub | Some k => let! p := advance (N.of_nat k) st in cstr p end.
Definition tool_gram (gr : list gram) (at_ : nat) : res gram := match nth_error gr at_ with Some g => Ok g | None => Ub end.

(** lemmatize.cpp:35-36 *)
Fixpoint tool_forms (gr : list gram) (pref : bytes) (at_ ngrams : nat) : res bytes :=
  match ngrams with
  | O => Ok []
  | S n => let! g := tool_gram gr at_ in let! more := tool_forms gr (text ", ") (S at_) n in Ok (pref ++ print_dec (gidForm g) ++ more)
  end.

(** lemmatize.cpp:24-39 *)
Definition tool_lexeme (prefix st : bytes) (gr : list gram) (next : lemm) : res bytes :=
  let! lemma := tool_string st (lm_form next) in
  let! first := tool_gram gr (N.to_nat (lm_grams next)) in
  let! forms := tool_forms gr [] (N.to_nat (lm_grams next)) (N.to_nat (lm_ngrams next)) in
  Ok (prefix ++ [10] ++ text "  { ""lemma"": """ ++ lemma ++ text """," ++ [9] ++ text """lexid"": " ++ space_padded 6 (print_dec (lm_id next)) ++
      text ", ""psp"": " ++ space_padded 2 (print_dec (N.land (gwdInfo first) 0x3f)) ++ text ", ""forms"": [" ++ forms ++ text "] }").
Fixpoint tool_lexemes (prefix st : bytes) (gr : list gram) (lexset : list lemm) (lcount : nat) : res bytes :=
  match lcount with
  | O => Ok []
  | S n =>
      match lexset with
      | [] => Ub
      | next :: lexset' =>
          let! t := tool_lexeme prefix st gr next in let! more := tool_lexemes (text ",") st gr lexset' n in Ok (t ++ more)
      end
  end.

(** lemmatize.cpp:8-42: the text printed.  [call] is the interface's [Lemmatize] of the word; [lexset], [stbuff], [grbuff] are the local
    arrays of 16, 256 and 64 elements; [sfIgnoreCapitals] is 2 (api.h:94). *)
Definition tool_print
  (call : option (list lemm) -> option bytes -> option (list gram) -> N -> res (Z * (option (list lemm) * option bytes * option (list gram))))
  (lexset : list lemm) (stbuff : bytes) (grbuff : list gram) : res bytes :=
  let! (lcount, arrs) := call (Some lexset) (Some stbuff) (Some grbuff) 2 in
  if (lcount =? 0)%Z then Ok (text "[]")
  else
    match arrs with
    | (Some lx, Some st, Some gr) =>
        let! rows := tool_lexemes [] st gr lx (Z.to_nat lcount) in Ok (text "[" ++ rows ++ [10] ++ text "]")
    | _ => Ub
    end.

(** The word is passed with its terminator and the length -1 (api.hpp:154). *)
Definition tool_lemmatize P A junk lexset stbuff grbuff (word : bytes) : res bytes :=
  tool_print (fun l s g sets => page_lemmatize P A junk (Some (word ++ [0])) (2 ^ 64 - 1) l s g sets) lexset stbuff grbuff.
Definition tool_elemmatize A junk lexset stbuff grbuff (word : bytes) : res bytes :=
  tool_print (fun l s g sets => elemmatize A junk (Some (word ++ [0])) (2 ^ 64 - 1) l s g sets) lexset stbuff grbuff.

(** ** utils/lemmatize.cpp:50-84 [main], utils/stematize.cpp:54-89 [main]: the key is [LIBMORPH_API_4_MAGIC], [LIBFUZZY_API_4_MAGIC] *)

Definition accessor := option bytes -> bool -> res (Z * held).
Inductive said := Usage | No_library | No_function | No_codepage | Printed (t : bytes).

(** [find_first_of( ":" )]: what is in front of the colon, and from the colon on; the test for an empty string at 69 never holds. *)
Fixpoint at_colon (t : bytes) : bytes * bytes :=
  match t with
  | [] => ([], text ":utf-8")
  | c :: t' => if c =? 58 then ([], t) else let '(name, encode) := at_colon t' in (c :: name, encode)
  end.

(** [args] are argv[1], ...; [load] is the loader, [run] is [Lemmatize] on an instance. *)
Definition tool_main (magic : bytes) (load : bytes -> option (bytes -> option accessor)) (run : instance -> bytes -> res bytes) (args : list bytes) : res said :=
  match args with
  | lib :: fn :: word :: _ =>
      match load lib with
      | None => Ok No_library
      | Some find =>
          let '(name, encode) := at_colon fn in
          match find name with
          | None => Ok No_function
          | Some get =>
              let! (z, h) := get (Some (magic ++ encode ++ [0])) true in
              if negb (Z.eqb z 0) then Ok No_codepage
              else match h with Points i => let! t := run i word in Ok (Printed t) | _ => Ub end
          end
      end
  | _ => Ok Usage
  end.
