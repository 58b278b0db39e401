(** * PyApi: the Python modules pyrusmorph and pyengmorph.  MODEL ONLY.
    pybind11/morph-pad.hpp: the class templates [MorphAPI] and [FuzzyAPI]; pyrusmorph/rus.cpp and pyengmorph/eng.cpp: their instances.
    The library pybind11 itself (conversion of Python objects, exceptions) is not in the repository: [bytes] and [str] arguments arrive as
    the strings of C++ they hold, a Python exception is a result of the callback, a [std::string] attribute is read as UTF-8.
    Strings are lists of character codes, narrow or wide.  The local arrays are uninitialised: what they hold is an argument. *)
From Verif Require Import Base CapScheme GramMap RusRuntime RusBuild Wild EngRuntime EngWild Codepage WideApi Fuzzy Guess GuessWide CxxApi Api.
Local Open Scope N_scope.

(** ** Arguments and settings *)

(** morph-pad.hpp:102, 115, 119: [szword.c_str(), szword.length()] of the string [w]; a [std::string] ends with a terminator. *)
Definition py_text (w : list N) : option (list N) := Some (w ++ [0]).
Definition py_count (w : list N) : N := N.of_nat (length w).

(** morph-pad.hpp:7-9, 102-103, 116-122: of the settings only [SF_IGNORE_CAPITALS] is passed on, as [sfIgnoreCapitals] (api.h:145); the
    other two make the sizes 0, and an array of size 0 is passed as a null pointer. *)
Definition py_sets (dwsets : N) : N := if negb (N.land dwsets 2 =? 0) then 2 else 0.
Definition py_strings {X} (dwsets : N) (stbuff : X) : option X := if N.land dwsets 4 =? 0 then Some stbuff else None.
Definition py_grammar {X} (dwsets : N) (grbuff : X) : option X := if N.land dwsets 8 =? 0 then Some grbuff else None.

(** ** Lexemes *)

(** morph-pad.hpp:13-22 [XxLemmInfo]. *)
Record py_lemm := PyLemm { pl_id : N; pl_lemma : option (list N); pl_grams : option (list gram) }.

(** morph-pad.hpp:130-131, 39-43: the string a pointer into the local array points to, if it is not null. *)
Definition py_string (st : option (list N)) (at_ : option nat) : res (option (list N)) :=
  match at_ with
  | None => Ok None
  | Some k =>
      match st with
      | None => Ub
      | Some st => let! p := advance (N.of_nat k) st in let! s := cstr p in Ok (Some s)
      end
  end.
(** morph-pad.hpp:133-134, 45-46: the descriptions, if there are any. *)
Definition py_descs (gr : option (list gram)) (at_ count : nat) : res (option (list gram)) :=
  if Nat.eqb count 0 then Ok None
  else match gr with
       | None => Ub
       | Some gr => if Nat.ltb (length gr) (at_ + count) then Ub else Ok (Some (firstn count (skipn at_ gr)))
       end.

(** morph-pad.hpp:127-136. *)
Definition py_lemm_from (st : option (list N)) (gr : option (list gram)) (m : lemm) : res py_lemm :=
  let! lemma := py_string st (lm_form m) in
  let! grams := py_descs gr (N.to_nat (lm_grams m)) (N.to_nat (lm_ngrams m)) in
  Ok (PyLemm (lm_id m) lemma grams).

(** morph-pad.hpp:125-138 and 262-265: a list of the first [n] elements; [n] may be negative.  An element behind the array: undefined. *)
Fixpoint py_all {X Y} (f : X -> res Y) (l : list X) : res (list Y) :=
  match l with
  | [] => Ok []
  | x :: l' => let! y := f x in let! ys := py_all f l' in Ok (y :: ys)
  end.
Definition py_list {X Y} (f : X -> res Y) (n : Z) (l : list X) : res (list Y) :=
  if Nat.ltb (length l) (Z.to_nat n) then Ub else py_all f (firstn (Z.to_nat n) l).

(** morph-pad.hpp:109-139 [MorphAPI::lemmatize]; [lxbuff] has 32 elements, [stbuff] 2048 characters, [grbuff] 512 elements; [call] is the
    interface's [Lemmatize] of the word. *)
Definition py_lemmatize
  (call : option (list lemm) -> option (list N) -> option (list gram) -> N -> res (Z * (option (list lemm) * option (list N) * option (list gram))))
  (lxbuff : list lemm) (stbuff : list N) (grbuff : list gram) (dwsets : N) : res (list py_lemm) :=
  let! (nlemma, arrs) := call (Some lxbuff) (py_strings dwsets stbuff) (py_grammar dwsets grbuff) (py_sets dwsets) in
  let '(lx, st, gr) := arrs in
  match lx with
  | None => Ub
  | Some lx => py_list (py_lemm_from st gr) nlemma lx
  end.

(** morph-pad.hpp:24-48 [XxStemInfo]. *)
Record py_stem := PyStem { ps_len : N; ps_class : N; ps_weight : Z; ps_lemma : option (list N); ps_grams : option (list gram) }.
Definition py_stem_from (st : option (list N)) (gr : option (list gram)) (s : stem_info) : res py_stem :=
  let! lemma := py_string st (splemma s) in
  let! grams := py_descs gr (spgrams s) (sngrams s) in
  Ok (PyStem (sccstem s) (snclass s) (sweight s) lemma grams).

(** morph-pad.hpp:246-266 [FuzzyAPI::lemmatize]. *)
Definition py_guess
  (call : option (list stem_info) -> option (list N) -> option (list gram) -> N -> res (Z * option (list stem_info) * option (list N) * option (list gram)))
  (lxbuff : list stem_info) (stbuff : list N) (grbuff : list gram) (dwsets : N) : res (list py_stem) :=
  let! (nlemma, lx, st, gr) := call (Some lxbuff) (py_strings dwsets stbuff) (py_grammar dwsets grbuff) (py_sets dwsets) in
  match lx with
  | None => Ub
  | Some lx => py_list (py_stem_from st gr) nlemma lx
  end.

(** morph-pad.hpp:144-160, 271-287 [build_form]: the strings are taken as in the C++ classes; [stbuff] has 2048 characters. *)
Definition py_forms (call : option (list N) -> res (Z * option (list N))) (stbuff : list N) : res (list (list N)) := strings_from call stbuff.

(** ** Matches *)

(** What the callback does: it returns an object that is converted to [int], it raises an exception, or it returns something else
    ([None], a string, a number too large). *)
Inductive py_result := PyInt (z : Z) | PyRaised | PyOther.

(** api.h [SStrMatch], of which [MbStrMatch] is a copy (morph-pad.hpp:60-61, 176): the pointer into the array of strings the search fills -
    an offset -, the number of characters, the form. *)
Record py_match := PyMatch { pm_at : nat; pm_len : nat; pm_form : N }.
(** pyrusmorph/rus.cpp:122-123: reading the attribute [text] when the array holds [sforms]. *)
Definition py_match_text (sforms : bytes) (m : py_match) : res bytes :=
  if Nat.ltb (length sforms) (pm_at m + pm_len m) then Ub else Ok (firstn (pm_len m) (skipn (pm_at m) sforms)).

(** lang-rus/libdict/mlmamain.cpp:293-311, lang-eng/libdict/mlmamain.cpp:279-289: the strings of a call lie one after another from the
    start of the array, each with a terminator. *)
Fixpoint py_matches (at_ : nat) (ms : list (bytes * N)) : list py_match :=
  match ms with
  | [] => []
  | (s, id) :: ms' => PyMatch at_ (length s) id :: py_matches (at_ + (length s + 1)) ms'
  end.
Definition py_stored (ms : list (bytes * N)) (sforms : bytes) : bytes := overwrite (flat_map (fun m => fst m ++ [0]) ms) sforms.

Section Match.
  Context {U : Type}.
  (** The Python function, given the lexeme, the list of matches and - to read their texts - what the array of strings holds. *)
  Variable callback : U -> N -> list py_match -> bytes -> U * py_result.

  (** morph-pad.hpp:169-185, the lambda.  A Python exception makes it return -1; a result that is no [int] makes [cast] throw, which is
      not caught here but ends the search (mlmamain.cpp:46-47, 353: [catch( ... )] returns -1).  The search being a function of its
      collector, the end is modelled by calling the function no more. *)
  Definition py_add (s : U * bytes * bool) (lid : N) (ms : list (bytes * N)) : (U * bytes * bool) * Z :=
    let '(u, sforms, ended) := s in
    if ended then (s, (-1)%Z)
    else
      let sforms := py_stored ms sforms in
      match callback u lid (py_matches 0 ms) sforms with
      | (u, PyInt z) => ((u, sforms, false), z)
      | (u, PyRaised) => ((u, sforms, false), (-1)%Z)
      | (u, PyOther) => ((u, sforms, true), (-1)%Z)
      end.

  (** morph-pad.hpp:165-191 [find_match] over the interface's [FindMatch]: what the callback did, and the value returned. *)
  Definition py_find_match (find : (U * bytes * bool -> N -> list (bytes * N) -> (U * bytes * bool) * Z) -> U * bytes * bool -> res (U * bytes * bool * Z))
    (sforms : bytes) (u : U) : res (U * Z) :=
    let! (s, z) := find py_add (u, sforms, false) in
    let '(u, _, ended) := s in
    Ok (u, if ended then (-1)%Z else z).
End Match.

(** ** Objects *)

(** morph-pad.hpp:78-82, 210-214, the constructors: [get] is the library's [...GetAPI] of the key; the member is uninitialised. *)
Inductive made := Made (i : instance) | Refused.
Definition py_new (get : option bytes -> bool -> res (Z * held)) (magic codepage : bytes) : res made :=
  let! (z, h) := get (Some (magic ++ [58] ++ codepage ++ [0])) true in
  if negb (Z.eqb z 0) then Ok Refused
  else match h with
       | Untouched => Ub
       | Null => Ok Refused
       | Points i => Ok (Made i)
       end.
(** pyrusmorph/rus.cpp:142-143, 160-161: [mlmaruMb( codepage )], [mlfaruMb( codepage )]; 151-152, 168-169: [mlmaruWc()], [mlfaruWc()]. *)
Definition py_rus_new (magic codepage : bytes) : res made := py_new (rus_get_api magic) magic codepage.
(** pyengmorph/eng.cpp:133-161: [mlmaenMb( codepage )] and so on. *)
Definition py_eng_new (magic codepage : bytes) : res made := py_new (eng_get_api magic) magic codepage.

(** ** Attributes *)

(** pyrusmorph/rus.cpp:97-100, morph-pad.hpp:17 [lemma] of [MbLemmInfo], a [std::optional<std::string>]: pybind11 makes it a [str] by decoding strict UTF-8
    (The Unicode Standard, table 3-7); [None] is the exception UnicodeDecodeError. *)
Definition tail_byte (c : N) : bool := (128 <=? c) && (c <? 192).
Fixpoint py_decode (fuel : nat) (s : bytes) : option (list N) :=
  match fuel, s with
  | _, [] => Some []
  | O, _ :: _ => None
  | S fuel, a :: s1 =>
      if a <? 128 then option_map (cons a) (py_decode fuel s1)
      else if (194 <=? a) && (a <? 224) then
        match s1 with
        | b :: s2 => if tail_byte b then option_map (cons ((a - 192) * 64 + (b - 128))) (py_decode fuel s2) else None
        | [] => None
        end
      else if (224 <=? a) && (a <? 240) then
        match s1 with
        | b :: c :: s3 =>
            if tail_byte b && tail_byte c && negb ((a =? 224) && (b <? 160)) && negb ((a =? 237) && (160 <=? b))
            then option_map (cons ((a - 224) * 4096 + (b - 128) * 64 + (c - 128))) (py_decode fuel s3) else None
        | _ => None
        end
      else if (240 <=? a) && (a <? 245) then
        match s1 with
        | b :: c :: d :: s4 =>
            if tail_byte b && tail_byte c && tail_byte d && negb ((a =? 240) && (b <? 144)) && negb ((a =? 244) && (144 <=? b))
            then option_map (cons ((a - 240) * 262144 + (b - 128) * 4096 + (c - 128) * 64 + (d - 128))) (py_decode fuel s4) else None
        | _ => None
        end
      else None
  end.
Definition py_str (s : bytes) : option (list N) := py_decode (length s) s.

(** ** The instances *)

(** lang-rus/libdict/mlmamain.cpp:107-112: the narrow Russian instance of a code page, [Win1251] or another. *)
Definition page_check_word (P : page) A junk psz cch dwsets : res Z :=
  match P with Win1251 => check_word A junk psz cch dwsets | Other E | Utf8 E => cp_check_word E A junk psz cch dwsets end.
Definition page_build_form (P : page) A junk output nlexid idform : res (Z * option bytes) :=
  match P with Win1251 => build_form A junk output nlexid idform | Other E | Utf8 E => cp_build_form E A junk output nlexid idform end.
Definition page_lemmatize (P : page) A junk psz cch plemma pforms pgrams dwsets : res (Z * (option (list lemm) * option bytes * option (list gram))) :=
  match P with
  | Win1251 => lemmatize A junk psz cch plemma pforms pgrams dwsets
  | Other E | Utf8 E => cp_lemmatize E A junk psz cch plemma pforms pgrams dwsets
  end.
Definition page_find_match {U} (P : page) (add : U -> N -> list (bytes * N) -> U * Z) A junk buf psz cch u : res (U * Z) :=
  match P with Win1251 => find_match add A junk buf psz cch u | Other E | Utf8 E => cp_find_match E add A junk buf psz cch u end.

(** morph-pad.hpp:92-104. *)
Definition py_part_of_sp (A : arrays) junk id := cxx_wd_info A junk id.
Definition py_epart_of_sp (A : earrays) junk id := cxx_ewd_info A junk id.
Definition py_check_word P A junk w dwsets := page_check_word P A junk (py_text w) (py_count w) (py_sets dwsets).
Definition py_echeck_word A junk w dwsets := echeck_word A junk (py_text w) (py_count w) (py_sets dwsets).
Definition py_wcheck_word W A junk szword w dwsets := wc_check_word W A junk szword (w ++ [0]) (py_count w) (py_sets dwsets).
Definition py_wecheck_word W A junk szword w dwsets := wc_echeck_word W A junk szword (w ++ [0]) (py_count w) (py_sets dwsets).

(** [mlmaruMb], [mlmaenMb], [mlmaruWc], [mlmaenWc]: lemmatize. *)
Definition py_lemmatize_mb P A junk lxbuff stbuff grbuff w dwsets :=
  py_lemmatize (fun l s g sets => page_lemmatize P A junk (py_text w) (py_count w) l s g sets) lxbuff stbuff grbuff dwsets.
Definition py_elemmatize_mb A junk lxbuff stbuff grbuff w dwsets :=
  py_lemmatize (fun l s g sets => elemmatize A junk (py_text w) (py_count w) l s g sets) lxbuff stbuff grbuff dwsets.
Definition py_lemmatize_wc W A junk lmbuff szlemm szword lxbuff stbuff grbuff w dwsets :=
  py_lemmatize (fun l s g sets => wc_lemmatize W A junk lmbuff szlemm szword (w ++ [0]) (py_count w) l s g sets) lxbuff stbuff grbuff dwsets.
Definition py_elemmatize_wc W A junk lmbuff szlemm szword lxbuff stbuff grbuff w dwsets :=
  py_lemmatize (fun l s g sets => wc_elemmatize W A junk lmbuff szlemm szword (w ++ [0]) (py_count w) l s g sets) lxbuff stbuff grbuff dwsets.

(** build_form *)
Definition py_build_form_mb P A junk stbuff id idform := py_forms (fun out => page_build_form P A junk out id idform) stbuff.
Definition py_ebuild_form_mb A junk stbuff id idform := py_forms (fun out => ebuild_form A junk out id idform) stbuff.
Definition py_build_form_wc W A junk szform stbuff id idform := py_forms (fun out => wc_build_form W A junk szform out id idform) stbuff.
Definition py_ebuild_form_wc W A junk szform stbuff id idform := py_forms (fun out => wc_ebuild_form W A junk szform out id idform) stbuff.

(** find_match of [mlmaruMb] and [mlmaenMb]; the wide classes are not modelled (their strings lie in an array of a function that has
    returned as soon as the callback has). *)
Definition py_find_match_mb {U} (callback : U -> N -> list py_match -> bytes -> U * py_result) P A junk buf sforms w u :=
  py_find_match callback (fun add s => page_find_match P add A junk buf (py_text w) (py_count w) s) sforms u.
Definition py_efind_match_mb {U} (callback : U -> N -> list py_match -> bytes -> U * py_result) A junk buf sforms w u :=
  py_find_match callback (fun add s => efind_match add A junk buf (py_text w) (py_count w) s) sforms u.

(** [mlfaruMb], [mlfaenMb] ([T] the language, [P] the code page - the English ones have one), [mlfaruWc], [mlfaenWc]. *)
Definition py_guess_mb T P rank sort junk F below lojunk lxbuff stbuff grbuff w dwsets :=
  py_guess (fun l s g sets => glemmatize T P rank sort junk F below lojunk (py_text w) (py_count w) l s g sets) lxbuff stbuff grbuff dwsets.
Definition py_guess_wc W T rank sort junk F below lojunk lmbuff szlemm szword lxbuff stbuff grbuff w dwsets :=
  py_guess (fun l s g sets => wg_lemmatize W T F rank sort junk below lojunk lmbuff szlemm szword (w ++ [0]) (py_count w) l s g sets) lxbuff stbuff grbuff dwsets.
Definition py_guess_form_mb T P F lojunk junk stbuff w nclass idform :=
  py_forms (fun out => gbuild_form T P F lojunk junk out (py_text w) (py_count w) nclass idform) stbuff.
Definition py_guess_form_wc W T F lojunk junk slemma szform stbuff w nclass idform :=
  py_forms (fun out => wg_build_form W T F lojunk junk slemma szform out (Some (w ++ [0])) (py_count w) nclass idform) stbuff.
