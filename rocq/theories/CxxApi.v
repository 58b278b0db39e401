(** * CxxApi: the C++ classes of api.hpp, which wrap the interfaces of api.h.  MODEL ONLY.
    The narrow ([char]) instances of the templates, over the interfaces modelled in RusBuild.v, EngRuntime.v and Fuzzy.v.  The
    overloads that only pass a pair (pointer, length) on (api.hpp:204-221, 252-257, 273-278, 294-323, 333-337, 359-371, 400-417)
    are the calls of those models; [inword] (api.hpp:147-157) is their pair [psz], [cch], the length defaulting to [(size_t)-1].
    The local arrays are uninitialised: what they hold is an argument. *)
From Verif Require Import Base CapScheme GramMap RusRuntime RusBuild EngRuntime Fuzzy.
Local Open Scope N_scope.

(** ** Strings *)

(** api.hpp:267-268, 288-289, 349-353, 427-428: [n] strings are taken from [strptr] on, the next after the terminator of the
    previous.  [std::string( p )] reads up to the terminator. *)
Fixpoint take_strings (n : nat) (strptr : bytes) : res (list bytes) :=
  match n with
  | O => Ok []
  | S n' =>
      let! s := cstr strptr in
      let! next := advance (N.of_nat (length s) + 1) strptr in
      let! more := take_strings n' next in
      Ok (s :: more)
  end.

(** api.hpp:259-271 [BuildForm], 280-292 [FindForms], 419-431 [BuildForm] of the guesser: [nforms-- > 0] makes a negative result no
    iteration.  [call] is the call of the interface, [buffer] the local array of 256 bytes. *)
Definition strings_from (call : option bytes -> res (Z * option bytes)) (buffer : bytes) : res (list bytes) :=
  let! (nforms, out) := call (Some buffer) in
  match out with
  | None => Ub
  | Some mem => take_strings (Z.to_nat nforms) mem
  end.

(** api.hpp:259-271 for the dictionaries *)
Definition cxx_build_form (A : arrays) (junk buffer : bytes) (nlexid idform : N) : res (list bytes) :=
  strings_from (fun out => build_form A junk out nlexid idform) buffer.
Definition cxx_ebuild_form (A : earrays) (junk buffer : bytes) (nlexid idform : N) : res (list bytes) :=
  strings_from (fun out => ebuild_form A junk out nlexid idform) buffer.

(** api.hpp:280-292 *)
Definition cxx_find_forms (A : arrays) (junk buffer : bytes) (psz : option bytes) (cch idform dwsets : N) : res (list bytes) :=
  strings_from (fun out => find_forms A junk out psz cch idform dwsets) buffer.
Definition cxx_efind_forms (A : earrays) (junk buffer : bytes) (psz : option bytes) (cch idform dwsets : N) : res (list bytes) :=
  strings_from (fun out => efind_forms A junk out psz cch idform dwsets) buffer.

(** api.hpp:419-431 *)
Definition cxx_fuzzy_build_form (F : fuzzy) (lojunk junk buffer : bytes) (psz : option bytes) (cch nclass idform : N) : res (list bytes) :=
  strings_from (fun out => fuzzy_build_form F lojunk junk out psz cch nclass idform) buffer.

(** api.hpp:339-357 [GetModels]: the local array has 1024 bytes; no string unless the result is positive. *)
Definition cxx_models (F : fuzzy) (models : bytes) (uclass : N) : res (list bytes) :=
  let! (mcount, out) := fuzzy_models F (Some models) uclass in
  if (0 <? mcount)%Z
  then match out with None => Ub | Some mem => take_strings (Z.to_nat mcount) mem end
  else Ok [].

(** api.hpp:196-202, 325-331 [GetWdInfo]: [wdinfo] is read if the result is positive; reading it when nothing was stored would be
    undefined. *)
Definition wd_info_from (r : res (Z * option N)) : res N :=
  let! (z, stored) := r in
  if (0 <? z)%Z then match stored with None => Ub | Some b => Ok b end else Ok 0.
Definition cxx_wd_info (A : arrays) (junk : bytes) (id : N) : res N := wd_info_from (get_wd_info A junk id).
Definition cxx_ewd_info (A : earrays) (junk : bytes) (id : N) : res N := wd_info_from (eget_wd_info A junk id).
Definition cxx_fuzzy_wd_info (F : fuzzy) (uclass : N) : res N := wd_info_from (fuzzy_wd_info F true uclass).

(** ** Lexemes *)

(** Where a pointer of a lexeme points: nowhere, into a local array of the function that built it (at an offset), to the string or
    the vector the object itself owns. *)
Inductive ptr := PNull | PLocal (at_ : nat) | POwn.

(** api.hpp:172-194 [lexeme]: the base [SLemmInfoA] or [SStemInfoA] - its pointers, its count of descriptions, and its other fields
    as an [X] - with the string and the vector owned. *)
Record cxx_info (X : Type) := Info { i_rest : X; i_plemma : ptr; i_pgrams : ptr; i_ngrams : nat }.
Arguments Info {X} _ _ _ _. Arguments i_rest {X} _. Arguments i_plemma {X} _. Arguments i_pgrams {X} _. Arguments i_ngrams {X} _.
Record cxx_lexeme (X : Type) := CLexeme { x_info : cxx_info X; x_lemma : bytes; x_grams : list gram }.
Arguments CLexeme {X} _ _ _. Arguments x_info {X} _. Arguments x_lemma {X} _. Arguments x_grams {X} _.

Section Lexemes.
  Context {X : Type}.

  (** api.hpp:176-182, the converting constructor; the pointers given point into the local arrays [st] and [gr]. *)
  Definition lexeme_from (st : bytes) (gr : list gram) (i : cxx_info X) : res (cxx_lexeme X) :=
    let! (plemma, lemma) :=
      match i_plemma i with
      | PNull => Ok (PNull, [])
      | POwn => Ub
      | PLocal k => let! p := advance (N.of_nat k) st in let! s := cstr p in Ok (POwn, s)
      end in
    let! (pgrams, grams) :=
      (if Nat.eqb (i_ngrams i) 0 then Ok (i_pgrams i, [])
       else match i_pgrams i with
            | PLocal k => if Nat.ltb (length gr) (k + i_ngrams i) then Ub else Ok (POwn, firstn (i_ngrams i) (skipn k gr))
            | _ => Ub
            end) in
    Ok (CLexeme (Info (i_rest i) plemma pgrams (i_ngrams i)) lemma grams).

  (** api.hpp:183-189, the move constructor; having it declared, the class has no copy constructor. *)
  Definition lexeme_moved (x : cxx_lexeme X) : cxx_lexeme X :=
    CLexeme (Info (i_rest (x_info x)) POwn POwn (i_ngrams (x_info x))) (x_lemma x) (x_grams x).

  (** [push_back] of a temporary: it is moved into the vector; when the vector grows ([grow], at the discretion of the library) the
      elements before are moved as well. *)
  Definition push_back (grow : bool) (output : list (cxx_lexeme X)) (x : cxx_lexeme X) : list (cxx_lexeme X) :=
    (if grow then map lexeme_moved output else output) ++ [lexeme_moved x].

  (** api.hpp:237-238, 385-386: one lexeme per element; [grow] tells of every size whether the vector grows then. *)
  Fixpoint push_all (grow : nat -> bool) (st : bytes) (gr : list gram) (infos : list (cxx_info X)) (output : list (cxx_lexeme X))
    : res (list (cxx_lexeme X)) :=
    match infos with
    | [] => Ok output
    | i :: infos' =>
        let! x := lexeme_from st gr i in
        push_all grow st gr infos' (push_back (grow (length output)) output x)
    end.

  (** api.hpp:242-249, 390-397: what is thrown, by the text passed. *)
  Inductive thrown := InvalidString | NoFormsSpace | NoStemsSpace | NoGramsSpace | UnknownError.
  Definition thrown_for (nbuilt : Z) : thrown :=
    if Z.eqb nbuilt (-4) then InvalidString else if Z.eqb nbuilt (-1) then NoFormsSpace
    else if Z.eqb nbuilt (-2) then NoStemsSpace else if Z.eqb nbuilt (-3) then NoGramsSpace else UnknownError.
  Inductive outcome := Returned (output : list (cxx_lexeme X)) | Thrown (e : thrown).

  (** api.hpp:231-250, 379-398: [infos] are the elements of the first array; iterating beyond it is undefined. *)
  Definition lexemes_from (grow : nat -> bool) (nbuilt : Z) (infos : list (cxx_info X)) (st : bytes) (gr : list gram) : res outcome :=
    if (0 <=? nbuilt)%Z
    then if Nat.ltb (length infos) (Z.to_nat nbuilt) then Ub
         else let! output := push_all grow st gr (firstn (Z.to_nat nbuilt) infos) [] in Ok (Returned output)
    else Ok (Thrown (thrown_for nbuilt)).
End Lexemes.
Arguments outcome X : clear implicits.

(** api.h [SLemmInfoA] as the interface fills it. *)
Definition lemm_info (m : lemm) : cxx_info N :=
  Info (lm_id m) (match lm_form m with None => PNull | Some k => PLocal k end) (PLocal (N.to_nat (lm_grams m))) (N.to_nat (lm_ngrams m)).

(** api.hpp:223-250 [Lemmatize]: [lxbuff], [stbuff], [grbuff] have 32, 256 and 64 elements. *)
Definition cxx_lemmatize (A : arrays) (junk : bytes) (grow : nat -> bool) (lxbuff : list lemm) (stbuff : bytes) (grbuff : list gram)
  (psz : option bytes) (cch dwsets : N) : res (outcome N) :=
  let! (nbuilt, (lx, st, gr)) := lemmatize A junk psz cch (Some lxbuff) (Some stbuff) (Some grbuff) dwsets in
  match lx, st, gr with
  | Some lx, Some st, Some gr => lexemes_from grow nbuilt (map lemm_info lx) st gr
  | _, _, _ => Ub
  end.
Definition cxx_elemmatize (A : earrays) (junk : bytes) (grow : nat -> bool) (lxbuff : list lemm) (stbuff : bytes) (grbuff : list gram)
  (psz : option bytes) (cch dwsets : N) : res (outcome N) :=
  let! (nbuilt, (lx, st, gr)) := elemmatize A junk psz cch (Some lxbuff) (Some stbuff) (Some grbuff) dwsets in
  match lx, st, gr with
  | Some lx, Some st, Some gr => lexemes_from grow nbuilt (map lemm_info lx) st gr
  | _, _, _ => Ub
  end.

(** api.h [SStemInfoA]: the length of the stem, the class and the weight beside the pointers. *)
Definition stem_rest (s : stem_info) : N * N * Z := (sccstem s, snclass s, sweight s).
Definition stem_of_info (s : stem_info) : cxx_info (N * N * Z) :=
  Info (stem_rest s) (match splemma s with None => PNull | Some k => PLocal k end) (PLocal (spgrams s)) (sngrams s).

(** api.hpp:373-398 [Lemmatize] of the guesser: [astems], [aforms], [agrams] have 32, 512 and 80 elements. *)
Definition cxx_fuzzy_lemmatize (rank : N -> N -> N -> N -> bool -> Z) (sort : list stem_info -> list stem_info) (junk : nat -> bytes)
  (F : fuzzy) (below lojunk : bytes) (grow : nat -> bool) (astems : list stem_info) (aforms : bytes) (agrams : list gram)
  (psz : option bytes) (cch dwsets : N) : res (outcome (N * N * Z)) :=
  let! (nbuilt, lx, st, gr) := fuzzy_lemmatize rank sort junk F below lojunk psz cch (Some astems) (Some aforms) (Some agrams) dwsets in
  match lx, st, gr with
  | Some lx, Some st, Some gr => lexemes_from grow nbuilt (map stem_of_info lx) st gr
  | _, _, _ => Ub
  end.

(** api.hpp:433-437 [BuildForm( const StemType&, formid_t )] of a lexeme: the first [ccstem] characters of its normal form, which it
    owns (followed by the terminator [c_str] guarantees), and its class. *)
Definition cxx_fuzzy_build_of (F : fuzzy) (lojunk junk buffer : bytes) (x : cxx_lexeme (N * N * Z)) (idform : N) : res (list bytes) :=
  let '(ccstem, nclass, _) := i_rest (x_info x) in
  match i_plemma (x_info x) with
  | PLocal _ => Ub
  | PNull => cxx_fuzzy_build_form F lojunk junk buffer None ccstem nclass idform
  | POwn => cxx_fuzzy_build_form F lojunk junk buffer (Some (x_lemma x ++ [0])) ccstem nclass idform
  end.

(** ** Handles *)

(** api.hpp:441-465 [Morpho]: calls made to the interfaces. *)
Inductive event := Create (i : nat) | Attach (i : nat) | Detach (i : nat).

(** api.hpp:457-464 [Assign]: the events, and what the handle holds then. *)
Definition assign (held : option nat) (p : option nat) : list event * option nat :=
  ((match held with Some i => [Detach i] | None => [] end) ++ (match p with Some i => [Attach i] | None => [] end), p).

(** api.hpp:447-451.  Handles are numbered in the order of construction; a handle that has been destroyed is [None].  An operation on
    a handle that does not exist is no operation of a program: [None]. *)
Inductive hop :=
| HNew                     (* Morpho() *)
| HFrom (p : option nat)   (* Morpho( IMlma* ) *)
| HCopy (m : nat)          (* Morpho( const Morpho& ) *)
| HAssign (h m : nat)      (* h = m *)
| HDestroy (h : nat).      (* ~Morpho() *)

Definition handles := list (option (option nat)).
Definition handle (s : handles) (h : nat) : option (option nat) := match nth_error s h with Some x => x | None => None end.
Fixpoint set_handle (s : handles) (h : nat) (x : option (option nat)) : handles :=
  match s, h with
  | [], _ => []
  | _ :: s', O => x :: s'
  | y :: s', S h' => y :: set_handle s' h' x
  end.
Definition hstep (s : handles) (o : hop) : option (list event * handles) :=
  match o with
  | HNew => Some ([], s ++ [Some None])
  | HFrom p => let (ev, x) := assign None p in Some (ev, s ++ [Some x])
  | HCopy m => match handle s m with None => None | Some p => let (ev, x) := assign None p in Some (ev, s ++ [Some x]) end
  | HAssign h m =>
      match handle s h, handle s m with
      | Some held, Some p => let (ev, x) := assign held p in Some (ev, set_handle s h (Some x))
      | _, _ => None
      end
  | HDestroy h => match handle s h with None => None | Some held => Some (fst (assign held None), set_handle s h None) end
  end.
Fixpoint hrun (s : handles) (os : list hop) : option (list event * handles) :=
  match os with
  | [] => Some ([], s)
  | o :: os' =>
      match hstep s o with
      | None => None
      | Some (ev, s') => match hrun s' os' with None => None | Some (ev', s'') => Some (ev ++ ev', s'') end
      end
  end.

(** lang-ukr/libdict/mlmamain.cpp:393-409 [CMlmaCp::Attach], [CMlmaCp::Detach]: an interface that counts its references and frees itself
    when the last is gone; [None] is one that does not exist (the other libraries have static objects and count nothing).  A call of
    an object that does not exist is undefined.  The constructor sets the counter to 0. *)
Definition life := nat -> option Z.
Definition set_life (l : life) (i : nat) (x : option Z) : life := fun j => if Nat.eqb j i then x else l j.
Definition live_step (l : life) (e : event) : res life :=
  match e with
  | Create i => match l i with None => Ok (set_life l i (Some 0%Z)) | Some _ => Ub end
  | Attach i => match l i with None => Ub | Some n => Ok (set_life l i (Some (n + 1)%Z)) end
  | Detach i => match l i with None => Ub | Some n => Ok (set_life l i (if Z.eqb (n - 1) 0 then None else Some (n - 1)%Z)) end
  end.
Fixpoint live_run (l : life) (evs : list event) : res life :=
  match evs with
  | [] => Ok l
  | e :: evs' => let! l' := live_step l e in live_run l' evs'
  end.

(** A program: it loads interfaces (mlmamain.cpp:640-646, a reference of its own), gives up references of its own, and uses handles. *)
Inductive pop := Load (i : nat) | Release (i : nat) | Use (o : hop).
Definition pstep (s : handles) (p : pop) : option (list event * handles) :=
  match p with
  | Load i => Some ([Create i; Attach i], s)
  | Release i => Some ([Detach i], s)
  | Use o => hstep s o
  end.
