(** * WordTree: the tree the dictionary compilers build and dump.  MODEL ONLY. *)
From Verif Require Import Base Serial.
Local Open Scope N_scope.

(** Width of the child counter, tools/wordtree.h:85-86 [template <class element, class counter = uint8_t>]:
    [C8] for the stem tree and the inflexion trees, [C16] for the lexeme-id tree (tools/buildmorph.h:62-63). *)
Inductive cwidth := C8 | C16.
Definition cbytes (w : cwidth) : N := match w with C8 => 1 | C16 => 2 end.
Definition cflag (w : cwidth) : N := match w with C8 => 0x80 | C16 => 0x8000 end.

(** tools/wordtree.h:88-91: [nested] (each element carries its [chnode]) and [p_data].  The cached field [length]
    is not stored: Serialize and Enumerate only run after GetBufLen on an unchanged tree
    (tools/buildmorph.h:134-172), so it is recomputed. *)
Inductive wtree (A : Type) : Type :=
| WNode (nested : list (N * wtree A)) (p_data : option A).
Arguments WNode {A} nested p_data.

Definition nested {A} (t : wtree A) : list (N * wtree A) := match t with WNode l _ => l end.
Definition p_data {A} (t : wtree A) : option A := match t with WNode _ d => d end.

(** tools/wordtree.h:94 constructor: no children, no data. *)
Definition wempty {A} : wtree A := WNode [] None.

Section Insert.
  Context {A : Type}.
  (** tools/wordtree.h:110-122, the part of [Insert] that finds or makes the child for byte [c]: skip siblings
      with a greater byte, reuse an equal one, otherwise emplace a new one here. [f] is the recursive call. *)
  Fixpoint place (c : N) (f : wtree A -> wtree A) (l : list (N * wtree A)) : list (N * wtree A) :=
    match l with
    | [] => [(c, f wempty)]
    | (c', t') :: l' =>
        if c <? c' then (c', t') :: place c f l'
        else if c' =? c then (c', f t') :: l'
        else (c, f wempty) :: l
    end.

  (** tools/wordtree.h:109-130 [Insert].  The C++ function returns a pointer to the (possibly just default
      constructed) element and every caller updates it through the pointer; here the update [f] is an argument
      and [dflt] is the default-constructed element. *)
  Fixpoint insert (dflt : A) (key : bytes) (f : A -> A) (t : wtree A) : wtree A :=
    match key with
    | [] => WNode (nested t) (Some (f (match p_data t with None => dflt | Some a => a end)))
    | c :: key' => WNode (place c (insert dflt key' f) (nested t)) (p_data t)
    end.

  (** tools/wordtree.h:132-150 [Search].  Dereferencing [end()] is undefined behaviour. The exit test in the
      source is [ptrtop != ptrend || ptrtop->chnode != c]. *)
  Fixpoint skip_greater (c : N) (l : list (N * wtree A)) : list (N * wtree A) :=
    match l with
    | [] => []
    | (c', t') :: l' => if c <? c' then skip_greater c l' else l
    end.
  Definition search (key : bytes) (t : wtree A) : res (option A) :=
    match key with
    | [] => Ok (p_data t)
    | c :: _ =>
        match skip_greater c (nested t) with
        | _ :: _ => Ok None              (* ptrtop != ptrend: return nullptr; the recursive call is unreachable *)
        | [] => Ub                       (* ptrtop == ptrend: ptrtop->chnode reads the end() element *)
        end
    end.
End Insert.

Section Dump.
  Context {A : Type}.
  Variable w : cwidth.
  (** mtc's [::Serialize] / [::GetBufLen] of the element type, supplied by the element (e.g.
      makerus.cpp:334-344); abstract here. *)
  Variable ser : A -> bytes.
  Variable len : A -> N.

  (** tools/wordtree.h:57-75 [storecount]: the number of children with the top bit telling whether data follow,
      little endian.  The [assert] that the count does not reach the flag bit is a precondition. *)
  Definition storecount (c : nat) (has : bool) : bytes :=
    let v := N.lor (N.of_nat c) (if has then cflag w else 0) in
    match w with C8 => [v mod 256] | C16 => putword16 (v mod 2 ^ 16) end.

  (** tools/wordtree.h:152-168 [GetBufLen]. *)
  Fixpoint getbuflen (t : wtree A) : N :=
    match t with
    | WNode l d =>
        cbytes w
        + (fix go (l : list (N * wtree A)) : N :=
             match l with
             | [] => 0
             | (_, t') :: l' => let sub := getbuflen t' in seriallen sub + sub + 1 + go l'
             end) l
        + match d with Some a => len a | None => 0 end
    end.

  (** tools/wordtree.h:170-184 [Serialize]: counter, then for each child its byte, its length and itself, then the
      data. *)
  Fixpoint serialize (t : wtree A) : bytes :=
    match t with
    | WNode l d =>
        storecount (length l) (match d with Some _ => true | None => false end)
        ++ (fix go (l : list (N * wtree A)) : bytes :=
              match l with
              | [] => []
              | (c, t') :: l' => c :: putserial (getbuflen t') ++ serialize t' ++ go l'
              end) l
        ++ match d with Some a => ser a | None => [] end
    end.

  (** tools/wordtree.h:186-201 [Enumerate]: the sequence of (element, offset) pairs passed to [action], and the
      offset reached. *)
  Fixpoint enumerate (t : wtree A) (offset : N) : list (A * N) * N :=
    match t with
    | WNode l d =>
        let '(acts, offset) :=
          (fix go (l : list (N * wtree A)) (offset : N) : list (A * N) * N :=
             match l with
             | [] => ([], offset)
             | (c, t') :: l' =>
                 let '(a1, o1) := enumerate t' (offset + 1 + seriallen (getbuflen t')) in
                 let '(a2, o2) := go l' o1 in (a1 ++ a2, o2)
             end) l (offset + cbytes w) in
        match d with
        | None => (acts, offset)
        | Some a => (acts ++ [(a, offset)], offset + len a)
        end
    end.
End Dump.
