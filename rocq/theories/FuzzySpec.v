(** * FuzzySpec: what the guesser knows and answers, independently of its code.  SPECIFICATION ONLY. *)
From Coq Require Import Permutation.
From Verif Require Import Base Serial CharTables CapScheme CapSpec GramMap RusRuntime LevelSpec RusSpec RusBuild RusBuildSpec Fuzzy.
Local Open Scope N_scope.

(** ** The index: a tree with compressed edges *)
Inductive ptree := PNode (label : bytes) (value : option (list class_ref)) (kids : list ptree).

Definition plabel (t : ptree) : bytes := match t with PNode l _ _ => l end.

(** Its bytes: lengths of the label, number of nested nodes with the flag of a value in the low bit, the label, the length of the
    rest, the nested nodes, the value. *)
Definition pnode_ser (label : bytes) (value : option (list class_ref)) (nkids : nat) (kids : bytes) : bytes :=
  let v := match value with None => [] | Some l => refs_ser l end in
  putserial (N.of_nat (length label))
  ++ putserial (2 * N.of_nat nkids + (match value with None => 0 | Some _ => 1 end))
  ++ label ++ putserial (N.of_nat (length kids + length v)) ++ kids ++ v.
Fixpoint pser (t : ptree) : bytes :=
  match t with PNode label value kids => pnode_ser label value (length kids) (flat_map pser kids) end.

(** The keys and the values stored under them. *)
Definition extend {V} (label : bytes) (kv : bytes * V) : bytes * V := (label ++ fst kv, snd kv).
Fixpoint contents (t : ptree) : list (bytes * list class_ref) :=
  match t with
  | PNode label value kids =>
      map (extend label) ((match value with None => [] | Some v => [([], v)] end) ++ flat_map contents kids)
  end.

(** Nested nodes have labels whose first characters differ and increase; the root alone may have an empty label. *)
Fixpoint increasing (l : list N) : Prop :=
  match l with [] => True | a :: l' => Forall (fun b => a < b) l' /\ increasing l' end.
Inductive ordered_tree : ptree -> Prop :=
| ordered_node label value kids :
    Forall (fun k => plabel k <> []) kids -> increasing (map (fun k => hd 0 (plabel k)) kids) ->
    Forall ordered_tree kids -> ordered_tree (PNode label value kids).

(** The numbers of a reference fit 32 bits. *)
Definition ref_ok (r : class_ref) : Prop := r_class r < 2 ^ 32 /\ r_power r < 2 ^ 32 /\ r_form r < 256.
Definition refs_ok (t : ptree) : Prop := Forall (fun kv => Forall ref_ok (snd kv)) (contents t).

(** The index is less than 4 GB long. *)
Record sized (t : ptree) : Prop := { sz_all : N.of_nat (length (pser t)) < 2 ^ 32 }.

(** No nested node without a key below it. *)
Inductive pruned : ptree -> Prop :=
| pruned_node l v kids : Forall (fun k => contents k <> []) kids -> Forall pruned kids -> pruned (PNode l v kids).

(** [below] are the bytes of memory before the array that holds the word, nearest first: something is there to read, or no longer
    key of the index begins with the whole word read backwards. *)
Definition readable (below : bytes) (t : ptree) (key : bytes) : Prop :=
  below <> [] \/ (pruned t /\ forall x, In (key ++ x) (map fst (contents t)) -> x = []).

(** ** Endings of a word *)

Definition same (a b : bytes) : bool := if list_eq_dec N.eq_dec a b then true else false.
(** The value stored under a key, nothing if there is none. *)
Definition stored_under (m : list (bytes * list class_ref)) (key : bytes) : list class_ref :=
  match find (fun kv => same (fst kv) key) m with
  | Some kv => snd kv
  | None => []
  end.

(** For the last 0, 1, ... characters of the word in turn, what is stored under them read backwards: pairs of the number of
    characters before the ending and a reference. *)
Definition guesses (m : list (bytes * list class_ref)) (w : bytes) : list (nat * class_ref) :=
  flat_map (fun n => map (pair (length w - n)%nat) (stored_under m (rev (skipn (length w - n) w)))) (seq 0 (S (length w))).

(** ** Classes *)

(** The bytes of a class of the table: part of speech, accent, inflexions, models in the order stored. *)
Definition class_bytes (c : class_src) : bytes :=
  [c_partsp c; if c_accent c then 1 else 0]
  ++ putserial (N.of_nat (length (c_inflex c)))
  ++ flat_map (fun f => fst f :: N.of_nat (length (snd f)) :: snd f) (c_inflex c)
  ++ putserial (N.of_nat (length (c_models c)))
  ++ flat_map (fun m => m_suffix m ++ putserial (m_weight m) ++ putserial (N.of_nat (length (m_sample m))) ++ m_sample m) (c_models c).

(** What can be stored: 64 parts of speech are known, lengths and identifiers fit a byte, suffixes have two characters. *)
Record class_ok (c : class_src) : Prop := {
  co_partsp : c_partsp c < 64;
  co_nflex : N.of_nat (length (c_inflex c)) < 2 ^ 32;
  co_flex : Forall (fun f => fst f < 256 /\ N.of_nat (length (snd f)) < 256 /\ ~ In 0 (snd f)) (c_inflex c);
  co_nmodels : N.of_nat (length (c_models c)) < 2 ^ 32;
  co_models : Forall (fun m => length (m_suffix m) = 2%nat /\ m_weight m < 2 ^ 32 /\ N.of_nat (length (m_sample m)) < 2 ^ 32) (c_models c);
}.

(** Class number [i] is [c]. *)
Definition has_class (F : fuzzy) (i : N) (c : class_src) : Prop :=
  class_ok c /\
  exists pre rest, nth_error (class_offset F) (N.to_nat i) = Some (N.of_nat (length pre)) /\
    class_tables F = pre ++ class_bytes c ++ rest.

(** ** Forms of a guessed word *)

(** The inflexions listed for a form, each after the stem, in the capitalisation of the part of speech. *)
Definition variants (c : class_src) (stem : bytes) (id : N) : list bytes :=
  map (fun f => respell rus_casing (required_case (c_partsp c)) (stem ++ snd f)) (filter (fun f => fst f =? id) (c_inflex c)).

(** Inflexions are listed by form. *)
Fixpoint by_form (l : list (N * bytes)) : Prop :=
  match l with [] => True | f :: l' => Forall (fun g => fst f <= fst g) l' /\ by_form l' end.

(** The last byte of a 64-byte array is a terminator or a delimiter (the hyphen). *)
Definition stopped (junk : bytes) : Prop := exists pre d, junk = pre ++ [d] /\ length pre = 63%nat /\ ctype rus_casing d = 2.

(** ** Lemmatising *)

(** Guesses that follow one another with the same stem and class are reported together. *)
Fixpoint runs (l : list (nat * class_ref)) : list (list (nat * class_ref)) :=
  match l with
  | [] => []
  | g :: l' =>
      match runs l' with
      | (h :: r) :: rs =>
          if Nat.eqb (fst g) (fst h) && (r_class (snd g) =? r_class (snd h)) then (g :: h :: r) :: rs else [g] :: (h :: r) :: rs
      | rs => [g] :: rs
      end
  end.

Definition head_of (r : list (nat * class_ref)) : nat * class_ref := hd (0%nat, ClassRef 0 0 0) r.
(** The stem: what precedes the ending and the two characters of the suffix. *)
Definition stem_len (r : list (nat * class_ref)) : nat := (fst (head_of r) + 2)%nat.
Definition class_no (r : list (nat * class_ref)) : N := r_class (snd (head_of r)).

Section Answer.
  Variable cls : N -> class_src.
  Variable rank : N -> N -> N -> N -> bool -> Z.
  Variable w : bytes.   (* in small letters *)

  (** The normal form: the stem with the first inflexion of the class. *)
  Definition normal_of (r : list (nat * class_ref)) : bytes :=
    let c := cls (class_no r) in
    respell rus_casing (required_case (c_partsp c)) (firstn (stem_len r) w ++ snd (hd (0, []) (c_inflex c))).
  (** The descriptions: the part of speech and the form. *)
  Definition descriptions (r : list (nat * class_ref)) : list gram :=
    map (fun g => Gram (c_partsp (cls (class_no r))) (r_form (snd g)) 0 0) r.
  Definition weight_of (r : list (nat * class_ref)) : Z :=
    let c := cls (class_no r) in let g := snd (head_of r) in
    rank (N.of_nat (length w - fst (head_of r) - 1)) (r_power g) (c_partsp c) (r_form g) (c_accent c).

  (** The stems, the normal forms being stored from offset [fpos] and the descriptions from [gpos] on, if at all. *)
  Fixpoint stems_of (forms grams : bool) (fpos gpos : nat) (rs : list (list (nat * class_ref))) : list stem_info :=
    match rs with
    | [] => []
    | r :: rs' =>
        StemInfo (if forms then Some fpos else None) (N.of_nat (stem_len r)) (class_no r) (if grams then gpos else 0%nat)
                 (if grams then length r else 0%nat) (weight_of r)
        :: stems_of forms grams (fpos + length (normal_of r) + 1) (gpos + length r) rs'
    end.
End Answer.

(** The guesses acceptable for a word in its capitalisation. *)
Definition acceptable_guesses (cls : N -> class_src) (ignore : bool) (w : bytes) (l : list (nat * class_ref)) (l' : list (nat * class_ref)) : Prop :=
  exists ok, (forall g, In g l -> ok g = true <-> (ignore = true \/ suits w (required_case (c_partsp (cls (r_class (snd g))))))) /\
    l' = filter ok l.

(** Sorting by decreasing weight. *)
Fixpoint falling (l : list stem_info) : Prop :=
  match l with [] => True | a :: l' => Forall (fun b => (sweight b <= sweight a)%Z) l' /\ falling l' end.

(** What a lemmatisation needs room for: 64 stems; if they are wanted, normal forms of 63 characters each that fit their array, and the
    descriptions. *)
Definition room_for (cls : N -> class_src) (w : bytes) (pforms : option bytes) (pgrams : option (list gram)) (rs : list (list (nat * class_ref))) : Prop :=
  (length rs <= 64)%nat /\
  match pforms with
  | None => True
  | Some m => Forall (fun r => (length (normal_of cls w r) <= 63)%nat) rs /\ fit (length m) (map (normal_of cls w) rs)
  end /\
  match pgrams with None => True | Some m => (length (flat_map (descriptions cls) rs) <= length m)%nat end.

(** The arrays afterwards. *)
Definition put_front {X} (l mem : list X) : list X := l ++ skipn (length l) mem.

(** A form within the tables of the program: the part of speech is below 47, and the form below the number of those known for it, if
    any. *)
Definition rus_known (psp : N) : N :=
  match psp with
  | 1 => 234 | 25 => 249 | 7 | 13 | 16 | 38 | 39 => 17 | 40 => 16 | 41 => 11 | 42 => 31 | 44 | 45 | 46 => 7 | _ => 0
  end.
Definition known_form (psp form : N) : Prop := psp < 47 /\ (rus_known psp = 0 \/ form < rus_known psp).

(** The arrays of the program hold the index [t], whose keys have 2 to 16 characters, and the classes [cls] the index refers to, each
    with an inflexion. *)
Record guesser (F : fuzzy) (t : ptree) (cls : N -> class_src) : Prop := {
  gu_bytes : exists rest, reverse_dict F = pser t ++ rest;
  gu_sized : sized t;
  gu_ordered : ordered_tree t;
  gu_refs : refs_ok t;
  gu_keys : Forall (fun kv => (2 <= length (fst kv) <= 16)%nat) (contents t);
  gu_classes : forall kv r, In kv (contents t) -> In r (snd kv) ->
    has_class F (r_class r) (cls (r_class r)) /\ c_inflex (cls (r_class r)) <> [] /\ known_form (c_partsp (cls (r_class r))) (r_form r);
}.

(** A word: 1 to 255 characters, none of them NUL, in at most 8 parts. *)
Definition proper (w : bytes) : Prop :=
  is_bytes w /\ w <> [] /\ (length w < 256)%nat /\ (length (parts rus_casing w) <= 8)%nat /\ ~ In 0 w.
Definition is_some {X} (o : option X) : bool := match o with Some _ => true | None => false end.

(** The samples that fit an array of [room] bytes, each terminated: as many as possible, in order. *)
Fixpoint fitting (room : nat) (l : list bytes) : list bytes :=
  match l with
  | [] => []
  | s :: l' => if Nat.ltb (length s) room then s :: fitting (room - length s - 1) l' else []
  end.

(** ** From the sources *)

(** A class as it is compiled: [sort] orders the models. *)
Definition sorted_class (sort : list model_src -> list model_src) (c : class_src) : class_src :=
  ClassSrc (c_partsp c) (c_accent c) (sort (c_models c)) (c_inflex c).
Definition numbered (sort : list model_src -> list model_src) (cs : list class_src) (i : N) : class_src :=
  sorted_class sort (nth (N.to_nat i) cs (ClassSrc 0 false [] [])).

(** The arrays are those the compiler makes of the classes [cs]; the tree [t] holds the same keys and values as the map it fills. *)
Record compiled (sort : list model_src -> list model_src) (cs : list class_src) (t : ptree) (F : fuzzy) : Prop := {
  cm_dict : reverse_dict F = pser t;
  cm_sized : sized t;
  cm_ordered : ordered_tree t;
  cm_index : Permutation (contents t) (index_classes 0 cs []);
  cm_offsets : class_offset F = class_offsets 0 (map (guess_class_ser sort) cs);
  cm_tables : class_tables F = concat (map (guess_class_ser sort) cs);
}.

(** Sources the compiler accepts and the program has tables for: inflexions of at most 14 characters, forms the program knows. *)
Record source_ok (c : class_src) : Prop := {
  so_accepted : class_accepted c = true;
  so_nflex : N.of_nat (length (c_inflex c)) < 2 ^ 32;
  so_flex : Forall (fun f => fst f < 256 /\ (length (snd f) <= 14)%nat /\ ~ In 0 (snd f) /\ known_form (c_partsp c) (fst f)) (c_inflex c);
  so_nmodels : N.of_nat (length (c_models c)) < 2 ^ 32;
  so_models : Forall (fun m => m_weight m < 2 ^ 32 /\ N.of_nat (length (m_sample m)) < 2 ^ 32) (c_models c);
}.

(** The word [w] ends, after [n] characters, with the suffix of a model and an inflexion of class [i]. *)
Definition ends_like (cs : list class_src) (w : bytes) (n : nat) (i : N) (m : model_src) (f : N * bytes) : Prop :=
  exists c, nth_error cs (N.to_nat i) = Some c /\ In m (c_models c) /\ In f (c_inflex c) /\ (n <= length w)%nat /\ skipn n w = m_suffix m ++ snd f.
