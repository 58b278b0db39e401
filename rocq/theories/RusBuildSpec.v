(** * RusBuildSpec: the forms of a lexeme and how they are returned, independently of the code.  SPECIFICATION ONLY. *)
From Verif Require Import Base Serial WordTree TreeSpec FlatScan Stems StemSpec CharTables CapScheme CapSpec GramMap RusRuntime LevelSpec RusSpec.
Local Open Scope N_scope.

(** ** Forms *)

(** A description (g, f) of an ending fits the requested one: same grammar, a common flag. *)
Definition fits_desc (fx : flexinfo) (gf : N * N) : bool := (fst gf =? gramm fx) && negb (N.land (snd gf) (flags fx) =? 0).

(** The endings listed for the requested description, in the order of the table. *)
Definition endings_for (ft : wtree (list (N * N))) (fx : flexinfo) : list bytes :=
  map fst (filter (fun kl => existsb (fits_desc fx) (snd kl)) (entries [] ft)).

(** The first alternation of the level the requested description has. *)
Definition alternation_for (wd : N) (mx : list (N * bytes)) (fx : flexinfo) : option bytes :=
  option_map snd (find (fun ma => N.testbit (fst ma) (alternation_level wd (gramm fx) (flags fx) - 1)) mx).

(** The changing parts a class has for the requested description. *)
Definition tails (c : aclass) (fx : flexinfo) : list bytes :=
  match c_flex c with
  | None => [[]]
  | Some ft =>
      match c_mix c with
      | None => endings_for ft fx
      | Some mx => match alternation_for (c_word c) mx fx with
                   | None => []
                   | Some alt => map (app alt) (endings_for ft fx)
                   end
      end
  end.

(** The forms of the lexeme with stem [key] and record [e], as stored (small letters) ... *)
Definition raw_forms (c : aclass) (key post : bytes) (fx : flexinfo) : list bytes := map (fun t => key ++ t ++ post) (tails c fx).
(** ... and in its capitalisation. *)
Definition forms_of (c : aclass) (key post : bytes) (fx : flexinfo) : list bytes :=
  map (respell rus_casing (min_case c)) (raw_forms c key post fx).

(** Which form identifiers a lexeme of a class has: a fixed word that governs nothing has only 255, any other word those that
    have a description. *)
Definition takes_id (c : aclass) (id : N) : bool :=
  match c_flex c with
  | None => if c_case c =? 0 then id =? 255 else negb (id =? 255) && negb (flexinfo_eq (GetGramInfo (c_word c) id) noflex)
  | Some _ => negb (id =? 255) && negb (flexinfo_eq (GetGramInfo (c_word c) id) noflex)
  end.

(** ** The caller's buffer *)

(** The bytes the strings take, each with its terminator. *)
Definition total (fs : list bytes) : nat := fold_right (fun f n => (length f + 1 + n)%nat) 0%nat fs.

(** The strings fit a buffer of [size] bytes, one more byte being required after the last terminator. *)
Definition fit (size : nat) (fs : list bytes) : Prop := fs = [] \/ (total fs + 1 <= size)%nat.

(** The strings one after another, each terminated. *)
Definition joined (fs : list bytes) : bytes := flat_map (fun f => f ++ [0]) fs.

(** The buffer after the strings have been stored in it: a second terminator follows the last, the rest is untouched. *)
Definition after (fs : list bytes) (mem : bytes) : bytes :=
  match fs with [] => mem | _ => 0 :: skipn (total fs + 1) mem end.
Definition filled (fs : list bytes) (mem : bytes) : bytes := joined fs ++ after fs mem.

(** The forms a lexeme is asked for by number ... *)
Definition requested (c : aclass) (key post : bytes) (id : N) : list bytes :=
  if takes_id c id then forms_of c key post (GetGramInfo (c_word c) id) else [].
(** ... and those a lexeme found in the dictionary is asked for: here every fixed word has 255 and nothing else. *)
Definition found_forms (c : aclass) (key post : bytes) (id : N) : list bytes :=
  if (match c_flex c with None => id =? 255 | Some _ => takes_id c id end) then forms_of c key post (GetGramInfo (c_word c) id) else [].

(** The answer when the strings [fs] are returned in the array [mem], unless [limits] are exceeded or they do not fit. *)
Definition delivered (mem : bytes) (fs : list bytes) (limits : Prop) (r : res (Z * option bytes)) : Prop :=
  (limits /\ fit (length mem) fs -> r = Ok (Z.of_nat (length fs), Some (filled fs mem))) /\
  (~ (limits /\ fit (length mem) fs) -> exists mem', length mem' = length mem /\ r = Ok ((-1)%Z, Some mem')).

(** The intermediate buffer holds 256 bytes. *)
Definition small (fs : list bytes) : Prop := (total fs <= 256)%nat.

(** ** Dictionaries forms can be built from: the walk buffers are long enough and no string contains a NUL. *)
Record buildable (L : lexicon) : Prop := {
  b_stems : within 48 (words L);
  b_post : forall key e, has_record (words L) key e -> ~ In 0 (stpost e);
  b_flex : forall key e st c ft, has_record (words L) key e -> class_of L (oclass e) = Some (st, c) -> c_flex c = Some ft ->
    within 64 ft;
  b_mix : forall key e st c mx, has_record (words L) key e -> class_of L (oclass e) = Some (st, c) -> c_mix c = Some mx ->
    Forall (fun ma => ~ In 0 (snd ma)) mx;
}.

(** ** Dictionaries whose forms are all recognised *)
Record recognisable (L : lexicon) : Prop := {
  r_bounds : bounds_ok L;
  (** "plural only" is an attribute of nouns *)
  r_number : forall key e st c, has_record (words L) key e -> class_of L (oclass e) = Some (st, c) ->
    N.testbit (c_word c) 6 = true -> IsVerb (c_word c) = false /\ IsAdjective (c_word c) = false;
  (** nouns that are both animate and inanimate (types 9, 15, 18) have separate accusatives *)
  r_animacy : forall key e st c ft t g f, has_record (words L) key e -> class_of L (oclass e) = Some (st, c) ->
    In (N.land (c_word c) 63) [9; 15; 18] -> c_flex c = Some ft -> listed ft t g f -> N.land g 0x7000 = 0x3000 ->
    N.testbit f 1 = true -> N.testbit f 0 = false;
  (** a postfix follows a changing part that is not empty, or starts with a letter within the bound (see C11) *)
  r_postfix : forall key e st c fx, has_record (words L) key e -> class_of L (oclass e) = Some (st, c) ->
    Forall (reachable e) (tails c fx);
  (** forms consist of small letters and delimiters *)
  r_letters : forall key e st c fx, has_record (words L) key e -> class_of L (oclass e) = Some (st, c) ->
    Forall (Forall (good_char rus_casing)) (raw_forms c key (stpost e) fx);
}.

(** Spellings whose capitalisation is accepted for a lexeme requiring [min]: at most three parts, none empty, and, when every part
    is to start with a capital, no part of a single letter (see C16). *)
Definition casable (min : N) (w : bytes) : Prop :=
  Forall (fun p => p <> []) (parts rus_casing w) /\ (length (parts rus_casing w) <= 3)%nat /\
  (min = 1 -> length (parts rus_casing w) = 1%nat \/ Forall (fun p => 2 <= length p)%nat (parts rus_casing w)).
