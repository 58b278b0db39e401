(** * GuessSpec: what the guesser answers in every language and code page, independently of its code.  SPECIFICATION ONLY.
    The vocabulary of FuzzySpec.v (the index, its guesses, the classes, runs, descriptions, weights) is used as it is; here is what
    depends on the language or on the code page. *)
From Coq Require Import Permutation.
From Verif Require Import Base Serial CharTables CapScheme CapSpec GramMap RusRuntime LevelSpec RusSpec RusBuild RusBuildSpec Codepage CodepageSpec
  Fuzzy FuzzySpec Guess.
Local Open Scope N_scope.

(** ** Code pages *)

(** windows-1251 as a code page of windows-1251 texts: a byte for a character, and room for a terminator is asked for. *)
Definition plain : encoding := Encoding (fun c => [c]) (fun s => s) 1.
Definition coding (P : page) : encoding := match P with Win1251 => plain | Other E | Utf8 E => E end.
Definition page_ok (P : page) : Prop := encoding_ok (coding P).
(** The text (windows-1251) the caller's bytes stand for. *)
Definition text_of (P : page) (w : bytes) : bytes := dec (coding P) w.

(** ** Words *)

(** A text of 1 to 255 characters, none of them NUL, in at most 8 parts, that the converter takes. *)
Definition proper_in (T : tongue) (P : page) (t : bytes) : Prop :=
  is_bytes t /\ t <> [] /\ (length t < 256)%nat /\ (length t + slack (coding P) <= 256)%nat /\
  (length (parts (tg_casing T) t) <= 8)%nat /\ ~ In 0 t.
Definition low_in (T : tongue) (t : bytes) : bytes := map (locase (tg_casing T)) t.

(** The capitalisation of the part of speech, which English words are not given. *)
Definition cased (T : tongue) (psp : N) (s : bytes) : bytes :=
  match T with Russian => respell rus_casing (required_case psp) s | English => s end.

(** What the array a form is composed in holds beforehand: see [stopped]. *)
Definition workable (T : tongue) (junk : bytes) : Prop := match T with Russian => stopped junk | English => length junk = 64%nat end.

(** ** Forms *)
Definition variants_in (T : tongue) (c : class_src) (stem : bytes) (id : N) : list bytes :=
  map (fun f => cased T (c_partsp c) (stem ++ snd f)) (filter (fun f => fst f =? id) (c_inflex c)).
Definition longest (T : tongue) : nat := match T with Russian => 63 | English => 64 end.

(** ** Lemmatising *)
Section Answer.
  Variable T : tongue.
  Variable P : page.
  Variable cls : N -> class_src.
  Variable rank : N -> N -> N -> N -> bool -> Z.
  Variable low : bytes.

  Definition normal_in (r : list (nat * class_ref)) : bytes :=
    let c := cls (class_no r) in cased T (c_partsp c) (firstn (stem_len r) low ++ snd (hd (0, []) (c_inflex c))).

  (** The length of the stem: in characters; in UTF-8, if normal forms are asked for, in bytes. *)
  Definition stem_size (forms : bool) (r : list (nat * class_ref)) : N :=
    match P with
    | Utf8 E => if forms then N.of_nat (length (encode E (firstn (stem_len r) low))) else N.of_nat (stem_len r)
    | Win1251 | Other _ => N.of_nat (stem_len r)
    end.

  Fixpoint stems_in (forms grams : bool) (fpos gpos : nat) (rs : list (list (nat * class_ref))) : list stem_info :=
    match rs with
    | [] => []
    | r :: rs' =>
        StemInfo (if forms then Some fpos else None) (stem_size forms r) (class_no r) (if grams then gpos else 0%nat)
                 (if grams then length r else 0%nat) (weight_of cls rank low r)
        :: stems_in forms grams (fpos + length (encode (coding P) (normal_in r)) + 1) (gpos + length r) rs'
    end.

  Definition room_in (pforms : option bytes) (pgrams : option (list gram)) (rs : list (list (nat * class_ref))) : Prop :=
    (length rs <= 64)%nat /\
    match pforms with
    | None => True
    | Some m => Forall (fun r => (length (normal_in r) <= 63)%nat) rs /\ fit_in (coding P) (length m) (map normal_in rs)
    end /\
    match pgrams with None => True | Some m => (length (flat_map (descriptions cls) rs) <= length m)%nat end.
End Answer.

(** A guess acceptable in the capitalisation of the word: in Russian the part of speech has its say, in English every part of the
    word need only be in small letters, capitals, or with one capital in front. *)
Definition case_fine (T : tongue) (t : bytes) (psp : N) : Prop :=
  match T with
  | Russian => suits t (required_case psp)
  | English => exists ks, parts_are eng_casing (parts eng_casing t) ks
  end.
Definition acceptable_in (T : tongue) (cls : N -> class_src) (ignore : bool) (t : bytes) (l l' : list (nat * class_ref)) : Prop :=
  exists ok, (forall g, In g l -> ok g = true <-> (ignore = true \/ case_fine T t (c_partsp (cls (r_class (snd g)))))) /\ l' = filter ok l.

(** ** What the arrays hold *)
(** The parts of speech and the numbers of forms known (0: any form). *)
Definition known_parts (T : tongue) : N := match T with Russian => 47 | English => 5 end.
Definition known_count (T : tongue) (psp : N) : N :=
  match T with Russian => rus_known psp | English => match psp with 1 => 4 | 2 => 5 | 3 | 4 => 3 | _ => 0 end end.
Definition known_in (T : tongue) (psp form : N) : Prop := psp < known_parts T /\ (known_count T psp = 0 \/ form < known_count T psp).
Record guesser_in (T : tongue) (F : fuzzy) (t : ptree) (cls : N -> class_src) : Prop := {
  gi_bytes : exists rest, reverse_dict F = pser t ++ rest;
  gi_sized : sized t;
  gi_ordered : ordered_tree t;
  gi_refs : refs_ok t;
  gi_keys : Forall (fun kv => (2 <= length (fst kv) <= 16)%nat) (contents t);
  gi_classes : forall kv r, In kv (contents t) -> In r (snd kv) ->
    has_class F (r_class r) (cls (r_class r)) /\ c_inflex (cls (r_class r)) <> [] /\ known_in T (c_partsp (cls (r_class r))) (r_form r);
}.
(** Sources the compiler accepts and the program of the language has tables for. *)
Record source_in (T : tongue) (c : class_src) : Prop := {
  si_accepted : class_accepted c = true;
  si_nflex : N.of_nat (length (c_inflex c)) < 2 ^ 32;
  si_flex : Forall (fun f => fst f < 256 /\ (length (snd f) <= 14)%nat /\ ~ In 0 (snd f) /\ known_in T (c_partsp c) (fst f)) (c_inflex c);
  si_nmodels : N.of_nat (length (c_models c)) < 2 ^ 32;
  si_models : Forall (fun m => m_weight m < 2 ^ 32 /\ N.of_nat (length (m_sample m)) < 2 ^ 32) (c_models c);
}.

(** ** Samples *)
Fixpoint fitting_in (E : encoding) (room : nat) (l : list bytes) : list bytes :=
  match l with
  | [] => []
  | s :: l' =>
      if Nat.leb (length (encode E s) + slack E) room then s :: fitting_in E (room - length (encode E s) - 1) l' else []
  end.

(** Small letters take as many bytes as the letters they stand for. *)
Definition same_width (T : tongue) (E : encoding) : Prop :=
  forall c, c < 256 -> length (enc E (locase (tg_casing T) c)) = length (enc E c).

(** The bytes of the characters are counted as the program counts them: in UTF-8 small letters take as many bytes as capitals, in
    the other code pages a character takes one byte. *)
Definition aligned (T : tongue) (P : page) : Prop :=
  match P with Win1251 => True | Other E => forall c, c < 256 -> length (enc E c) = 1%nat | Utf8 E => same_width T E end.
