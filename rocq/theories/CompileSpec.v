(** * CompileSpec: what the sources of a dictionary mean.  SPECIFICATION ONLY. *)
From Verif Require Import Base Serial WordTree TreeSpec Stems StemSpec CharTables CapScheme CapSpec GramMap RusRuntime LevelSpec RusSpec Compile.
Local Open Scope N_scope.

(** ** Compact inflexion tables *)

(** An element: flags, grammar, text with its length, and the reference when the flags have one. *)
Definition item_ser (it : flexitem) : bytes :=
  fi_flags it :: putword16 (fi_info it) ++ N.of_nat (length (fi_text it)) :: fi_text it
  ++ (if N.land (fi_flags it) 0xc0 =? 0 then [] else putword16 (fi_next it)).
Definition item_ok (it : flexitem) : Prop :=
  fi_flags it < 256 /\ fi_info it < 2 ^ 16 /\ (length (fi_text it) < 256)%nat /\ is_bytes (fi_text it) /\ fi_next it < 2 ^ 16 /\
  (N.land (fi_flags it) 0xc0 = 0 -> fi_next it = 0).

(** The table number [off] consists of [items]. *)
Definition table_at (tables : bytes) (off : N) (items : list flexitem) : Prop :=
  Forall item_ok items /\ (length items < 256)%nat /\
  exists pre rest, tables = pre ++ N.of_nat (length items) :: flat_map item_ser items ++ rest /\ N.of_nat (length pre) = 2 * off.

(** [s] is an ending of table [off] described by (g, f): the texts along a chain of tables; grammar adds up, flags must agree.  An
    element marked with bit 7 does not end a chain. *)
Inductive ending (tables : bytes) : N -> bytes -> N -> N -> Prop :=
| ending_here off items it : table_at tables off items -> In it items -> N.testbit (fi_flags it) 7 = false ->
    ending tables off (fi_text it) (fi_info it) (fi_flags it)
| ending_further off items it s g f : table_at tables off items -> In it items -> fi_next it <> 0 -> ending tables (fi_next it) s g f ->
    ending tables off (fi_text it ++ s) (N.lor (fi_info it) g) (N.land (fi_flags it) f).

(** The table of alternations at [off]. *)
Definition mix_at (mtable : bytes) (off : N) (mx : list (N * bytes)) : Prop :=
  mix_ok mx /\ exists pre rest, mtable = pre ++ mix_ser mx ++ rest /\ N.of_nat (length pre) = off.

(** ** Lexemes *)

(** Words of class [m] change. *)
Definition inflected (m : morphclass) : bool := negb (m_tfoffs m =? 0) && negb (m_wdinfo m mod 64 =? 51).

(** "Plural only" (bit 6). *)
Definition number_agrees (m : morphclass) (g : N) : Prop := N.testbit (m_wdinfo m) 6 = true -> plural_of g = true.

(** [part] is the changing part of a form (g, f) of the words of class [m]. *)
Inductive changing (ftable mtable : bytes) (m : morphclass) : bytes -> N -> N -> Prop :=
| changing_never : inflected m = false -> changing ftable mtable m [] (m_tfoffs m) 0
| changing_ending s g f : inflected m = true -> m_mtoffs m = 0 -> ending ftable (m_tfoffs m) s g f -> number_agrees m g ->
    changing ftable mtable m s g f
| changing_mixed mx mask alt s g f : inflected m = true -> m_mtoffs m <> 0 -> mix_at mtable (m_mtoffs m) mx -> In (mask, alt) mx ->
    N.testbit mask (alternation_level (m_wdinfo m) g f - 1) = true -> ending ftable (m_tfoffs m) s g f -> number_agrees m g ->
    changing ftable mtable m (alt ++ s) g f.

(** [w] in small letters is a form (g, f) of lexeme [x]. *)
Definition form_of (ftable mtable : bytes) (x : lexeme) (w : bytes) (part : bytes) (g f : N) : Prop :=
  changing ftable mtable (l_class x) part g f /\ w = l_stem x ++ part ++ l_post x.

(** Sources the formats can hold. *)
Record lexeme_ok (ftable mtable : bytes) (alphabet : bytes) (x : lexeme) : Prop := {
  lo_stem : incl (l_stem x) alphabet;
  lo_bounds : l_min x < 256 /\ l_max x < 256;
  lo_id : l_id x < 2 ^ 32;
  lo_post : is_bytes (l_post x) /\ N.of_nat (length (l_post x)) < 128;
  (** types and attributes take 13 bits; a preposition has no attributes and governs some case *)
  lo_class : m_wdinfo (l_class x) < 2 ^ 13 /\ m_tfoffs (l_class x) < 2 ^ 16;
  lo_prep : m_wdinfo (l_class x) mod 64 = 51 -> m_wdinfo (l_class x) = 51 /\ m_tfoffs (l_class x) <> 0;
  lo_mix : m_mtoffs (l_class x) = 0 \/ m_mtoffs (l_class x) < 2 ^ 16 /\ exists mx, mix_at mtable (m_mtoffs (l_class x)) mx;
  (** endings are words of the alphabet with at most 64 descriptions each *)
  lo_endings : inflected (l_class x) = true -> forall s g f, ending ftable (m_tfoffs (l_class x)) s g f -> incl s alphabet;
  lo_descs : inflected (l_class x) = true -> forall s l, NoDup l ->
    (forall gf, In gf l -> ending ftable (m_tfoffs (l_class x)) s (fst gf) (snd gf)) -> (length l <= 64)%nat;
}.

(** At most 127 letters, none of them the byte 0. *)
Definition alphabet_ok (alphabet : bytes) : Prop := is_bytes alphabet /\ ~ In 0 alphabet /\ (length alphabet < 128)%nat.

Record sources_ok (ftable mtable : bytes) (xs : list lexeme) : Prop := {
  so_bytes : is_bytes ftable;
  so_count : N.of_nat (length xs) < 2 ^ 32;
  so_lexemes : exists alphabet, alphabet_ok alphabet /\ Forall (lexeme_ok ftable mtable alphabet) xs;
}.

(** The arrays are within the range of the references stored in them. *)
Definition arrays_fit (A : arrays) : Prop :=
  N.of_nat (length (flexTree A)) <= 2 ^ 20 /\ N.of_nat (length (classmap A)) <= 2 ^ 15 /\ N.of_nat (length (stemtree A)) < 2 ^ 32.

(** Class [c] of the compiled lexicon is class [m] of the sources. *)
Record class_means (ftable mtable : bytes) (m : morphclass) (c : aclass) : Prop := {
  cm_word : c_word c mod 2 ^ 13 = m_wdinfo m;
  cm_forms : forall part g f, form_part c part g f <-> changing ftable mtable m part g f;
  cm_table : match c_flex c with
             | None => inflected m = false /\ c_case c = m_tfoffs m
             | Some ft => inflected m = true /\ (forall s g f, listed ft s g f <-> ending ftable (m_tfoffs m) s g f) /\
                 (forall n, (forall s g f, ending ftable (m_tfoffs m) s g f -> (length s <= n)%nat) -> within n ft)
             end;
  cm_mix : match c_mix c with
           | None => m_mtoffs m = 0
           | Some mx => m_mtoffs m <> 0 /\ mix_at mtable (m_mtoffs m) mx
           end;
}.

(** The lexicon consists of the records of the sources' lexemes. *)
Record compiled_from (ftable mtable : bytes) (xs : list lexeme) (L : lexicon) : Prop := {
  cf_all : forall x, In x xs -> exists off st c,
    has_record (words L) (l_stem x) (Entry (l_min x) (l_max x) (l_id x) off (l_post x)) /\
    class_of L off = Some (st, c) /\ class_means ftable mtable (l_class x) c;
  cf_only : forall key e, has_record (words L) key e -> exists x st c, In x xs /\ key = l_stem x /\
    e = Entry (l_min x) (l_max x) (l_id x) (oclass e) (l_post x) /\ class_of L (oclass e) = Some (st, c) /\ class_means ftable mtable (l_class x) c;
  cf_deep : forall n, Forall (fun x => (length (l_stem x) <= n)%nat) xs -> within n (words L);
}.

(** The first-letter bounds of [x] cover its changing parts. *)
Definition bounds_cover (ftable mtable : bytes) (x : lexeme) : Prop :=
  forall c rest g f, changing ftable mtable (l_class x) (c :: rest) g f -> l_min x <= c <= l_max x.

(** Spelling [w] is form (g, f) of lexeme [x] of the sources, in acceptable capitalisation unless capitals are ignored. *)
Definition source_word (ftable mtable : bytes) (xs : list lexeme) (ignore : bool) (w : bytes) (x : lexeme) (part : bytes) (g f : N) : Prop :=
  In x xs /\ form_of ftable mtable x (map (locase rus_casing) w) part g f /\
  (ignore = false -> suits w (required_case (m_wdinfo (l_class x)))).


(** ** The class table and its use *)

(** Classes are added one after another; the offsets returned. *)
Fixpoint add_all (t : classtable) (ms : list morphclass) : option (classtable * list N) :=
  match ms with
  | [] => Some (t, [])
  | m :: ms' => match add_class t m with
                | None => None
                | Some (t', off) => match add_all t' ms' with None => None | Some (t'', offs) => Some (t'', off :: offs) end
                end
  end.
Definition no_classes : classtable := Classtable [] 0.

(** The description read by the analyser at [p] means class [m]. *)
Definition reads_as (p : bytes) (m : morphclass) : Prop :=
  exists st, load p = Ok st /\ wdinfo st mod 2 ^ 13 = m_wdinfo m /\ tfoffs st = m_tfoffs m /\ mtoffs st = m_mtoffs m.

(** What the description can hold: 13 bits of type and attributes, 16-bit references; a preposition governs some case. *)
Definition describable (m : morphclass) : Prop :=
  m_wdinfo m < 2 ^ 13 /\ m_tfoffs m < 2 ^ 16 /\ m_mtoffs m < 2 ^ 16 /\ (m_wdinfo m mod 64 = 51 -> m_tfoffs m <> 0).
