(** * EngCompileSpec: what the source files of the English dictionary say, independently of the code.  SPECIFICATION ONLY. *)
From Coq Require Import String Ascii.
From Verif Require Import Base Serial WordTree TreeSpec Stems StemSpec CharTables CapScheme CapSpec RusRuntime RusSpec RusBuildSpec EngRuntime EngSpec Api.
Local Open Scope N_scope.
Local Open Scope list_scope.
Notation length := List.length.

(** ** Articles *)

(** An article: the unchanging beginning and end of the word, the endings of its forms (form number i has the alternatives in place i),
    the part of speech, the lexeme id.  A word without forms never changes. *)
Record article := Article { a_stem : bytes; a_post : bytes; a_forms : option (list (list bytes)); a_part : N; a_id : N }.

(** How articles are written: [brother-in-law|0|s|'s|s' N post:-in-law LID:44344]. *)
Definition blank (c : N) : Prop := c = 9 \/ c = 32.
Definition line_end (c : N) : Prop := blank c \/ c = 10 \/ c = 13.
Definition visible (c : N) : Prop := 32 < c < 127.

(** Stems and postfixes: visible characters but the bar and the colon. *)
Definition word_text (s : bytes) : Prop := Forall (fun c => visible c /\ c <> 124 /\ c <> 58) s.
(** Endings: ... and but the slash; the first is not the digit 0. *)
Definition ending_text (e : bytes) : Prop :=
  Forall (fun c => visible c /\ c <> 124 /\ c <> 58 /\ c <> 47) e /\ hd 0 e <> 48.
(** The empty ending is written 0; alternatives are separated by slashes; a form that does not exist is a hyphen. *)
Definition put_ending (e : bytes) : bytes := match e with [] => [48] | _ => e end.
Fixpoint put_alts (l : list bytes) : bytes :=
  match l with [] => [] | [e] => put_ending e | e :: l' => put_ending e ++ 47 :: put_alts l' end.
Definition put_form (l : list bytes) : bytes := match l with [] => [45] | _ => put_alts l end.
Definition put_forms (o : option (list (list bytes))) : bytes :=
  match o with None => [] | Some forms => flat_map (fun l => 124 :: put_form l) forms end.

(** The names of the parts of speech, by their numbers. *)
Definition part_tags : list string :=
  ["unknown"; "N"; "V"; "A"; "ADV"; "NUM"; "INT"; "CONJ"; "PREP"; "REFL"; "PERS"; "INDEF"; "POSS"; "DEMO"; "REL"; "ART"; "PARTICLE";
   "INTER"; "NAME"; "V_BE"]%string.

(** [t] is the number [n] in decimal. *)
Definition decimal (t : bytes) (n : N) : Prop :=
  Forall (fun c => 48 <= c <= 57) t /\ t <> [] /\ hd 0 t <> 48 /\ fold_left (fun a c => 10 * a + (c - 48)) t 0 = n.

(** [t] is the number [n] in octal after a zero. *)
Definition octal (t : bytes) (n : N) : Prop :=
  exists u, t = 48 :: u /\ Forall (fun c => 48 <= c <= 55) u /\ fold_left (fun a c => 8 * a + (c - 48)) u 0 = n.
(** [t] is the number [n] in hexadecimal after "0x" or "0X". *)
Definition hexadecimal (t : bytes) (n : N) : Prop :=
  exists x u, t = 48 :: x :: u /\ (x = 120 \/ x = 88) /\ u <> [] /\
    Forall (fun c => 48 <= c <= 57 \/ 97 <= c <= 102 \/ 65 <= c <= 70) u /\
    fold_left (fun a c => 16 * a + (if c <? 58 then c - 48 else if c <? 71 then c - 55 else c - 87)) u 0 = n.
Definition numeral (t : bytes) (n : N) : Prop := decimal t n \/ octal t n \/ hexadecimal t n.

(** The postfix is repeated in a clause of its own. *)
Inductive put_post : bytes -> bytes -> Prop :=
| put_none : put_post [] []
| put_some post sp sp' : post <> [] -> Forall blank sp -> sp <> [] -> Forall blank sp' -> put_post post (sp ++ text "post:" ++ sp' ++ post).

Record article_ok (x : article) : Prop := {
  ao_stem : word_text (a_stem x);
  ao_post : word_text (a_post x);
  ao_some : a_stem x ++ a_post x <> [] \/ a_forms x <> None;
  ao_comment : firstn 2 (a_stem x ++ a_post x) <> text "//";
  ao_forms : forall forms, a_forms x = Some forms -> forms <> [] /\ Forall (fun l => l <> [[45]] /\ Forall ending_text l) forms;
  ao_id : 0 < a_id x < 2 ^ 32;
}.

(** The text of article [x], and a line with it; the compiler's arrays hold 255 characters. *)
Inductive article_text (x : article) : bytes -> Prop :=
| At_all sp1 tag pc sp3 num :
    Forall blank sp1 -> sp1 <> [] -> nth_error part_tags (N.to_nat (a_part x)) = Some tag -> put_post (a_post x) pc ->
    Forall blank sp3 -> sp3 <> [] -> numeral num (a_id x) ->
    article_text x (a_stem x ++ a_post x ++ put_forms (a_forms x) ++ sp1 ++ text tag ++ pc ++ sp3 ++ text "LID:" ++ num).
Definition written (x : article) (line : bytes) : Prop :=
  article_ok x /\ exists sp0 body sp4, line = sp0 ++ body ++ sp4 /\ Forall blank sp0 /\ Forall line_end sp4 /\ article_text x body /\
    (length body < 256)%nat.

(** Lines without an article: white space, comments, lines without a lexeme id. *)
Definition no_article (line : bytes) : Prop :=
  Forall (fun c => c <= 32) line \/ (exists sp rest, Forall blank sp /\ line = sp ++ text "//" ++ rest) \/
  (forall a b, line <> a ++ text "LID:" ++ b).

(** The lines of the files contain the articles [xs]. *)
Inductive lists : list bytes -> list article -> Prop :=
| lists_nil : lists [] []
| lists_none line lines xs : no_article line -> lists lines xs -> lists (line :: lines) xs
| lists_one line lines x xs : written x line -> lists lines xs -> lists (line :: lines) (x :: xs).

(** ** Meaning *)

Definition capital (c : N) : bool := (65 <=? c) && (c <=? 90).
Definition to_small (s : bytes) : bytes := map (fun c => if capital c then c + 32 else c) s.

(** [part] is the changing part of form [id] of article [x]; the number of a form is its place, a fixed word has the number 255. *)
Inductive aform (x : article) : bytes -> N -> Prop :=
| aform_fixed : a_forms x = None -> aform x [] 255
| aform_listed forms i alts e : a_forms x = Some forms -> nth_error forms i = Some alts -> In e alts -> aform x (to_small e) (N.of_nat i).

(** Capitals required: the word begins with two capitals, or one, or none. *)
Definition acase (x : article) : N :=
  match a_stem x with
  | c :: c' :: _ => if capital c then (if capital c' then 2 else 1) else 0
  | [c] => if capital c then 1 else 0
  | [] => 0
  end.

(** Spelling [w] is form [id] of one of the articles, in acceptable capitalisation unless capitals are ignored. *)
Definition aword (xs : list article) (ignore : bool) (w : bytes) (x : article) (part : bytes) (id : N) : Prop :=
  In x xs /\ aform x part id /\ map (locase eng_casing) w = to_small (a_stem x) ++ part ++ to_small (a_post x) /\
  (ignore = false -> esuits w (acase x)).

(** An ending has at most 64 numbers; the postfix has no capitals. *)
Definition few_homonyms (x : article) : Prop :=
  forall forms part, a_forms x = Some forms -> (count_occ (list_eq_dec N.eq_dec) (map to_small (concat forms)) part <= 64)%nat.
Definition small_post (x : article) : Prop := to_small (a_post x) = a_post x.

(** The postfix can be found behind an empty ending: some ending begins with a letter not below its first (see C46). *)
Definition post_reached (x : article) : Prop :=
  match a_post x with [] => True | c :: _ => exists c' rest id, aform x (c' :: rest) id /\ c <= c' end.

(** The arrays are within the range of the references stored in them. *)
Definition earrays_fit (A : earrays) : Prop :=
  N.of_nat (length (e_flex A)) <= 2 ^ 16 /\ N.of_nat (length (e_class A)) <= 2 ^ 15 /\ N.of_nat (length (e_stems A)) < 2 ^ 32.

(** Class [c] of the compiled lexicon is that of article [x], and the lexicon consists of the records of the articles. *)
Record ameans (x : article) (c : eclass) : Prop := {
  am_word : k_word c = a_part x + 128 * acase x;
  am_forms : forall part id, eform_part c part id <-> aform x part id;
}.
Record acompiled (xs : list article) (L : elexicon) : Prop := {
  ac_all : forall x, In x xs -> exists e st c, has_record (ewords L) (to_small (a_stem x)) e /\ nlexid e = a_id x /\ stpost e = a_post x /\
    eclass_of L (oclass e) = Some (st, c) /\ ameans x c;
  ac_only : forall key e, has_record (ewords L) key e -> exists x st c, In x xs /\ key = to_small (a_stem x) /\ nlexid e = a_id x /\ stpost e = a_post x /\
    eclass_of L (oclass e) = Some (st, c) /\ ameans x c;
}.

(** ** Forms *)

(** The alternatives of form [id] of an article; a fixed word has the form 255. *)
Definition asked (x : article) (id : N) : list bytes :=
  match a_forms x with
  | None => if id =? 255 then [[]] else []
  | Some forms => nth (N.to_nat id) forms []
  end.
(** The spelling of article [x] with changing part [part], in the required capitalisation. *)
Definition aspell (x : article) (part : bytes) : bytes :=
  respell eng_casing (acase x) (to_small (a_stem x) ++ part ++ a_post x).

(** Articles forms can be built from: the stem fits the buffer, ids take at most three bytes, fixed words have no postfix (see C47). *)
Record abuildable (x : article) : Prop := {
  abu_stem : (length (a_stem x) <= 48)%nat;
  abu_id : a_id x < 2 ^ 24;
  abu_fixed : a_forms x = None -> a_post x = [];
}.
(** Articles whose words are letters, hyphens, apostrophes and commas, and whose postfix is found behind an empty ending. *)
Definition ordinary (c : N) : Prop := 97 <= c <= 122 \/ c = 39 \/ c = 44 \/ c = 45.
Record aordinary (x : article) : Prop := {
  aor_stem : Forall ordinary (to_small (a_stem x));
  aor_post : Forall ordinary (a_post x);
  aor_forms : forall part id, aform x part id -> Forall ordinary part;
  aor_reach : forall id, aform x [] id -> post_reached x;
}.
