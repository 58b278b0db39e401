(** * PspTabSpec: words of a text, and the shares of parts of speech and forms.  SPECIFICATION ONLY. *)
From Coq Require Import QArith.
From Verif Require Import Base RusRuntime PspTab.
Local Open Scope N_scope.
Local Open Scope list_scope.

(** ** Words *)

(** The text cut at the characters that are not [p]. *)
Fixpoint fields (p : N -> bool) (t : bytes) : list bytes :=
  match t with
  | [] => [[]]
  | c :: t' => match fields p t' with
               | f :: fs => if p c then (c :: f) :: fs else [] :: f :: fs
               | [] => []
               end
  end.
Fixpoint without_front (p : N -> bool) (w : bytes) : bytes := match w with [] => [] | c :: w' => if p c then without_front p w' else w end.
Definition long_ones (ws : list bytes) : list bytes := filter (fun w => Nat.ltb 3 (length w)) ws.

(** windows-1251: letters from 0xC0 on, and the hyphen; hyphens in front are no part of the word, and neither are capital A's (0xC0). *)
Definition rus_words (line : bytes) : list bytes :=
  long_ones (map (without_front (fun c => (c =? 45) || (c =? 0xc0))) (fields (fun c => (0xc0 <=? c) || (c =? 45)) line)).
(** everything from 0x41 on, hyphen and apostrophe; not in front. *)
Definition eng_words (line : bytes) : list bytes :=
  long_ones (map (without_front (fun c => (c =? 45) || (c =? 39))) (fields (fun c => (0x41 <=? c) || (c =? 45) || (c =? 39)) line)).

(** ** Shares *)

(** A counted lexeme: its part of speech, its share of the word, the forms described. *)
Record vote := Vote { v_part : N; v_share : Q; v_forms : list N }.
(** The lexemes of a word share it equally; those left out keep their share. *)
Definition votes_of (K : counting) (answer : list (gram * list gram)) : list vote :=
  flat_map (fun l => let p := part_sp K (gwdInfo (fst l)) in
                     if left_out K p (gidForm (fst l)) (Z.of_nat (length answer)) then []
                     else [Vote p (1 / inject_Z (Z.of_nat (length answer))) (map (fun g => form_no K p (gidForm g)) (snd l))]) answer.

Fixpoint qsum (l : list Q) : Q := match l with [] => 0 | x :: l' => x + qsum l' end%Q.
Definition qcount {X} (l : list X) : Q := inject_Z (Z.of_nat (length l)).
Definition of_part (p : N) (vs : list vote) : list vote := filter (fun v => v_part v =? p) vs.
(** the share of the part of speech [p] among all, that of the form [f] among the lexemes of [p] *)
Definition part_share (vs : list vote) (p : N) : Q := (qsum (map v_share (of_part p vs)) / qsum (map v_share vs))%Q.
Definition form_share (vs : list vote) (p f : N) : Q :=
  (qsum (map (fun v => qcount (filter (N.eqb f) (v_forms v)) / qcount (v_forms v)) (of_part p vs)) / qcount (of_part p vs))%Q.

(** What a table says; what is not in it is 0. *)
Definition row_of (t : list psp_row) (p : N) : psp_row := nth (N.to_nat p) t (PspRow 0 []).
Definition weight_in (t : list psp_row) (p : N) : Q := psp_weight (row_of t p).
Definition form_in (t : list psp_row) (p f : N) : Q := nth (N.to_nat f) (psp_forms (row_of t p)) 0%Q.

(** The table is that of the votes; it is a distribution of the parts of speech, and one of the forms of each. *)
Record tabulates (vs : list vote) (t : list psp_row) : Prop := {
  tab_parts : forall p, (weight_in t p == part_share vs p)%Q;
  tab_forms : forall p f, (form_in t p f == form_share vs p f)%Q;
  tab_positive : Forall (fun r => (0 <= psp_weight r)%Q /\ Forall (fun x => 0 <= x)%Q (psp_forms r)) t;
  tab_whole : vs <> [] -> (qsum (map psp_weight t) == 1)%Q;
  tab_whole_forms : forall r, In r t -> psp_forms r <> [] -> (qsum (psp_forms r) == 1)%Q }.

(** ** The answer of a dictionary: the descriptions of each lexeme, the first of them in front; nothing if there is no [room]. *)
Definition with_first (gs : list gram) : gram * list gram := (hd (Gram 0 0 0 0) gs, gs).
Definition looks_up (lexemes : list (list gram)) (room : Prop) (r : res (list (gram * list gram))) : Prop :=
  (room -> r = Ok (map with_first lexemes)) /\ (~ room -> r = Ok []).
