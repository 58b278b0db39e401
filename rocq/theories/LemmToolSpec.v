(** * LemmToolSpec: reading JSON, and what the program lemmatize tells.  SPECIFICATION ONLY. *)
From Coq Require Import String.
From Verif Require Import Base Serial WordTree TreeSpec FlatScan Stems StemSpec CharTables CapScheme CapSpec GramMap RusRuntime LevelSpec RusSpec
  RusBuild RusBuildSpec RusReadings RusLemmaSpec EngRuntime EngSpec EngFormsSpec EngLemmaSpec Codepage CodepageSpec Api Dump DumpSpec.
Local Open Scope N_scope.
Local Open Scope list_scope.
Notation length := List.length.

(** ** A reader of JSON: arrays, objects, strings without escapes, numbers without sign and exponent: [JDec n d] is the
    number with the digits [d] behind the point. *)
Inductive json := JNum (n : N) | JDec (n : N) (d : bytes) | JStr (s : bytes) | JArr (l : list json) | JObj (l : list (bytes * json)).

Definition is_blank (c : N) : bool := (c =? 32) || (c =? 9) || (c =? 10) || (c =? 13).
Fixpoint skip_blank (t : bytes) : bytes := match t with [] => [] | c :: t' => if is_blank c then skip_blank t' else t end.

(** Behind the opening quote: up to the closing one; no backslash, no control character. *)
Definition in_string (c : N) : bool := (32 <=? c) && negb (c =? 34) && negb (c =? 92).
Fixpoint string_body (t : bytes) : option (bytes * bytes) :=
  match t with
  | [] => None
  | c :: t' =>
      if c =? 34 then Some ([], t')
      else if in_string c then match string_body t' with Some (s, rest) => Some (c :: s, rest) | None => None end else None
  end.

(** Digits as far as they go; no leading zeros. *)
Definition is_digit (c : N) : bool := (48 <=? c) && (c <=? 57).
Fixpoint split_digits (t : bytes) : bytes * bytes :=
  match t with
  | [] => ([], [])
  | c :: t' => if is_digit c then let '(d, rest) := split_digits t' in (c :: d, rest) else ([], t)
  end.
Definition natural (d : bytes) : option N :=
  match d with
  | [] => None
  | [c] => number 10 0 d
  | c :: _ => if c =? 48 then None else number 10 0 d
  end.

(** [value]: a value and what follows it.  [elements], [members]: the rest of an array or object up to its closing bracket. *)
Fixpoint value (fuel : nat) (t : bytes) : option (json * bytes) :=
  match fuel with
  | O => None
  | S f =>
      match skip_blank t with
      | [] => None
      | c :: t' =>
          if c =? 34 then match string_body t' with Some (s, rest) => Some (JStr s, rest) | None => None end
          else if c =? 91 then
            match skip_blank t' with
            | [] => None
            | b :: rest => if b =? 93 then Some (JArr [], rest) else match elements f t' with Some (l, rest) => Some (JArr l, rest) | None => None end
            end
          else if c =? 123 then
            match skip_blank t' with
            | [] => None
            | b :: rest => if b =? 125 then Some (JObj [], rest) else match members f t' with Some (l, rest) => Some (JObj l, rest) | None => None end
            end
          else
            let '(d, rest) := split_digits (c :: t') in
            match natural d with
            | Some n =>
                match rest with
                | p :: after => if p =? 46 then match split_digits after with ([], _) => None | (d, rest) => Some (JDec n d, rest) end else Some (JNum n, rest)
                | [] => Some (JNum n, rest)
                end
            | None => None
            end
      end
  end
with elements (fuel : nat) (t : bytes) : option (list json * bytes) :=
  match fuel with
  | O => None
  | S f =>
      match value f t with
      | None => None
      | Some (v, t') =>
          match skip_blank t' with
          | [] => None
          | c :: rest =>
              if c =? 93 then Some ([v], rest)
              else if c =? 44 then match elements f rest with Some (l, rest) => Some (v :: l, rest) | None => None end else None
          end
      end
  end
with members (fuel : nat) (t : bytes) : option (list (bytes * json) * bytes) :=
  match fuel with
  | O => None
  | S f =>
      match skip_blank t with
      | [] => None
      | q :: t' =>
          if q =? 34 then
            match string_body t' with
            | None => None
            | Some (name, t') =>
                match skip_blank t' with
                | [] => None
                | c :: t' =>
                    if c =? 58 then
                      match value f t' with
                      | None => None
                      | Some (v, t') =>
                          match skip_blank t' with
                          | [] => None
                          | c :: rest =>
                              if c =? 125 then Some ([(name, v)], rest)
                              else if c =? 44 then match members f rest with Some (l, rest) => Some ((name, v) :: l, rest) | None => None end else None
                          end
                      end
                    else None
                end
            end
          else None
      end
  end.
Definition read_json (t : bytes) : option json :=
  match value (S (length t)) t with
  | Some (v, rest) => match skip_blank rest with [] => Some v | _ => None end
  | None => None
  end.

(** ** What is told of a lexeme: normal form, identifier, part of speech, form identifiers. *)
Definition told_lexeme (lemma : bytes) (id : N) (descs : list gram) : json :=
  JObj [(text "lemma", JStr lemma); (text "lexid", JNum id);
        (text "psp", JNum (match descs with g :: _ => N.land (gwdInfo g) 0x3f | [] => 0 end)); (text "forms", JArr (map (fun g => JNum (gidForm g)) descs))].
Definition rus_told (code : bytes -> bytes) (gl : lexeme * bytes) : json := told_lexeme (code (snd gl)) (rd_id (lx_first (fst gl))) (rd_shown (lx_first (fst gl))).
Definition eng_told (gl : elexeme * bytes) : json := told_lexeme (snd gl) (er_id (ex_first (fst gl))) (er_shown (ex_first (fst gl))).

(** The text can be put between quotes as it is. *)
Definition quotable (s : bytes) : Prop := Forall (fun c => in_string c = true) s.

(** The output is the list of [rows] if there is room for them, and an empty list if there is none. *)
Definition tells_json (rows : list json) (room : Prop) (r : res bytes) : Prop :=
  (room -> exists out, r = Ok out /\ read_json out = Some (JArr rows)) /\ (~ room -> exists out, r = Ok out /\ read_json out = Some (JArr [])).

(** Room: 16 lexemes, 64 descriptions, normal forms that [fits]. *)
Definition tool_room (gs : list lexeme) (fits : Prop) : Prop :=
  (length gs <= 16)%nat /\ Forall (fun g => small (rd_dict_forms 0 (lx_first g))) gs /\ fits /\ grams_fit 64 (flat_map stored gs).
Definition tool_eroom (gs : list elexeme) (fits : Prop) : Prop :=
  (length gs <= 16)%nat /\ Forall (fun g => small (er_dict_forms (ex_first g))) gs /\ fits /\ grams_fit 64 (flat_map estored gs).

(** What the dictionary has to ensure (C21, C22): lexemes have dictionary forms; the 16th lexeme has one reading. *)
Definition tool_safe (gs : list lexeme) : Prop :=
  Forall (fun g => rd_dict_forms 0 (lx_first g) <> []) gs /\ forall g, nth_error gs 15 = Some g -> lx_more g = [].
Definition tool_esafe (gs : list elexeme) : Prop :=
  Forall (fun g => er_dict_forms (ex_first g) <> []) gs /\ forall g, nth_error gs 15 = Some g -> ex_more g = [].
