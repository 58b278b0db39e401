(** * Makeich: the compiler of alternation tables, from the text of the tables to the bytes and the index of names.  MODEL ONLY.
    Source files, names and commands are those of [Tfc]. *)
From Coq Require Import String Ascii.
From Verif Require Import Base Serial WordTree Stems GramMap RusRuntime Compile Api EngCompile Utf8 RusText Tfc.
Local Open Scope N_scope.
Local Open Scope list_scope.
Notation length := List.length.

(** lang-rus/libdict/tools/makeich/mtable.h:155-168 [interchange::addstep]; flags are 8 bits.  (From 32 fields on the shift is undefined
    in the source; here it gives 0.) *)
Fixpoint addstep (mix : bytes) (step : nat) (l : list (bytes * N)) : list (bytes * N) :=
  match l with
  | [] => [(mix, 2 ^ N.of_nat step mod 256)]
  | (s, f) :: l' => match strcmp s mix with
                    | Lt => (s, f) :: addstep mix step l'
                    | Eq => (s, N.lor f (2 ^ N.of_nat step) mod 256) :: l'
                    | Gt => (mix, 2 ^ N.of_nat step mod 256) :: l
                    end
  end.

(** makeich.cpp:46-62 [load]: a field and what follows it. *)
Definition load (s : bytes) : bytes * bytes := let '(r, s) := field_of s in (r, skip_space (no_comma s)).
(** makeich.cpp:130, 131, 140: two apostrophes stand for the empty string. *)
Definition fragment_text (s : bytes) : bytes := if list_eq_dec N.eq_dec s [39; 39] then [] else s.
(** makeich.cpp:136-142. *)
Fixpoint more_steps (fuel : nat) (step : nat) (s : bytes) (l : list (bytes * N)) : list (bytes * N) :=
  match fuel, s with
  | S fuel', _ :: _ => let '(r, s) := load s in more_steps fuel' (S step) s (addstep (fragment_text r) step l)
  | _, _ => l
  end.
(** makeich.cpp:119-142: the condition and the strings of a line; [None]: an exception. *)
Definition mix_line (s : bytes) : option (bytes * list (bytes * N)) :=
  let '(scondi, s) := load s in
  if negb (nonempty scondi) then None
  else let '(st_one, s) := load s in
       if negb (nonempty st_one) then None
       else let '(st_two, s) := load s in
            if negb (nonempty st_two) then None
            else Some (scondi, more_steps (length s) 2 s (addstep (fragment_text st_two) 1 (addstep (fragment_text st_one) 0 []))).

(** mtable.h:123-127 [collector]: the sets of strings, the lists of (condition, number of a set), the names. *)
Record collector := Collector { co_inter : list (list (bytes * N)); co_condi : list (list (bytes * nat)); co_index : list (bytes * nat) }.
(** mtable.h:237-269 [set_conditions]: the number of the list of conditions and the collector; [None]: an exception. *)
Fixpoint set_names (names : list bytes) (cindex : option nat) (co : collector) : option (nat * collector) :=
  match names with
  | [] => match cindex with Some i => Some (i, co) | None => None end
  | n :: names' =>
      match lookup n (co_index co) with
      | None =>
          match cindex with
          | Some i => set_names names' (Some i) (Collector (co_inter co) (co_condi co) (co_index co ++ [(n, i)]))
          | None => let i := length (co_condi co) in
              set_names names' (Some i) (Collector (co_inter co) (co_condi co ++ [[]]) (co_index co ++ [(n, i)]))
          end
      | Some i =>
          match cindex with
          | Some j => if Nat.eqb i j then set_names names' (Some j) co else None
          | None => set_names names' (Some i) co
          end
      end
  end.
(** mtable.h:271-285 [set_interchange]. *)
Fixpoint inter_eq (a b : list (bytes * N)) : bool :=
  match a, b with
  | [], [] => true
  | (s, f) :: a', (t, g) :: b' => (f =? g) && (if list_eq_dec N.eq_dec s t then true else false) && inter_eq a' b'
  | _, _ => false
  end.
Fixpoint find_inter (x : list (bytes * N)) (l : list (list (bytes * N))) : option nat :=
  match l with [] => None | y :: l' => if inter_eq y x then Some O else option_map S (find_inter x l') end.
Fixpoint add_at {X} (i : nat) (x : X) (l : list (list X)) : list (list X) :=
  match l, i with [], _ => [] | c :: l', O => (c ++ [x]) :: l' | c :: l', S i' => c :: add_at i' x l' end.
(** mtable.h:130-135 [add_interchange]. *)
Definition add_interchange (names cond : bytes) (inter : list (bytes * N)) (co : collector) : option collector :=
  match set_names (names_in names) None co with
  | None => None
  | Some (i, co) =>
      let '(ipos, inters) := match find_inter inter (co_inter co) with Some k => (k, co_inter co) | None => (length (co_inter co), co_inter co ++ [inter]) end in
      Some (Collector inters (add_at i (cond, ipos) (co_condi co)) (co_index co))
  end.

(** makeich.cpp:83-148 [MakeTab]: the header has been cut to its names.  The lines up to the brace; [None]: an exception. *)
Definition mix_commands : list bytes := Eval vm_compute in map cyr [".таблица"; ".table"]%string.
Fixpoint mix_body (names : bytes) (co : collector) (lines : list bytes) : option (collector * list bytes) :=
  match lines with
  | [] => None
  | s :: lines' =>
      if list_eq_dec N.eq_dec s [125] then Some (co, lines')
      else match mix_line s with
           | None => None
           | Some (cond, inter) => match add_interchange names cond inter co with None => None | Some co => mix_body names co lines' end
           end
  end.
Definition mix_tab (co : collector) (lines : list bytes) : option (collector * list bytes) :=
  match lines with
  | header :: brace :: lines' =>
      match first_command mix_commands header with
      | None => None
      | Some h => if negb (nonempty (trim h)) then None else if list_eq_dec N.eq_dec brace [123] then mix_body (trim h) co lines' else None
      end
  | _ => None
  end.
(** makeich.cpp:150-180 [Compile]; [depth] and [steps] as in [Tfc]. *)
Section Compile.
  Context (fs : bytes -> option bytes) (conv : N -> N).
  Fixpoint mix_lines (sub : bytes -> collector -> option collector) (steps : nat) (name : bytes) (lines : list bytes) (co : collector) : option collector :=
    match steps, lines with
    | S steps', s :: lines' =>
        match first_command include_commands s with
        | Some h => if nonempty (trim h) then match sub (open_name name (trim h)) co with None => None | Some co => mix_lines sub steps' name lines' co end else None
        | None => match mix_tab co lines with None => None | Some (co, lines'') => mix_lines sub steps' name lines'' co end
        end
    | _, _ => Some co
    end.
  Fixpoint mix_file (depth : nat) (name : bytes) (co : collector) : option collector :=
    match depth with
    | O => None
    | S depth' =>
        match fs name with
        | None => None
        | Some file => let lines := source_lines conv file in mix_lines (mix_file depth') (length lines) name lines co
        end
    end.
End Compile.

(** mtable.h:170-178 [GetBufLen], 16 bits. *)
Definition inter_len (x : list (bytes * N)) : N := (1 + fold_right (fun p n => 1 + N.of_nat (length (fst p)) + n) 0 x) mod 2 ^ 16.
(** mtable.h:228-235 [relocate_tables]: the offsets, 16 bits, not checked. *)
Fixpoint inter_offsets (offset : N) (l : list (list (bytes * N))) : list N :=
  match l with [] => [] | x :: l' => offset :: inter_offsets ((offset + inter_len x) mod 2 ^ 16) l' end.
(** mtable.h:180-205 [interchange::Serialize]: levels given by no string go to the strings of the first level. *)
Definition inter_ser (x : list (bytes * N)) : bytes :=
  let upower := fold_left (fun u p => N.lor u (N.shiftl (snd p) 4)) x 0 in
  let upower := N.land (N.lxor upower 0x70) 0x70 in
  N.of_nat (length x) mod 256 :: flat_map (fun p =>
    let bflags := N.lor (N.of_nat (length (fst p))) (N.shiftl (snd p) 4) mod 256 in
    let bflags := if negb (upower =? 0) && negb (N.land bflags 0x10 =? 0) then N.lor bflags upower else bflags in
    bflags :: fst p) x.
(** mtable.h:313-323 [StoreTab]; 207-218, 325-336 [StoreRef]: for each name its list of (offset, condition).  How mtc writes and reads the
    index is not modelled. *)
Definition cond_refs (offsets : list N) (l : list (bytes * nat)) : list (N * bytes) := map (fun p => (nth (snd p) offsets 0, fst p)) l.
Definition mix_store (co : collector) : bytes * list (bytes * list (N * bytes)) :=
  let offsets := inter_offsets 6 (co_inter co) in
  (text "interc" ++ flat_map inter_ser (co_inter co), map (fun p => (fst p, cond_refs offsets (nth (snd p) (co_condi co) []))) (co_index co)).
(** makeich.cpp:187-263 [main] without its arguments and files. *)
Definition makeich (depth : nat) (fs : bytes -> option bytes) (conv : N -> N) (name : bytes) : option (bytes * list (bytes * list (N * bytes))) :=
  match mix_file fs conv depth name (Collector [] [] []) with None => None | Some co => Some (mix_store co) end.
