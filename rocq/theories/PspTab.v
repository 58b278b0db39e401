(** * PspTab: the program make-psp-tab, which counts parts of speech and forms in a text for the guessers.  MODEL ONLY.
    [double] is modelled by the rational numbers, without rounding. *)
From Coq Require Import QArith String.
From Verif Require Import Base CapScheme GramMap RusRuntime RusBuild EngRuntime Codepage Guess Api PyApi Dicdump.
Local Open Scope N_scope.
Local Open Scope list_scope.
Notation length := List.length.

(** ** lang-rus/libprob/tools/make-psp-tab.cpp:16-42 *)
Definition MapVerbFid (fid : N) : N := if (6 <=? fid) && (fid <=? 17) then u8 (fid + 12) else fid.
Definition ToPartOfSp (wdInfo : N) : N :=
  let psp := u8 wdInfo in
  let p := N.land psp 0x3f in
  if (1 <=? p) && (p <=? 6) then 1
  else if (7 <=? p) && (p <=? 9) then 7
  else if (13 <=? p) && (p <=? 15) then 13
  else if (16 <=? p) && (p <=? 18) then 16
  else if (p =? 25) || (p =? 26) then 25
  else if (38 <=? p) && (p <=? 46) && negb (p =? 43) then psp
  else 0.

(** What differs between lang-rus and lang-eng/libprob/tools/make-psp-tab.cpp: where a word begins (rus 55, eng 29) and how far it goes
    (rus 58, eng 32), the part of speech (rus 74, eng 48), the words left out (rus 76-82, eng 50-55), the number of a form (rus 94-96, eng 66). *)
Record counting := Counting {
  starts : N -> bool; inside : N -> bool; part_sp : N -> N;
  left_out : N -> N -> Z -> bool;  (* part of speech, first form, number of lexemes *)
  form_no : N -> N -> N }.
Definition rus_counting : counting := Counting
  (fun c => negb (c <=? 0xc0)) (fun c => (0xc0 <=? c) || (c =? 45)) ToPartOfSp
  (fun p f n => ((p =? 1) && (f =? 2) && (1 <? n)%Z) || (f =? 0xff) || (p =? 0))
  (fun p f => if p =? 1 then MapVerbFid f else f).
Definition eng_counting : counting := Counting
  (fun c => negb (c <? 0x41)) (fun c => (0x41 <=? c) || (c =? 45) || (c =? 39)) (fun w => w)
  (fun p f n => (f =? 0xff) || ((p =? 0) || ((4 <? p) && (p <? 17)) || (17 <? p)))
  (fun p f => f).

(** ** The words of a line: make-psp-tab.cpp:51-61 (eng 25-35).  [t] is the line up to its terminator. *)
Fixpoint skip_to (K : counting) (t : bytes) : bytes := match t with [] => [] | c :: t' => if starts K c then t else skip_to K t' end.
Fixpoint go_on (K : counting) (t : bytes) : bytes * bytes :=
  match t with
  | [] => ([], [])
  | c :: t' => if inside K c then let '(w, rest) := go_on K t' in (c :: w, rest) else ([], t)
  end.
(** the loop; [fuel]: [Ub] stands for a loop that goes on for ever. *)
Fixpoint line_words (K : counting) (fuel : nat) (t : bytes) : res (list bytes) :=
  match t with
  | [] => Ok []
  | _ =>
      match fuel with
      | O => Ub
      | S fuel' =>
          let '(w, rest) := go_on K (skip_to K t) in
          let! more := line_words K fuel' rest in Ok (if Nat.ltb 3 (length w) then w :: more else more)
      end
  end.

(** ** Counting: make-psp-tab.cpp:70-102 (eng 44-72) *)
Record psp_row := PspRow { psp_weight : Q; psp_forms : list Q }.
(** [resize] upwards, with zeros; [x[k] += q]. *)
Definition grown {X} (zero : X) (k : nat) (l : list X) : list X := if Nat.leb (length l) k then l ++ repeat zero (S k - length l) else l.
Fixpoint change {X} (k : nat) (f : X -> X) (l : list X) : list X :=
  match l, k with
  | [], _ => []
  | x :: l', O => f x :: l'
  | x :: l', S k' => x :: change k' f l'
  end.
Definition add_to (k : N) (q : Q) (l : list Q) : list Q := change (N.to_nat k) (fun x => Qplus x q) (grown 0%Q (N.to_nat k) l).
Definition inverse (n : Z) : Q := Qdiv 1 (inject_Z n).

Definition count_forms (K : counting) (p : N) (grams : list gram) (fs : list Q) : list Q :=
  fold_left (fun fs g => add_to (form_no K p (gidForm g)) (inverse (Z.of_nat (length grams))) fs) grams fs.
(** one lexeme with its descriptions, the first of them at [pgrams] *)
Definition count_lexeme (K : counting) (lcount : Z) (m : list psp_row) (lexeme : gram * list gram) : list psp_row :=
  let (first, grams) := lexeme in
  let p := part_sp K (gwdInfo first) in
  if left_out K p (gidForm first) lcount then m
  else change (N.to_nat p) (fun r => PspRow (Qplus (psp_weight r) (inverse lcount)) (count_forms K p grams (psp_forms r))) (grown (PspRow 0 []) (N.to_nat p) m).
(** [look]: the lexemes of a word, each with the description its pointer shows and those it counts. *)
Definition count_word (K : counting) (look : bytes -> res (list (gram * list gram))) (m : list psp_row) (w : bytes) : res (list psp_row) :=
  let! lexemes := look w in Ok (fold_left (count_lexeme K (Z.of_nat (length lexemes))) lexemes m).
Fixpoint count_words K look (m : list psp_row) (ws : list bytes) : res (list psp_row) :=
  match ws with [] => Ok m | w :: ws' => let! m := count_word K look m w in count_words K look m ws' end.

(** make-psp-tab.cpp:63-71 (eng 37-45): the call; the word and what follows it in the line.  [Lemmatize] gets arrays of 32 lexemes and 64 descriptions and no array of strings. *)
Fixpoint called (gr : list gram) (lx : list lemm) (lcount : nat) : res (list (gram * list gram)) :=
  match lcount with
  | O => Ok []
  | S n =>
      match lx with
      | [] => Ub
      | x :: lx' =>
          let k := N.to_nat (lm_grams x) in
          match nth_error gr k with
          | None => Ub
          | Some g =>
              if Nat.ltb (length gr) (k + N.to_nat (lm_ngrams x)) then Ub
              else let! more := called gr lx' n in Ok ((g, firstn (N.to_nat (lm_ngrams x)) (skipn k gr)) :: more)
          end
      end
  end.
Definition look_up
  (call : option bytes -> N -> option (list lemm) -> option bytes -> option (list gram) -> N -> res (Z * (option (list lemm) * option bytes * option (list gram))))
  (lemmas : list lemm) (gramma : list gram) (w : bytes * bytes) : res (list (gram * list gram)) :=
  let! (z, arrs) := call (Some (fst w ++ snd w)) (N.of_nat (length (fst w))) (Some lemmas) None (Some gramma) 2 in
  match arrs with
  | (Some lx, _, Some gr) => called gr lx (Z.to_nat z)
  | _ => if (z <=? 0)%Z then Ok [] else Ub
  end.
Definition rus_look (A : arrays) (junk : list N) := look_up (fun psz cch lx st gr sets => lemmatize A junk psz cch lx st gr sets).
Definition eng_look (A : earrays) (junk : list N) := look_up (fun psz cch lx st gr sets => elemmatize A junk psz cch lx st gr sets).

(** make-psp-tab.cpp:44-107 (eng 18-77): the lines of a file, as [fgets] with 0x4000 bytes gives them. *)
Fixpoint lines_of (fuel : nat) (t : bytes) : list bytes :=
  match fuel, t with
  | S f, _ :: _ => let '(line, rest) := fgets 0x3fff t in line :: lines_of f rest
  | _, _ => []
  end.
Fixpoint count_lines K look (m : list psp_row) (lines : list bytes) : res (list psp_row) :=
  match lines with
  | [] => Ok m
  | l :: lines' => let! ws := line_words K (S (length l)) l in let! m := count_words K look m ws in count_lines K look m lines'
  end.

(** ** The shares: make-psp-tab.cpp:183-196 (eng 162-175) [main] *)
Definition sum_of (l : list Q) : Q := fold_left Qplus l 0%Q.
Definition shares (m : list psp_row) : list psp_row :=
  let glsumm := sum_of (map psp_weight m) in
  map (fun r => PspRow (Qdiv (psp_weight r) glsumm) (map (fun f => Qdiv f (sum_of (psp_forms r))) (psp_forms r))) m.
Definition psp_table K look (file : bytes) : res (list psp_row) :=
  let! m := count_lines K look [] (lines_of (length file) file) in Ok (shares m).
