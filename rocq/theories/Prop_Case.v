(** * Properties C12-C16, C36: capitalisation.  STATEMENTS ONLY. *)
From Verif Require Import Base CharTables CapScheme CapSpec CapLengthSpec CapProofs CapProofs2 CapProofs3 CapProofs4 PropCaseLemmas.
Local Open Scope N_scope.

(** ** C36: the tables of the three languages are consistent (fields of [casing_ok] in CapSpec.v); the only small
    letters that have no capital are the comma and, in English, the apostrophe *)
Theorem C36_tables_consistent :
  casing_ok rus_casing /\ casing_ok eng_casing /\ casing_ok ukr_casing /\
  (forall c, c < 256 -> is_regular rus_casing c -> locase rus_casing c = c -> c <> 44 -> letter rus_casing c) /\
  (forall c, c < 256 -> is_regular eng_casing c -> locase eng_casing c = c -> c <> 44 -> c <> 39 -> letter eng_casing c) /\
  (forall c, c < 256 -> is_regular ukr_casing c -> locase ukr_casing c = c -> c <> 44 -> letter ukr_casing c).
Proof. exact tables_consistent. Qed.
Print Assumptions C36_tables_consistent.

Theorem C36_rus_letters : forall c, 224 <= c < 256 -> letter rus_casing c.
Proof. exact rus_letters. Qed.
Print Assumptions C36_rus_letters.

(** ** C12: for words of at most sixteen parts (above: C14) the outcome is defined and exact *)
Theorem C12_canonical_form_partial : forall cs, casing_ok cs ->
  forall w outlen, is_bytes w -> (length w < outlen)%nat -> (length (parts cs w) <= 16)%nat ->
  exists v, cap_get cs outlen w = Ok (v, map (locase cs) w ++ [0]).
Proof. exact get_exact. Qed.
Print Assumptions C12_canonical_form_partial.

(** and for every word, whenever the outcome is defined nothing is stored beyond the buffer, a word that fits is
    stored exactly, and a word that does not fit is reported *)
Theorem C12_buffer_bounds : forall cs, casing_ok cs ->
  forall w outlen v out, is_bytes w -> cap_get cs outlen w = Ok (v, out) ->
  (length out <= outlen)%nat /\
  ((length w < outlen)%nat -> out = map (locase cs) w ++ [0]) /\
  ((outlen <= length w)%nat -> v = 2 ^ 32 - 1).
Proof. exact get_bounded. Qed.
Print Assumptions C12_buffer_bounds.

Example C12_case : is_bytes [203; 240; 45; 192] /\ length (parts rus_casing [203; 240; 45; 192]) = 2%nat /\
  cap_get rus_casing 5 [203; 240; 45; 192] = Ok (0x40209, [235; 240; 45; 224; 0]).
Proof. repeat split; try (repeat constructor; fail); vm_compute; reflexivity. Qed.

(** ** C13: the low half of the answer is (number of parts, two bits per part), or 0xff when some part has no class *)
Theorem C13_classified : forall cs, casing_ok cs ->
  forall w outlen cls, is_bytes w -> (length w < outlen)%nat -> N.of_nat outlen <= 2 ^ 16 ->
  (length (parts cs w) <= 4)%nat -> parts_are cs (parts cs w) cls ->
  cap_get cs outlen w =
  Ok (N.of_nat (length w) * 65536 + N.of_nat (length (parts cs w)) * 256 + pack cls, map (locase cs) w ++ [0]).
Proof. exact (fun cs Hok => cap_get_class cs (fun d Hd H => proj1 (ok_delim cs Hok d Hd H))). Qed.
Print Assumptions C13_classified.

Theorem C13_unclassified : forall cs, casing_ok cs ->
  forall w outlen, is_bytes w -> (length w < outlen)%nat -> N.of_nat outlen <= 2 ^ 16 ->
  (length (parts cs w) <= 16)%nat -> (forall cls, ~ parts_are cs (parts cs w) cls) ->
  cap_get cs outlen w =
  Ok (N.of_nat (length w) * 65536 + N.of_nat (length (parts cs w)) * 256 + 255, map (locase cs) w ++ [0]).
Proof. exact (fun cs Hok => cap_get_invalid cs (fun d Hd H => proj1 (ok_delim cs Hok d Hd H))). Qed.
Print Assumptions C13_unclassified.

Example C13_case : parts_are rus_casing (parts rus_casing [208; 238; 45; 237; 45; 196; 206]) [1; 0; 2].
Proof.
  cbn. apply parts_more; [|apply parts_more; [|apply parts_last]].
  - apply part_first; [reflexivity|discriminate|repeat constructor].
  - apply part_small; [discriminate|repeat constructor].
  - apply part_caps; [discriminate|repeat constructor].
Qed.

(** ** C14: up to eight parts the length comes back *)
Theorem C14_length_partial : forall cs, casing_ok cs ->
  forall w outlen, is_bytes w -> (length w < outlen)%nat -> N.of_nat outlen <= 2 ^ 16 ->
  (length (parts cs w) <= 8)%nat ->
  exists v, cap_get cs outlen w = Ok (v, map (locase cs) w ++ [0]) /\ N.shiftr v 16 = N.of_nat (length w).
Proof. exact (fun cs Hok => cap_get_length cs (fun d Hd H => proj1 (ok_delim cs Hok d Hd H))). Qed.
Print Assumptions C14_length_partial.

(** exactly when: a call on more than sixteen parts is undefined; else the lower-cased word is stored, and the length
    comes back unless the classes of the ninth and later parts, two bits each, set a bit that the length has not *)
Theorem C14_length_exact : forall cs, casing_ok cs ->
  forall w outlen, is_bytes w -> (length w < outlen)%nat -> N.of_nat outlen <= 2 ^ 16 ->
  ((16 < counted cs w)%nat -> cap_get cs outlen w = Ub) /\
  ((counted cs w <= 16)%nat -> exists v, cap_get cs outlen w = Ok (v, map (locase cs) w ++ [0]) /\
    (N.shiftr v 16 = N.of_nat (length w) <->
     forall cls, parts_are cs (parts cs w) cls -> N.lor (N.of_nat (length w)) (pack (skipn 8 cls)) = N.of_nat (length w))).
Proof. exact (fun cs Hok => length_back cs (fun d Hd H => proj1 (ok_delim cs Hok d Hd H))). Qed.
Print Assumptions C14_length_exact.

(** nine small letters joined by hyphens: the length comes back; eight and a capital followed by a small letter: 18
    letters, and 1 is or-ed into the length; seventeen and a hyphen at the end: undefined *)
Example C14_exact_case :
  let joined n := concat (repeat [224; 45] n) in
  counted rus_casing (joined 8%nat ++ [224]) = 9%nat /\ cap_get rus_casing 48 (joined 8%nat ++ [224]) = Ok (17 * 2 ^ 16 + 9 * 2 ^ 8, joined 8%nat ++ [224; 0]) /\
  counted rus_casing (joined 8%nat ++ [192; 224]) = 9%nat /\ option_map (fun v => N.shiftr v 16) (match cap_get rus_casing 48 (joined 8%nat ++ [192; 224]) with Ok (v, _) => Some v | Ub => None end) = Some 19 /\
  counted rus_casing (joined 16%nat) = 16%nat /\ cap_get rus_casing 48 (joined 16%nat) <> Ub /\
  counted rus_casing (joined 17%nat) = 17%nat /\ cap_get rus_casing 48 (joined 17%nat) = Ub.
Proof. cbv zeta. repeat match goal with |- _ /\ _ => split end; try (vm_compute; reflexivity). vm_compute. discriminate. Qed.

(** in general it is false: a 33-byte word of 17 parts is undefined behaviour, a 17-byte word of 9 parts gets a wrong
    length *)
Theorem C14_length_refuted :
  (exists w, (length w < 48)%nat /\ is_bytes w /\ cap_get rus_casing 48 w = Ub) /\
  (exists w v out, (length w < 48)%nat /\ is_bytes w /\ cap_get rus_casing 48 w = Ok (v, out) /\
                   N.shiftr v 16 <> N.of_nat (length w)).
Proof. exact get_corrupt. Qed.
Print Assumptions C14_length_refuted.

Example C14_case : length (parts rus_casing [224; 45; 225; 45; 226]) = 3%nat.
Proof. reflexivity. Qed.

(** ** C15 *)
Theorem C15_fewer_capitals : forall s m m', m' <= m -> IsGoodSheme s m = true -> IsGoodSheme s m' = true.
Proof. exact good_monotone. Qed.
Print Assumptions C15_fewer_capitals.

Theorem C15_all_capitals : forall cs, casing_ok cs -> forall w min outlen, Forall (good_char cs) w ->
  Forall (fun p => p <> []) (parts cs w) -> (length (parts cs w) <= 3)%nat -> min <= 2 ->
  (length w < outlen)%nat -> N.of_nat outlen <= 2 ^ 16 ->
  exists v out, cap_get cs outlen (map (upcase cs) w) = Ok (v, out) /\ IsGoodSheme (v mod 2 ^ 16) min = true.
Proof. exact all_caps_good. Qed.
Print Assumptions C15_all_capitals.

(** exactly these spellings are accepted ([acceptable] lists the capitalisations part by part) *)
Theorem C15_accepted_exactly : forall cs, casing_ok cs -> forall w outlen v out min,
  is_bytes w -> (length w < outlen)%nat -> N.of_nat outlen <= 2 ^ 16 -> (length (parts cs w) <= 16)%nat -> cap_get cs outlen w = Ok (v, out) ->
  IsGoodSheme (v mod 2 ^ 16) min = true <-> exists cls, parts_are cs (parts cs w) cls /\ In cls (acceptable min).
Proof. exact (fun cs Hok => good_exact cs (fun d Hd H => proj1 (ok_delim cs Hok d Hd H))). Qed.
Print Assumptions C15_accepted_exactly.

(** and with four parts or more no spelling is acceptable *)
Theorem C15_many_parts : forall cs, casing_ok cs ->
  forall w outlen v out min, is_bytes w -> (length w < outlen)%nat -> (4 <= length (parts cs w) <= 16)%nat ->
  cap_get cs outlen w = Ok (v, out) -> IsGoodSheme (v mod 2 ^ 16) min = false.
Proof. exact (fun cs Hok => many_parts_rejected cs (fun d Hd H => proj1 (ok_delim cs Hok d Hd H))). Qed.
Print Assumptions C15_many_parts.

Example C15_case : Forall (good_char rus_casing) [240; 238; 45; 228; 238].
Proof.
  repeat (apply Forall_cons; [first [left; apply rus_letters; split; [discriminate|reflexivity] | right; repeat split; discriminate]|]).
  apply Forall_nil.
Qed.

(** ** C16 *)
Theorem C16_changes_only_case : forall cs, casing_ok cs -> forall w tail min, Forall (good_char cs) w ->
  exists w', cap_set cs (w ++ 0 :: tail) (length w) min = Ok (w' ++ 0 :: tail) /\
    length w' = length w /\ map (locase cs) w' = w.
Proof. exact set_only_case. Qed.
Print Assumptions C16_changes_only_case.

(** acceptable, except when a capitalised word of several parts has a one-letter part *)
Theorem C16_acceptable_partial : forall cs, casing_ok cs -> forall w tail min outlen, Forall (good_char cs) w ->
  Forall (fun p => p <> []) (parts cs w) -> (length (parts cs w) <= 3)%nat -> min <= 2 ->
  (min = 1 -> length (parts cs w) = 1%nat \/ Forall (fun p => 2 <= length p)%nat (parts cs w)) ->
  (length w < outlen)%nat -> N.of_nat outlen <= 2 ^ 16 ->
  exists w' v, cap_set cs (w ++ 0 :: tail) (length w) min = Ok (w' ++ 0 :: tail) /\
    length w' = length w /\ cap_get cs outlen w' = Ok (v, w ++ [0]) /\ IsGoodSheme (v mod 2 ^ 16) min = true.
Proof. exact set_acceptable. Qed.
Print Assumptions C16_acceptable_partial.

(** in that case it is not: Ю-Бр (capitalised by the library itself) is rejected for a lexeme requiring capitals *)
Theorem C16_acceptable_refuted : exists w w' v out,
  Forall (fun c => letter rus_casing c \/ c = 45) w /\ Forall (fun p => p <> []) (parts rus_casing w) /\
  length (parts rus_casing w) = 2%nat /\
  cap_set rus_casing (w ++ [0]) (length w) 1 = Ok (w' ++ [0]) /\
  cap_get rus_casing 48 w' = Ok (v, out) /\ IsGoodSheme (v mod 2 ^ 16) 1 = false.
Proof. exact set_unacceptable. Qed.
Print Assumptions C16_acceptable_refuted.

Example C16_case : cap_set rus_casing [240; 238; 45; 237; 224; 45; 228; 238; 0] 8 1
                   = Ok [208; 238; 45; 237; 224; 45; 196; 238; 0].
Proof. vm_compute. reflexivity. Qed.
