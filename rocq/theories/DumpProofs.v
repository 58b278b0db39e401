(** * DumpProofs: the generated texts read as C++. *)
From Coq Require Import String Ascii.
From Verif Require Import Base Serial WordTree Stems GramMap RusRuntime Api EngCompile Dump DumpSpec.
Local Open Scope N_scope.
Local Open Scope list_scope.
Notation length := List.length.

Lemma lex_app a : forall m b, lex m (a ++ b) = let '(m1, t1) := lex m a in let '(m2, t2) := lex m1 b in (m2, t1 ++ t2).
Proof.
  induction a as [|c a IH]; intros m b; cbn [app lex].
  - destruct (lex m b); reflexivity.
  - destruct (next_char m c) as [m0 t0]. rewrite IH. destruct (lex m0 a) as [m1 t1]. destruct (lex m1 b) as [m2 t2]. rewrite app_assoc. reflexivity.
Qed.
Lemma lex_then m a m1 t1 b m2 t2 : lex m a = (m1, t1) -> lex m1 b = (m2, t2) -> lex m (a ++ b) = (m2, t1 ++ t2).
Proof. intros H1 H2. rewrite lex_app, H1, H2. reflexivity. Qed.

Lemma lex_word_go w : forall v, forallb word_char w = true -> lex (In_word v) w = (In_word (v ++ w), []).
Proof.
  induction w as [|c w IH]; intros v H; cbn [lex].
  - rewrite app_nil_r. reflexivity.
  - cbn [forallb] in H. apply andb_true_iff in H. destruct H as [Hc H]. cbn [next_char]. rewrite Hc, IH by assumption. rewrite <- app_assoc. reflexivity.
Qed.
Lemma word_not_space c : word_char c = true -> space c = false.
Proof. unfold word_char, letter, digit10, space. lia. Qed.
Lemma lex_word w : w <> [] -> forallb word_char w = true -> lex Between w = (In_word w, []).
Proof.
  destruct w as [|c w]; intros Hn H; [congruence|]. cbn [forallb] in H. apply andb_true_iff in H. destruct H as [Hc H].
  cbn [lex next_char]. unfold start_token. rewrite word_not_space, Hc by assumption. rewrite lex_word_go by assumption. reflexivity.
Qed.
Lemma name_word w : is_name w = true -> w <> [] /\ forallb word_char w = true.
Proof.
  destruct w as [|c w]; cbn [is_name forallb]; [discriminate|]. intros H. apply andb_true_iff in H. destruct H as [Hc H]. split; [discriminate|].
  unfold word_char at 1. rewrite Hc. exact H.
Qed.

(** ** Numbers *)

Definition hex_word (b : N) : bytes := [48; 120] ++ print_hex 2 b.
Lemma hex_words b : b < 256 -> forallb word_char (hex_word b) = true /\ literal (hex_word b) = Some b.
Proof.
  intros Hb. set (P := fun b => forallb word_char (hex_word b) && match literal (hex_word b) with Some v => v =? b | None => false end).
  assert (H : forallb P (map N.of_nat (seq 0 256)) = true) by (vm_compute; reflexivity).
  rewrite forallb_forall in H. specialize (H b). assert (Hi : In b (map N.of_nat (seq 0 256))).
  { apply in_map_iff. exists (N.to_nat b). split; [lia|]. apply in_seq. lia. }
  specialize (H Hi). unfold P in H. apply andb_true_iff in H. destruct H as [H1 H2]. split; [assumption|].
  destruct (literal (hex_word b)) as [v|]; [|discriminate]. apply N.eqb_eq in H2. subst. reflexivity.
Qed.
Lemma hex_word_cons b : exists c w, hex_word b = 48 :: 120 :: c :: w.
Proof.
  unfold hex_word, print_hex, zero_padded.
  destruct (digits_of 32 16 (b mod 2 ^ 32) []) as [|c [|d w]]; cbn [length Nat.sub repeat app]; eauto.
Qed.

Lemma digit_reads d : d < 16 -> digit_value (digit d) = Some d /\ word_char (digit d) = true.
Proof.
  intros H. unfold digit, digit_value, word_char, letter, digit10. destruct (N.ltb_spec d 10).
  - replace ((48 <=? 48 + d) && (48 + d <=? 57)) with true by lia. split; [f_equal; lia|lia].
  - replace ((48 <=? 87 + d) && (87 + d <=? 57)) with false by lia. replace ((97 <=? 87 + d) && (87 + d <=? 102)) with true by lia. split; [f_equal; lia|lia].
Qed.
Lemma digits_number base : 2 <= base <= 16 -> forall fuel n acc, n < base ^ N.of_nat (S fuel) -> number base 0 (digits_of (S fuel) base n acc) = number base n acc.
Proof.
  intros Hb. induction fuel as [|fuel IH]; intros n acc Hn; cbn [digits_of].
  - assert (E : n / base = 0) by (apply N.div_small; rewrite N.pow_1_r in Hn; exact Hn). rewrite E. cbn [N.eqb].
    assert (E' : n mod base = n) by (apply N.mod_small; rewrite N.pow_1_r in Hn; exact Hn).
    rewrite E'. cbn [number]. rewrite N.pow_1_r in Hn. rewrite (proj1 (digit_reads n ltac:(lia))). replace (n <? base) with true by lia. f_equal.
  - assert (Hm : n mod base < base) by (apply N.mod_lt; lia).
    destruct (N.eqb_spec (n / base) 0) as [E|E].
    + assert (E' : n mod base = n) by (apply N.mod_small; apply N.div_small_iff; lia).
      cbn [number]. rewrite (proj1 (digit_reads (n mod base) (N.lt_le_trans _ _ _ Hm (proj2 Hb)))). rewrite (proj2 (N.ltb_lt _ _) Hm). f_equal. rewrite E'. reflexivity.
    + change (number base 0 (digits_of (S fuel) base (n / base) (digit (n mod base) :: acc)) = number base n acc). rewrite IH.
      * cbn [number]. rewrite (proj1 (digit_reads (n mod base) (N.lt_le_trans _ _ _ Hm (proj2 Hb)))). rewrite (proj2 (N.ltb_lt _ _) Hm). f_equal.
        clear - Hb. pose proof (N.div_mod n base ltac:(lia)). nia.
      * rewrite Nnat.Nat2N.inj_succ, N.pow_succ_r' in Hn. apply N.div_lt_upper_bound; [lia|exact Hn].
Qed.
Lemma digits_words base : 2 <= base <= 16 -> forall fuel n acc, forallb word_char acc = true -> forallb word_char (digits_of fuel base n acc) = true.
Proof.
  intros Hb. induction fuel as [|fuel IH]; intros n acc H; cbn [digits_of]; [assumption|].
  assert (Hm : n mod base < base) by (apply N.mod_lt; lia).
  assert (H' : forallb word_char (digit (n mod base) :: acc) = true). { cbn [forallb]. rewrite (proj2 (digit_reads (n mod base) (N.lt_le_trans _ _ _ Hm (proj2 Hb)))). assumption. }
  destruct (n / base =? 0); [assumption|apply IH; assumption].
Qed.
Lemma digits_first base : 2 <= base <= 16 -> forall fuel n acc, 0 < n < base ^ N.of_nat (S fuel) -> exists d t, digits_of (S fuel) base n acc = digit d :: t /\ 0 < d < base.
Proof.
  intros Hb. induction fuel as [|fuel IH]; intros n acc Hn; cbn [digits_of].
  - rewrite N.pow_1_r in Hn. rewrite N.div_small, N.mod_small by lia. cbn [N.eqb]. eauto.
  - destruct (N.eqb_spec (n / base) 0) as [E|E].
    + apply (proj1 (N.div_small_iff n base (ltac:(lia) : base <> 0))) in E. rewrite N.mod_small by exact E. exists n, acc. split; [reflexivity|]. split; [apply Hn|exact E].
    + apply (IH (n / base)). split; [apply N.neq_0_lt_0; exact E|]. rewrite Nnat.Nat2N.inj_succ, N.pow_succ_r' in Hn. apply N.div_lt_upper_bound; [lia|apply Hn].
Qed.
Lemma number_zeros base k w : 2 <= base -> number base 0 (repeat 48 k ++ w) = number base 0 w.
Proof.
  intros Hb. induction k as [|k IH]; cbn [repeat app number]; [reflexivity|]. change (digit_value 48) with (Some 0). cbv iota beta.
  replace (0 <? base) with true by lia. replace (0 * base + 0) with 0 by lia. exact IH.
Qed.
Lemma print_hex_number k n : number 16 0 (print_hex k n) = Some (n mod 2 ^ 32).
Proof.
  unfold print_hex, zero_padded. rewrite number_zeros by lia. rewrite (digits_number 16 ltac:(lia) 31); [reflexivity|].
  apply N.lt_trans with (2 ^ 32); [apply N.mod_lt; discriminate|reflexivity].
Qed.
Lemma print_hex_words k n : forallb word_char (print_hex k n) = true.
Proof.
  unfold print_hex, zero_padded. rewrite forallb_app. apply andb_true_iff. split; [|apply digits_words; [lia|reflexivity]].
  apply forallb_forall. intros x Hx. apply repeat_spec in Hx. subst. reflexivity.
Qed.
Lemma print_hex_cons k n : exists c w, print_hex k n = c :: w.
Proof.
  unfold print_hex, zero_padded. destruct (repeat 48 (k - length (digits_of 32 16 (n mod 2 ^ 32) []))) as [|c w] eqn:E; [|cbn [app]; eauto]. cbn [app].
  assert (H : forall fuel acc m, (exists c w, acc = c :: w) -> exists c w, digits_of fuel 16 m acc = c :: w).
  { induction fuel as [|fuel IH]; intros acc m H; cbn [digits_of]; [assumption|]. destruct (m / 16 =? 0); [eauto|apply IH; eauto]. }
  change (exists c w, (if (n mod 2 ^ 32) / 16 =? 0 then [digit ((n mod 2 ^ 32) mod 16)] else digits_of 31 16 ((n mod 2 ^ 32) / 16) [digit ((n mod 2 ^ 32) mod 16)]) = c :: w).
  destruct ((n mod 2 ^ 32) / 16 =? 0); [eauto|apply H; eauto].
Qed.
Lemma offset_word n : literal ([48; 120] ++ print_hex 6 n) = Some (n mod 2 ^ 32).
Proof. rewrite <- (print_hex_number 6 n). destruct (print_hex_cons 6 n) as (c & w & E). rewrite E. reflexivity. Qed.
Lemma count_word n : n < 2 ^ 32 -> literal (print_dec n) = Some n /\ forallb word_char (print_dec n) = true /\ print_dec n <> [].
Proof.
  intros Hn. unfold print_dec. rewrite N.mod_small by assumption. split; [|split; [apply digits_words; [lia|reflexivity]|]].
  - destruct (N.eq_dec n 0) as [->|Hz]; [reflexivity|].
    assert (Hp : n < 10 ^ N.of_nat 32) by (apply N.lt_trans with (2 ^ 32); [assumption|reflexivity]).
    destruct (digits_first 10 ltac:(lia) 31 n [] ltac:(lia)) as (d & t & E & Hd).
    pose proof (digits_number 10 ltac:(lia) 31 n [] Hp) as Hnum. rewrite E in *. change (number 10 n []) with (Some n) in Hnum. rewrite <- Hnum.
    assert (Hc : 49 <= digit d <= 57) by (unfold digit; replace (d <? 10) with true by lia; lia).
    clear Hnum E. revert Hc. generalize (digit d) as c. intros c Hc. unfold literal.
    destruct c as [|p]; [lia|]. do 6 (destruct p as [p|p|]; try lia; try reflexivity).
  - destruct (digits_of 32 10 n []) eqn:E; [|discriminate]. exfalso.
    destruct (N.eq_dec n 0) as [->|Hz]; [discriminate|]. destruct (digits_first 10 ltac:(lia) 31 n []) as (d & t & E' & _); [|congruence].
    split; [lia|]. apply N.lt_trans with (2 ^ 32); [assumption|reflexivity].
Qed.

(** ** Arrays of bytes *)

Lemma put_buff_app a : forall stored b, put_buff stored (a ++ b) = let '(t, s) := put_buff stored a in let '(t', s') := put_buff s b in (t ++ t', s').
Proof.
  induction a as [|x a IH]; intros stored b; cbn [app put_buff].
  - destruct (put_buff stored b); reflexivity.
  - rewrite IH. destruct (put_buff ((stored + 1) mod 2 ^ 32) a) as [t s]. destruct (put_buff s b) as [t' s']. rewrite app_assoc. reflexivity.
Qed.
Lemma put_pieces_eq pieces : forall stored, put_pieces stored pieces = fst (put_buff stored (concat pieces)).
Proof.
  induction pieces as [|p pieces IH]; intros stored; cbn [put_pieces concat]; [reflexivity|].
  rewrite put_buff_app. destruct (put_buff stored p) as [t s]. rewrite IH. destruct (put_buff s (concat pieces)); reflexivity.
Qed.

Definition byte_tokens (buf : bytes) : list token := flat_map (fun b => [Punct 44; Word (hex_word b)]) buf.
Definition last_word (w : bytes) (buf : bytes) : bytes := match rev buf with [] => w | b :: _ => hex_word b end.
Definition end_text : bytes := nl ++ text "  };" ++ nl.
Lemma lex_end w : lex (In_word w) end_text = (Between, [Word w; Punct 125; Punct 59]).
Proof. reflexivity. Qed.
Lemma lex_separator w stored b : 0 < stored < 2 ^ 32 -> b < 256 -> lex (In_word w) (put_byte stored b) = (In_word (hex_word b), [Word w; Punct 44]).
Proof.
  intros Hs Hb. unfold put_byte. fold (hex_word b). replace (stored =? 0) with false by lia.
  assert (H : lex Between (hex_word b) = (In_word (hex_word b), [])).
  { apply lex_word; [|apply hex_words; assumption]. destruct (hex_word_cons b) as (c & x & ->). discriminate. }
  destruct (stored mod 12 =? 0); apply (lex_then _ _ Between [Word w; Punct 44] _ _ []); try reflexivity; exact H.
Qed.
Lemma lex_bytes buf : forall stored w, 0 < stored -> stored + N.of_nat (length buf) <= 2 ^ 32 -> is_bytes buf ->
  lex (In_word w) (fst (put_buff stored buf) ++ end_text) = (Between, Word w :: byte_tokens buf ++ [Punct 125; Punct 59]).
Proof.
  induction buf as [|b buf IH]; intros stored w Hs Hl Hb.
  - reflexivity.
  - cbn [length] in Hl. inversion Hb as [|? ? Hb1 Hb2]; subst. cbn [put_buff byte_tokens flat_map].
    destruct (N.eq_dec (stored + 1) (2 ^ 32)) as [E|E].
    + assert (buf = []) by (destruct buf; [reflexivity|cbn [length] in Hl; lia]). subst buf. cbn [put_buff fst]. rewrite app_nil_r.
      refine (lex_then _ _ _ _ _ _ _ (lex_separator w stored b _ Hb1) (lex_end _)). lia.
    + rewrite N.mod_small by lia. specialize (IH (stored + 1) (hex_word b) ltac:(lia) ltac:(lia) Hb2).
      destruct (put_buff (stored + 1) buf) as [t s]. cbn [fst] in *. rewrite <- app_assoc.
      refine (lex_then _ _ _ _ _ _ _ (lex_separator w stored b _ Hb1) IH). lia.
Qed.
Lemma reads_bytes buf : forall w v rest, literal w = Some v -> v < 256 -> is_bytes buf ->
  initialiser 255 (Word w :: byte_tokens buf ++ Punct 125 :: rest) = Some (v :: buf, rest).
Proof.
  induction buf as [|b buf IH]; intros w v rest Hw Hv Hb.
  - cbn [byte_tokens flat_map app initialiser]. rewrite Hw. replace (255 <? v) with false by lia. reflexivity.
  - inversion Hb as [|? ? Hb1 Hb2]; subst. specialize (IH (hex_word b) b rest (proj2 (hex_words b Hb1)) Hb1 Hb2).
    change (initialiser 255 (Word w :: Punct 44 :: (Word (hex_word b) :: byte_tokens buf ++ Punct 125 :: rest)) = Some (v :: b :: buf, rest)).
    cbn [initialiser] in IH |- *. rewrite Hw. replace (255 <? v) with false by lia.
    change (punct_is "}" 44) with false. change (punct_is "," 44) with true. cbv iota.
    rewrite IH. reflexivity.
Qed.

(** [t] is the text of declaration [d]: it begins and ends between tokens. *)
Definition declares (t : bytes) (d : decl) : Prop :=
  exists ts, lex Between t = (Between, Word (text "unsigned") :: ts) /\ forall rest, declaration (Word (text "unsigned") :: ts ++ rest) = Some (d, rest).

Definition whole_bytes (pieces : list bytes) (b : bytes) : Prop := concat pieces = b.
Lemma dump_declares name pieces : is_name name = true -> concat pieces <> [] -> is_bytes (concat pieces) -> N.of_nat (length (concat pieces)) <= 2 ^ 32 ->
  declares (dump_text name pieces) (Bytes_array name (concat pieces)).
Proof.
  intros Hn Hne Hb Hl. unfold dump_text. rewrite put_pieces_eq. destruct (concat pieces) as [|b buf]; [congruence|]. clear Hne pieces.
  inversion Hb as [|? ? Hb1 Hb2]; subst. cbn [length] in Hl.
  destruct (name_word _ Hn) as [Hn1 Hn2].
  assert (H : lex Between (text "    " ++ fst (put_buff 0 (b :: buf)) ++ end_text) = (Between, Word (hex_word b) :: byte_tokens buf ++ [Punct 125; Punct 59])).
  { apply (lex_then _ _ Between [] _ _ (Word (hex_word b) :: byte_tokens buf ++ [Punct 125; Punct 59])); [reflexivity|].
    cbn [put_buff]. rewrite N.mod_small by lia.
    assert (HB := lex_bytes buf (0 + 1) (hex_word b)).
    destruct (put_buff (0 + 1) buf) as [t s]. cbn [fst] in *. rewrite <- app_assoc.
    apply (lex_then _ _ (In_word (hex_word b)) [] _ _ (Word (hex_word b) :: byte_tokens buf ++ [Punct 125; Punct 59])).
    - unfold put_byte. cbn [N.eqb]. fold (hex_word b). apply lex_word; [|apply hex_words; assumption]. destruct (hex_word_cons b) as (c & x & ->). discriminate.
    - apply HB; [lia|lia|assumption]. }
  exists (Word (text "char") :: Word name :: [Punct 91; Punct 93; Punct 61; Punct 123] ++ Word (hex_word b) :: byte_tokens buf ++ [Punct 125; Punct 59]).
  split.
  - change (nl ++ text "  };" ++ nl) with end_text.
    refine (lex_then _ _ Between [Word (text "unsigned"); Word (text "char")] _ _ _ _ _); [reflexivity|].
    refine (lex_then _ _ (In_word name) [] _ _ _ _ _); [apply lex_word; assumption|].
    rewrite app_assoc, app_assoc, app_assoc.
    refine (lex_then _ _ Between [Word name; Punct 91; Punct 93; Punct 61; Punct 123] _ _ _ _ H). reflexivity.
  - intros rest. cbn [app declaration]. change (word_is "unsigned" (text "unsigned")) with true. change (word_is "char" (text "char")) with true. cbn [negb].
    rewrite Hn. cbn [array_of]. change (punct_is "[" 91 && punct_is "]" 93 && punct_is "=" 61 && punct_is "{" 123) with true. cbv iota.
    rewrite <- app_assoc. cbn [app]. rewrite (reads_bytes buf (hex_word b) b (Punct 59 :: rest)); [reflexivity|apply hex_words; assumption|assumption|assumption].
Qed.

(** ** Whole files *)

Lemma lex_decls ts ds : Forall2 declares ts ds -> exists toks, lex Between (concat ts) = (Between, toks) /\ (length ds <= length toks)%nat /\
  (ts = [] /\ toks = [] \/ exists toks', toks = Word (text "unsigned") :: toks') /\
  forall fuel p, (length ds <= fuel)%nat -> declarations fuel (toks ++ match p with Some c => [Punct c] | None => [] end) = Some (ds, match p with Some c => [Punct c] | None => [] end).
Proof.
  induction 1 as [|t d ts ds (toks1 & L1 & D1) H (toks2 & L2 & N2 & S2 & D2)].
  - exists []. split; [reflexivity|]. split; [apply le_n|]. split; [left; split; reflexivity|]. intros fuel [c|] _; destruct fuel; reflexivity.
  - exists ((Word (text "unsigned") :: toks1) ++ toks2). split; [|split; [|split]].
    + exact (lex_then _ _ _ _ _ _ _ L1 L2).
    + rewrite app_length. cbn [length]. apply le_n_S. apply (Nat.le_trans _ _ _ N2). apply Nat.le_add_l.
    + right. exists (toks1 ++ toks2). reflexivity.
    + intros fuel p Hf. cbn [length] in Hf. destruct fuel as [|fuel]; [lia|]. cbn [app declarations]. rewrite <- app_assoc, D1, D2 by lia. reflexivity.
Qed.
Definition spaced_name (n : bytes) : option bytes := if nonempty n then Some n else None.
Lemma file_reads header nspace ts ds : header = [] \/ only_comments header -> nspace = [] \/ is_name nspace = true -> Forall2 declares ts ds ->
  read_source (((if nonempty header then header ++ nl else []) ++
                (if nonempty nspace then text "namespace " ++ nspace ++ nl ++ text "{" ++ nl ++ nl else [])) ++ concat ts ++
               (if nonempty nspace then nl ++ text "}  // end namespace" ++ nl ++ nl else [])) = Some (Source (spaced_name nspace) ds).
Proof.
  intros Hh Hn H. destruct (lex_decls _ _ H) as (toks & L & Nd & S & D).
  assert (LH : lex Between (if nonempty header then header ++ nl else []) = (Between, [])).
  { destruct Hh as [-> | Hh]; [reflexivity|]. destruct (nonempty header); [exact Hh|reflexivity]. }
  unfold read_source, tokens, spaced_name. rewrite <- app_assoc. destruct (nonempty nspace) eqn:En.
  - destruct Hn as [-> | Hn]; [discriminate|]. destruct (name_word _ Hn) as [N1 N2].
    assert (LN : lex Between (text "namespace " ++ nspace ++ nl ++ text "{" ++ nl ++ nl) = (Between, [Word (text "namespace"); Word nspace; Punct 123])).
    { refine (lex_then _ _ Between [Word (text "namespace")] _ _ [Word nspace; Punct 123] _ _); [reflexivity|].
      refine (lex_then _ _ (In_word nspace) [] _ _ [Word nspace; Punct 123] _ _); [apply lex_word; assumption|reflexivity]. }
    assert (LE : lex Between (nl ++ text "}  // end namespace" ++ nl ++ nl) = (Between, [Punct 125])) by reflexivity.
    pose proof (lex_then _ _ _ _ _ _ _ LH (lex_then _ _ _ _ _ _ _ LN (lex_then _ _ _ _ _ _ _ L LE))) as LL.
    match type of LL with _ = ?r => match goal with |- context [lex Between ?x] => change (lex Between x = r) in LL; rewrite LL end end. cbn [app].
    change (word_is "namespace" (text "namespace")) with true. rewrite Hn. change (punct_is "{" 123) with true. cbv iota. cbn [andb].
    rewrite (D _ (Some 125)) by (rewrite app_length; lia). reflexivity.
  - rewrite app_nil_r. pose proof (lex_then _ _ _ _ _ _ _ LH (lex_then Between [] Between [] _ _ _ eq_refl L)) as LL.
    match type of LL with _ = ?r => match goal with |- context [lex Between ?x] => change (lex Between x = r) in LL; rewrite LL end end. cbn [app].
    specialize (D (length toks) None Nd). rewrite app_nil_r in D.
    destruct S as [(-> & ->)|(toks' & ->)].
    + inversion H; subst. reflexivity.
    + change (word_is "namespace" (text "unsigned")) with false. unfold whole. cbv iota. rewrite D. reflexivity.
Qed.
