(** * RusTextProofs3: an article gives what it says. *)
From Coq Require Import String Ascii.
From Verif Require Import Base Serial SerialProofs WordTree TreeSpec Stems StemSpec CharTables CapScheme CapSpec GramMap RusRuntime RusSpec Compile CompileSpec Resolve Api Utf8
  EngCompile EngCompileSpec EngCompileProofs EngCompileProofs2 RusText RusTextSpec RusTextProofs RusTextProofs2.
Local Open Scope N_scope.
Local Open Scope list_scope.
Notation length := List.length.
Notation visible := RusTextSpec.visible.

(** ** Types *)
Lemma lookup_in {X} k (l : list (bytes * X)) v : RusText.lookup k l = Some v -> In (k, v) l.
Proof.
  induction l as [|[k' v'] l IH]; cbn [RusText.lookup]; [discriminate|]. destruct (list_eq_dec N.eq_dec k k') as [->|_]; [intros [= ->]; left; reflexivity|].
  intros H. right. apply IH, H.
Qed.
Definition type_bits (n : N) (p : bool) : N := n + (if p then 64 else 0).
Lemma types_there : forallb (fun g => match g with (n, p, names) => forallb (fun name => (type_of (cyr name) =? type_bits n p) && (1 <=? n) && (n <? 63)) names end) word_types = true.
Proof. vm_compute. reflexivity. Qed.
Lemma types_only : forallb (fun kv => existsb (fun g => match g with (n, p, names) => (type_bits n p =? snd kv) &&
  existsb (fun name => if list_eq_dec N.eq_dec (cyr name) (fst kv) then true else false) names end) word_types) types_map = true.
Proof. vm_compute. reflexivity. Qed.
Lemma typed_type m t n p : typed m t n p -> type_of (m ++ 32 :: t) = type_bits n p /\ 1 <= n < 63.
Proof.
  intros (names & name & H1 & H2 & E). pose proof types_there as K. rewrite forallb_forall in K. specialize (K _ H1). cbn beta iota in K.
  rewrite forallb_forall in K. specialize (K _ H2). rewrite E in K. apply andb_true_iff in K as [K K3]. apply andb_true_iff in K as [K1 K2].
  apply N.eqb_eq in K1. apply N.leb_le in K2. apply N.ltb_lt in K3. split; [exact K1|lia].
Qed.
Lemma type_typed m t : type_of (m ++ 32 :: t) <> 0 -> exists n p, typed m t n p.
Proof.
  unfold type_of. destruct (RusText.lookup (m ++ 32 :: t) types_map) as [v|] eqn:E; [|congruence]. intros _. apply lookup_in in E.
  pose proof types_only as K. rewrite forallb_forall in K. specialize (K _ E). apply existsb_exists in K as ([[n p] names] & H1 & H2). cbn [fst snd] in H2.
  apply andb_true_iff in H2 as [_ H2]. apply existsb_exists in H2 as (name & H2 & H3). destruct (list_eq_dec N.eq_dec (cyr name) (m ++ 32 :: t)) as [E'|]; [|discriminate].
  exists n, p, names, name. split; [exact H1|]. split; [exact H2|exact E'].
Qed.

Lemma bits_low n p : 1 <= n < 63 -> N.land (type_bits n p) 63 = n.
Proof.
  intros H. assert (K : forallb (fun k => let n := N.of_nat k in (N.land (type_bits n true) 63 =? n) && (N.land (type_bits n false) 63 =? n)) (seq 0 63) = true) by (vm_compute; reflexivity).
  rewrite forallb_forall in K. specialize (K (N.to_nat n)). rewrite in_seq in K. specialize (K ltac:(lia)). cbv zeta in K. rewrite N2Nat.id in K.
  apply andb_true_iff in K as [K1 K2]. apply N.eqb_eq in K1, K2. destruct p; assumption.
Qed.
Definition attr_sum (a b c d : bool) : N := (if a then 128 else 0) + (if b then 256 else 0) + (if c then 512 else 0) + (if d then 1024 else 0).
Lemma bits_lor n p a b c d : 1 <= n < 63 -> N.lor (type_bits n p) (attr_sum a b c d) = type_bits n p + attr_sum a b c d /\ N.land (type_bits n p + attr_sum a b c d) 63 = n.
Proof.
  intros H. set (bs := [true; false]).
  assert (K : forallb (fun k => let n := N.of_nat k in forallb (fun p => forallb (fun a => forallb (fun b => forallb (fun c => forallb (fun d =>
     (N.lor (type_bits n p) (attr_sum a b c d) =? type_bits n p + attr_sum a b c d) && (N.land (type_bits n p + attr_sum a b c d) 63 =? n)) bs) bs) bs) bs) bs) (seq 0 63) = true) by (vm_compute; reflexivity).
  rewrite forallb_forall in K. specialize (K (N.to_nat n)). rewrite in_seq in K. specialize (K ltac:(lia)). cbv zeta in K. rewrite N2Nat.id in K.
  assert (B : forall x : bool, In x bs) by (intros []; [left; reflexivity|right; left; reflexivity]).
  rewrite forallb_forall in K; specialize (K p (B p)). rewrite forallb_forall in K; specialize (K a (B a)). rewrite forallb_forall in K; specialize (K b (B b)).
  rewrite forallb_forall in K; specialize (K c (B c)). rewrite forallb_forall in K; specialize (K d (B d)). apply andb_true_iff in K as [K1 K2]. apply N.eqb_eq in K1, K2. split; assumption.
Qed.

(** ** First occurrences *)
Lemma removelast_len (l : bytes) : length (removelast l) = pred (length l).
Proof. induction l as [|c [|d l] IH]; [reflexivity|reflexivity|]. cbn [removelast length] in *. rewrite IH. reflexivity. Qed.
Lemma prefix_of_app (x y z w : bytes) : x ++ y = z ++ w -> (length x <= length z)%nat -> exists t, z = x ++ t.
Proof.
  revert z. induction x as [|c x IH]; intros z E H; [exists z; reflexivity|]. destruct z as [|d z]; [cbn in H; lia|]. cbn in E. injection E as -> E. cbn in H.
  destruct (IH z E ltac:(lia)) as (t & ->). exists t. reflexivity.
Qed.
Lemma strstr_first pat a r : pat <> [] -> lacks pat (a ++ removelast pat) -> strstr pat (a ++ pat ++ r) = Some (a, pat ++ r).
Proof.
  intros Hp. induction a as [|c a IH]; intros H; [cbn [app]; apply strstr_here|]. cbn [app strstr].
  assert (Es : starts pat (c :: a ++ pat ++ r) = false).
  { destruct (starts pat (c :: a ++ pat ++ r)) eqn:E; [|reflexivity]. exfalso. apply starts_iff in E as (w & E).
    assert (E2 : pat ++ w = (c :: a ++ removelast pat) ++ last pat 0 :: r).
    { rewrite <- E. cbn [app]. rewrite <- app_assoc. do 2 f_equal. change (last pat 0 :: r) with ([last pat 0] ++ r). rewrite app_assoc. f_equal. apply app_removelast_last, Hp. }
    apply prefix_of_app in E2.
    - destruct E2 as (t & E2). apply (H [] t). exact E2.
    - cbn [length]. rewrite app_length, removelast_len. destruct pat; [congruence|cbn; lia]. }
  rewrite Es, IH; [reflexivity|]. intros u v E. apply (H (c :: u) v). cbn [app]. rewrite E. reflexivity.
Qed.
Lemma strstr_before pat s a b : pat <> [] -> strstr pat s = Some (a, b) -> lacks pat (a ++ removelast pat).
Proof.
  intros Hp. revert a b. induction s as [|c s IH]; intros a b H; cbn [strstr] in H.
  - destruct (starts pat []) eqn:E; [|discriminate]. apply starts_iff in E as (r & E). destruct pat; [congruence|discriminate].
  - destruct (starts pat (c :: s)) eqn:E.
    + injection H as <- <-. intros u v E'. apply (f_equal (@List.length N)) in E'. cbn [app] in E'. rewrite !app_length, removelast_len in E'. destruct pat; [congruence|cbn in E'; lia].
    + destruct (strstr pat s) as [[a' b']|] eqn:Es; [|discriminate]. injection H as <- <-. intros u v E'. destruct u as [|d u].
      * destruct (strstr_some _ _ _ _ Es) as (E1 & r & E2). subst b'. assert (starts pat (c :: s) = true); [|congruence]. apply starts_iff.
        cbn [app] in E'. subst s. exists (v ++ last pat 0 :: r). transitivity ((pat ++ v) ++ last pat 0 :: r); [|rewrite <- app_assoc; reflexivity]. rewrite <- E'. cbn [app]. rewrite <- !app_assoc. f_equal. f_equal.
        change (last pat 0 :: r) with ([last pat 0] ++ r). rewrite app_assoc. f_equal. apply app_removelast_last, Hp.
      * cbn [app] in E'. injection E' as <- E'. apply (IH a' b' eq_refl u v). exact E'.
Qed.

(** ** The cases of a preposition *)
Lemma index_of_some c l i j : index_of c l i = Some j -> i <= j /\ nth_error l (N.to_nat (j - i)) = Some c.
Proof.
  revert i. induction l as [|x l IH]; intros i H; cbn [index_of] in H; [discriminate|]. destruct (N.eqb_spec x c) as [->|Hne].
  - injection H as <-. split; [lia|]. rewrite N.sub_diag. reflexivity.
  - apply IH in H as [H1 H2]. split; [lia|]. replace (N.to_nat (j - i)) with (S (N.to_nat (j - (i + 1)))) by lia. exact H2.
Qed.
Lemma index_of_none c l i : index_of c l i = None <-> ~ In c l.
Proof.
  revert i. induction l as [|x l IH]; intros i; cbn [index_of]; [split; [intros _ []|reflexivity]|]. destruct (N.eqb_spec x c) as [->|Hne].
  - split; [discriminate|]. intros H. exfalso. apply H. left. reflexivity.
  - rewrite IH. split; [intros H [E|E]; [congruence|contradiction]|]. intros H K. apply H. right. exact K.
Qed.
Lemma scale_unique i j c : nth_error st_casescale i = Some c -> nth_error st_casescale j = Some c -> i = j.
Proof.
  intros H1 H2. assert (Nd : NoDup st_casescale) by (unfold st_casescale; repeat constructor; cbn; lia).
  rewrite NoDup_nth_error in Nd. apply Nd; [|congruence]. apply nth_error_Some. congruence.
Qed.
Lemma case_loop_bits s : forall v, exists b rest, s = b ++ rest /\ incl b st_casescale /\ (forall c r, rest = c :: r -> ~ In c st_casescale) /\
  forall i, N.testbit (case_loop s v) (N.of_nat i) = true <-> N.testbit v (N.of_nat i) = true \/ exists c, nth_error st_casescale i = Some c /\ In c b.
Proof.
  induction s as [|c s IH]; intros v.
  - exists [], []. split; [reflexivity|]. split; [intros c []|]. split; [discriminate|]. intros i. cbn [case_loop]. split; [intros H; left; exact H|]. intros [H|(c & _ & [])]. exact H.
  - cbn [case_loop]. destruct (index_of c st_casescale 0) as [j|] eqn:E.
    + apply index_of_some in E as [_ E]. rewrite N.sub_0_r in E.
      destruct (IH (N.lor v (N.shiftl 1 j))) as (b & rest & -> & H1 & H2 & H3). exists (c :: b), rest. split; [reflexivity|].
      split; [intros d [<-|Hd]; [apply nth_error_In in E; exact E|apply H1, Hd]|]. split; [exact H2|]. intros i. rewrite H3. rewrite N.lor_spec, N.shiftl_1_l, N.pow2_bits_eqb, orb_true_iff, N.eqb_eq.
      split.
      * intros [[H|H]|(d & Hd & Hin)]; [left; exact H| |right; exists d; split; [exact Hd|right; exact Hin]].
        right. exists c. split; [|left; reflexivity]. subst j. rewrite Nat2N.id in E. exact E.
      * intros [H|(d & Hd & [->|Hin])]; [left; left; exact H| |right; exists d; split; assumption].
        left. right. pose proof (scale_unique _ _ _ E Hd) as <-. lia.
    + apply index_of_none in E. exists [], (c :: s). split; [reflexivity|]. split; [intros d []|]. split; [intros d r [= <- <-]; exact E|].
      intros i. split; [intros H; left; exact H|]. intros [H|(d & _ & [])]. exact H.
Qed.
Lemma prefix_split (P : bytes) (b b' rest rest' : bytes) : b ++ rest = b' ++ rest' -> incl b P -> incl b' P ->
  (forall c r, rest = c :: r -> ~ In c P) -> (forall c r, rest' = c :: r -> ~ In c P) -> b = b'.
Proof.
  revert b'. induction b as [|c b IH]; intros b' E Hb Hb' Hr Hr'.
  - destruct b' as [|d b']; [reflexivity|]. exfalso. cbn in E. apply (Hr d (b' ++ rest')); [exact E|]. apply Hb'. left. reflexivity.
  - destruct b' as [|d b']; [exfalso; cbn in E; apply (Hr' c (b ++ rest)); [symmetry; exact E|]; apply Hb; left; reflexivity|].
    cbn in E. injection E as <- E. f_equal. apply IH; [exact E| | |exact Hr|exact Hr']; intros x Hx; [apply Hb|apply Hb']; right; exact Hx.
Qed.
Lemma case_scale_eq index i : N.testbit (case_scale index) (N.of_nat i) = true <-> cases_in index i.
Proof.
  unfold case_scale, cases_in. change (cyr "ИРДВТП") with st_casescale. change (cyr "ШП:") with st_casemark.
  assert (Hne : st_casemark <> []) by discriminate.
  destruct (strstr st_casemark index) as [[a p]|] eqn:E.
  - pose proof (strstr_before _ _ _ _ Hne E) as L. apply strstr_some in E as (-> & r & ->).
    change (skipn 3 (st_casemark ++ r)) with r. destruct (case_loop_bits r 0) as (b & rest & -> & H1 & H2 & H3). rewrite H3. split.
    + intros [H|H]; [rewrite N.bits_0 in H; discriminate|]. exists a, b, rest. split; [reflexivity|]. split; [exact L|]. split; [exact H1|]. split; [exact H2|exact H].
    + intros (a' & b' & rest' & E' & L' & H1' & H2' & c & Hc & Hin).
      pose proof (strstr_first _ a (b ++ rest) Hne L) as F1. pose proof (strstr_first _ a' (b' ++ rest') Hne L') as F2. rewrite E' in F1.
      rewrite F1 in F2. injection F2 as -> F2.
      assert (b = b') by (apply (prefix_split st_casescale b b' rest rest'); [exact F2|exact H1|exact H1'|exact H2|exact H2']). subst b'.
      right. exists c. split; assumption.
  - rewrite N.bits_0. split; [discriminate|]. intros (a' & b' & rest' & -> & L' & _). rewrite strstr_first in E by assumption. discriminate.
Qed.

(** ** The rest *)
Lemma mix_index_eq wd n index : N.land wd 63 = n -> mix_index wd index = if n <=? 6 then verb_kind index else 0.
Proof.
  intros E. unfold mix_index. rewrite E. destruct (n <=? 6); [|reflexivity]. unfold verb_kind. cbn [existsb].
  assert (Q : forall a b : bytes, (if list_eq_dec N.eq_dec a b then true else false) = true <-> a = b) by (intros a b; destruct (list_eq_dec N.eq_dec a b); split; congruence || discriminate).
  assert (S1 : starts (text "5c/c") index = if list_eq_dec N.eq_dec (firstn (length (text "5c/c")) index) (text "5c/c") then true else false) by reflexivity.
  assert (S2 : starts (text "5*c/c") index = if list_eq_dec N.eq_dec (firstn (length (text "5*c/c")) index) (text "5*c/c") then true else false) by reflexivity.
  rewrite <- S1, <- S2. clear S1 S2.
  destruct index as [|c0 index]; [vm_compute; reflexivity|]. cbn [nth].
  change (length (text "6")) with 1%nat. change (length (text "9")) with 1%nat. change (length (text "10")) with 2%nat. change (length (text "14")) with 2%nat.
  change (text "6") with [54]. change (text "9") with [57]. change (text "10") with [49; 48]. change (text "14") with [49; 52]. change (text "11") with [49; 49].
  assert (F1 : forall d, (if list_eq_dec N.eq_dec (firstn 1 (c0 :: index)) [d] then true else false) = (c0 =? d)).
  { intros d. cbn [firstn]. destruct (list_eq_dec N.eq_dec [c0] [d]) as [K|K]; [injection K as ->; rewrite N.eqb_refl; reflexivity|]. symmetry. apply N.eqb_neq. congruence. }
  assert (F2 : forall d, d <> 0 -> (if list_eq_dec N.eq_dec (firstn 2 (c0 :: index)) [49; d] then true else false) = (c0 =? 49) && (nth 0 index 0 =? d)).
  { intros d Hd. destruct index as [|c1 index]; cbn [firstn nth].
    - destruct (list_eq_dec N.eq_dec [c0] [49; d]); [discriminate|]. destruct (N.eqb_spec 0 d); [congruence|]. rewrite andb_false_r. reflexivity.
    - destruct (list_eq_dec N.eq_dec [c0; c1] [49; d]) as [K|K]; [injection K as -> ->; rewrite !N.eqb_refl; reflexivity|]. symmetry. apply andb_false_iff.
      destruct (N.eqb_spec c0 49); [|left; reflexivity]. right. apply N.eqb_neq. congruence. }
  rewrite !F1, !F2 by discriminate.
  assert (F3 : (if list_eq_dec N.eq_dec (firstn 2 (c0 :: index)) [49; 49] then 2 else if (c0 =? 54) || ((c0 =? 57) || ((c0 =? 49) && (nth 0 index 0 =? 48) || ((c0 =? 49) && (nth 0 index 0 =? 52) ||
      (starts (text "5c/c") (c0 :: index) || (starts (text "5*c/c") (c0 :: index) || false))))) then 1 else 0)
    = if (c0 =? 49) && (nth 0 index 0 =? 49) then 2 else if (c0 =? 54) || ((c0 =? 57) || ((c0 =? 49) && (nth 0 index 0 =? 48) || ((c0 =? 49) && (nth 0 index 0 =? 52) ||
      (starts (text "5c/c") (c0 :: index) || (starts (text "5*c/c") (c0 :: index) || false))))) then 1 else 0).
  { rewrite <- (F2 49) by discriminate. destruct (list_eq_dec N.eq_dec (firstn 2 (c0 :: index)) [49; 49]); reflexivity. }
  rewrite F3. clear F1 F2 F3 Q.
  assert (S5 : forall t, c0 <> 53 -> starts (53 :: t) (c0 :: index) = false).
  { intros t H. destruct (starts (53 :: t) (c0 :: index)) eqn:K; [|reflexivity]. apply starts_iff in K as (r & K). injection K as K _. congruence. }
  change (text "5c/c") with (53 :: text "c/c"). change (text "5*c/c") with (53 :: text "*c/c").
  destruct (N.eqb_spec c0 54) as [->|H54]; [cbn [orb andb]; reflexivity|].
  destruct (N.eqb_spec c0 57) as [->|H57]; [cbn [orb andb]; reflexivity|].
  destruct (N.eqb_spec c0 53) as [->|H53]; cbn [orb].
  - change (53 =? 49) with false. cbn [andb orb]. rewrite orb_false_r. reflexivity.
  - rewrite !S5 by exact H53. rewrite !orb_false_r. destruct (c0 =? 49); cbn [andb]; [|reflexivity].
    set (c1 := nth 0 index 0). destruct (N.eqb_spec c1 49) as [->|H49]; [reflexivity|]. destruct ((c1 =? 48) || (c1 =? 52)); reflexivity.
Qed.

Lemma headword_eq s : headword (map no_yo s) = plain_word s.
Proof.
  unfold headword, plain_word. induction s as [|c s IH]; [reflexivity|]. cbn [map filter]. unfold no_yo at 2 4. fold no_yo.
  change 0xb8 with 184 in *. change 0xe5 with 229 in *. destruct (N.eqb_spec c 184) as [->|Hc].
  - change (negb (229 =? 61)) with true. change (negb (184 =? 61)) with true. cbn [map]. rewrite IH. reflexivity.
  - destruct (negb (c =? 61)); [|exact IH]. cbn [map]. rewrite IH. unfold no_yo. change 0xb8 with 184. rewrite !(proj2 (N.eqb_neq c 184) Hc). reflexivity.
Qed.

(** ** Entries *)
Section Entry.
  Variables (depth : nat) (T : tables) (x : rarticle) (comm lid : bytes).
  Hypotheses (HT : tables_ok T) (Hok : rarticle_ok x) (Hcomm : put_comm lid (r_notes x) comm) (Hlid : forall c, In c lid -> c <> 45 /\ c <> 123 /\ c <> 112 /\ 32 < c).

  Let wd n p := type_bits n p.
  Lemma class_bits_eq n p : 1 <= n < 63 -> N.lor (type_bits n p) (lex_flags comm) = class_bits x n p /\ N.land (class_bits x n p) 63 = n.
  Proof using Hok Hcomm Hlid.
    intros Hn. rewrite (lex_flags_comm lid (r_notes x) comm Hcomm (ro_notes x Hok)) by (intros K; apply Hlid in K as (_ & K & _); congruence).
    unfold class_bits. fold (type_bits n p). apply (bits_lor n p (has_attribute (r_notes x) 0) (has_attribute (r_notes x) 1) (has_attribute (r_notes x) 2) (has_attribute (r_notes x) 3) Hn).
  Qed.
  Lemma index_none_existsb c l i : (match index_of c l i with Some _ => true | None => false end) = existsb (N.eqb c) l.
  Proof using.
    clear. revert i. induction l as [|d l IH]; intros i; cbn [index_of existsb]; [reflexivity|]. rewrite (N.eqb_sym d c). destruct (c =? d); [reflexivity|]. cbn [orb]. apply IH.
  Qed.
  Lemma index_of_at c a b i : ~ In c a -> index_of c (a ++ c :: b) i = Some (i + N.of_nat (length a)).
  Proof using.
    clear. revert i. induction a as [|d a IH]; intros i H; cbn [app index_of length].
    - rewrite N.eqb_refl. f_equal. lia.
    - destruct (N.eqb_spec d c) as [->|_]; [exfalso; apply H; left; reflexivity|]. rewrite IH by (intros K; apply H; right; exact K). f_equal. lia.
  Qed.

  Lemma entry_eq index r : entry depth T x index r -> resolve_class depth T (map no_yo (r_head x)) (r_mark x) (r_type x) index comm (r_id x) = r.
  Proof using HT Hok Hcomm Hlid.
    intros H. unfold resolve_class. cbv zeta.
    assert (Z : forall n p, typed (r_mark x) (r_type x) n p -> type_of (r_mark x ++ 32 :: r_type x) = type_bits n p /\ 1 <= n < 63 /\ N.land (type_bits n p) 63 = n /\ (type_bits n p =? 0) = false).
    { intros n p Ht. apply typed_type in Ht as [E Hn]. split; [exact E|]. split; [exact Hn|]. split; [apply bits_low, Hn|]. apply N.eqb_neq. unfold type_bits. lia. }
    destruct H as [Hn|n p Ht Hc Hi El|n p off cases at_mark r Ht Hoff Hcases word post Hlen Hat Hr].
    - destruct (N.eqb_spec (type_of (r_mark x ++ 32 :: r_type x)) 0) as [_|E]; [reflexivity|]. exfalso. apply type_typed in E as (n & p & E). apply (Hn n p E).
    - destruct (Z n p Ht) as (E & Hb & El2 & E0). rewrite E, E0, El2, El. unfold constant in Hc. destruct (N.ltb_spec n 48); [|lia]. cbn [andb].
      change (0 =? 0) with true. cbn [andb]. change [48] with (text "0"). destruct (list_eq_dec N.eq_dec index (text "0")); [contradiction|]. reflexivity.
    - destruct (Z n p Ht) as (E & Hb & El2 & E0). rewrite E, E0, El2.
      set (tf := if n <? 48 then match RusText.lookup (r_type x ++ 32 :: index) (tb_findex T) with Some o => o mod 2 ^ 16 | None => 0 end else 0).
      assert (Etf : tf = off /\ (n <? 48) && (tf =? 0) && negb (if list_eq_dec N.eq_dec index [48] then true else false) = false).
      { unfold tf, constant in *. destruct Hoff as [[Hc ->]|[Hc Hl]].
        - destruct (N.ltb_spec n 48); [lia|]. split; reflexivity.
        - destruct (N.ltb_spec n 48); [|lia]. destruct Hl as [Hl|(Hl & Hi & ->)]; rewrite Hl.
          + specialize (HT _ _ Hl).
            rewrite N.mod_small by apply HT. split; [reflexivity|]. destruct (N.eqb_spec off 0); [lia|]. reflexivity.
          + split; [reflexivity|]. change [48] with (text "0"). destruct (list_eq_dec N.eq_dec index (text "0")); [apply andb_false_r|contradiction]. }
      destruct Etf as [-> Etf]. rewrite Etf. rewrite headword_eq. fold word.
      rewrite (find_post_comm lid (r_notes x) comm Hcomm (ro_notes x Hok)) by (apply (lacks_char 112); [left; reflexivity|]; intros K; apply Hlid in K as (_ & _ & K & _); congruence).
      fold post. rewrite (get_remark_comm lid (r_notes x) comm Hcomm (ro_notes x Hok)) by (intros K; apply Hlid in K as (K & _); congruence).
      unfold cut at 1. destruct (N.ltb_spec (N.of_nat (length word)) (N.of_nat (length post))) as [K|_]; [lia|]. cbn [bind]. rewrite Nat2N.id.
      destruct (class_bits_eq n p Hb) as [-> E63]. rewrite (mix_index_eq _ n index E63), index_none_existsb.
      assert (Ec : cases = case_scale index).
      { apply N.bits_inj. intros k. rewrite <- (N2Nat.id k). destruct (N.testbit cases (N.of_nat (N.to_nat k))) eqn:B1, (N.testbit (case_scale index) (N.of_nat (N.to_nat k))) eqn:B2; try reflexivity; exfalso.
        - apply Hcases, case_scale_eq in B1. congruence.
        - apply case_scale_eq, Hcases in B2. congruence. }
      rewrite <- Ec.
      assert (Ea : option_map N.to_nat (index_of 64 (firstn (length word - length post) word) 0) = at_mark).
      { destruct at_mark as [k|].
        - destruct Hat as (rest & E1 & E2 & E3). rewrite E1, index_of_at by exact E2. cbn [option_map]. f_equal. rewrite firstn_length_le by exact E3. lia.
        - rewrite (proj2 (index_of_none 64 _ 0) Hat). reflexivity. }
      rewrite Ea. exact Hr.
  Qed.
End Entry.

(** ** Articles *)
Lemma field_cons room s : field room s -> exists c r, s = c :: r /\ visible c.
Proof. intros (H1 & H2 & _). destruct s as [|c r]; [congruence|]. exists c, r. split; [reflexivity|]. apply (Forall_inv H1). Qed.

Section Article.
  Variables (depth : nat) (T : tables) (x : rarticle) (sp1 sp2 sp3 notes sp4 num : bytes).
  Hypotheses (HT : tables_ok T) (Hok : rarticle_ok x) (H1 : gap sp1) (H2 : gap sp2) (H3 : gap sp3) (Hn : put_notes (r_notes x) notes) (H4 : gap sp4) (Hnum : numeral num (r_id x)).
  Let lid := text "LID:" ++ num.
  Let body := r_head x ++ sp1 ++ r_mark x ++ sp2 ++ r_type x ++ sp3 ++ r_index x ++ notes ++ sp4 ++ lid.

  Lemma build_stems_eq l : senses depth T x l -> build_stems depth T body (r_id x) = Ok l.
  Proof using HT Hok H1 H2 H3 Hn H4 Hnum.
    intros Hs. destruct (comm_of lid (r_notes x) notes Hn sp4 H4) as (sp & comm & Hsp & E & Hcomm). unfold body. rewrite E.
    assert (Hlid : forall c, In c lid -> c <> 45 /\ c <> 123 /\ c <> 112 /\ 32 < c) by (intros c; apply (lid_chars num (r_id x) c Hnum)).
    destruct (comm_cons lid (r_notes x) comm Hcomm (ro_notes x Hok)) as (cc & rc & Ec & Vc); [exists 76, (73 :: 68 :: 58 :: num); split; [reflexivity|unfold visible; lia]|].
    destruct (field_cons _ _ (ro_mark x Hok)) as (cm & rm & Em & Vm). destruct (field_cons _ _ (ro_type x Hok)) as (ct & rt & Et & Vt). destruct (field_cons _ _ (ro_index x Hok)) as (ci & ri & Ei & Vi).
    unfold build_stems. change 0x100%nat with 256%nat. change 0x20%nat with 32%nat.
    rewrite Em. cbn [app]. rewrite sub_text_eq by (apply Hok || assumption). cbn [bind]. change (cm :: rm ++ ?z) with ((cm :: rm) ++ z). rewrite <- Em.
    rewrite Et. cbn [app]. rewrite sub_text_eq by (apply Hok || assumption). cbn [bind]. change (ct :: rt ++ ?z) with ((ct :: rt) ++ z). rewrite <- Et.
    rewrite Ei. cbn [app]. rewrite sub_text_eq by (apply Hok || assumption). cbn [bind]. change (ci :: ri ++ ?z) with ((ci :: ri) ++ z). rewrite <- Ei.
    rewrite Ec. rewrite sub_text_eq by (apply Hok || assumption). cbn [bind]. rewrite <- Ec. cbv zeta.
    destruct Hs as [l He|He Hl|a b la lb He Ei2 Hl Ha Hb].
    - rewrite (entry_eq depth T x comm lid HT Hok Hcomm Hlid _ _ He). cbn [bind]. reflexivity.
    - rewrite (entry_eq depth T x comm lid HT Hok Hcomm Hlid _ _ He). cbn [bind]. rewrite (strstr_lacks _ _ Hl). reflexivity.
    - rewrite (entry_eq depth T x comm lid HT Hok Hcomm Hlid _ _ He). cbn [bind].
      assert (Es : strstr (text "//") (r_index x) = Some (a, text "//" ++ b)) by (rewrite Ei2; apply strstr_first; [discriminate|exact Hl]). rewrite Es.
      change (skipn 2 (text "//" ++ b)) with b.
      rewrite (entry_eq depth T x comm lid HT Hok Hcomm Hlid _ _ Ha). cbn [bind]. rewrite (entry_eq depth T x comm lid HT Hok Hcomm Hlid _ _ Hb). cbn [bind]. reflexivity.
  Qed.

  Lemma lid_pat : Forall visible (text "LID:") /\ text "LID:" <> [].
  Proof using. clear. split; [unfold visible; repeat constructor|discriminate]. Qed.
  Lemma notes_lid ns s : put_notes ns s -> Forall note_ok ns -> forall a, lacks (text "LID:") a ->
    strstr (text "LID:") (a ++ s ++ sp4 ++ lid) = Some (a ++ s ++ sp4, lid).
  Proof using H4.
    destruct lid_pat as [P1 P2]. pose proof (gap_spaces _ H4) as (_ & S4 & N4).
    induction 1 as [|n ns sp rest Hsp H IH]; intros Hns a La.
    - cbn [app]. rewrite strstr_token by assumption. unfold lid. rewrite strstr_here. rewrite app_nil_r. reflexivity.
    - inversion Hns as [|? ? Hn0 Hns0]; subst. rewrite <- !app_assoc. pose proof (gap_spaces _ Hsp) as (_ & Ssp & Nsp). rewrite strstr_token by assumption.
      rewrite (IH Hns0 (put_note n)) by (apply note_no_lid; assumption). reflexivity.
  Qed.
  Lemma find_lid : exists before, strstr (text "LID:") body = Some (before ++ sp4, lid).
  Proof using Hok H1 H2 H3 Hn H4.
    destruct lid_pat as [P1 P2]. destruct (gap_spaces _ H1) as (_ & S1 & N1). destruct (gap_spaces _ H2) as (_ & S2 & N2). destruct (gap_spaces _ H3) as (_ & S3 & N3).
    unfold body. rewrite strstr_token by (assumption || apply (ro_head x Hok)). rewrite strstr_token by (assumption || apply (ro_mark x Hok)).
    rewrite strstr_token by (assumption || apply (ro_type x Hok)). rewrite (notes_lid _ _ Hn (ro_notes x Hok)) by apply (ro_index x Hok).
    eexists. rewrite !app_assoc. reflexivity.
  Qed.
  Lemma head_not_comment : starts (text "//") body = false.
  Proof using Hok H1.
    destruct (starts (text "//") body) eqn:E; [|reflexivity]. exfalso. apply starts_iff in E as (r & E). unfold body in E. change (text "//") with [47; 47] in E.
    pose proof (ro_comment x Hok) as Hc. change (text "//") with [47; 47] in Hc. destruct (ro_head x Hok) as (_ & Hne & _).
    destruct (r_head x) as [|a [|b h]]; [congruence| |].
    - destruct H1 as [B1 B2]. destruct sp1 as [|c s]; [congruence|]. cbn in E. injection E as _ E _. apply Forall_inv in B1. destruct B1; congruence.
    - cbn in E. injection E as -> -> _. apply Hc. reflexivity.
  Qed.

  Lemma trim_body sp0 sp5 : Forall blank sp0 -> Forall line_end sp5 -> trim_end (skip_space (sp0 ++ body ++ sp5)) = body.
  Proof using Hok Hnum.
    intros H0 H5. destruct (field_cons _ _ (ro_head x Hok)) as (c & r & Eh & Vc).
    destruct (numeral_facts _ _ Hnum) as (_ & _ & _ & a & d & Ed & Hd).
    assert (Eb : exists r', body = c :: r') by (unfold body; rewrite Eh; eexists; reflexivity). destruct Eb as (r' & Eb).
    assert (Et : exists r', body = r' ++ [d]) by (unfold body, lid; rewrite Ed, !app_assoc; eexists; reflexivity). destruct Et as (r'' & Et).
    assert (E1 : skip_space (sp0 ++ body ++ sp5) = body ++ sp5).
    { rewrite Eb. cbn [app]. apply skip_space_app; [apply blank_spaces, H0|apply visible_not_space, Vc]. }
    rewrite E1. rewrite Et at 1. rewrite <- app_assoc. cbn [app]. rewrite trim_end_app; [symmetry; exact Et|exact Hd|]. eapply Forall_impl; [|exact H5]. apply end_space.
  Qed.
  Lemma dict_body sp0 sp5 : Forall blank sp0 -> Forall line_end sp5 -> dict_line (sp0 ++ body ++ sp5) = Some (body, r_id x).
  Proof using Hok H1 H2 H3 Hn H4 Hnum.
    intros H0 H5. unfold dict_line. rewrite (trim_body sp0 sp5 H0 H5). cbv zeta.
    destruct (field_cons _ _ (ro_head x Hok)) as (c & r & Eh & Vc). assert (Ne : nonempty body = true) by (unfold body; rewrite Eh; reflexivity).
    rewrite Ne, head_not_comment. cbn [negb orb]. destruct find_lid as (before & ->).
    destruct H4 as [B4 N4]. destruct (exists_last N4) as (s & b & Es). rewrite Es, app_assoc, rev_app_distr. cbn [rev app].
    assert (Hb : (b =? 9) || (b =? 32) = true).
    { rewrite Es in B4. apply Forall_app in B4 as [_ B4]. apply Forall_inv in B4. destruct B4 as [-> | ->]; reflexivity. }
    rewrite Hb. change (skipn 4 lid) with num. rewrite (strtoul_numeral num (r_id x) Hnum) by apply (ro_id x Hok).
    destruct (N.eqb_spec (r_id x) 0) as [E|_]; [destruct (ro_id x Hok); lia|reflexivity].
  Qed.
  Lemma read_body sp0 sp5 l : Forall blank sp0 -> Forall line_end sp5 -> senses depth T x l ->
    read_line depth T (sp0 ++ body ++ sp5) = Ok (l, match l with [] => [body] | _ => [] end).
  Proof using HT Hok H1 H2 H3 Hn H4 Hnum.
    intros H0 H5 Hs. unfold read_line. rewrite (trim_body sp0 sp5 H0 H5). cbv zeta. rewrite head_not_comment, (dict_body sp0 sp5 H0 H5). rewrite (build_stems_eq l Hs). cbn [bind]. reflexivity.
  Qed.
End Article.

Lemma read_written depth T x line body l : tables_ok T -> rwritten x line body -> senses depth T x l -> read_line depth T line = Ok (l, match l with [] => [body] | _ => [] end).
Proof.
  intros HT (Hok & sp0 & sp5 & -> & H0 & H5 & [sp1 sp2 sp3 notes sp4 num H1 H2 H3 Hn H4 Hnum]) Hs.
  apply (read_body depth T x sp1 sp2 sp3 notes sp4 num); assumption.
Qed.
