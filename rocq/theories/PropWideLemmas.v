(** * PropWideLemmas: an instance of the converters, and what the theorems of Prop_Wide.v need.  PROOFS. *)
From Verif Require Import Base Serial WordTree TreeSpec FlatScan Stems StemSpec CharTables CapScheme CapSpec GramMap RusRuntime RusSpec RusProofs3 PropRusLemmas
  RusBuild RusBuildSpec RusBuildProofs RusBuildProofs2 RusBuildProofs3 RusBuildProofs4 RusReadings RusLemmaSpec PropBuildLemmas PropLemmasLemmas EngRuntime EngSpec EngProofs2 EngFormsSpec EngLemmaSpec
  PropEngLemmas PropEngLemmas2 Codepage CodepageSpec Utf8 CodepageProofs8 PropCodepageLemmas WideApi WideSpec WideProofs WideProofs2 WideProofs3 WideProofs4 WideProofs5.
Local Open Scope N_scope.

(** UTF-16: all of windows-1251 is in the basic plane. *)
Definition utf16 (slack : nat) : wide := Wide to_unicode from_unicode slack.

Lemma position_below u l : forall i, i + N.of_nat (length l) <= 256 -> position u l i < 256.
Proof. induction l as [|x l IH]; intros i H; cbn [position length] in *; [lia|]. destruct (x =? u); [lia|]. apply IH. lia. Qed.
Lemma unicode_back : forallb (fun n => from_unicode (to_unicode (N.of_nat n)) =? N.of_nat n) (seq 0 256) = true.
Proof. vm_compute. reflexivity. Qed.
Lemma utf16_ok s : (s <= 1)%nat -> wide_ok (utf16 s).
Proof.
  intros Hs. split; cbn [to_wide of_wide wslack utf16].
  - reflexivity.
  - exact to_unicode_nonzero.
  - intros c Hc. pose proof unicode_back as F. rewrite forallb_forall in F. specialize (F (N.to_nat c)). rewrite N2Nat.id in F. apply N.eqb_eq, F, in_seq. lia.
  - intros c. unfold from_unicode. destruct (N.ltb_spec c 128); [lia|]. apply position_below. vm_compute. discriminate.
  - exact Hs.
Qed.

(** what is too long for [CheckWord] *)
Lemma wc_check_degenerate W A junk szword p cch dwsets : wide_ok W ->
  (given [] (Some p) cch -> wc_check_word W A junk szword p cch dwsets = Ok 0%Z /\ forall A', wc_echeck_word W A' junk szword p cch dwsets = Ok 0%Z) /\
  (forall w, given w (Some p) cch -> (48 < length w)%nat ->
     wc_check_word W A junk szword p cch dwsets = Ok (-4)%Z /\ forall A', wc_echeck_word W A' junk szword p cch dwsets = Ok (-4)%Z).
Proof.
  intros HW. split.
  - intros Hg.
    destruct (wide_check_generic W (fun psz n sets => check_word A junk psz n sets) szword p cch dwsets [] Hg) as [K _].
    pose proof (wd_slack W HW). split; [|intros A'; destruct (wide_check_generic W (fun psz n sets => echeck_word A' junk psz n sets) szword p cch dwsets [] Hg) as [K' _]].
    + destruct (K ltac:(cbn [length]; lia)) as (psz & n & Hn & E). unfold wc_check_word. rewrite E. apply check_word_empty. right. exact Hn.
    + destruct (K' ltac:(cbn [length]; lia)) as (psz & n & Hn & E). unfold wc_echeck_word. rewrite E. apply echeck_word_empty. right. exact Hn.
  - intros w Hg Hl. split; [|intros A']; (unfold wc_check_word, wc_echeck_word, wide_check_word; rewrite (to_narrow_long W szword 48 p cch w Hg) by lia; reflexivity).
Qed.

(** FindForms: what is refused before the search *)
Lemma wc_find_refused W A A' junk szword szform idform dwsets : 
  (forall pws cch, wc_find_forms W A junk szword szform None pws cch idform dwsets = Ok ((-5)%Z, None)) /\
  (forall mem pws, wc_find_forms W A junk szword szform (Some mem) pws 0 idform dwsets = Ok ((-5)%Z, Some mem)) /\
  (forall mem cch, wc_find_forms W A junk szword szform (Some mem) None cch idform dwsets = Ok ((-5)%Z, Some mem)) /\
  (forall mem w p cch, given w (Some p) cch -> w <> [] -> mem <> [] -> ~ convertible W w cch ->
     wc_find_forms W A junk szword szform (Some mem) (Some p) cch idform dwsets = Ok ((-4)%Z, Some mem) /\
     wc_efind_forms W A' junk szword szform (Some mem) (Some p) cch idform dwsets = Ok ((-4)%Z, Some mem)).
Proof.
  split; [reflexivity|]. split; [intros [|x mem] [p|]; reflexivity|]. split; [intros [|x mem] cch; reflexivity|].
  intros mem w p cch Hg Hw Hm Hc. split; apply (wide_find_run W) with (w := w); assumption.
Qed.

(** a counted word is refused by a converter that wants room for a terminator *)
Lemma wc_find_counted W A A' junk szword szform idform dwsets mem w after : wslack W = 1%nat -> w <> [] -> (length w < 1000)%nat -> mem <> [] ->
  wc_find_forms W A junk szword szform (Some mem) (Some (w ++ after)) (N.of_nat (length w)) idform dwsets = Ok ((-4)%Z, Some mem) /\
  wc_efind_forms W A' junk szword szform (Some mem) (Some (w ++ after)) (N.of_nat (length w)) idform dwsets = Ok ((-4)%Z, Some mem).
Proof.
  intros Hs Hw Hl Hm. apply (wc_find_refused W A A' junk szword szform idform dwsets) with (w := w); try assumption; [constructor; lia|].
  unfold convertible. rewrite Hs. lia.
Qed.

(** ** What is built is recognised *)
Lemma wc_built_recognised W A L : wide_ok W -> holds A L -> buildable L -> indexed A L -> recognisable L ->
  forall junk szform mem id idform n mem', length szform = 98%nat -> id < 2 ^ 32 -> (length (lexkeylen id ++ junk) = 16)%nat ->
  wc_build_form W A junk szform (Some mem) id idform = Ok (n, Some mem') -> (0 < n)%Z ->
  exists key e st c fs, has_record (words L) key e /\ nlexid e = id /\ class_of L (oclass e) = Some (st, c) /\
    n = Z.of_nat (length fs) /\ mem' = widened W (joined fs) ++ skipn (total fs) mem /\
    forall form, In form fs -> form <> [] -> (length form < 48)%nat -> forall p cch dwsets junk' szword, given (widened W form) (Some p) cch ->
      bit 1 dwsets = true /\ (length (parts rus_casing form) <= 8)%nat \/ casable (min_case c) (map (locase rus_casing) form) ->
      wc_check_word W A junk' szword p cch dwsets = Ok 1%Z.
Proof.
  intros HW HL HB HI HR junk szform mem id idform n mem' Hz Hid Hj Hb Hn.
  assert (Hm : (2 <= length mem)%nat).
  { destruct (le_dec 2 (length mem)) as [H|H]; [exact H|]. exfalso. unfold wc_build_form, wide_build_form in Hb. destruct mem as [|x [|y mem]]; [injection Hb as <- _; lia| |cbn [length] in H; lia].
    unfold wide_forms in Hb. cbn [length Nat.min Nat.sub firstn] in Hb. unfold build_form in Hb. injection Hb as <- _. lia. }
  assert (Hex : (exists key e, has_record (words L) key e /\ nlexid e = id) \/ forall key e, has_record (words L) key e -> nlexid e <> id).
  { destruct (find_record A L HL HI id junk Hid Hj) as [(_ & Hno)|(p & p' & off & key & e & _ & _ & _ & He & Hrec)]; [right; exact Hno|left].
    exists key, e. split; [exact Hrec|exact He]. }
  destruct Hex as [Hex|Hno]; [|rewrite (wc_build_unknown W A L HL HB HI junk szform mem id idform Hz Hm Hid Hj Hno) in Hb; injection Hb as <- _; lia].
  destruct (wc_build_some W A L HW HL HB HI junk szform mem id idform Hz Hid Hj Hex) as (key & e & st & c & Hr & He & Ec & Hd).
  cbv zeta in Hd. destruct Hd as (_ & D1 & D2). exists key, e, st, c, (requested c key (stpost e) idform).
  assert (Hlim : small (requested c key (stpost e) idform) /\ wide_fit (length mem) (requested c key (stpost e) idform)).
  { assert (Hdec : {small (requested c key (stpost e) idform) /\ wide_fit (length mem) (requested c key (stpost e) idform)} +
                   {~ (small (requested c key (stpost e) idform) /\ wide_fit (length mem) (requested c key (stpost e) idform))}).
    { apply and_dec; [apply le_dec|]. unfold wide_fit. destruct (requested c key (stpost e) idform) as [|f fs]; [left; left; reflexivity|].
      destruct (le_dec (total (f :: fs) + 2) (Nat.min (length mem) 98)) as [H|H]; [left; right; exact H|right; intros [K|K]; [discriminate|contradiction]]. }
    destruct Hdec as [H|H]; [exact H|]. rewrite (D2 Hm H) in Hb. injection Hb as <- _. lia. }
  rewrite (D1 Hm Hlim) in Hb. injection Hb as <- <-.
  repeat match goal with |- _ /\ _ => split end; try assumption; try reflexivity.
  intros form Hin Hne Hlen p cch dwsets junk' szword Hg Hcase.
  destruct (requested_text A L HL HB HR key e st c idform form Hr Ec Hin) as (Hby & H0 & Hp).
  assert (Hg' : given form (Some (form ++ [])) (N.of_nat (length form))) by (constructor; lia).
  rewrite (wc_check_same W HW A junk' szword p cch dwsets (widened W form) (Some (form ++ [])) (N.of_nat (length form)) Hg).
  - exact (built_recognised A L HL HR key e st c idform form _ _ dwsets junk' Hr Ec Hin Hg' Hne Hlen Hcase).
  - rewrite (widened_back W HW) by exact Hby. exact Hg'.
  - rewrite (widened_back W HW) by exact Hby. destruct Hcase as [[_ H]|(_ & H & _)]; [lia|]. rewrite Hp in H. lia.
Qed.
