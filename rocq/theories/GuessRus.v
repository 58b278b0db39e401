(** * The Russian windows-1251 instance of Guess.v is the guesser of Fuzzy.v. *)
From Verif Require Import Base Serial CharTables CapScheme GramMap RusRuntime RusBuild Codepage Fuzzy Guess.
Local Open Scope N_scope.

Lemma canonic_russian psz cch : gcanonic Russian Win1251 psz cch = fuzzy_canonic psz cch.
Proof. reflexivity. Qed.
Lemma gform_russian szform stem ccflex p partSp {B} (k : bytes -> res B) :
  (let! szform := gform Russian szform stem ccflex p partSp in k szform) =
  (let! mincap := psp_min_cap partSp in let! szform := make_form szform stem ccflex p mincap in k szform).
Proof. unfold gform. cbn [tg_caps]. destruct (psp_min_cap partSp); reflexivity. Qed.
Lemma variants_russian n : forall idform stem szform partSp pclass c nbuilt,
  gvariants Russian Win1251 n idform stem szform partSp pclass c nbuilt = build_variants n idform stem szform partSp pclass c nbuilt.
Proof.
  induction n as [|n IH]; intros; [reflexivity|]. cbn [gvariants build_variants]. destruct (rd pclass) as [[id p]|]; [|reflexivity]. cbn [bind].
  destruct (id =? idform); [|reflexivity]. destruct (rd p) as [[ccflex p']|]; [|reflexivity]. cbn [bind]. destruct (Nat.ltb _ _); [reflexivity|].
  rewrite gform_russian. destruct (psp_min_cap partSp); [|reflexivity]. cbn [bind]. destruct (make_form _ _ _ _ _) as [sz|]; [|reflexivity]. cbn [bind].
  destruct (advance ccflex p') as [q|]; [|reflexivity]. cbn [bind page_put]. destruct (coder_put c _) as [[c' [|]]|]; [|reflexivity|reflexivity]. cbn [bind]. apply IH.
Qed.
Lemma build_russian F lojunk junk output psz cch nclass idform :
  gbuild_form Russian Win1251 F lojunk junk output psz cch nclass idform = fuzzy_build_form F lojunk junk output psz cch nclass idform.
Proof.
  assert (E : forall stem uclass id c, gforms Russian Win1251 F junk stem uclass id c = fuzzy_forms F junk stem uclass id c).
  { intros. unfold gforms, fuzzy_forms. destruct (GetClass F uclass) as [[p|]|]; [|reflexivity|reflexivity]. cbn [bind].
    destruct (rd p) as [[a p1]|]; [|reflexivity]. cbn [bind]. destruct (rd p1) as [[b p2]|]; [|reflexivity]. cbn [bind].
    destruct (getserial p2) as [[f p3]|]; [|reflexivity]. cbn [bind]. destruct (skip_until _ _ p3) as [[f' p4]|]; [|reflexivity]. cbn [bind].
    rewrite variants_russian. reflexivity. }
  unfold gbuild_form, fuzzy_build_form. rewrite canonic_russian. destruct (fuzzy_canonic psz cch) as [[scheme st]|]; [|reflexivity]. cbn [bind].
  destruct output as [[|m mem]|]; [reflexivity| |reflexivity]. rewrite E. reflexivity.
Qed.
Lemma normal_russian szform stem p partSp c : gnormal Russian Win1251 szform stem p partSp c = build_normal szform stem p partSp c.
Proof.
  unfold gnormal, build_normal. destruct (rd p) as [[a p1]|]; [|reflexivity]. cbn [bind]. destruct (rd p1) as [[f p2]|]; [|reflexivity]. cbn [bind].
  destruct (Nat.leb _ _); [reflexivity|]. rewrite gform_russian. reflexivity.
Qed.
Lemma scan_refs_ext {St} (f g : St -> N -> N -> N -> N -> res (St * Z)) : (forall s a b c d, f s a b c d = g s a b c d) ->
  forall n p k s, scan_refs f n p k s = scan_refs g n p k s.
Proof.
  intros H. induction n as [|n IH]; intros p k s; [reflexivity|]. cbn [scan_refs]. destruct (getserial p) as [[a p1]|]; [|reflexivity]. cbn [bind].
  destruct (getserial p1) as [[b p2]|]; [|reflexivity]. cbn [bind]. destruct (rd p2) as [[c p3]|]; [|reflexivity]. cbn [bind]. rewrite H.
  destruct (g s k a b c) as [[s' z]|]; [|reflexivity]. cbn [bind]. destruct (z =? 0)%Z; [apply IH|reflexivity].
Qed.
Lemma scan_tree_ext {St} (f g : St -> N -> N -> N -> N -> res (St * Z)) : (forall s a b c d, f s a b c d = g s a b c d) ->
  forall t key k s, scan_tree f t key k s = scan_tree g t key k s.
Proof.
  intros H. assert (E : forall fuel p nchars nnodes key k s, scan_node f fuel p nchars nnodes key k s = scan_node g fuel p nchars nnodes key k s).
  { induction fuel as [|fuel IH]; intros; [reflexivity|]. cbn [scan_node]. destruct (nnodes =? 0); [reflexivity|]. destruct (k <? nchars); [reflexivity|].
    destruct (match_label _ p key) as [[[p1 key1]|]|]; [|reflexivity|reflexivity]. cbn [bind].
    assert (Eh : (if N.testbit nnodes 0 then let! (_, p0) := getserial p1 in let! p0 := jump_over (N.to_nat (N.shiftr nnodes 1)) p0 in scan_refs_at f p0 (k - nchars) s else Ok (s, 0%Z)) =
                 (if N.testbit nnodes 0 then let! (_, p0) := getserial p1 in let! p0 := jump_over (N.to_nat (N.shiftr nnodes 1)) p0 in scan_refs_at g p0 (k - nchars) s else Ok (s, 0%Z))).
    { destruct (N.testbit nnodes 0); [|reflexivity]. destruct (getserial p1) as [[a p2]|]; [|reflexivity]. cbn [bind]. destruct (jump_over _ p2) as [p3|]; [|reflexivity]. cbn [bind].
      unfold scan_refs_at. destruct (getserial p3) as [[c p4]|]; [|reflexivity]. cbn [bind]. apply scan_refs_ext, H. }
    rewrite Eh; clear Eh. destruct (if N.testbit nnodes 0 then _ else _) as [[s' z]|]; [|reflexivity]. cbn [bind]. destruct (negb (z =? 0)%Z); [reflexivity|].
    destruct (getserial p1) as [[a p2]|]; [|reflexivity]. cbn [bind]. destruct (select_node _ key1 p2) as [[[[nc nn] p3]|]|]; [|reflexivity|reflexivity]. cbn [bind]. apply IH. }
  intros t key k s. unfold scan_tree. destruct (getserial t) as [[a p]|]; [|reflexivity]. cbn [bind]. destruct (getserial p) as [[b p']|]; [|reflexivity]. cbn [bind]. apply E.
Qed.
Lemma lemma_russian rank junk F word cchstr scheme dwsets s clemma uclass upower idform :
  glemma Russian Win1251 rank junk F word cchstr scheme dwsets s clemma uclass upower idform = fuzzy_lemma rank junk F word cchstr scheme dwsets s clemma uclass upower idform.
Proof.
  unfold glemma, fuzzy_lemma. destruct (GetClass F uclass) as [[p|]|]; [|reflexivity|reflexivity]. cbn [bind].
  destruct (rd p) as [[partsp p1]|]; [|reflexivity]. cbn [bind]. destruct (rd p1) as [[sets p2]|]; [|reflexivity]. cbn [bind].
  destruct (getserial p2) as [[fc p3]|]; [|reflexivity]. cbn [bind tg_caps].
  destruct (if bit 1 dwsets then _ else _) as [[|]|]; [reflexivity| |reflexivity]. cbn [bind tg_ranges]. cbv zeta.
  destruct (negb _); [reflexivity|]. destruct (_ || _); [reflexivity|]. destruct (nth_error psp_ranges (N.to_nat partsp)) as [mx|]; [|reflexivity].
  destruct (_ && _); [reflexivity|]. destruct (Nat.eqb (length (f_stems s)) 64); [reflexivity|]. cbn [f_stems f_forms f_grams].
  destruct (f_forms (close_last s)) as [c|]; [|reflexivity]. destruct (Nat.ltb (length word) _); [reflexivity|]. rewrite normal_russian. reflexivity.
Qed.
Lemma lemmatize_russian rank sort junk F below lojunk psz cch plemma pforms pgrams dwsets :
  glemmatize Russian Win1251 rank sort junk F below lojunk psz cch plemma pforms pgrams dwsets =
  fuzzy_lemmatize rank sort junk F below lojunk psz cch plemma pforms pgrams dwsets.
Proof.
  unfold glemmatize, fuzzy_lemmatize. rewrite canonic_russian. generalize (fuzzy_canonic psz cch). intros [[scheme st]|]; cbn [bind]; [|reflexivity].
  case (scheme =? 2 ^ 32 - 1); [reflexivity|]. case (scheme =? 0); [reflexivity|]. case ((N.land scheme 255 =? 255) && negb (bit 1 dwsets)); [reflexivity|]. cbv zeta.
  rewrite (scan_tree_ext _ _ (lemma_russian rank junk F _ _ _ dwsets)). reflexivity.
Qed.
