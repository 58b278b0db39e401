(** * GuessProofs: building the forms of a guessed word in every language and code page.  PROOFS ONLY. *)
From Verif Require Import Base Serial SerialProofs TreeSpec FlatScanProofs CharTables CapScheme CapSpec CapProofs CapProofs2 CapProofs3 PropCaseLemmas GramMap RusRuntime
  LevelSpec LevelProofs RusSpec RusProofs RusProofs2 RusProofs3 RusBuild RusBuildSpec RusBuildProofs RusBuildProofs2 RusBuildProofs3 EngProofs2 Codepage CodepageSpec CodepageProofs
  Fuzzy FuzzySpec FuzzyProofs FuzzyProofs2 FuzzyProofs5 Guess GuessSpec.
Local Open Scope N_scope.

(** ** windows-1251 as an encoding *)
Lemma encode_plain s : encode plain s = s.
Proof. unfold encode. cbn [enc plain]. induction s as [|c s IH]; [reflexivity|]. cbn [flat_map app]. rewrite IH. reflexivity. Qed.
Lemma plain_ok : encoding_ok plain.
Proof.
  constructor.
  - reflexivity.
  - intros c H. cbn. split; [discriminate|]. intros [E|[]]. congruence.
  - intros s _ _. rewrite encode_plain. reflexivity.
Qed.
Lemma append_plain c s : coder_append c s = cp_append plain c s.
Proof.
  unfold coder_append, cp_append. rewrite encode_plain. unfold convert. cbn [slack plain].
  destruct (Nat.leb_spec (length (cmem c) - cpos c) (length s)); destruct (Nat.ltb_spec (length (cmem c) - cpos c) (length s + 1)); try lia; [reflexivity|].
  destruct (Nat.ltb_spec (length s) (length (cmem c) - cpos c)); [reflexivity|lia].
Qed.
Lemma page_append_eq P c s : page_append P c s = cp_append (coding P) c s.
Proof. destruct P; [apply append_plain|reflexivity|reflexivity]. Qed.
Lemma page_put_eq P c s : page_put P c s = cp_put (coding P) c s.
Proof.
  destruct P; [|reflexivity|reflexivity]. cbn [page_put coding]. unfold coder_put, cp_put. rewrite append_plain. destruct (cp_append plain c s) as [[c1|]|]; [|reflexivity|reflexivity].
  cbn [bind]. rewrite append_plain. reflexivity.
Qed.

(** ** The word *)
Lemma tg_ok T : casing_ok (tg_casing T).
Proof. destruct T; [exact rus_ok|exact eng_okay]. Qed.
Lemma tg_dlm T : forall d, d < 256 -> is_delim (tg_casing T) d -> locase (tg_casing T) d = d.
Proof. intros d Hd H. apply (ok_delim _ (tg_ok T) d Hd H). Qed.
Lemma gnonul T w : is_bytes w -> ~ In 0 w -> ~ In 0 (low_in T w).
Proof.
  intros Hb H0 Hi. apply in_map_iff in Hi. destruct Hi as (c & E & Hc). unfold is_bytes in Hb. rewrite Forall_forall in Hb. pose proof (Hb c Hc) as Hlt.
  assert (Hd : forallb (fun n => negb (locase (tg_casing T) (N.of_nat n) =? 0) || Nat.eqb n 0) (seq 0 256) = true) by (destruct T; vm_compute; reflexivity).
  rewrite forallb_forall in Hd. specialize (Hd (N.to_nat c) ltac:(apply in_seq; lia)). rewrite Nnat.N2Nat.id, E in Hd. cbn [N.eqb negb orb] in Hd.
  apply Nat.eqb_eq in Hd. apply H0. replace 0 with c by lia. exact Hc.
Qed.
Lemma low_length T w : length (low_in T w) = length w.
Proof. apply map_length. Qed.

Lemma gcanonic_given T P w psz cch : given w psz cch -> w <> [] -> text_of P w <> [] -> (length (text_of P w) + slack (coding P) <= 256)%nat ->
  gcanonic T P psz cch = cap_get (tg_casing T) 256 (text_of P w).
Proof.
  intros Hg Hw Ht Hl.
  assert (K : exists p, psz = Some p /\ (if cch =? 2 ^ 64 - 1 then cstr p
                 else if N.of_nat (length p) <? cch then Ub else Ok (firstn (N.to_nat cch) p)) = Ok w).
  { destruct Hg as [w after Hle|w after Hz].
    - exists (w ++ after). split; [reflexivity|]. destruct (N.eqb_spec (N.of_nat (length w)) (2 ^ 64 - 1)); [lia|].
      rewrite app_length. destruct (N.ltb_spec (N.of_nat (length w + length after)) (N.of_nat (length w))); [lia|].
      rewrite Nnat.Nat2N.id, firstn_app, Nat.sub_diag, firstn_all. cbn [firstn]. rewrite app_nil_r. reflexivity.
    - exists (w ++ 0 :: after). split; [reflexivity|]. rewrite N.eqb_refl. apply cstr_app. assumption. }
  destruct K as (p & -> & K). unfold gcanonic. rewrite K. cbn [bind]. destruct w as [|b w0]; [contradiction|]. unfold text_of in *.
  destruct P as [|E|E]; cbn [coding dec plain] in *; [reflexivity| |]; unfold convert; (destruct (Nat.ltb_spec 256 (length (dec E (b :: w0)) + slack E)); [lia|reflexivity]).
Qed.
Lemma gcanonic_empty T P psz cch : psz = None \/ given [] psz cch -> gcanonic T P psz cch = Ok (0, []).
Proof.
  intros [->|H]; [reflexivity|]. inversion H; subst; [|reflexivity].
  unfold gcanonic. cbn [app length N.of_nat]. destruct (N.eqb_spec 0 (2 ^ 64 - 1)); [lia|].
  destruct (N.ltb_spec (N.of_nat (length after)) 0); [lia|]. reflexivity.
Qed.

Lemma pack_mod4 ks : Forall (fun c => c < 3) ks -> pack ks mod 4 < 3.
Proof.
  intros H. destruct H as [|c ks Hc Hks]; [reflexivity|]. cbn [pack].
  first [ replace (c + 4 * pack ks) with (c + pack ks * 4) by lia | idtac ]. rewrite N.mod_add by lia. rewrite N.mod_small by lia. exact Hc.
Qed.

Lemma gcanonic_facts T P t : proper_in T P t ->
  exists v, cap_get (tg_casing T) 256 t = Ok (v, low_in T t ++ [0]) /\ N.shiftr v 16 = N.of_nat (length t) /\
    v <> 0 /\ v <> 2 ^ 32 - 1 /\
    (tg_caps T = true -> forall psp, IsGoodSheme (N.land v 0xffff) (required_case psp) = true <-> case_fine T t psp) /\
    (N.land v 0xff = 0xff -> forall psp, ~ case_fine T t psp) /\
    (tg_caps T = false -> N.land v 0xff <> 0xff -> forall psp, case_fine T t psp).
Proof.
  intros (Hb & Hne & Hlen & _ & Hp & _).
  assert (Hl : (0 < length t)%nat) by (destruct t; [congruence|cbn; lia]).
  assert (Hv : exists v, cap_get (tg_casing T) 256 t = Ok (v, low_in T t ++ [0]) /\ N.shiftr v 16 = N.of_nat (length t))
    by exact (cap_get_length (tg_casing T) (tg_dlm T) t 256 Hb Hlen ltac:(cbn; lia) Hp).
  destruct Hv as (v & E & Hv). rewrite N.shiftr_div_pow2 in Hv.
  exists v. split; [exact E|]. split; [rewrite N.shiftr_div_pow2; exact Hv|].
  assert (65536 <= v < 256 * 65536) by (clear - Hv Hl Hlen; change (2 ^ 16) with 65536 in Hv; lia).
  split; [lia|]. split; [lia|]. destruct T; cbn [tg_caps case_fine tg_casing] in *.
  - assert (Hgood : forall m, IsGoodSheme (N.land v 0xffff) m = true <-> suits t m).
    { intros m. rewrite land_ffff. exact (good_exact rus_casing rus_dlm t 256 v _ m Hb Hlen ltac:(cbn; lia) ltac:(lia) E). }
    split; [intros _ psp; apply Hgood|]. split; [|discriminate].
    intros Hff m Hs. apply Hgood in Hs. apply good_small in Hs as (_ & Hs & _). apply Hs. rewrite land_ffff. rewrite land_ff in Hff. clear - Hff. lia.
  - split; [discriminate|].
    rewrite (cap_get_eq eng_casing eng_dlm t 256 Hb Hlen ltac:(unfold eparts in *; lia)) in E. injection E as E.
    destruct (valids eng_casing (eparts t)) eqn:Hva.
    + apply valids_classes in Hva; [|apply parts_nonnil|apply parts_all_nodelim]. destruct Hva as [ks Hks].
      split; [|intros _ _ _; exists ks; exact Hks]. intros Hff. exfalso.
      rewrite (schs_pack _ _ _ Hks) in E by (auto using parts_all_nodelim; lia). change (2 ^ (2 * 0)) with 1 in E. rewrite N.mul_1_r in E.
      pose proof (pack_mod4 ks (parts_are_class _ _ _ Hks)) as H4.
      assert (Hv4 : v mod 4 = pack ks mod 4).
      { rewrite <- E. unfold answer. rewrite !N.shiftl_mul_pow2. rewrite (N.mod_small (_ * 2 ^ 16)) by lia. rewrite (N.mod_small (_ * 2 ^ 8)) by lia.
        change 4 with (2 ^ 2). rewrite <- !N.land_ones. rewrite !N.land_lor_distr_l. rewrite !N.land_ones.
        replace (N.of_nat (length t) * 2 ^ 16) with (N.of_nat (length t) * 2 ^ 14 * 2 ^ 2) by lia.
        replace (N.of_nat (length (eparts t)) * 2 ^ 8) with (N.of_nat (length (eparts t)) * 2 ^ 6 * 2 ^ 2) by lia. rewrite !N.mod_mul by lia. reflexivity. }
      assert (v mod 4 = 3). { rewrite land_ff in Hff. clear - Hff. lia. }
      lia.
    + split; [|intros _ Hff; exfalso; apply Hff].
      * intros _ _ [ks Hks]. assert (valids eng_casing (eparts t) = true) by (apply valids_classes; [apply parts_nonnil|apply parts_all_nodelim|eauto]). congruence.
      * rewrite <- E. rewrite answer_sum; [|lia|lia|reflexivity]. rewrite land_ff. clear. lia.
Qed.

(** ** Composing a form *)
Lemma gform_eq T szform stem flex rest psp : workable T szform -> (length stem + length flex <= longest T)%nat -> ~ In 0 stem -> ~ In 0 flex -> psp < 64 ->
  exists szform', gform T szform stem (N.of_nat (length flex)) (flex ++ rest) psp = Ok szform' /\ workable T szform' /\
    firstn (length stem + length flex) szform' = cased T psp (stem ++ flex).
Proof.
  intros Hw Hl H0 H1 Hp. unfold gform. destruct T; cbn [tg_caps workable longest cased] in *.
  - rewrite psp_min_cap_eq by exact Hp. cbn [bind]. exact (make_form_eq szform stem flex rest (required_case psp) Hw Hl H0 H1 (required_le2 _)).
  - rewrite Nnat.Nat2N.id, strncpy_eq by assumption. cbn [bind]. destruct (Nat.ltb_spec (length szform) (length stem + length flex)); [lia|].
    eexists. split; [reflexivity|]. unfold overwrite. rewrite <- app_length. split.
    + rewrite app_length, skipn_length, app_length. unfold bytes in *. lia.
    + rewrite firstn_app, firstn_all, Nat.sub_diag, firstn_O, app_nil_r. reflexivity.
Qed.
Lemma cased_length T psp s : length (cased T psp s) = length s.
Proof. destruct T; [apply respell_length|reflexivity]. Qed.
Lemma longest_le T : (longest T <= 64)%nat.
Proof. destruct T; cbn; lia. Qed.

Lemma fit_in_nil E n : fit_in E n [].
Proof. left. reflexivity. Qed.
Lemma filled_in_nil E m : filled_in E [] m = m.
Proof. reflexivity. Qed.
Lemma fit_in_dec E n fs : {fit_in E n fs} + {~ fit_in E n fs}.
Proof.
  unfold fit_in. destruct fs as [|f fs]; [left; left; reflexivity|]. destruct (le_dec (total (map (encode E) (f :: fs)) + slack E) n); [left; right; assumption|].
  right. intros [H|H]; [discriminate|contradiction].
Qed.

(** one more string *)
Lemma page_put_step P : page_ok P -> forall fs s mem, fit_in (coding P) (length mem) fs ->
  (fit_in (coding P) (length mem) (fs ++ [s]) ->
     page_put P (Coder (filled_in (coding P) fs mem) (total (map (encode (coding P)) fs))) s =
     Ok (Coder (filled_in (coding P) (fs ++ [s]) mem) (total (map (encode (coding P)) (fs ++ [s]))), true)) /\
  (~ fit_in (coding P) (length mem) (fs ++ [s]) -> exists c,
     page_put P (Coder (filled_in (coding P) fs mem) (total (map (encode (coding P)) fs))) s = Ok (c, false) /\ length (cmem c) = length mem).
Proof.
  intros HP fs s mem Hf. rewrite page_put_eq. set (E := coding P) in *. destruct (filled_in_snoc E fs s mem Hf) as (rest & Ef & Hl & Hs).
  pose proof (cp_put_eq E (enc_nul _ HP) (joined (map (encode E) fs)) rest s) as Hput.
  rewrite joined_length in Hput. rewrite Ef.
  assert (Et : total (map (encode E) (fs ++ [s])) = (total (map (encode E) fs) + length (encode E s) + 1)%nat).
  { rewrite total_map_app. cbn [map total fold_right]. lia. }
  assert (Hiff : fit_in E (length mem) (fs ++ [s]) <-> (length (encode E s) + 1 + slack E <= length rest)%nat).
  { unfold fit_in. rewrite Et. split; [intros [H|H]; [destruct fs; discriminate|lia]|intros H; right; lia]. }
  destruct (Nat.leb_spec (length (encode E s) + 1 + slack E) (length rest)) as [H|H].
  - split; [|tauto]. intros _. rewrite Hput. rewrite (Hs H). do 3 f_equal. rewrite Et, !app_length, joined_length. cbn [length]. lia.
  - split; [intros H'; apply Hiff in H'; lia|]. intros _. destruct Hput as (c & -> & Hc). exists c. split; [reflexivity|]. rewrite Hc, app_length, joined_length. exact Hl.
Qed.

Lemma gvariants_eq T P id stem psp : page_ok P -> psp < 64 -> ~ In 0 stem -> forall l szform done tail n mem,
  flexes_ok l -> by_form l -> Forall (fun f => id <= fst f) l ->
  Forall (fun f => fst f = id -> (length stem + length (snd f) <= longest T)%nat) l -> workable T szform -> fit_in (coding P) (length mem) done ->
  let fs := map (fun f => cased T psp (stem ++ snd f)) (filter (fun f => fst f =? id) l) in
  let r := gvariants T P (length l) id stem szform psp (flexes l ++ tail) (Coder (filled_in (coding P) done mem) (total (map (encode (coding P)) done))) n in
  (fit_in (coding P) (length mem) (done ++ fs) -> r = Ok ((n + Z.of_nat (length fs))%Z, filled_in (coding P) (done ++ fs) mem)) /\
  (~ fit_in (coding P) (length mem) (done ++ fs) -> exists mem', r = Ok ((-1)%Z, mem') /\ length mem' = length mem).
Proof.
  intros HP Hp Hst. induction l as [|[i f] l IH]; intros szform done tail n mem Hok Hb Hge Hlen Hw Hfit.
  - cbn [filter map length gvariants]. cbn zeta. rewrite app_nil_r. split; [|tauto]. intros _. cbn [cmem length]. rewrite Z.add_0_r. reflexivity.
  - inversion Hok as [|? ? (Hi & Hf & Hf0) Hok']; subst. inversion Hge as [|? ? Hgi Hge']; subst. inversion Hlen as [|? ? Hli Hlen']; subst.
    cbn [fst snd] in *. destruct Hb as [Hmin Hb]. cbn [fst] in Hmin.
    cbn [length gvariants flexes flat_map fst snd app rd bind]. fold (flexes l). cbn zeta. cbn [filter fst].
    destruct (N.eqb_spec i id) as [->|Hne].
    + specialize (Hli eq_refl). rewrite Nnat.Nat2N.id. pose proof (longest_le T). destruct (Nat.ltb_spec 64 (length stem + length f)); [lia|].
      rewrite <- app_assoc. destruct (gform_eq T szform stem f (flexes l ++ tail) psp Hw Hli Hst Hf0 Hp) as (sz' & E & Hw' & Efirst).
      rewrite E. cbn [bind]. rewrite advance_app by reflexivity. cbn [bind]. rewrite Efirst.
      cbn [map snd]. set (s := cased T psp (stem ++ f)).
      set (fs := map (fun f0 : N * list N => cased T psp (stem ++ snd f0)) (filter (fun f0 => fst f0 =? id) l)).
      change (s :: fs) with ([s] ++ fs). rewrite app_assoc.
      destruct (page_put_step P HP done s mem Hfit) as [P1 P2].
      destruct (fit_in_dec (coding P) (length mem) (done ++ [s])) as [Hy|Hn].
      * rewrite (P1 Hy). cbn [bind]. specialize (IH sz' (done ++ [s]) tail (n + 1)%Z mem Hok' Hb Hge' Hlen' Hw' Hy). cbn zeta in IH. fold fs in IH. destruct IH as [IH1 IH2].
        split; [|exact IH2]. intros H2. rewrite (IH1 H2). f_equal. f_equal. cbn [app length]. lia.
      * destruct (P2 Hn) as (c & -> & Hc). cbn [bind]. split; [intros H2; apply fit_in_prefix in H2; contradiction|]. intros _. exists (cmem c). split; [reflexivity|exact Hc].
    + assert (E : filter (fun f0 => fst f0 =? id) l = []).
      { clear - Hmin Hge' Hgi Hne. induction l as [|g l IH]; [reflexivity|]. inversion Hmin; subst. inversion Hge'; subst. cbn [filter].
        destruct (N.eqb_spec (fst g) id); [lia|]. apply IH; assumption. }
      rewrite E. cbn [map]. rewrite app_nil_r. split; [|tauto]. intros _. cbn [cmem length]. rewrite Z.add_0_r. reflexivity.
Qed.

Lemma gbuild_eq T P F lojunk junk mem w psz cch i c id : has_class F i c -> proper_in T P (text_of P w) -> w <> [] -> given w psz cch -> mem <> [] ->
  gbuild_form T P F lojunk junk (Some mem) psz cch i id =
    let! (n, p) := (let! p := GetClass F i in match p with None => Ub | Some p =>
                      let! (_, p) := rd p in let! (_, p) := rd p in let! (n, p) := getserial p in skip_until (N.to_nat n) id p end) in
    let! (z, m) := gvariants T P n id (low_in T (text_of P w)) junk (c_partsp c) p (Coder mem 0) 0%Z in Ok (z, Some m).
Proof.
  intros Hc Hw Hw0 Hg Hm. set (t := text_of P w) in *. unfold gbuild_form. pose proof Hw as (Hb & Hne & Hlen & Hsl & Hp & H0). rewrite (gcanonic_given T P w psz cch Hg Hw0 Hne Hsl).
  fold t. destruct (gcanonic_facts T P t Hw) as (v & -> & Hv & Hv0 & Hv1 & _). cbn [bind].
  destruct mem as [|m0 mem]; [congruence|]. pose proof Hc as (_ & pre & rest & E & _).
  assert (Hn : N.of_nat (length (class_offset F)) <=? i = false).
  { apply N.leb_gt. assert (nth_error (class_offset F) (N.to_nat i) <> None) by congruence. apply nth_error_Some in H. lia. }
  rewrite Hn. assert (Hpsz : (match psz with None => true | Some _ => false end) = false) by (inversion Hg; reflexivity). rewrite Hpsz, andb_false_r.
  destruct (N.eqb_spec v (2 ^ 32 - 1)); [contradiction|]. destruct (N.eqb_spec v 0); [contradiction|].
  rewrite Hv, Nnat.Nat2N.id. unfold overwrite. rewrite <- app_assoc. rewrite app_length, low_length.
  match goal with |- context [Nat.ltb (length t + ?k) (length t)] => destruct (Nat.ltb_spec (length t + k) (length t)); [lia|] end.
  replace (firstn (length t) (low_in T t ++ [0] ++ skipn (length (low_in T t ++ [0])) lojunk)) with (low_in T t)
    by (rewrite <- (low_length T t) at 1; rewrite firstn_app, firstn_all, Nat.sub_diag, firstn_O, app_nil_r; reflexivity).
  unfold gforms. destruct (get_class F i c Hc) as (rest' & ->). cbn [bind app rd].
  destruct (getserial _) as [[k p]|]; [|reflexivity]. cbn [bind]. destruct (skip_until (N.to_nat k) id p) as [[n2 p2]|]; [|reflexivity]. cbn [bind].
  destruct (gvariants T P n2 id (low_in T t) junk (c_partsp c) p2 (Coder (m0 :: mem) 0) 0) as [[z mem']|]; reflexivity.
Qed.

Theorem gbuild_exact T P F lojunk junk mem w psz cch i c id : page_ok P -> has_class F i c -> by_form (c_inflex c) -> proper_in T P (text_of P w) -> w <> [] ->
  given w psz cch -> mem <> [] -> workable T junk ->
  (forall f, In f (c_inflex c) -> fst f = id -> (length (text_of P w) + length (snd f) <= longest T)%nat) ->
  delivered_in (coding P) mem (variants_in T c (low_in T (text_of P w)) id) True (gbuild_form T P F lojunk junk (Some mem) psz cch i id).
Proof.
  intros HP Hc Hby Hw Hw0 Hg Hm Hs Hlen. rewrite (gbuild_eq T P F lojunk junk mem w psz cch i c id Hc Hw Hw0 Hg Hm). set (t := text_of P w) in *.
  destruct (get_class F i c Hc) as (rest & ->). cbn [bind app rd]. destruct Hc as (Hok & _).
  rewrite getserial_putserial by apply Hok. cbn [bind]. rewrite Nnat.Nat2N.id.
  destruct (skip_until_eq id (c_inflex c) Hby (class_models c ++ rest)) as (l2 & -> & Hby2 & Hge & Hfil & l1 & El). cbn [bind].
  assert (Hfx : flexes_ok l2) by (pose proof (co_flex _ Hok) as H; unfold flexes_ok; rewrite El in H; apply Forall_app in H; apply H).
  destruct Hw as (Hb & _ & _ & _ & _ & H0).
  pose proof (gvariants_eq T P id (low_in T t) (c_partsp c) HP (co_partsp _ Hok) (gnonul T t Hb H0) l2 junk [] (class_models c ++ rest) 0%Z mem Hfx Hby2 Hge) as H.
  cbn zeta in H. rewrite Hfil in H. fold (variants_in T c (low_in T t) id) in H. cbn [app map total fold_right] in H. rewrite filled_in_nil in H.
  destruct H as [H1 H2].
  { rewrite Forall_forall. intros f Hf Ef. rewrite low_length. apply Hlen; [rewrite El; apply in_or_app; right; exact Hf|exact Ef]. }
  { exact Hs. }
  { apply fit_in_nil. }
  split.
  - intros [_ Hfit]. rewrite H1 by exact Hfit. cbn [bind]. reflexivity.
  - intros Hn. destruct H2 as (mem' & -> & Hl); [tauto|]. exists mem'. split; [exact Hl|reflexivity].
Qed.

(** ** Samples *)
Lemma gput_models_eq P l : page_ok P -> (1 <= slack (coding P))%nat ->
  Forall (fun m => length (m_suffix m) = 2%nat /\ m_weight m < 2 ^ 32 /\ N.of_nat (length (m_sample m)) < 2 ^ 32) l ->
  forall done rest tail n, (0 <= n)%Z ->
  let fs := fitting_in (coding P) (length rest) (map m_sample l) in
  gput_models P (length l) (flat_map model_bytes l ++ tail) (Coder (done ++ rest) (length done)) n =
  Ok (if (Z.of_nat (length fs) + n =? 0)%Z && negb (Nat.eqb (length l) 0) then (-1)%Z else (n + Z.of_nat (length fs))%Z,
      done ++ joined (map (encode (coding P)) fs) ++ skipn (total (map (encode (coding P)) fs)) rest).
Proof.
  intros HP Hk. set (E := coding P) in *.
  induction l as [|m l IH]; intros Hok done rest tail n Hn; cbn [length gput_models flat_map map fitting_in].
  - rewrite andb_false_r. cbn [joined flat_map app total fold_right skipn cmem length map]. f_equal. f_equal. lia.
  - inversion Hok as [|? ? (H1 & H2 & H3) Hok']; subst. unfold model_bytes at 1. rewrite <- !app_assoc.
    destruct (m_suffix m) as [|a [|b [|? ?]]]; try discriminate. cbn [app rd bind].
    rewrite getserial_putserial by exact H2. cbn [bind]. rewrite getserial_putserial by exact H3. cbn [bind].
    rewrite app_length. destruct (N.ltb_spec (N.of_nat (length (m_sample m) + length (flat_map model_bytes l ++ tail))) (N.of_nat (length (m_sample m)))); [lia|].
    cbn [bind]. rewrite Nnat.Nat2N.id. rewrite firstn_app, firstn_all, Nat.sub_diag, firstn_O, app_nil_r. cbn [cmem cpos].
    destruct (Nat.ltb_spec (length (done ++ rest)) (length done)) as [Hx|_]; [rewrite app_length in Hx; lia|].
    rewrite page_append_eq. fold E. rewrite cp_append_eq. set (s := encode E (m_sample m)).
    destruct (Nat.leb_spec (length s + slack E) (length rest)) as [Hl|Hl]; destruct (Nat.ltb_spec (length rest) (length s + slack E)) as [Hl'|Hl']; try lia; cbn [bind].
    + rewrite advance_app by reflexivity. cbn [bind cmem cpos].
      specialize (IH Hok' (done ++ s ++ [0]) (skipn (S (length s)) rest) tail (n + 1)%Z ltac:(lia)). cbv zeta in IH.
      rewrite !app_length in IH. cbn [length] in IH. rewrite skipn_length in IH.
      replace (S (length done + length s)) with (length done + (length s + 1))%nat by lia.
      assert (Eb : behind (length s) rest = 0 :: skipn (S (length s)) rest).
      { unfold behind. destruct (skipn (length s) rest) as [|x r] eqn:Er.
        - apply (f_equal (@length N)) in Er. rewrite skipn_length in Er. cbn [length] in Er. lia.
        - f_equal. change (S (length s)) with (1 + length s)%nat. rewrite <- skipn_skipn', Er. reflexivity. }
      rewrite Eb. replace (done ++ s ++ 0 :: skipn (S (length s)) rest) with ((done ++ s ++ [0]) ++ skipn (S (length s)) rest)
        by (rewrite <- !app_assoc; reflexivity).
      rewrite IH. clear IH. replace (length rest - S (length s))%nat with (length rest - length s - 1)%nat by lia.
      set (fs := fitting_in E (length rest - length s - 1) (map m_sample l)). cbn [length map joined flat_map total fold_right]. fold (joined (map (encode E) fs)). fold (total (map (encode E) fs)).
      fold s. rewrite skipn_skipn'. rewrite <- !app_assoc. cbn [app]. f_equal. f_equal.
      * destruct (Z.eqb_spec (Z.of_nat (length fs) + (n + 1)) 0); [lia|]. destruct (Z.eqb_spec (Z.of_nat (S (length fs)) + n) 0); [lia|]. cbn [andb]. lia.
      * do 5 f_equal. lia.
    + cbn [cmem joined flat_map app total fold_right skipn length Z.of_nat map]. f_equal. f_equal. cbn [Nat.eqb negb]. rewrite andb_true_r.
      change (0 + n)%Z with n. destruct (Z.eqb n 0); [reflexivity|]. lia.
Qed.

Theorem gmodels_exact P F i c mem : page_ok P -> (1 <= slack (coding P))%nat -> has_class F i c -> mem <> [] ->
  let samples := map m_sample (c_models c) in
  let fs := fitting_in (coding P) (length mem) samples in
  gmodels P F (Some mem) i =
    Ok (match samples, fs with _ :: _, [] => (-1)%Z | _, _ => Z.of_nat (length fs) end,
        Some (joined (map (encode (coding P)) fs) ++ skipn (total (map (encode (coding P)) fs)) mem)).
Proof.
  intros HP Hk Hc Hm. cbv zeta. destruct (get_class F i c Hc) as [rest E]. destruct Hc as [Hok _]. destruct mem as [|m0 mem]; [congruence|].
  unfold gmodels. rewrite E. cbn [bind app rd]. rewrite getserial_putserial by apply (co_nflex _ Hok). cbn [bind]. rewrite Nnat.Nat2N.id, skip_flex_eq. cbn [bind].
  unfold class_models. rewrite <- app_assoc. rewrite getserial_putserial by apply (co_nmodels _ Hok). cbn [bind]. rewrite Nnat.Nat2N.id.
  pose proof (gput_models_eq P (c_models c) HP Hk (co_models _ Hok) [] (m0 :: mem) rest 0%Z ltac:(lia)) as H. cbv zeta in H. cbn [app length] in H.
  unfold model_bytes in H. rewrite H. cbn [bind]. f_equal. cbn [length].
  destruct (c_models c) as [|m l]; [reflexivity|]. cbn [map length Nat.eqb negb].
  destruct (fitting_in (coding P) (S (length mem)) (m_sample m :: map m_sample l)) as [|f fs]; reflexivity.
Qed.
