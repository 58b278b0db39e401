(** * RusBuildProofs: building forms.  PROOFS. *)
From Verif Require Import Base Serial SerialProofs WordTree TreeSpec WordTreeProofs FlatScan FlatScanProofs LidsProofs TrackProofs
  TreeWalk Stems StemSpec StemsProofs DictProofs CharTables CapScheme CapSpec CapProofs CapProofs2 PropCaseLemmas GramMap RusRuntime LevelSpec LevelProofs RusSpec
  RusProofs RusProofs2 RusProofs3 RusBuild RusBuildSpec.
Local Open Scope N_scope.

(** ** Respelling *)
Section Respell.
  Variable cs : casing.
  Lemma recap0 p : recap cs 0 p = p.
  Proof. induction p as [|c p IH]; cbn; [reflexivity|]. rewrite IH. reflexivity. Qed.
  Lemma recap2 p : recap cs 2 p = map (upcase cs) p.
  Proof. induction p as [|c p IH]; cbn [recap map]; [reflexivity|]. change (N.land 2 (2 ^ 32 - 2)) with 2. rewrite IH. reflexivity. Qed.

  Lemma respell_inside pat p : forall w, nodelim cs p -> hd 0 pat <= 2 ->
    respell_by cs pat false (p ++ w) = (if hd 0 pat =? 2 then map (upcase cs) p else p) ++ respell_by cs pat false w.
  Proof.
    induction p as [|c p IH]; intros w Hp Hh; cbn [app respell_by map]; [destruct (hd 0 pat =? 2); reflexivity|].
    inversion Hp as [|? ? Hc Hp']; subst.
    rewrite Hc.
    rewrite (IH w Hp' Hh). assert (H : hd 0 pat = 0 \/ hd 0 pat = 1 \/ hd 0 pat = 2) by lia.
    destruct H as [->|[->| ->]]; cbn [N.eqb app]; destruct p; reflexivity.
  Qed.

  Lemma respell_part pat p w : nodelim cs p -> hd 0 pat <= 2 -> exists b,
    respell_by cs pat true (p ++ w) = recap cs (hd 0 pat) p ++ respell_by cs pat b w.
  Proof.
    intros Hp Hh. destruct p as [|c p]; [exists true; reflexivity|]. exists false. cbn [app respell_by].
    inversion Hp as [|? ? Hc Hp']; subst.
    rewrite Hc.
    rewrite respell_inside by assumption. assert (H : hd 0 pat = 0 \/ hd 0 pat = 1 \/ hd 0 pat = 2) by lia.
    destruct H as [->|[->| ->]].
    - rewrite recap0. cbn [N.eqb app]. destruct p; reflexivity.
    - cbn [recap]. change (N.land 1 (2 ^ 32 - 2)) with 0. rewrite recap0. cbn [N.eqb app]. destruct p; reflexivity.
    - rewrite recap2. cbn [N.eqb app map]. destruct p; reflexivity.
  Qed.

  Lemma recased_respell sch w w' : recased cs sch w w' -> forall pat,
    (forall i, nth i pat 0 = N.land (N.shiftr sch (2 * N.of_nat i)) 3) -> (forall i, nth i pat 0 <= 2) ->
    w' = respell_by cs pat true w.
  Proof.
    induction 1 as [sch p Hp|sch p d w w' Hp Hd _ IH]; intros pat Hpat Hle.
    - assert (Hh : hd 0 pat = N.land sch 3) by (specialize (Hpat 0%nat); rewrite N.shiftr_0_r in Hpat; destruct pat; exact Hpat).
      destruct (respell_part pat p [] Hp) as (b & E); [specialize (Hle 0%nat); destruct pat; exact Hle|].
      rewrite app_nil_r in E. rewrite E, Hh. cbn. rewrite app_nil_r. reflexivity.
    - assert (Hh : hd 0 pat = N.land sch 3) by (specialize (Hpat 0%nat); rewrite N.shiftr_0_r in Hpat; destruct pat; exact Hpat).
      destruct (respell_part pat p (d :: w) Hp) as (b & E); [specialize (Hle 0%nat); destruct pat; exact Hle|].
      rewrite E, Hh. f_equal. cbn [respell_by]. rewrite Hd. f_equal. apply IH.
      + intros i. specialize (Hpat (S i)). rewrite N.shiftr_shiftr. replace (2 + 2 * N.of_nat i) with (2 * N.of_nat (S i)) by lia.
        rewrite <- Hpat. destruct pat; [destruct i|]; reflexivity.
      + intros i. specialize (Hle (S i)). destruct pat; [destruct i; cbn in *; lia|exact Hle].
  Qed.

  Lemma set_respell : casing_ok cs -> forall w tail min, ~ In 0 w -> min <= 2 ->
    cap_set cs (w ++ 0 :: tail) (length w) min = Ok (respell cs min w ++ 0 :: tail).
  Proof.
    intros Hok w tail min H0 Hm. unfold cap_set.
    assert (Hf : firstn (length w) (w ++ 0 :: tail) = w) by (rewrite firstn_app, firstn_all, Nat.sub_diag; apply app_nil_r).
    rewrite Hf. rewrite app_length. destruct (Nat.ltb_spec (length w + length (0 :: tail)) (length w)); [lia|].
    rewrite count_parts_length.
    destruct (set_loop_recased cs (ok_nul cs Hok) w H0 (set_scheme (length (parts cs w)) min) tail) as (w' & Hr & E).
    rewrite E. do 2 f_equal. unfold respell. apply (recased_respell _ _ _ Hr).
    - intros i. assert (Hmin : min = 0 \/ min = 1 \/ min = 2) by lia.
      assert (Hsh : forall k s, s < 2 ^ k -> forall i, (N.to_nat k <= 2 * i)%nat -> N.land (N.shiftr s (2 * N.of_nat i)) 3 = 0).
      { intros k s Hs j Hj. rewrite N.shiftr_div_pow2, N.div_small; [reflexivity|].
        eapply N.lt_le_trans; [exact Hs|]. apply N.pow_le_mono_r; lia. }
      destruct (length (parts cs w)) as [|[|[|[|n]]]]; cbn [pattern set_scheme].
      + rewrite (Hsh 0) by (cbn; lia). destruct i; reflexivity.
      + destruct i as [|i]; [destruct Hmin as [->|[->| ->]]; reflexivity|]. rewrite (Hsh 2) by (cbn; lia). destruct i; reflexivity.
      + destruct i as [|[|i]]; [destruct Hmin as [->|[->| ->]]; reflexivity..|].
        rewrite (Hsh 4); [destruct i; reflexivity| |lia]. destruct Hmin as [->|[->| ->]]; reflexivity.
      + destruct i as [|[|[|i]]]; [destruct Hmin as [->|[->| ->]]; reflexivity..|].
        rewrite (Hsh 6); [destruct i; reflexivity| |lia]. destruct Hmin as [->|[->| ->]]; reflexivity.
      + rewrite (Hsh 0) by (cbn; lia). destruct i; reflexivity.
    - intros i. destruct (length (parts cs w)) as [|[|[|[|n]]]]; cbn [pattern];
        destruct i as [|[|[|[|i]]]]; cbn [nth]; try lia; destruct (min =? 2); lia.
  Qed.

  Lemma respell_by_length pat w : forall b, length (respell_by cs pat b w) = length w.
  Proof.
    revert pat. induction w as [|c w IH]; intros pat b; cbn [respell_by length]; [reflexivity|].
    destruct (ctype cs c =? 2); cbn [length]; rewrite IH; reflexivity.
  Qed.
  Lemma respell_length min w : length (respell cs min w) = length w.
  Proof. apply respell_by_length. Qed.
End Respell.

Lemma min_case_le2 c : min_case c <= 2.
Proof.
  unfold min_case, required_case. cbv zeta. destruct (_ && _); [lia|]. destruct (_ =? _); lia.
Qed.

(** ** Collectors *)
Definition all_in (out : bytes) (ps : list bytes) : bytes := out ++ concat ps.
Lemma col_appends_eq ps : forall room out,
  col_appends (Collector room out) ps =
    (if Nat.leb (length (concat ps)) room then (Collector (room - length (concat ps)) (out ++ concat ps), true)
     else (fst (col_appends (Collector room out) ps), false)).
Proof.
  induction ps as [|p ps IH]; intros room out; cbn [col_appends concat].
  - cbn. rewrite Nat.sub_0_r, app_nil_r. reflexivity.
  - unfold col_append. cbn [croom cout]. rewrite app_length.
    destruct (Nat.ltb_spec room (length p)) as [Hlt|Hge].
    + destruct (Nat.leb_spec (length p + length (concat ps)) room); [lia|reflexivity].
    + rewrite IH. destruct (Nat.leb_spec (length (concat ps)) (room - length p)); destruct (Nat.leb_spec (length p + length (concat ps)) room); try lia.
      * rewrite <- app_assoc. do 2 f_equal. lia.
      * reflexivity.
Qed.

(** what building the strings [fs] in a collector gives *)
Definition collected (c : collector) (fs : list bytes) (r : res (collector * Z)) : Prop :=
  exists c' z, r = Ok (c', z) /\
    ((total fs <= croom c)%nat /\ c' = Collector (croom c - total fs) (cout c ++ joined fs) /\ z = Z.of_nat (length fs) \/
     (croom c < total fs)%nat /\ z = (-1)%Z).

Lemma joined_length fs : length (joined fs) = total fs.
Proof. induction fs as [|f fs IH]; cbn; [reflexivity|]. fold (joined fs). fold (total fs). rewrite !app_length, IH. cbn. lia. Qed.
Lemma joined_app a b : joined (a ++ b) = joined a ++ joined b.
Proof. apply flat_map_app. Qed.
Lemma total_app a b : total (a ++ b) = (total a + total b)%nat.
Proof. induction a as [|x a IH]; cbn; [reflexivity|]. fold (total (a ++ b)). fold (total a). lia. Qed.

Lemma fbytes_eq p x : fbytes (Frag (p ++ x) (N.of_nat (length p))) = Ok p.
Proof.
  unfold fbytes. cbn [fstr flen]. rewrite app_length. destruct (N.ltb_spec (N.of_nat (length p + length x)) (N.of_nat (length p))); [lia|].
  rewrite Nnat.Nat2N.id, firstn_app, firstn_all, Nat.sub_diag, firstn_O, app_nil_r. reflexivity.
Qed.
Lemma fbytes_post e aft : fbytes (post_frag e aft) = Ok (stpost e).
Proof.
  unfold post_frag. destruct (stpost e) as [|x l] eqn:E; [reflexivity|]. cbn [nonempty]. apply fbytes_eq.
Qed.

Lemma plain_form_eq c pre x suffix post : fbytes suffix = Ok post ->
  collected c [pre ++ post] (plain_form c (Frag (pre ++ x) (N.of_nat (length pre))) suffix).
Proof.
  intros Hs. destruct c as [room out]. unfold plain_form. rewrite fbytes_eq, Hs. cbn [bind]. rewrite col_appends_eq.
  cbn [concat]. rewrite app_nil_r. unfold collected. cbn [croom cout].
  assert (Hl : length (pre ++ post ++ [0]) = total [pre ++ post]) by (cbn [total fold_right]; rewrite !app_length; cbn; lia).
  assert (Hj : pre ++ post ++ [0] = joined [pre ++ post]) by (cbn [joined flat_map]; rewrite app_nil_r, app_assoc; reflexivity).
  rewrite Hl, Hj.
  destruct (Nat.leb_spec (total [pre ++ post]) room); do 2 eexists; (split; [reflexivity|]); [left|right]; repeat split; assumption.
Qed.

(** ** Inflexions *)
Lemma has_desc_eq fx l : forall junk, Forall (fun gf => fst gf < 2 ^ 16 /\ snd gf < 256) l ->
  has_desc fx (length l) (flat_map (fun gf => putword16 (fst gf) ++ [snd gf]) l ++ junk) = Ok (existsb (fits_desc fx) l).
Proof.
  induction l as [|[g f] l IH]; intros junk Hl; cbn [length has_desc flat_map existsb]; [reflexivity|].
  inversion Hl as [|? ? [Hg Hf] Hl']; subst. cbn [fst snd] in *. rewrite <- !app_assoc, getword16_put by assumption. cbn [bind app rd].
  unfold fits_desc at 1. cbn [fst snd]. destruct ((g =? gramm fx) && negb (N.land f (flags fx) =? 0)); [reflexivity|]. apply IH, Hl'.
Qed.

Definition spec_visit (fx : flexinfo) (pre post : bytes) (s : collector * Z) (key : bytes) (l : list (N * N)) : res (collector * Z * Z) :=
  if existsb (fits_desc fx) l then
    let '(c, ok) := col_appends (fst s) [pre; key; post; [0]] in
    if ok then Ok ((c, (snd s + 1)%Z), 0%Z) else Ok ((c, snd s), (-1)%Z)
  else Ok (s, 0%Z).

Lemma spec_visits fx pre post es : forall room out n,
  let fs := map (fun k => pre ++ k ++ post) (map fst (filter (fun kl => existsb (fits_desc fx) (snd kl)) es)) in
  exists c' z r, until_nonzero (fun s ka => spec_visit fx pre post s (fst ka) (snd ka)) es (Collector room out, n) = Ok ((c', z), r) /\
    ((total fs <= room)%nat /\ c' = Collector (room - total fs) (out ++ joined fs) /\ z = (n + Z.of_nat (length fs))%Z /\ r = 0%Z \/
     (room < total fs)%nat /\ r = (-1)%Z).
Proof.
  induction es as [|[k l] es IH]; intros room out n; cbn [filter map until_nonzero fst snd].
  - do 3 eexists. split; [reflexivity|]. left. cbn. rewrite Nat.sub_0_r, app_nil_r. repeat split; lia.
  - unfold spec_visit at 1. destruct (existsb (fits_desc fx) l).
    + cbn [fst snd map]. rewrite col_appends_eq. cbn [concat]. rewrite app_nil_r.
      assert (Hl : length (pre ++ k ++ post ++ [0]) = (length (pre ++ k ++ post) + 1)%nat) by (rewrite !app_length; cbn; lia).
      assert (Hj : pre ++ k ++ post ++ [0] = (pre ++ k ++ post) ++ [0]) by (rewrite <- !app_assoc; reflexivity).
      rewrite Hl, Hj. cbn [total fold_right joined flat_map].
      set (fs := map (fun k => pre ++ k ++ post) _) in *. fold (total fs). fold (joined fs).
      destruct (Nat.leb_spec (length (pre ++ k ++ post) + 1) room) as [Hle|Hgt].
      * cbn [bind Z.eqb]. destruct (IH (room - (length (pre ++ k ++ post) + 1))%nat (out ++ (pre ++ k ++ post) ++ [0]) (n + 1)%Z) as (c' & z & r & E & H).
        do 3 eexists. split; [exact E|]. fold fs in H. destruct H as [(H1 & H2 & H3 & H4)|(H1 & H2)]; [left|right].
        -- split; [lia|]. split; [|split; [cbn [length]; lia|assumption]]. rewrite H2. f_equal; [lia|]. rewrite <- app_assoc. reflexivity.
        -- split; [lia|assumption].
      * cbn [bind Z.eqb]. do 3 eexists. split; [reflexivity|]. right. split; [lia|reflexivity].
    + cbn [bind Z.eqb]. apply IH.
Qed.

Lemma flex_forms_eq c ft rest fx pre x suffix post : flex_ok ft -> within 64 ft -> fbytes suffix = Ok post ->
  collected c (map (fun k => pre ++ k ++ post) (endings_for ft fx))
    (get_flex_forms c (serialize C8 flex_ser flex_len ft ++ rest) fx (Frag (pre ++ x) (N.of_nat (length pre))) suffix).
Proof.
  intros (Hd & Hz & Ha) Hw Hs. unfold get_flex_forms.
  rewrite (track_all C8 flex_ser flex_len (flex_visit fx (Frag (pre ++ x) (N.of_nat (length pre))) suffix)
             (fun s k l => spec_visit fx pre post s k l) 64 65 ft [] rest (c, 0%Z)).
  - destruct c as [room out]. destruct (spec_visits fx pre post (entries [] ft) room out 0%Z) as (c' & z & r & -> & H).
    cbn [bind fst snd]. unfold collected, endings_for. cbn [croom cout]. do 2 eexists. split; [reflexivity|].
    destruct H as [(H1 & H2 & H3 & ->)|(H1 & ->)]; cbn [Z.eqb]; [left|right; split; [exact H1|reflexivity]].
    split; [exact H1|]. split; [exact H2|]. rewrite H3. apply Z.add_0_l.
  - exact Hd.
  - eapply all_data_impl; [|exact Ha]. apply flex_sized.
  - exact Hw.
  - lia.
  - intros k l Hl s junk. unfold flex_visit, spec_visit, flex_ser. cbn [app rd bind]. rewrite Nnat.Nat2N.id.
    destruct (all_data_lookup _ _ _ _ Ha Hl) as [_ Hok]. rewrite has_desc_eq by assumption. cbn [bind].
    destruct (existsb (fits_desc fx) l); [|reflexivity]. rewrite fbytes_eq, Hs. cbn [bind]. reflexivity.
Qed.

(** ** Alternations *)
Lemma swap_level_range wd g f : 1 <= GetSwapLevel wd g f <= 3.
Proof.
  unfold GetSwapLevel, GetVerbMixPower, GetVerbMixPowerType1, GetVerbMixPowerType2, GetVerbMixPowerType3, MascNotAnimMixPower,
    MascAnimateMixPower, MascMixedMixPower, FemnNotAnimMixPower, FemnAnimateMixPower, FemnMixedMixPower, GetAdjectivMixPower,
    MascAnimateMixPower, MascNotAnimMixPower, FemnNotAnimMixPower, FemnAnimateMixPower.
  repeat match goal with
  | |- context [match ?x with _ => _ end] => destruct x
  end; lia.
Qed.

Lemma mask_bit mask len lv : mask < 16 -> len < 16 -> 1 <= lv ->
  (N.land (mask * 16 + len) (N.shiftl 8 lv) =? 0) = negb (N.testbit mask (lv - 1)).
Proof.
  intros Hm Hl Hv. replace (N.shiftl 8 lv) with (2 ^ (3 + lv)) by (rewrite N.shiftl_mul_pow2, N.pow_add_r; reflexivity).
  assert (E : N.testbit (mask * 16 + len) (3 + lv) = N.testbit mask (lv - 1)).
  { replace (mask * 16 + len) with (N.lor len (mask * 2 ^ 4)) by (rewrite lor_split by exact Hl; change (2 ^ 4) with 16; lia).
    rewrite N.lor_spec. rewrite <- (N.mod_small len (2 ^ 4)) by exact Hl. rewrite N.mod_pow2_bits_high by lia. cbn [orb].
    rewrite <- N.shiftl_mul_pow2, N.shiftl_spec_high by lia. f_equal. lia. }
  rewrite <- E. destruct (N.testbit (mask * 16 + len) (3 + lv)) eqn:B; cbn [negb].
  - apply N.eqb_neq. intros H. assert (N.testbit (N.land (mask * 16 + len) (2 ^ (3 + lv))) (3 + lv) = false) by (rewrite H; apply N.bits_0).
    rewrite N.land_spec, B, N.pow2_bits_true in H0. discriminate.
  - apply N.eqb_eq, N.bits_inj. intros i. rewrite N.land_spec, N.bits_0, N.pow2_bits_eqb.
    destruct (N.eqb_spec (3 + lv) i) as [<-|]; [rewrite B; reflexivity|apply andb_false_r].
Qed.

Lemma half_bytes a b : a < 16 -> b < 16 -> N.land (a * 16 + b) 0x0f = b.
Proof.
  intros Ha Hb. change 0x0f with (N.ones 4). rewrite N.land_ones. change (2 ^ 4) with 16.
  rewrite N.add_comm, N.mod_add by discriminate. apply N.mod_small, Hb.
Qed.

Lemma find_mix_spec lv (mx : list (N * bytes)) : 1 <= lv -> Forall (fun ma => fst ma < 16 /\ (length (snd ma) < 16)%nat) mx -> forall rest,
  match find (fun ma => N.testbit (fst ma) (lv - 1)) mx with
  | None => find_mix (N.shiftl 8 lv) (length mx) (flat_map (fun ma => fst ma * 16 + N.of_nat (length (snd ma)) :: snd ma) mx ++ rest) = Ok None
  | Some ma => fst ma < 16 /\ (length (snd ma) < 16)%nat /\ exists x,
      find_mix (N.shiftl 8 lv) (length mx) (flat_map (fun ma => fst ma * 16 + N.of_nat (length (snd ma)) :: snd ma) mx ++ rest) =
      Ok (Some (fst ma * 16 + N.of_nat (length (snd ma)) :: snd ma ++ x))
  end.
Proof.
  intros Hlv. induction mx as [|[mask alt] mx IH]; intros Hall rest; cbn [length find_mix flat_map find]; [reflexivity|].
  inversion Hall as [|? ? [Hm Hal] Hall']; subst. cbn [fst snd] in *. cbn [app rd bind].
  rewrite mask_bit by (try assumption; lia). rewrite half_bytes by (try assumption; lia).
  destruct (N.testbit mask (lv - 1)); cbn [negb fst snd].
  - split; [exact Hm|]. split; [exact Hal|]. eexists. rewrite <- app_assoc. reflexivity.
  - rewrite <- app_assoc, (advance_app alt _ (N.of_nat (length alt)) eq_refl). cbn [bind]. apply IH, Hall'.
Qed.

(** ** Classes *)
(** [st] describes class [c] in the arrays, or is what the search hands on for a fixed word *)
Definition stands_for (A : arrays) (st : steminfo) (c : aclass) : Prop :=
  class_repr A st c \/ (c_flex c = None /\ st = Steminfo (c_word c) 0 0).

Lemma stands_word A st c : stands_for A st c -> wdinfo st = c_word c.
Proof. intros [(H & _)|(_ & ->)]; [exact H|reflexivity]. Qed.

Lemma stands_fixed A st c : stands_for A st c -> c_flex c = None -> GetFlexTable A st = Ok None.
Proof.
  intros [(Hw & _ & _ & Hf & _)|(_ & ->)] E; [|reflexivity]. rewrite E in Hf. destruct Hf as [[Ht|Ht] _].
  - unfold GetFlexTable. rewrite Ht. reflexivity.
  - unfold GetFlexTable. rewrite Hw, Ht. cbn [N.eqb negb]. change (51 =? 51) with true. rewrite andb_false_r. reflexivity.
Qed.

Lemma word_forms_eq A c st cl fx pre x suffix post :
  stands_for A st cl -> (length pre <= 48)%nat -> (forall ft, c_flex cl = Some ft -> within 64 ft) -> fbytes suffix = Ok post ->
  collected c (raw_forms cl pre post fx) (get_word_forms A c st fx (Frag (pre ++ x) (N.of_nat (length pre))) suffix).
Proof.
  intros Hst Hpre Hwi Hs. unfold get_word_forms, raw_forms, tails. destruct (c_flex cl) as [ft|] eqn:Ef.
  - assert (Hr : class_repr A st cl) by (destruct Hst as [H|(H & _)]; [exact H|congruence]).
    destruct (flex_table A st cl ft Hr Ef) as (rest & -> & Hft). cbn [bind].
    destruct Hr as (Hw & _ & _ & _ & Hm). destruct (c_mix cl) as [mx|].
    + destruct Hm as (Hnz & (Hcnt & Hall & _) & mpre & mrest & Emx & Hml).
      destruct (N.eqb_spec (mtoffs st) 0); [contradiction|]. cbn [negb]. unfold level_mix, GetSwapTable.
      destruct (N.eqb_spec (mtoffs st) 0); [contradiction|]. cbn [negb].
      rewrite (advance_pre _ _ _ _ Emx Hml). cbn [bind]. unfold mix_ser. cbn [app rd bind]. rewrite Nnat.Nat2N.id, Hw.
      unfold alternation_for. rewrite level_eq. set (lv := alternation_level (c_word cl) (gramm fx) (flags fx)).
      assert (Hlv : 1 <= lv) by (unfold lv; rewrite <- level_eq; apply swap_level_range).
      pose proof (find_mix_spec lv mx Hlv Hall mrest) as F.
      destruct (find (fun ma => N.testbit (fst ma) (lv - 1)) mx) as [[mask alt]|]; cbn [option_map snd].
      * destruct F as (Hmask & Halt & y & ->). cbn [fst snd] in *. cbn [bind rd].
        rewrite N.land_comm, half_bytes by (try assumption; lia). cbn [flen].
        destruct (N.ltb_spec (N.of_nat (length pre) + N.of_nat (length alt)) 0x40) as [_|?]; [|lia].
        rewrite fbytes_eq. cbn [bind].
        replace (N.of_nat (length pre) + N.of_nat (length alt) - N.of_nat (length pre)) with (N.of_nat (length alt)) by lia.
        rewrite fbytes_eq. cbn [bind].
        replace (N.of_nat (length pre) + N.of_nat (length alt)) with (N.of_nat (length (pre ++ alt))) by (rewrite app_length; lia).
        pose proof (flex_forms_eq c ft rest fx (pre ++ alt) [] suffix post Hft (Hwi ft eq_refl) Hs) as H. rewrite app_nil_r in H.
        rewrite map_map. erewrite map_ext; [exact H|]. intros k. cbn. rewrite <- !app_assoc. reflexivity.
      * rewrite F. cbn [bind map]. unfold collected. do 2 eexists. split; [reflexivity|]. left. cbn. rewrite Nat.sub_0_r, app_nil_r.
        destruct c. repeat split. lia.
    + rewrite Hm. cbn [N.eqb negb]. apply (flex_forms_eq c ft rest fx pre x suffix post Hft (Hwi ft eq_refl) Hs).
  - rewrite (stands_fixed A st cl Hst Ef). cbn [bind map app]. apply plain_form_eq, Hs.
Qed.
