(** * ResolveProofs2: the headword is a form of its lexeme.  PROOFS. *)
From Verif Require Import Base Serial SerialProofs WordTree TreeSpec Stems StemSpec GramMap RusRuntime LevelSpec LevelProofs RusSpec RusProofs Compile CompileSpec CompileProofs CompileProofs2
  Resolve ResolveSpec ResolveProofs.
Local Open Scope N_scope.

Definition strip_items (depth : nat) (levels : list N) (tables : bytes) (grinfo tfoffs : N) (clevel : nat) :=
  let level := nth clevel levels 0 in
  fix items (n : nat) (ptable : bytes) (ststem : bytes) : res (bool * bytes) :=
         match n with
         | O => if (clevel <? 2)%nat && negb (up_levels levels clevel =? 0) then strip_str depth levels tables ststem grinfo tfoffs (S clevel)
                else Ok (false, ststem)
         | S n' =>
             let! (it, ptable) := read_item ptable in
             let count := N.of_nat (length (fi_text it)) in
             if negb (N.land grinfo level =? N.land (fi_info it) level) then items n' ptable ststem
             else if (N.land grinfo level =? 0) && negb (level =? 0xffff) then items n' ptable ststem
             else if (clevel <? 2)%nat && bit 7 (fi_flags it) then
               let! (done, ststem) := strip_str depth levels tables ststem grinfo (fi_next it) clevel in
               if done && has_tail ststem count (fi_text it) then let! ststem := cut ststem count in Ok (true, ststem)
               else items n' ptable ststem
             else if has_tail ststem count (fi_text it) then let! ststem := cut ststem count in Ok (true, ststem)
             else items n' ptable ststem
         end.
Lemma strip_str_S depth levels tables s g off cl : strip_str (S depth) levels tables s g off cl =
  let! p := advance (N.shiftl off 1) tables in let! (n, p) := rd p in strip_items depth levels tables g off cl (N.to_nat (N.land n 0x7f)) p s.
Proof. reflexivity. Qed.
Lemma strip_items_cons depth levels tables g off cl it items rest s : item_ok it ->
  strip_items depth levels tables g off cl (length (it :: items)) (flat_map item_ser (it :: items) ++ rest) s =
  let level := nth cl levels 0 in
  let count := N.of_nat (length (fi_text it)) in
  let next s := strip_items depth levels tables g off cl (length items) (flat_map item_ser items ++ rest) s in
  if negb (N.land g level =? N.land (fi_info it) level) then next s
  else if (N.land g level =? 0) && negb (level =? 0xffff) then next s
  else if (cl <? 2)%nat && bit 7 (fi_flags it) then
    let! (done, s) := strip_str depth levels tables s g (fi_next it) cl in
    if done && has_tail s count (fi_text it) then let! s := cut s count in Ok (true, s) else next s
  else if has_tail s count (fi_text it) then let! s := cut s count in Ok (true, s) else next s.
Proof.
  intros H. cbn [flat_map length]. rewrite <- app_assoc.
  change (strip_items depth levels tables g off cl (S (length items)) (item_ser it ++ flat_map item_ser items ++ rest) s) with
    (let! (it, ptable) := read_item (item_ser it ++ flat_map item_ser items ++ rest) in
             let level := nth cl levels 0 in
             let count := N.of_nat (length (fi_text it)) in
             if negb (N.land g level =? N.land (fi_info it) level) then strip_items depth levels tables g off cl (length items) ptable s
             else if (N.land g level =? 0) && negb (level =? 0xffff) then strip_items depth levels tables g off cl (length items) ptable s
             else if (cl <? 2)%nat && bit 7 (fi_flags it) then
               let! (done, s) := strip_str depth levels tables s g (fi_next it) cl in
               if done && has_tail s count (fi_text it) then let! s := cut s count in Ok (true, s)
               else strip_items depth levels tables g off cl (length items) ptable s
             else if has_tail s count (fi_text it) then let! s := cut s count in Ok (true, s)
             else strip_items depth levels tables g off cl (length items) ptable s).
  rewrite read_item_ser by exact H. reflexivity.
Qed.

Lemma strip_items_nil depth levels tables g off cl p s : strip_items depth levels tables g off cl 0 p s =
  if (cl <? 2)%nat && negb (up_levels levels cl =? 0) then strip_str depth levels tables s g off (S cl) else Ok (false, s).
Proof. reflexivity. Qed.

Lemma has_tail_app s count tail : count < 16 -> N.of_nat (length tail) >= count -> has_tail s count tail = true ->
  exists s', s = s' ++ firstn (N.to_nat count) tail /\ cut s count = Ok s'.
Proof.
  intros Hc Ht H. unfold has_tail in H. assert (E : N.land count 15 = count) by (change 15 with (N.ones 4); rewrite N.land_ones; apply N.mod_small, Hc).
  rewrite E in H. apply andb_true_iff in H as [H1 H2]. apply Nat.leb_le in H1. destruct (list_eq_dec _ _ _) as [K|]; [|discriminate].
  exists (firstn (length s - N.to_nat count) s). split.
  - rewrite <- K. symmetry. apply firstn_skipn.
  - unfold cut. destruct (N.ltb_spec (N.of_nat (length s)) count); [lia|]. reflexivity.
Qed.

Lemma strip_simple depth : forall levels tables g off items cl s s', table_at tables off items -> (length items < 128)%nat ->
  Forall (fun it => N.testbit (fi_flags it) 7 = false /\ (length (fi_text it) < 16)%nat) items ->
  strip_str depth levels tables s g off cl = Ok (true, s') ->
  exists it cl', In it items /\ s = s' ++ fi_text it /\ (cl <= cl')%nat /\ (cl' = cl \/ up_levels levels cl <> 0) /\
    N.land g (nth cl' levels 0) = N.land (fi_info it) (nth cl' levels 0) /\ (N.land g (nth cl' levels 0) <> 0 \/ nth cl' levels 0 = 0xffff).
Proof.
  induction depth as [|depth IH]; intros levels tables g off items cl s s' T Hl Hs E; [discriminate|]. rewrite strip_str_S in E.
  pose proof T as (H1 & H2 & pre & rest & Et & Ep).
  rewrite (advance_pre tables pre (N.of_nat (length items) :: flat_map item_ser items ++ rest)) in E; [|exact Et|rewrite N.shiftl_mul_pow2; lia].
  cbn [bind rd] in E. rewrite land127_id in E by lia. rewrite Nnat.Nat2N.id in E.
  assert (G : forall l, Forall item_ok l -> Forall (fun it => N.testbit (fi_flags it) 7 = false /\ (length (fi_text it) < 16)%nat) l -> incl l items ->
    strip_items depth levels tables g off cl (length l) (flat_map item_ser l ++ rest) s = Ok (true, s') ->
    exists it cl', In it items /\ s = s' ++ fi_text it /\ (cl <= cl')%nat /\ (cl' = cl \/ up_levels levels cl <> 0) /\
      N.land g (nth cl' levels 0) = N.land (fi_info it) (nth cl' levels 0) /\ (N.land g (nth cl' levels 0) <> 0 \/ nth cl' levels 0 = 0xffff)).
  { induction l as [|it l IHl]; intros Ho Hsl Hi El.
    - cbn [length flat_map app] in El. rewrite strip_items_nil in El. destruct ((cl <? 2)%nat && negb (up_levels levels cl =? 0)) eqn:Eu; [|discriminate].
      apply andb_true_iff in Eu as [_ Eu]. apply negb_true_iff, N.eqb_neq in Eu.
      destruct (IH _ _ _ _ _ _ _ _ T Hl Hs El) as (it & cl' & K1 & K2 & K3 & _ & K5). exists it, cl'. split; [exact K1|]. split; [exact K2|]. split; [lia|]. split; [right; exact Eu|exact K5].
    - inversion Ho as [|? ? Hit Hits]; subst. inversion Hsl as [|? ? [Hb Ht] Hsl']; subst. rewrite strip_items_cons in El by exact Hit. cbv zeta in El.
      assert (Hi' : incl l items) by (intros y Hy; apply Hi; right; exact Hy).
      destruct (N.eqb_spec (N.land g (nth cl levels 0)) (N.land (fi_info it) (nth cl levels 0))) as [Eg|_]; cbn [negb] in El; [|eapply IHl; eassumption].
      destruct ((N.land g (nth cl levels 0) =? 0) && negb (nth cl levels 0 =? 0xffff)) eqn:Ez; [eapply IHl; eassumption|].
      unfold bit in El. rewrite Hb, andb_false_r in El. destruct (has_tail s (N.of_nat (length (fi_text it))) (fi_text it)) eqn:Eh; [|eapply IHl; eassumption].
      destruct (has_tail_app s (N.of_nat (length (fi_text it))) (fi_text it)) as (s1 & E1 & E2); [lia|lia|exact Eh|]. rewrite E2 in El. cbn [bind] in El. injection El as <-.
      rewrite Nnat.Nat2N.id, firstn_all in E1. exists it, cl. split; [apply Hi; left; reflexivity|]. split; [exact E1|]. split; [lia|]. split; [left; reflexivity|]. split; [exact Eg|].
      apply andb_false_iff in Ez as [Ez|Ez]; [left; apply N.eqb_neq, Ez|right; apply negb_false_iff, N.eqb_eq in Ez; exact Ez]. }
  apply (G items); [exact H1|exact Hs|intros y Hy; exact Hy|exact E].
Qed.

(** ** The default alternation *)
Lemma default_found mtable off mx count tail : mix_at mtable off mx -> default_str mtable off = Ok (count, tail) ->
  exists mask alt rest, In (mask, alt) mx /\ count = mask * 16 + N.of_nat (length alt) /\ tail = alt ++ rest /\ N.testbit mask 0 = true /\ (length alt < 16)%nat.
Proof.
  intros ((Hn & Hf & _) & pre & rest & E & Ep). unfold default_str. rewrite (advance_pre mtable pre (mix_ser mx ++ rest) off E Ep). cbn [bind].
  unfold mix_ser. cbn [app rd bind]. destruct (N.of_nat (length mx) <? 128); [|discriminate]. rewrite Nnat.Nat2N.id. clear E Ep Hn.
  induction Hf as [|[a s] mx [Ha Hs] Hf IH]; [discriminate|]. cbn [fst snd length flat_map] in *. rewrite <- app_assoc. cbn [app default_loop rd bind].
  assert (Eb : N.land (a * 16 + N.of_nat (length s)) 16 = if N.testbit a 0 then 16 else 0).
  { change 16 with (2 ^ 4) at 2. apply N.bits_inj. intros i. rewrite N.land_spec, N.pow2_bits_eqb. destruct (N.eqb_spec 4 i) as [<-|Hne].
    - rewrite andb_true_r. rewrite !N.testbit_eqb. change (2 ^ 4) with 16. change (2 ^ 0) with 1. rewrite N.div_1_r, (N.add_comm (a * 16)), N.div_add by discriminate. rewrite (N.div_small (N.of_nat (length s))) by lia.
      rewrite N.add_0_l. destruct (a mod 2 =? 1); reflexivity.
    - rewrite andb_false_r. destruct (N.testbit a 0); [|rewrite N.bits_0; reflexivity]. change 16 with (2 ^ 4). rewrite N.pow2_bits_false by congruence. reflexivity. }
  rewrite Eb. destruct (N.testbit a 0) eqn:Et; cbn [N.eqb negb].
  - change (16 =? 0) with false. cbn [negb]. intros K. injection K as <- <-. exists a, s. eexists. split; [left; reflexivity|]. split; [reflexivity|]. split; [reflexivity|]. split; [exact Et|exact Hs].
  - rewrite low_half by lia. rewrite advance_app by reflexivity. cbn [bind]. intros K. destruct (IH K) as (mask & alt & r & K1 & K2). exists mask, alt, r. split; [right; exact K1|exact K2].
Qed.

Lemma find_alt_found mtable type stem rems : forall alts off, (forall o cond, In (o, cond) alts -> o <> 0 /\ exists mx, mix_at mtable o mx) ->
  find_alt mtable alts type stem rems = Ok off -> off <> 0 -> exists mx count tail, mix_at mtable off mx /\ default_str mtable off = Ok (count, tail) /\ has_tail stem count tail = true.
Proof.
  induction alts as [|[o cond] alts IH]; intros off Ha E Hne; cbn [find_alt] in E; [injection E as <-; contradiction|].
  assert (Ha' : forall o cond, In (o, cond) alts -> o <> 0 /\ exists mx, mix_at mtable o mx) by (intros; eapply Ha; right; eassumption).
  apply bind_ok_inv in E as ([count tail] & Ed & E). destruct (has_tail stem count tail) eqn:Eh; cbn [negb] in E; [|eapply IH; eassumption].
  destruct (suits_cond type cond stem rems); [|eapply IH; eassumption]. injection E as <-. destruct (Ha o cond (or_introl eq_refl)) as (_ & mx & Hm). exists mx, count, tail. auto.
Qed.

(** ** Levels of the normal form *)
Lemma normal_level wd s f : ~ (1 <= N.land wd 63 <= 6) -> N.testbit wd 6 = false -> alternation_level wd (fst (normal_form wd s)) f = 1.
Proof.
  intros Hv Hm. unfold normal_form. assert (E : N.land wd 64 =? 0 = true).
  { apply N.eqb_eq. change 64 with (2 ^ 6). apply N.bits_inj. intros i. rewrite N.land_spec, N.pow2_bits_eqb, N.bits_0. destruct (N.eqb_spec 6 i) as [<-|]; [rewrite Hm; reflexivity|apply andb_false_r]. }
  rewrite E. unfold alternation_level. rewrite mod64. pose proof (land63_lt wd) as Hlt. remember (N.land wd 63) as t eqn:Et. clear Et E Hm.
  assert (Ev : (1 <=? t) && (t <=? 6) = false) by (destruct (N.leb_spec 1 t), (N.leb_spec t 6); try reflexivity; exfalso; apply Hv; lia). rewrite Ev.
  set (P := fun (r a : bool) (t : N) => (1 <=? t) && (t <=? 6) ||
     let g := N.lor (if existsb (N.eqb t) [25; 26; 27; 28; 34; 36; 42; 52] then 512 + (if r then 32768 else 0) else 0) 0 in
     ((match noun_type t with Some (k, an) => if noun_alternates k (match an with Inanimate => false | Animate => true | ByFlag => a end) g then 2 else 1
       | None => if t =? 25 then if g =? 128 then 3 else if g =? 768 then 2 else 1 else 1 end) =? 1)).
  assert (K : forall r a, forallb (fun k => P r a (N.of_nat k)) (seq 0 64) = true) by (intros [] []; vm_compute; reflexivity).
  specialize (K (reflexive s) (N.odd f)). pose proof (below64 (P (reflexive s) (N.odd f)) K t Hlt) as Kt. unfold P in Kt. cbv beta zeta in Kt. rewrite Ev in Kt. cbn [orb] in Kt. apply N.eqb_eq in Kt.
  destruct (existsb (N.eqb t) [25; 26; 27; 28; 34; 36; 42; 52]) eqn:Ee; cbn [fst]; [exact Kt|exact Kt].
Qed.

Lemma normal_plural wd s : N.testbit wd 6 = true -> plural_of (fst (normal_form wd s)) = true.
Proof.
  intros Hm. assert (E : N.land wd 64 =? 0 = false).
  { apply N.eqb_neq. intros E. assert (K : N.testbit (N.land wd 64) 6 = false) by (rewrite E; reflexivity). rewrite N.land_spec, Hm in K. discriminate. }
  unfold normal_form. rewrite E. destruct ((1 <=? N.land wd 63) && (N.land wd 63 <=? 6)); [reflexivity|]. destruct (existsb _ _); [destruct (reflexive s); reflexivity|reflexivity].
Qed.
Lemma normal_levels wd s : ~ (1 <= N.land wd 63 <= 6) -> snd (normal_form wd s) = noun_levels /\ fst (normal_form wd s) < 2 ^ 16.
Proof.
  intros Hv. unfold normal_form. assert (Ev : (1 <=? N.land wd 63) && (N.land wd 63 <=? 6) = false) by (destruct (N.leb_spec 1 (N.land wd 63)), (N.leb_spec (N.land wd 63) 6); try reflexivity; exfalso; apply Hv; lia).
  rewrite Ev. destruct (existsb _ _); [destruct (reflexive s)|]; destruct (N.land wd 64 =? 0); split; reflexivity.
Qed.
Lemma land_ffff g : g < 2 ^ 16 -> N.land g 0xffff = g.
Proof. intros H. change 0xffff with (N.ones 16). rewrite N.land_ones. apply N.mod_small, H. Qed.

Lemma cut_app s post : cut (s ++ post) (N.of_nat (length post)) = Ok s.
Proof.
  unfold cut. rewrite app_length. destruct (N.ltb_spec (N.of_nat (length s + length post)) (N.of_nat (length post))); [lia|].
  rewrite Nnat.Nat2N.id. replace (length s + length post - length post)%nat with (length s) by lia. rewrite firstn_app, Nat.sub_diag, firstn_all, app_nil_r. reflexivity.
Qed.

Lemma headword depth ftable mtable alts stem post rems wd off cases mixkind id x :
  resolve depth ftable mtable alts (stem ++ post) post rems wd off cases None false mixkind id = Ok (Some x) ->
  (off <> 0 -> ~ (1 <= wd mod 64 <= 6) /\ wd mod 64 <> 51 /\ mixkind = 0 /\ simple_table ftable off) ->
  (forall o cond, In (o, cond) alts -> o <> 0 /\ exists mx, mix_at mtable o mx) ->
  (m_mtoffs (l_class x) <> 0 -> N.testbit wd 6 = false) ->
  exists part g f, form_of ftable mtable x (stem ++ post) part g f.
Proof.
  intros E Hflex Ha Hpl. unfold resolve in E. rewrite cut_app in E. cbn [bind] in E. destruct (N.eqb_spec off 0) as [Hz|Hz].
  - injection E as <-. exists [], (if N.land wd 63 =? 51 then cases else 0), 0. split; cbn [l_class l_stem l_post]; [|reflexivity].
    match goal with |- changing _ _ ?m _ _ _ => apply (changing_never ftable mtable m) end. unfold inflected. cbn [m_tfoffs m_wdinfo]. rewrite mod64.
    destruct (N.land wd 63 =? 51); cbn [negb]; [apply andb_false_r|reflexivity].
  - destruct (Hflex Hz) as (Hv & H51 & -> & items & T & Hl & Hs). rewrite mod64 in Hv, H51. destruct (normal_form wd stem) as [nf levels] eqn:En.
    pose proof (normal_levels wd stem Hv) as [Elv Hnf]. rewrite En in Elv, Hnf. cbn [fst snd] in Elv, Hnf. subst levels.
    apply bind_ok_inv in E as ([done s1] & Es & E). destruct done; cbn [negb andb] in E; [|discriminate].
    destruct (strip_simple depth noun_levels ftable nf off items 0 stem s1 T Hl Hs Es) as (it & cl & Hin & Est & _ & Hcl & Hg & _).
    destruct Hcl as [->|Hcl]; [|exfalso; apply Hcl; reflexivity]. cbn [nth noun_levels] in Hg.
    assert (Hinfo : fi_info it < 2 ^ 16) by (destruct T as (T1 & _); rewrite Forall_forall in T1; apply (T1 it Hin)).
    rewrite !land_ffff in Hg by assumption. rewrite Forall_forall in Hs. destruct (Hs it Hin) as [Hb _].
    assert (He : ending ftable off (fi_text it) nf (fi_flags it)) by (rewrite Hg; eapply ending_here; eassumption).
    apply bind_ok_inv in E as ([lo hi] & _ & E). apply bind_ok_inv in E as (mt & Ef & E).
    assert (Hi : forall a, inflected (Morphclass wd off a) = true).
    { intros a. unfold inflected. cbn [m_tfoffs m_wdinfo]. rewrite mod64. destruct (N.eqb_spec off 0); [contradiction|]. destruct (N.eqb_spec (N.land wd 63) 51); [contradiction|reflexivity]. }
    assert (Hnum : forall a, number_agrees (Morphclass wd off a) nf).
    { intros a H6. cbn [m_wdinfo] in H6. pose proof (normal_plural wd stem H6) as K. rewrite En in K. exact K. }
    destruct (N.eqb_spec mt 0) as [Hm|Hm].
    + injection E as <-. exists (fi_text it), nf, (fi_flags it). split; cbn [l_class l_stem l_post]; [|rewrite Est, <- app_assoc; reflexivity].
      apply changing_ending; [apply Hi|reflexivity|exact He|apply Hnum].
    + apply bind_ok_inv in E as ([lo' hi'] & _ & E). apply bind_ok_inv in E as ([count tail] & Ed & E). apply bind_ok_inv in E as (s2 & Ec & E). injection E as <-.
      cbn [l_class m_mtoffs] in Hpl. specialize (Hpl Hm).
      destruct (find_alt_found mtable wd s1 rems alts mt Ha Ef Hm) as (mx & count' & tail' & Hmx & Ed' & Eh). rewrite Ed in Ed'. injection Ed' as <- <-.
      destruct (default_found mtable mt mx count tail Hmx Ed) as (mask & alt & r & Hina & -> & -> & Hbit & Hlen).
      rewrite low_half in Ec by lia. unfold has_tail in Eh. rewrite low_half in Eh by lia. rewrite Nnat.Nat2N.id in Eh. apply andb_true_iff in Eh as [H1 H2]. apply Nat.leb_le in H1.
      destruct (list_eq_dec _ _ _) as [K|]; [|discriminate]. rewrite firstn_app, Nat.sub_diag, firstn_all, app_nil_r in K. unfold cut in Ec.
      destruct (N.ltb_spec (N.of_nat (length s1)) (N.of_nat (length alt))); [lia|]. rewrite Nnat.Nat2N.id in Ec. injection Ec as <-.
      exists (alt ++ fi_text it), nf, (fi_flags it). split; cbn [l_class l_stem l_post].
      * rewrite N.lor_0_r. eapply changing_mixed; [apply Hi|exact Hm|exact Hmx|exact Hina| |exact He|apply Hnum].
        cbn [m_wdinfo]. pose proof (normal_level wd stem (fi_flags it) Hv Hpl) as Hlv. rewrite En in Hlv. cbn [fst] in Hlv. rewrite Hlv. exact Hbit.
      * rewrite Est. rewrite <- (firstn_skipn (length s1 - length alt) s1) at 1. rewrite K, <- !app_assoc. reflexivity.
Qed.
