(** * ResolveProofs: bounds of first letters.  PROOFS. *)
From Verif Require Import Base Serial SerialProofs WordTree TreeSpec Stems StemSpec GramMap RusRuntime LevelSpec LevelProofs RusSpec RusProofs Compile CompileSpec CompileProofs CompileProofs2
  Resolve ResolveSpec.
Local Open Scope N_scope.

Definition mm_items (depth : nat) (tables : bytes) :=
  fix items (n : nat) (ptable : bytes) (clower cupper : Z) : res (N * N) :=
         match n with
         | O => Ok (Z.to_N (clower mod 256), Z.to_N (cupper mod 256))
         | S n' =>
             let! (it, ptable) := read_item ptable in
             match fi_text it with
             | c :: _ => items n' ptable (Z.min (Z.of_N c) clower) (Z.max (Z.of_N c) cupper)
             | [] =>
                 if negb (bit 7 (fi_flags it)) then items n' ptable 0%Z (if (0 <=? cupper)%Z then cupper else 0%Z)
                 else let! (cl, cu) := flex_minmax depth tables (fi_next it) in
                      items n' ptable (Z.min clower (Z.of_N cl)) (Z.max cupper (Z.of_N cu))
             end
         end.
Lemma flex_minmax_S depth tables off : flex_minmax (S depth) tables off =
  let! p := advance (N.shiftl off 1) tables in let! (n, p) := rd p in mm_items depth tables (N.to_nat (N.land n 0x7f)) p 256%Z (-1)%Z.
Proof. reflexivity. Qed.
Lemma mm_items_cons depth tables it items rest lo hi : item_ok it ->
  mm_items depth tables (length (it :: items)) (flat_map item_ser (it :: items) ++ rest) lo hi =
  match fi_text it with
  | c :: _ => mm_items depth tables (length items) (flat_map item_ser items ++ rest) (Z.min (Z.of_N c) lo) (Z.max (Z.of_N c) hi)
  | [] =>
      if negb (bit 7 (fi_flags it)) then mm_items depth tables (length items) (flat_map item_ser items ++ rest) 0%Z (if (0 <=? hi)%Z then hi else 0%Z)
      else let! (cl, cu) := flex_minmax depth tables (fi_next it) in
           mm_items depth tables (length items) (flat_map item_ser items ++ rest) (Z.min lo (Z.of_N cl)) (Z.max hi (Z.of_N cu))
  end.
Proof.
  intros H. cbn [flat_map length]. rewrite <- app_assoc.
  change (mm_items depth tables (S (length items)) (item_ser it ++ flat_map item_ser items ++ rest) lo hi) with
    (let! (it, ptable) := read_item (item_ser it ++ flat_map item_ser items ++ rest) in
             match fi_text it with
             | c :: _ => mm_items depth tables (length items) ptable (Z.min (Z.of_N c) lo) (Z.max (Z.of_N c) hi)
             | [] =>
                 if negb (bit 7 (fi_flags it)) then mm_items depth tables (length items) ptable 0%Z (if (0 <=? hi)%Z then hi else 0%Z)
                 else let! (cl, cu) := flex_minmax depth tables (fi_next it) in
                      mm_items depth tables (length items) ptable (Z.min lo (Z.of_N cl)) (Z.max hi (Z.of_N cu))
             end).
  rewrite read_item_ser by exact H. reflexivity.
Qed.

Lemma minmax_byte depth : forall tables off lo hi, flex_minmax depth tables off = Ok (lo, hi) -> lo < 256 /\ hi < 256.
Proof.
  destruct depth as [|depth]; intros tables off lo hi; [discriminate|]. rewrite flex_minmax_S. intros E.
  apply bind_ok_inv in E as (p & _ & E). apply bind_ok_inv in E as ([n q] & _ & E).
  revert E. generalize (N.to_nat (N.land n 127)) as k, 256%Z as a, (-1)%Z as b. intros k. revert q. induction k as [|k IH]; intros q a b E.
  - cbn in E. injection E as <- <-. split; lia.
  - change (mm_items depth tables (S k) q a b) with
    (let! (it, ptable) := read_item q in
             match fi_text it with
             | c :: _ => mm_items depth tables k ptable (Z.min (Z.of_N c) a) (Z.max (Z.of_N c) b)
             | [] =>
                 if negb (bit 7 (fi_flags it)) then mm_items depth tables k ptable 0%Z (if (0 <=? b)%Z then b else 0%Z)
                 else let! (cl, cu) := flex_minmax depth tables (fi_next it) in
                      mm_items depth tables k ptable (Z.min a (Z.of_N cl)) (Z.max b (Z.of_N cu))
             end) in E.
    apply bind_ok_inv in E as ([it q'] & _ & E). destruct (fi_text it) as [|c t]; [|eapply IH; exact E]. destruct (negb (bit 7 (fi_flags it))); [eapply IH; exact E|].
    apply bind_ok_inv in E as ([cl cu] & _ & E). eapply IH; exact E.
Qed.

(** what was covered stays covered *)
Lemma mm_keeps depth tables rest items : forall lo hi l h c, Forall item_ok items -> (0 <= lo)%Z -> (hi <= 255)%Z -> (lo <= Z.of_N c <= hi)%Z ->
  mm_items depth tables (length items) (flat_map item_ser items ++ rest) lo hi = Ok (l, h) -> l <= c <= h.
Proof.
  induction items as [|it items IH]; intros lo hi l h c Hok Hl Hh Hc E.
  - cbn in E. injection E as <- <-. rewrite !Z.mod_small by lia. lia.
  - inversion Hok as [|? ? Hit Hits]; subst. rewrite mm_items_cons in E by exact Hit. destruct (fi_text it) as [|x t] eqn:Et.
    + destruct (negb (bit 7 (fi_flags it))).
      * apply (IH _ _ _ _ c Hits) in E; [exact E|lia|destruct (0 <=? hi)%Z; lia|]. destruct (Z.leb_spec 0 hi); lia.
      * apply bind_ok_inv in E as ([cl cu] & Em & E). apply minmax_byte in Em as [M1 M2]. apply (IH _ _ _ _ c Hits) in E; [exact E|lia|lia|lia].
    + assert (Hx : x < 256). { destruct Hit as (_ & _ & _ & Hb & _). rewrite Et in Hb. inversion Hb; assumption. }
      apply (IH _ _ _ _ c Hits) in E; [exact E|lia|lia|lia].
Qed.

Lemma mm_item depth tables rest it items : forall lo hi l h c, Forall item_ok items -> (0 <= lo <= 256)%Z -> (-1 <= hi <= 255)%Z -> In it items -> c < 256 ->
  (match fi_text it with
   | x :: _ => x = c
   | [] => N.testbit (fi_flags it) 7 = true /\ (forall cl cu, flex_minmax depth tables (fi_next it) = Ok (cl, cu) -> cl <= c <= cu)
   end) ->
  mm_items depth tables (length items) (flat_map item_ser items ++ rest) lo hi = Ok (l, h) -> l <= c <= h.
Proof.
  induction items as [|it' items IH]; intros lo hi l h c Hok Hl Hh Hin Hcb Hc E; [destruct Hin|].
  inversion Hok as [|? ? Hit Hits]; subst. rewrite mm_items_cons in E by exact Hit. destruct Hin as [->|Hin].
  - destruct (fi_text it) as [|x t] eqn:Et.
    + destruct Hc as [Hb Hc]. unfold bit in E. rewrite Hb in E. cbn [negb] in E. apply bind_ok_inv in E as ([cl cu] & Em & E). specialize (Hc _ _ Em). apply minmax_byte in Em as [M1 M2].
      eapply mm_keeps; [exact Hits| | | |exact E]; lia.
    + subst x. eapply mm_keeps; [exact Hits| | | |exact E]; lia.
  - destruct (fi_text it') as [|x t] eqn:Et.
    + destruct (negb (bit 7 (fi_flags it'))).
      * eapply IH; [exact Hits| | |exact Hin|exact Hcb|exact Hc|exact E]; [lia|]. destruct (Z.leb_spec 0 hi); lia.
      * apply bind_ok_inv in E as ([cl cu] & Em & E). apply minmax_byte in Em as [M1 M2]. eapply IH; [exact Hits| | |exact Hin|exact Hcb|exact Hc|exact E]; lia.
    + assert (Hx : x < 256). { destruct Hit as (_ & _ & _ & Hb & _). rewrite Et in Hb. inversion Hb; assumption. }
      eapply IH; [exact Hits| | |exact Hin|exact Hcb|exact Hc|exact E]; lia.
Qed.

Lemma land127_id n : n < 128 -> N.land n 127 = n.
Proof. intros H. change 127 with (N.ones 7). rewrite N.land_ones. apply N.mod_small. exact H. Qed.

Lemma flex_minmax_table depth tables off items : table_at tables off items -> (length items < 128)%nat -> exists rest,
  flex_minmax (S depth) tables off = mm_items depth tables (length items) (flat_map item_ser items ++ rest) 256%Z (-1)%Z.
Proof.
  intros (H1 & H2 & pre & rest & E & Ep) Hl. exists rest. rewrite flex_minmax_S. rewrite (advance_pre tables pre (N.of_nat (length items) :: flat_map item_ser items ++ rest)).
  - cbn [bind rd]. rewrite land127_id by lia. rewrite Nnat.Nat2N.id. reflexivity.
  - exact E.
  - rewrite N.shiftl_mul_pow2. lia.
Qed.

Lemma ending_bytes tables off s g f : ending tables off s g f -> is_bytes s.
Proof.
  induction 1 as [o i it (Hok & _) Hin Hbit|o i it s g f (Hok & _) Hin Hnx He IH]; rewrite Forall_forall in Hok; destruct (Hok it Hin) as (_ & _ & _ & K & _).
  - exact K.
  - apply is_bytes_app. auto.
Qed.

Lemma flex_bounds depth : forall tables off lo hi c rest g f, plain_links tables off -> flex_minmax depth tables off = Ok (lo, hi) ->
  ending tables off (c :: rest) g f -> lo <= c <= hi.
Proof.
  induction depth as [|depth IH]; intros tables off lo hi c rest g f Hp E He; [discriminate|].
  assert (Hcb : c < 256) by (pose proof (ending_bytes _ _ _ _ _ He) as Hb; inversion Hb; assumption).
  remember (c :: rest) as s eqn:Es. destruct He as [off items it T Hin Hbit|off items it s g f T Hin Hnx He].
  - destruct (Hp off items (begins_self _ _) T) as [Hl _]. destruct (flex_minmax_table depth tables off items T Hl) as (r & Em). rewrite Em in E.
    eapply (mm_item depth tables r it items); [apply T| | |exact Hin|exact Hcb| |exact E]; [lia|lia|]. rewrite Es. reflexivity.
  - destruct (Hp off items (begins_self _ _) T) as [Hl Hopt]. destruct (flex_minmax_table depth tables off items T Hl) as (r & Em). rewrite Em in E.
    eapply (mm_item depth tables r it items); [apply T| | |exact Hin|exact Hcb| |exact E]; [lia|lia|].
    destruct (fi_text it) as [|x t] eqn:Et; [|cbn in Es; congruence]. cbn [app] in Es. subst s. split.
    + destruct (N.testbit (fi_flags it) 7) eqn:Eb; [reflexivity|]. destruct (Hnx (Hopt it Hin Et Eb)).
    + intros cl cu Ec. eapply IH; [|exact Ec|exact He]. intros o i Hlk. apply Hp. eapply begins_next; eassumption.
Qed.

(** ** Alternations *)
Lemma low_half a b : b < 16 -> N.land (a * 16 + b) 15 = b.
Proof. intros H. change 15 with (N.ones 4). rewrite N.land_ones. change (2 ^ 4) with 16. lia. Qed.

Lemma alt_loop_cons ma mx rest lo hi : fst ma < 16 -> (length (snd ma) < 16)%nat ->
  alt_minmax_loop (length (ma :: mx)) (flat_map (fun ma => fst ma * 16 + N.of_nat (length (snd ma)) :: snd ma) (ma :: mx) ++ rest) lo hi =
  match snd ma with
  | c :: _ => alt_minmax_loop (length mx) (flat_map (fun ma => fst ma * 16 + N.of_nat (length (snd ma)) :: snd ma) mx ++ rest) (Z.min lo (Z.of_N c)) (Z.max hi (Z.of_N c))
  | [] => alt_minmax_loop (length mx) (flat_map (fun ma => fst ma * 16 + N.of_nat (length (snd ma)) :: snd ma) mx ++ rest) 0%Z 0%Z
  end.
Proof.
  destruct ma as [a s]. cbn [fst snd length]. intros Ha Hs. cbn [flat_map fst snd]. rewrite <- app_assoc. cbn [app alt_minmax_loop rd bind].
  rewrite low_half by lia. destruct s as [|c s].
  - cbn [length app]. change (0 <? N.of_nat 0) with false. cbn [bind].
    change (flat_map (fun ma : N * list N => fst ma * 16 + N.of_nat (length (snd ma)) :: snd ma) mx ++ rest) with
      ([] ++ (flat_map (fun ma : N * list N => fst ma * 16 + N.of_nat (length (snd ma)) :: snd ma) mx ++ rest)) at 1.
    rewrite advance_app by reflexivity. reflexivity.
  - destruct (N.ltb_spec 0 (N.of_nat (length (c :: s)))) as [H|H]; [|cbn [length] in H; lia]. cbn [app rd bind]. rewrite app_comm_cons.
    rewrite advance_app by reflexivity. reflexivity.
Qed.

Lemma alt_loop_bounds rest : forall mx lo hi l h, Forall (fun ma => fst ma < 16 /\ (length (snd ma) < 16)%nat) mx -> letters_alternate mx -> (0 < lo <= 255)%Z -> (-1 <= hi <= 255)%Z ->
  alt_minmax_loop (length mx) (flat_map (fun ma => fst ma * 16 + N.of_nat (length (snd ma)) :: snd ma) mx ++ rest) lo hi = Ok (l, h) ->
  (0 < l <= lo)%Z /\ (hi <= h <= 255)%Z /\ forall mask c r, In (mask, c :: r) mx -> (l <= Z.of_N c <= h)%Z.
Proof.
  induction mx as [|[a s] mx IH]; intros lo hi l h Hf Hla Hlo Hhi E.
  - cbn in E. injection E as <- <-. split; [lia|]. split; [lia|]. intros mask c r [].
  - inversion Hf as [|? ? [F1 F2] Hf']; subst. inversion Hla as [|? ? (x & t & Hs & Hx) Hla']; subst. cbn [snd] in Hs. subst s.
    rewrite alt_loop_cons in E by assumption. cbn [snd] in E. destruct (IH (Z.min lo (Z.of_N x)) (Z.max hi (Z.of_N x)) l h Hf' Hla' ltac:(lia) ltac:(lia) E) as (B1 & B2 & B3).
    split; [lia|]. split; [lia|]. intros mask c r [[= <- <- <-]|Hin]; [lia|eapply B3; exact Hin].
Qed.

Lemma alt_bounds mtable off mx lo0 hi0 lo hi : mix_at mtable off mx -> letters_alternate mx -> alt_minmax mtable off lo0 hi0 = Ok (lo, hi) ->
  forall mask c r, In (mask, c :: r) mx -> lo <= c <= hi.
Proof.
  intros ((Hn & Hf & _) & pre & rest & E & Ep) Hla. unfold alt_minmax. rewrite (advance_pre mtable pre (mix_ser mx ++ rest) off E Ep). cbn [bind].
  unfold mix_ser. cbn [app rd bind]. intros H. apply bind_ok_inv in H as ([l h] & El & H). rewrite Nnat.Nat2N.id in El.
  destruct (alt_loop_bounds rest mx 255%Z (-1)%Z l h Hf Hla ltac:(lia) ltac:(lia) El) as (B1 & B2 & B3). intros mask c r Hin. specialize (B3 _ _ _ Hin).
  assert (Hc : 0 < c). { unfold letters_alternate in Hla. rewrite Forall_forall in Hla. destruct (Hla _ Hin) as (x & t & K & Hx). cbn [snd] in K. injection K as -> ->. lia. }
  destruct (Z.eqb_spec l 0) as [Hz|Hz]; [lia|]. destruct (Z.leb_spec h 0) as [Hz'|Hz']; [lia|]. injection H as <- <-. rewrite !Z.mod_small by lia. lia.
Qed.

(** An empty ending makes the lower bound 0. *)
Lemma mm_zero depth tables rest items : forall hi l h, Forall item_ok items -> mm_items depth tables (length items) (flat_map item_ser items ++ rest) 0%Z hi = Ok (l, h) -> l = 0.
Proof.
  induction items as [|it items IH]; intros hi l h Hok E.
  - cbn in E. injection E as <- _. reflexivity.
  - inversion Hok as [|? ? Hit Hits]; subst. rewrite mm_items_cons in E by exact Hit. destruct (fi_text it) as [|x t] eqn:Et.
    + destruct (negb (bit 7 (fi_flags it))); [exact (IH _ _ _ Hits E)|]. apply bind_ok_inv in E as ([cl cu] & Em & E). replace (Z.min 0 (Z.of_N cl)) with 0%Z in E by lia. exact (IH _ _ _ Hits E).
    + replace (Z.min (Z.of_N x) 0) with 0%Z in E by lia. exact (IH _ _ _ Hits E).
Qed.
Lemma mm_item_zero depth tables rest it items : forall lo hi l h, Forall item_ok items -> (0 <= lo)%Z -> In it items -> fi_text it = [] ->
  (N.testbit (fi_flags it) 7 = true -> forall cl cu, flex_minmax depth tables (fi_next it) = Ok (cl, cu) -> cl = 0) ->
  mm_items depth tables (length items) (flat_map item_ser items ++ rest) lo hi = Ok (l, h) -> l = 0.
Proof.
  induction items as [|it' items IH]; intros lo hi l h Hok Hlo Hin Ht Hc E; [destruct Hin|]. inversion Hok as [|? ? Hit Hits]; subst. rewrite mm_items_cons in E by exact Hit. destruct Hin as [->|Hin].
  - rewrite Ht in E. unfold bit in E. destruct (N.testbit (fi_flags it) 7); cbn [negb] in E; [|exact (mm_zero _ _ _ _ _ _ _ Hits E)].
    apply bind_ok_inv in E as ([cl cu] & Em & E). rewrite (Hc eq_refl _ _ Em) in E. replace (Z.min lo (Z.of_N 0)) with 0%Z in E by lia. exact (mm_zero _ _ _ _ _ _ _ Hits E).
  - destruct (fi_text it') as [|x t] eqn:Et.
    + destruct (negb (bit 7 (fi_flags it'))); [eapply IH; [exact Hits| |exact Hin|exact Ht|exact Hc|exact E]; lia|]. apply bind_ok_inv in E as ([cl cu] & Em & E). eapply IH; [exact Hits| |exact Hin|exact Ht|exact Hc|exact E]. lia.
    + eapply IH; [exact Hits| |exact Hin|exact Ht|exact Hc|exact E]. lia.
Qed.
Lemma flex_empty depth : forall tables off lo hi g f, plain_links tables off -> flex_minmax depth tables off = Ok (lo, hi) -> ending tables off [] g f -> lo = 0.
Proof.
  induction depth as [|depth IH]; intros tables off lo hi g f Hp E He; [discriminate|]. remember ([] : bytes) as s eqn:Es. destruct He as [off items it T Hin Hbit|off items it s g f T Hin Hnx He].
  - destruct (Hp off items (begins_self _ _) T) as [Hl _]. destruct (flex_minmax_table depth tables off items T Hl) as (r & Em). rewrite Em in E. eapply (mm_item_zero depth tables r it items); [apply T| |exact Hin|exact Es| |exact E]; [lia|]. congruence.
  - destruct (Hp off items (begins_self _ _) T) as [Hl _]. destruct (flex_minmax_table depth tables off items T Hl) as (r & Em). rewrite Em in E. apply app_eq_nil in Es. destruct Es as [Et ->].
    eapply (mm_item_zero depth tables r it items); [apply T| |exact Hin|exact Et| |exact E]; [lia|]. intros Hb cl cu Ec. eapply IH; [|exact Ec|rewrite Et; exact He]. intros o i Hlk. apply Hp. eapply begins_next; eassumption.
Qed.

(** An empty string makes the lower bound that of the endings. *)
Lemma alt_loop_letters rest : forall mx lo hi l h, Forall (fun ma => fst ma < 16 /\ (length (snd ma) < 16)%nat) mx -> Forall (fun ma => snd ma <> []) mx -> (forall mask c r, In (mask, c :: r) mx -> 0 < c < 256) -> (-1 <= hi <= 255)%Z ->
  alt_minmax_loop (length mx) (flat_map (fun ma => fst ma * 16 + N.of_nat (length (snd ma)) :: snd ma) mx ++ rest) lo hi = Ok (l, h) ->
  (0 <= lo -> l <= lo)%Z /\ (lo = 0 -> l = 0)%Z /\ (hi <= h <= 255)%Z /\ forall mask c r, In (mask, c :: r) mx -> (Z.of_N c <= h)%Z.
Proof.
  induction mx as [|[a s] mx IH]; intros lo hi l h Hf Hne Hla Hhi E.
  - cbn in E. injection E as <- <-. split; [lia|]. split; [lia|]. split; [lia|]. intros mask c r [].
  - inversion Hf as [|? ? [F1 F2] Hf']; subst. inversion Hne as [|? ? Hs Hne']; subst. cbn [snd] in Hs. destruct s as [|x t]; [congruence|].
    rewrite alt_loop_cons in E by assumption. cbn [snd] in E. pose proof (Hla a x t (or_introl eq_refl)) as Hx.
    assert (Hla' : forall mask c r, In (mask, c :: r) mx -> 0 < c < 256) by (intros mask c r Hin; apply (Hla mask c r); right; exact Hin).
    destruct (IH (Z.min lo (Z.of_N x)) (Z.max hi (Z.of_N x)) l h Hf' Hne' Hla' ltac:(lia) E) as (B1 & B2 & B3 & B4).
    split; [lia|]. split; [intros ->; apply B2; lia|]. split; [lia|]. intros mask c r [[= <- <- <-]|Hin]; [lia|eapply B4; exact Hin].
Qed.
Lemma alt_loop_empty rest : forall mx lo hi l h, Forall (fun ma => fst ma < 16 /\ (length (snd ma) < 16)%nat) mx -> ascending (map snd mx) -> (exists mask, In (mask, []) mx) -> (forall mask c r, In (mask, c :: r) mx -> 0 < c < 256) ->
  alt_minmax_loop (length mx) (flat_map (fun ma => fst ma * 16 + N.of_nat (length (snd ma)) :: snd ma) mx ++ rest) lo hi = Ok (l, h) ->
  l = 0%Z /\ (0 <= h <= 255)%Z /\ forall mask c r, In (mask, c :: r) mx -> (Z.of_N c <= h)%Z.
Proof.
  induction mx as [|[a s] mx IH]; intros lo hi l h Hf Ha [m0 Hm] Hla E; [destruct Hm|]. inversion Hf as [|? ? [F1 F2] Hf']; subst. cbn [map ascending snd] in Ha. destruct Ha as [Ha1 Ha2].
  assert (Hla' : forall mask c r, In (mask, c :: r) mx -> 0 < c < 256) by (intros mask c r Hin; apply (Hla mask c r); right; exact Hin).
  rewrite alt_loop_cons in E by assumption. cbn [snd] in E. destruct s as [|x t].
  - destruct (in_dec (list_eq_dec N.eq_dec) [] (map snd mx)) as [K|K].
    + apply in_map_iff in K. destruct K as ([m s] & Es & K). cbn [snd] in Es. subst s. destruct (IH _ _ _ _ Hf' Ha2 (ex_intro _ m K) Hla' E) as (B1 & B2 & B3). split; [exact B1|]. split; [exact B2|]. intros mask c r [[=]|Hin]. eapply B3; exact Hin.
    + assert (Hne : Forall (fun ma => snd ma <> []) mx) by (apply Forall_forall; intros ma Hma C; apply K; apply in_map_iff; exists ma; auto). destruct (alt_loop_letters rest mx 0%Z 0%Z l h Hf' Hne Hla' ltac:(lia) E) as (_ & B2 & B3 & B4).
      split; [apply B2; reflexivity|]. split; [lia|]. intros mask c r [[=]|Hin]. eapply B4; exact Hin.
  - exfalso. destruct Hm as [[=]|Hm]. rewrite Forall_forall in Ha1. destruct (Ha1 [] ltac:(apply in_map_iff; exists (m0, []); auto)) as [K|K]; [inversion K|discriminate].
Qed.
Lemma alt_bounds_empty mtable off mx lo0 hi0 lo hi : mix_at mtable off mx -> (exists mask, In (mask, []) mx) -> (forall mask c r, In (mask, c :: r) mx -> 0 < c < 256) -> alt_minmax mtable off lo0 hi0 = Ok (lo, hi) ->
  lo = lo0 /\ forall mask c r, In (mask, c :: r) mx -> c <= hi.
Proof.
  intros ((Hn & Hf & Ha) & pre & rest & E & Ep) Hm Hla. unfold alt_minmax. rewrite (advance_pre mtable pre (mix_ser mx ++ rest) off E Ep). cbn [bind].
  unfold mix_ser. cbn [app rd bind]. intros H. apply bind_ok_inv in H as ([l h] & El & H). rewrite Nnat.Nat2N.id in El.
  destruct (alt_loop_empty rest mx 255%Z (-1)%Z l h Hf Ha Hm Hla El) as (B1 & B2 & B3). subst l. cbn [Z.eqb] in H. injection H as <- <-. split; [reflexivity|].
  intros mask c r Hin. pose proof (B3 _ _ _ Hin) as K. pose proof (Hla _ _ _ Hin) as Hc. destruct (Z.leb_spec h 0) as [Hz|Hz]; [lia|]. rewrite Z.mod_small by lia. lia.
Qed.

Lemma bounds_sound depth ftable mtable x : letter_bounds depth ftable mtable (l_class x) = Ok (l_min x, l_max x) ->
  (inflected (l_class x) = true -> plain_links ftable (m_tfoffs (l_class x))) ->
  (forall mx, inflected (l_class x) = true -> m_mtoffs (l_class x) <> 0 -> mix_at mtable (m_mtoffs (l_class x)) mx -> mixed_letters ftable (m_tfoffs (l_class x)) mx) ->
  bounds_cover ftable mtable x.
Proof.
  intros E Hp Ha c rest g f H. unfold letter_bounds in E. rewrite <- mod64 in E.
  assert (Ei : (m_tfoffs (l_class x) =? 0) || (m_wdinfo (l_class x) mod 64 =? 51) = negb (inflected (l_class x))) by (unfold inflected; rewrite negb_andb, !negb_involutive; reflexivity).
  rewrite Ei in E. remember (c :: rest) as s eqn:Es. destruct H as [Hn|s g f Hi Hz He Hn|mx mask alt s g f Hi Hz Hm Hin Hb He Hn]; [discriminate|..]; rewrite Hi in E; cbn [negb] in E;
    apply bind_ok_inv in E as ([lo hi] & Em & E); specialize (Hp Hi).
  - rewrite Hz in E. cbn [N.eqb] in E. injection E as <- <-. subst s. eapply flex_bounds; eassumption.
  - destruct (N.eqb_spec (m_mtoffs (l_class x)) 0) as [|_]; [contradiction|]. destruct (in_dec (list_eq_dec N.eq_dec) [] (map snd mx)) as [Ke|Ke].
    + apply in_map_iff in Ke. destruct Ke as ([m0 s0] & Es0 & Hm0). cbn [snd] in Es0. subst s0. destruct (Ha mx Hi Hz Hm) as [Hla|[Hl1 Hl2]].
      { exfalso. unfold letters_alternate in Hla. rewrite Forall_forall in Hla. destruct (Hla _ Hm0) as (? & ? & K & _). discriminate. }
      destruct (alt_bounds_empty _ _ _ _ _ _ _ Hm (ex_intro _ m0 Hm0) (fun m c r Hin => proj1 (Hl1 m c r Hin)) E) as [-> Hup]. destruct alt as [|y t].
      * cbn [app] in Es. subst s. pose proof (flex_bounds _ _ _ _ _ _ _ _ _ Hp Em He) as K. destruct (Hl2 _ _ _ _ He) as (m1 & c1 & r1 & Hin1 & Hc1). pose proof (Hup _ _ _ Hin1). lia.
      * cbn [app] in Es. injection Es as -> _. split; [|eapply Hup, Hin]. destruct (Hl1 _ _ _ Hin) as (_ & s' & g' & f' & He' & Hc'). destruct s' as [|c' s']; [rewrite (flex_empty _ _ _ _ _ _ _ Hp Em He'); lia|].
        pose proof (flex_bounds _ _ _ _ _ _ _ _ _ Hp Em He'). lia.
    + assert (Hla : letters_alternate mx). { destruct (Ha mx Hi Hz Hm) as [Hla|[Hl1 _]]; [exact Hla|]. unfold letters_alternate. apply Forall_forall. intros [m s'] Hms. cbn [snd]. destruct s' as [|y t]; [exfalso; apply Ke, in_map_iff; exists (m, []); auto|]. exists y, t. split; [reflexivity|]. apply (Hl1 m y t Hms). }
      pose proof Hla as Hla'. unfold letters_alternate in Hla'. rewrite Forall_forall in Hla'. destruct (Hla' _ Hin) as (y & t & K & Hy). cbn [snd] in K. subst alt. cbn [app] in Es. injection Es as -> _.
      eapply alt_bounds; [exact Hm|exact Hla|exact E|exact Hin].
Qed.
