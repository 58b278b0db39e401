(** * TfcProofs2: the bytes of the tables mean what the definitions say. *)
From Coq Require Import String.
From Verif Require Import Base Serial WordTree TreeSpec Stems StemSpec SerialProofs DictProofs GramMap RusRuntime LevelSpec RusSpec Compile CompileSpec CompileProofs Api EngCompileSpec Utf8 RusText Tfc TfcSpec TfcProofs.
Local Open Scope N_scope.
Local Open Scope list_scope.
Notation length := List.length.

(** ** Indexes of names *)
Lemma lookup_in {X} k (l : list (bytes * X)) v : lookup k l = Some v -> In (k, v) l.
Proof. induction l as [|[k' v'] l IH]; cbn [lookup]; [discriminate|]. destruct (list_eq_dec N.eq_dec k k') as [->|]; [intros H; injection H as ->; left; reflexivity|right; auto]. Qed.
Definition map_inv (fl : fxlist) : Prop := Forall (fun p => (snd p < length (fl_tables fl))%nat) (fl_map fl).
Lemma emplace_forall {X} (P : bytes * X -> Prop) k v m : P (k, v) -> Forall P m -> Forall P (emplace k v m).
Proof. intros H Hm. unfold emplace. destruct (lookup k m); [exact Hm|]. apply Forall_app. split; [exact Hm|]. constructor; [exact H|constructor]. Qed.
Lemma emplaces_forall {X} (P : bytes * X -> Prop) v names : forall m, (forall k, P (k, v)) -> Forall P m -> Forall P (fold_left (fun m name => emplace name v m) names m).
Proof. induction names as [|n names IH]; intros m H Hm; [exact Hm|]. cbn [fold_left]. apply IH; [exact H|]. apply emplace_forall; auto. Qed.
Lemma add_def_map names t fl : map_inv fl -> map_inv (add_def names t fl).
Proof.
  intros H. unfold add_def, map_inv. destruct (find_ftable t (fl_tables fl)) as [i|] eqn:E; cbn [fl_tables fl_map].
  - apply emplaces_forall; [|exact H]. intros k. cbn [snd]. apply find_ftable_some in E. apply nth_error_Some. congruence.
  - apply emplaces_forall; [intros k; cbn [snd]; rewrite app_length; cbn; lia|]. revert H. apply Forall_impl. intros p. rewrite app_length. lia.
Qed.
Lemma collect_map ds : forall fl, map_inv fl -> map_inv (collect ds fl).
Proof. induction ds as [|d ds IH]; intros fl H; [exact H|]. cbn [collect fold_left]. apply IH, add_def_map, H. Qed.

Lemma index_spec offs m ix : index_of_names offs m = Some ix -> forall k, lookup k ix = match lookup k m with None => None | Some i => nth_error offs i end.
Proof.
  revert ix. induction m as [|[k' i] m IH]; intros ix; cbn [index_of_names lookup]; [intros H; injection H as <-; reflexivity|].
  destruct (nth_error offs i) as [o|] eqn:E; [|discriminate]. destruct (index_of_names offs m) as [r|]; [|discriminate]. intros H. injection H as <-. intros k. cbn [lookup].
  destruct (list_eq_dec N.eq_dec k k'); [symmetry; exact E|]. apply IH. reflexivity.
Qed.
Lemma index_some offs m : Forall (fun p => (snd p < length offs)%nat) m -> exists ix, index_of_names offs m = Some ix.
Proof.
  induction m as [|[k i] m IH]; intros H; cbn [index_of_names]; [eauto|]. inversion H as [|? ? H1 H2]. subst. cbn [snd] in H1.
  destruct (nth_error offs i) eqn:E; [|apply nth_error_None in E; lia]. destruct (IH H2) as [r ->]. eauto.
Qed.

(** ** What is stored *)
Lemma combine_in {X Y} (R : X -> Y -> Prop) l l' : Forall2 R l l' -> (forall x, In x l -> exists y, In (x, y) (combine l l') /\ R x y) /\ (forall p, In p (combine l l') -> In (fst p) l /\ R (fst p) (snd p)).
Proof.
  induction 1 as [|x y l l' H Hl [I1 I2]]; cbn [combine]; [split; [intros x []|intros p []]|]. split.
  - intros z [<-|Hz]; [exists y; split; [left; reflexivity|exact H]|]. destruct (I1 z Hz) as (w & H1 & H2). exists w. split; [right; exact H1|exact H2].
  - intros p [<-|Hp]; [split; [left; reflexivity|exact H]|]. destruct (I2 p Hp). split; [right; assumption|assumption].
Qed.
Lemma combine_len {X Y} (R : X -> Y -> Prop) l l' : Forall2 R l l' -> length (combine l l') = length l.
Proof. induction 1; cbn; congruence. Qed.

Lemma stored_table fl offsets t bt b pre rest off : ftable_ser fl offsets t = Some bt -> b = pre ++ bt ++ rest -> N.of_nat (length pre) = 2 * off ->
  Forall fx_fits t -> (length t < 256)%nat -> Forall (fun o => o < 2 ^ 16) offsets ->
  exists items, table_at b off items /\ Forall2 (fun fx fi => resolve_next fl offsets fx = Some (fi_next fi) /\ fi = resolved fx (fi_next fi)) t items.
Proof.
  intros E -> Hp Hf Hl Ho. unfold ftable_ser in E. destruct (fx_sers fl offsets t) as [bs|] eqn:Es; [|discriminate]. apply some_inj in E. subst bt.
  destruct (fx_sers_spec _ _ _ _ Es) as (os & H2 & Eb). destruct (combine_in _ _ _ H2) as [C1 C2]. exists (map (fun p => resolved (fst p) (snd p)) (combine t os)).
  assert (Hfits : forall p, In p (combine t os) -> fx_fits (fst p)). { intros p Hin. rewrite Forall_forall in Hf. apply Hf, (C2 p Hin). }
  assert (Hoff : forall fx o, resolve_next fl offsets fx = Some o -> o < 2 ^ 16 /\ (N.land (fx_flags fx) 0xc0 = 0 -> o = 0)).
  { intros fx o. unfold resolve_next. destruct (N.eqb_spec (N.land (fx_flags fx) 0xc0) 0) as [Ez|Ez].
    - intros H. injection H as <-. split; [reflexivity|reflexivity].
    - destruct (lookup (fx_next fx) (fl_map fl)) as [i|]; [|discriminate]. intros H. split; [|intros K; congruence]. rewrite Forall_forall in Ho. apply Ho. eapply nth_error_In, H. }
  split; [split; [|split]|].
  - apply Forall_forall. intros fi Hin. apply in_map_iff in Hin. destruct Hin as (p & <- & Hin). destruct (C2 p Hin) as [_ Hr]. destruct (Hoff _ _ Hr) as [Ho1 Ho2].
    destruct (Hfits p Hin) as (F1 & F2 & F3 & F4). unfold item_ok, resolved. cbn [fi_flags fi_info fi_text fi_next].
    repeat match goal with |- _ /\ _ => split end; try assumption. lia.
  - rewrite map_length, (combine_len _ _ _ H2). exact Hl.
  - exists pre, ((if N.odd (1 + fold_right (fun fx n => fx_len fx + n) 0 t) then [0] else []) ++ rest). split; [|exact Hp]. f_equal. rewrite map_length, (combine_len _ _ _ H2).
    rewrite N.mod_small by lia. cbn [app]. f_equal. rewrite <- app_assoc. f_equal. rewrite Eb. clear - Hfits. induction (combine t os) as [|p l IH]; [reflexivity|]. cbn [map concat flat_map].
    rewrite fx_ser_item by (apply Hfits; left; reflexivity). f_equal. apply IH. intros q Hq. apply Hfits. right. exact Hq.
  - clear - H2. induction H2 as [|fx o t os H H2 IH]; cbn [combine map]; constructor; [split; [exact H|reflexivity]|exact IH].
Qed.

Lemma even_up_ge n : n <= even_up n.
Proof. unfold even_up. destruct (N.odd n); lia. Qed.
Lemma even_up_le n : even_up n <= n + 1.
Proof. unfold even_up. destruct (N.odd n); lia. Qed.
Lemma relocate_offsets l : forall dw offs, relocate dw l = Some offs -> Forall (fun o => N.shiftr dw 1 <= o < 2 ^ 16) offs.
Proof.
  induction l as [|t l IH]; intros dw offs; cbn [relocate]; [intros H; injection H as <-; constructor|].
  destruct (N.leb_spec 0x1ffff dw) as [|Hlt]; [discriminate|]. destruct (N.odd dw) eqn:Hodd; [discriminate|]. cbn [orb].
  set (dw' := even_up (dw + 1 + fold_right (fun fx n => fx_len fx + n) 0 t)). destruct (relocate dw' l) as [offs'|] eqn:E; [|discriminate]. cbn [option_map]. intros H. injection H as <-.
  rewrite !N.shiftr_div_pow2. change (2 ^ 1) with 2. constructor; [change (2 ^ 16) with 65536; lia|].
  specialize (IH _ _ E). revert IH. apply Forall_impl. intros o. rewrite N.shiftr_div_pow2. change (2 ^ 1) with 2. intros H. assert (Hle : dw <= dw') by (pose proof (even_up_ge (dw + 1 + fold_right (fun fx n => fx_len fx + n) 0 t)); unfold dw'; lia). pose proof (N.div_le_mono dw dw' 2 ltac:(discriminate) Hle). lia.
Qed.
Lemma fx_sers_bytes fl offsets t b : Forall fx_fits t -> fx_sers fl offsets t = Some b -> is_bytes b.
Proof.
  revert b. induction t as [|fx t IH]; intros b Hf; cbn [fx_sers]; [intros H; injection H as <-; constructor|]. inversion Hf as [|? ? H1 H2]. subst.
  destruct (resolve_next fl offsets fx) as [o|] eqn:E; [|discriminate]. destruct (fx_sers fl offsets t) as [b'|]; [|discriminate]. intros H. apply some_inj in H. subst.
  apply is_bytes_app. split; [|apply IH; auto]. destruct H1 as (K1 & K2 & K3 & K4). unfold fx_ser. constructor; [exact K4|].
  repeat (apply is_bytes_app; split); try apply putword16_bytes; try apply putserial_bytes; [exact K1|]. destruct (N.land (fx_flags fx) 0xc0 =? 0); [constructor|apply putword16_bytes].
Qed.
Lemma ftables_bytes fl offsets l b : Forall (Forall fx_fits) l -> ftables_ser fl offsets l = Some b -> is_bytes b.
Proof.
  revert b. induction l as [|t l IH]; intros b Hf; cbn [ftables_ser]; [intros H; injection H as <-; constructor|]. inversion Hf as [|? ? H1 H2]. subst.
  destruct (ftable_ser fl offsets t) as [bt|] eqn:E; [|discriminate]. destruct (ftables_ser fl offsets l) as [b'|]; [|discriminate]. intros H. apply some_inj in H. subst.
  apply is_bytes_app. split; [|apply IH; auto]. unfold ftable_ser in E. destruct (fx_sers fl offsets t) as [bs|] eqn:Es; [|discriminate]. apply some_inj in E. subst bt.
  constructor; [apply N.mod_lt; discriminate|]. apply is_bytes_app. split; [eapply fx_sers_bytes; eassumption|]. destruct (N.odd _); repeat constructor.
Qed.

Definition bounded (d : definition) : Prop := Forall (fun it => fx_info it < 2 ^ 16 /\ fx_flags it < 256) (d_lines d).
Lemma norm_fits d : fits_format d -> bounded d -> Forall fx_fits (norm (d_lines d)) /\ (length (norm (d_lines d)) < 256)%nat.
Proof.
  intros [H1 H2] H3. split.
  - unfold bounded in H3. rewrite Forall_forall in H1, H3. apply Forall_forall. intros x Hx. apply (proj1 (norm_in _ _)) in Hx. destruct (H1 x Hx), (H3 x Hx). unfold fx_fits. auto.
  - apply H2; [apply sorted_nodup, norm_sorted|]. intros x. apply (proj1 (norm_in _ _)).
Qed.

Lemma strcmp_lex_lt a : forall b, strcmp a b = Lt -> lex_lt a b.
Proof.
  induction a as [|x a IH]; intros [|y b]; cbn; try discriminate; [constructor|].
  destruct (N.ltb_spec x y); [intros _; constructor; assumption|]. destruct (N.ltb_spec y x); [discriminate|]. assert (x = y) by lia. subst y. intros E. apply lex_tail, IH, E.
Qed.
Lemma comp_before a b : fx_comp a b = Lt -> element_before a b.
Proof.
  unfold fx_comp, element_before. destruct (strcmp (fx_tail a) (fx_tail b)) eqn:E; try discriminate; [|intros _; left; apply strcmp_lex_lt, E]. apply strcmp_eq in E. rewrite E. intros H. right. split; [reflexivity|].
  destruct (N.compare_spec (fx_info a) (fx_info b)) as [Ei|Ei|]; try discriminate; [|left; exact Ei]. right. split; [exact Ei|]. destruct (N.compare_spec (fx_flags a) (fx_flags b)) as [Ef|Ef|]; try discriminate; [|left; exact Ef].
  right. split; [exact Ef|]. apply strcmp_lex_lt, H.
Qed.
Lemma sorted_in_order l : fx_sorted l -> in_order l.
Proof. induction l as [|x l IH]; cbn [fx_sorted in_order]; [auto|]. intros [H1 H2]. split; [revert H1; apply Forall_impl; intros y; apply comp_before|auto]. Qed.
Lemma norm_ordered lines : ordered lines (norm lines).
Proof. split; [apply sorted_in_order, norm_sorted|intros it; apply norm_in]. Qed.
Lemma compiled_sets b ix off lines : compiled_as b ix off lines -> exists items, table_at b off items /\
    (forall fi, In fi items -> exists it, In it lines /\ same_element ix it fi) /\ (forall it, In it lines -> exists fi, In fi items /\ same_element ix it fi).
Proof.
  intros (l & items & [_ Hl] & T & H). exists items. split; [exact T|]. split.
  - intros fi Hin. assert (K : exists it, In it l /\ same_element ix it fi). { clear - H Hin. induction H as [|x y l items H Hs IH]; [destruct Hin|]. destruct Hin as [<-|Hin]; [exists x; split; [left; reflexivity|exact H]|]. destruct (IH Hin) as (it & K1 & K2). exists it. split; [right; exact K1|exact K2]. }
    destruct K as (it & K1 & K2). exists it. split; [apply Hl, K1|exact K2].
  - intros it Hin. apply Hl in Hin. clear - H Hin. induction H as [|x y l items H Hs IH]; [destruct Hin|]. destruct Hin as [<-|Hin]; [exists y; split; [left; reflexivity|exact H]|]. destruct (IH Hin) as (fi & K1 & K2). exists fi. split; [right; exact K1|exact K2].
Qed.
Lemma store_meaning ds fl b ix : fl_inv ds fl -> Forall fits_format ds -> Forall bounded ds -> store fl = Some (b, ix) ->
  is_bytes b /\
  (forall name, lookup name ix = None <-> ~ exists lines, defined ds name lines) /\
  (forall name off, lookup name ix = Some off -> 0 < off < 2 ^ 16 /\ exists lines, defined ds name lines /\ compiled_as b ix off lines).
Proof.
  intros I Hfit Hbd. unfold store. destruct (relocate 6 (fl_tables fl)) as [offs|] eqn:Er; [|discriminate]. destruct (ftables_ser fl offs (fl_tables fl)) as [bs|] eqn:Es; [|discriminate].
  destruct (index_of_names offs (fl_map fl)) as [ix'|] eqn:Ei; [|discriminate]. intros E. injection E as <- <-.
  assert (Hfits : forall d, In d ds -> Forall fx_fits (norm (d_lines d)) /\ (length (norm (d_lines d)) < 256)%nat).
  { intros d Hd. rewrite Forall_forall in Hfit, Hbd. apply norm_fits; auto. }
  destruct (layout fl offs (fl_tables fl) 6 offs bs eq_refl Er Es) as [Hlen Hlay]. pose proof (index_spec _ _ _ Ei) as Hix. pose proof (relocate_offsets _ _ _ Er) as Hoffs.
  assert (Hdef : forall name lines lines', defined ds name lines -> defined ds name lines' -> lines = lines').
  { clear. intros name l l' (a & d & b & E & H1 & -> & H3) (a' & d' & b' & E' & H1' & -> & H3'). rewrite E in E'. clear E. revert a' E' H3'. induction a as [|x a IH]; intros [|y a'] E' H3'; cbn [app] in E'.
    - injection E' as <- _. reflexivity.
    - injection E' as <- _. inversion H3'. contradiction.
    - injection E' as -> _. inversion H3. contradiction.
    - injection E' as -> E'. inversion H3. inversion H3'. subst. eapply IH; eauto. }
  assert (Hnth : forall name i, lookup name (fl_map fl) = Some i -> exists off lines, nth_error offs i = Some off /\ defined ds name lines /\ nth_error (fl_tables fl) i = Some (norm lines)).
  { intros name i H. destruct (fi_some _ _ I _ _ H) as (lines & H1 & H2). destruct (Hlay _ _ H2) as (off & _ & _ & _ & H3 & _). exists off, lines. auto. }
  split; [|split].
  - change (is_bytes (text "inflex" ++ bs)). apply is_bytes_app. split; [repeat constructor|]. eapply ftables_bytes; [|exact Es]. apply Forall_forall. intros t Ht. apply (fi_tables _ _ I) in Ht. destruct Ht as (d & Hd & ->). apply Hfits, Hd.
  - intros name. rewrite Hix. destruct (lookup name (fl_map fl)) as [i|] eqn:E.
    + destruct (Hnth _ _ E) as (off & lines & -> & H2 & _). split; [discriminate|]. intros K. exfalso. apply K. exists lines. exact H2.
    + split; [|reflexivity]. intros _ (lines & a & d & c & Eq & H1 & _ & _). apply (fi_none _ _ I _ E d); [|exact H1]. rewrite Eq. apply in_elt.
  - intros name off. rewrite Hix. destruct (lookup name (fl_map fl)) as [i|] eqn:E; [|discriminate]. intros Ho. destruct (Hnth _ _ E) as (off' & lines & H1 & H2 & H3). rewrite Ho in H1. injection H1 as <-.
    rewrite Forall_forall in Hoffs. destruct (Hoffs off (nth_error_In _ _ Ho)) as [Hlo Hhi]. change (N.shiftr 6 1) with 3 in Hlo. split; [lia|].
    exists lines. split; [exact H2|]. destruct (Hlay _ _ H3) as (off' & pre & bt & rest & K1 & K2 & K3 & K4 & K5). rewrite Ho in K1. injection K1 as <-.
    destruct (fi_tables _ _ I (norm lines)) as [Hsrc _]. destruct (Hsrc (nth_error_In _ _ H3)) as (d & Hd & Ed). destruct (Hfits d Hd) as [F1 F2]. rewrite <- Ed in F1, F2.
    destruct (stored_table fl offs (norm lines) bt (text "inflex" ++ bs) (text "inflex" ++ pre) rest off K2) as (items & T & Hitems).
    + rewrite K3, <- app_assoc. reflexivity.
    + rewrite app_length, Nat2N.inj_add. change (N.of_nat (length (text "inflex"))) with 6. exact K4.
    + exact F1.
    + exact F2.
    + apply Forall_forall. intros o Hin. apply (Hoffs o Hin).
    + assert (Hsame : forall fx o, resolve_next fl offs fx = Some o -> same_element ix' fx (resolved fx o)).
      { intros fx o Hr. unfold same_element. cbn [fi_text fi_info fi_flags fi_next resolved]. repeat (split; [reflexivity|]).
        unfold resolve_next in Hr. destruct (N.eqb_spec (N.land (fx_flags fx) 0xc0) 0) as [Ez|Ez].
        - right. injection Hr as Hr. split; [unfold linked_to; lia|congruence].
        - left. split; [exact Ez|]. rewrite Hix. destruct (lookup (fx_next fx) (fl_map fl)); [exact Hr|discriminate]. }
      exists (norm lines), items. split; [apply norm_ordered|]. split; [exact T|]. clear - Hitems Hsame. induction Hitems as [|fx fi t items [H1 H2] H IH]; constructor; [rewrite H2; apply Hsame, H1|exact IH].
Qed.
Lemma defined_unique ds name l l' : defined ds name l -> defined ds name l' -> l = l'.
Proof.
  intros (a & d & b & E & H1 & -> & H3) (a' & d' & b' & E' & H1' & -> & H3'). rewrite E in E'. clear E. revert a' E' H3'. induction a as [|x a IH]; intros [|y a'] E' H3'; cbn [app] in E'.
  - injection E' as <- _. reflexivity.
  - injection E' as <- _. inversion H3'. contradiction.
  - injection E' as -> _. inversion H3. contradiction.
  - injection E' as -> E'. inversion H3. inversion H3'. subst. eapply IH; eauto.
Qed.

(** ** Endings *)
Lemma endings_told ds b ix : (forall name off, lookup name ix = Some off -> 0 < off < 2 ^ 16 /\ exists lines, defined ds name lines /\ compiled_as b ix off lines) ->
  forall name off s g f, lookup name ix = Some off -> (ending b off s g f <-> tells ds name s g f).
Proof.
  intros H name off s g f Hl. split.
  - intros He. revert name Hl. induction He as [off items fi T Hin Hbit|off items fi s g f T Hin Hnx He IH]; intros name Hl;
      destruct (H name off Hl) as (_ & lines & Hd & Hcomp); destruct (compiled_sets _ _ _ _ Hcomp) as (items' & T' & Hi & _); rewrite (table_unique _ _ _ _ T T') in Hin; apply Hi in Hin; destruct Hin as (it & Hin & E1 & E2 & E3 & E4).
    + rewrite E1, E2, E3. rewrite E3 in Hbit. eapply tells_here; eassumption.
    + rewrite E1, E2, E3. destruct E4 as [[Hlk E4]|[_ E4]]; [|contradiction]. eapply tells_further; [exact Hd|exact Hin|exact Hlk|]. apply IH, E4.
  - intros Ht. revert off Hl. induction Ht as [name lines it Hd Hin Hbit|name lines it s g f Hd Hin Hlk Ht IH]; intros off Hl;
      destruct (H name off Hl) as (_ & lines' & Hd' & Hcomp); destruct (compiled_sets _ _ _ _ Hcomp) as (items & T & _ & Hi); rewrite (defined_unique _ _ _ _ Hd Hd') in Hin; destruct (Hi it Hin) as (fi & Hfi & E1 & E2 & E3 & E4); rewrite <- E1, <- E2, <- E3.
    + rewrite <- E3 in Hbit. eapply ending_here; eassumption.
    + destruct E4 as [[_ E4]|[K _]]; [|contradiction]. eapply ending_further; [exact T|exact Hfi| |apply IH, E4]. destruct (H _ _ E4). lia.
Qed.

(** ** Success and failure *)
Lemma relocate_some l : forall dw, N.odd dw = false -> dw + tables_size l <= 0x20000 -> exists offs, relocate dw l = Some offs.
Proof.
  induction l as [|t l IH]; intros dw Hd Hs; cbn [relocate]; [eauto|]. cbn [tables_size fold_right] in Hs. fold (tables_size l) in Hs.
  assert (Hpos : 2 <= even_up (1 + fold_right (fun fx n => fx_len fx + n) 0 t)).
  { pose proof (even_up_even (1 + fold_right (fun fx n => fx_len fx + n) 0 t)) as He. pose proof (even_up_ge (1 + fold_right (fun fx n => fx_len fx + n) 0 t)).
    destruct (N.eq_dec (even_up (1 + fold_right (fun fx n => fx_len fx + n) 0 t)) 1) as [E|E]; [rewrite E in He; discriminate|lia]. }
  destruct (N.leb_spec 0x1ffff dw); [lia|]. rewrite Hd. cbn [orb].
  destruct (IH (even_up (dw + 1 + fold_right (fun fx n => fx_len fx + n) 0 t)) (even_up_even _)) as [offs ->]; [|cbn; eauto].
  rewrite <- N.add_assoc, even_up_add by exact Hd. lia.
Qed.
Definition linked_ok (fl : fxlist) (t : list fxitem) : Prop := forall fx, In fx t -> linked_to fx -> lookup (fx_next fx) (fl_map fl) <> None.
Lemma fx_sers_some fl offs t : map_inv fl -> length offs = length (fl_tables fl) -> linked_ok fl t -> exists b, fx_sers fl offs t = Some b.
Proof.
  intros Hm Hl. induction t as [|fx t IH]; intros H; cbn [fx_sers]; [eauto|].
  assert (Hr : exists o, resolve_next fl offs fx = Some o).
  { unfold resolve_next. destruct (N.eqb_spec (N.land (fx_flags fx) 0xc0) 0) as [E|E]; [eauto|]. specialize (H fx (or_introl eq_refl) E). destruct (lookup (fx_next fx) (fl_map fl)) as [i|] eqn:Ei; [|congruence].
    destruct (nth_error offs i) eqn:En; [eauto|]. apply nth_error_None in En. apply lookup_in in Ei. unfold map_inv in Hm. rewrite Forall_forall in Hm. specialize (Hm _ Ei). cbn in Hm. lia. }
  destruct Hr as [o ->]. destruct IH as [b ->]; [|eauto]. intros x Hx. apply H. right. exact Hx.
Qed.
Lemma ftables_some fl offs l : map_inv fl -> length offs = length (fl_tables fl) -> Forall (linked_ok fl) l -> exists b, ftables_ser fl offs l = Some b.
Proof.
  intros Hm Hl. induction 1 as [|t l H Hf IH]; cbn [ftables_ser]; [eauto|]. unfold ftable_ser. destruct (fx_sers_some fl offs t Hm Hl H) as [b ->]. destruct IH as [b' ->]. eauto.
Qed.
Lemma relocate_length l : forall dw offs, relocate dw l = Some offs -> length offs = length l.
Proof.
  induction l as [|t l IH]; intros dw offs; cbn [relocate]; [intros H; injection H as <-; reflexivity|]. destruct (_ || _); [discriminate|]. destruct (relocate _ l) as [o|] eqn:E; [|discriminate].
  cbn. intros H. injection H as <-. cbn. f_equal. eapply IH, E.
Qed.
Lemma store_some fl : map_inv fl -> 6 + tables_size (fl_tables fl) <= 0x20000 -> Forall (linked_ok fl) (fl_tables fl) -> exists b ix, store fl = Some (b, ix).
Proof.
  intros Hm Hs Hl. unfold store. destruct (relocate_some (fl_tables fl) 6 eq_refl Hs) as [offs Er]. rewrite Er. pose proof (relocate_length _ _ _ Er) as Hlen.
  destruct (ftables_some fl offs (fl_tables fl) Hm Hlen Hl) as [b ->]. destruct (index_some offs (fl_map fl)) as [ix ->]; [|eauto]. rewrite Hlen. exact Hm.
Qed.
Lemma store_linked fl b ix : store fl = Some (b, ix) -> Forall (linked_ok fl) (fl_tables fl).
Proof.
  unfold store. destruct (relocate 6 (fl_tables fl)) as [offs|]; [|discriminate]. destruct (ftables_ser fl offs (fl_tables fl)) as [bs|] eqn:Es; [|discriminate]. intros _. revert bs Es.
  induction (fl_tables fl) as [|t l IH]; intros bs; cbn [ftables_ser]; [constructor|]. destruct (ftable_ser fl offs t) as [bt|] eqn:Et; [|discriminate]. destruct (ftables_ser fl offs l) as [b'|]; [|discriminate]. intros _.
  constructor; [|apply (IH b' eq_refl)]. unfold ftable_ser in Et. destruct (fx_sers fl offs t) as [bf|] eqn:Ef; [|discriminate]. clear Et. revert bf Ef.
  induction t as [|fx t IHt]; intros bf; cbn [fx_sers]; [intros _ x []|]. destruct (resolve_next fl offs fx) as [o|] eqn:Er; [|discriminate]. destruct (fx_sers fl offs t) as [b''|]; [|discriminate]. intros _.
  intros x [<-|Hx] Hlk; [|apply (IHt b'' eq_refl x Hx Hlk)]. unfold resolve_next in Er. destruct (N.eqb_spec (N.land (fx_flags fx) 0xc0) 0); [contradiction|]. destruct (lookup (fx_next fx) (fl_map fl)); [discriminate|discriminate].
Qed.
Lemma linked_from ds fl : fl_inv ds fl -> (Forall (linked_ok fl) (fl_tables fl) <-> links_defined ds).
Proof.
  intros I. split.
  - intros H d it Hd Hin Hlk. rewrite Forall_forall in H. assert (Ht : In (norm (d_lines d)) (fl_tables fl)) by (apply (fi_tables _ _ I); eauto).
    specialize (H _ Ht it (proj2 (norm_in _ _) Hin) Hlk). destruct (lookup (fx_next it) (fl_map fl)) as [i|] eqn:E; [|congruence]. destruct (fi_some _ _ I _ _ E) as (lines & K & _). eauto.
  - intros H. apply Forall_forall. intros t Ht. apply (fi_tables _ _ I) in Ht. destruct Ht as (d & Hd & ->). intros fx Hin Hlk. apply (proj1 (norm_in _ _)) in Hin. destruct (H d fx Hd Hin Hlk) as (lines & a & d' & c & E & K1 & _).
    intros K. apply (fi_none _ _ I _ K d'); [|exact K1]. rewrite E. apply in_elt.
Qed.

(** Sizes. *)
Lemma insert_len x l : fold_right (fun fx n => fx_len fx + n) 0 (ftable_insert x l) <= fx_len x + fold_right (fun fx n => fx_len fx + n) 0 l.
Proof. induction l as [|y l IH]; cbn [ftable_insert fold_right]; [lia|]. destruct (fx_comp y x); cbn [fold_right]; lia. Qed.
Lemma norm_len l : fold_right (fun fx n => fx_len fx + n) 0 (norm l) <= fold_right (fun fx n => fx_len fx + n) 0 l.
Proof.
  unfold norm. assert (H : forall t, fold_right (fun fx n => fx_len fx + n) 0 (fold_left (fun t x => ftable_insert x t) l t) <= fold_right (fun fx n => fx_len fx + n) 0 t + fold_right (fun fx n => fx_len fx + n) 0 l).
  { induction l as [|x l IH]; intros t; cbn [fold_left fold_right]; [lia|]. pose proof (IH (ftable_insert x t)). pose proof (insert_len x t). lia. }
  specialize (H []). cbn [fold_right] in H. lia.
Qed.
Lemma sizes_eq d : fits_format d -> fold_right (fun fx n => fx_len fx + n) 0 (d_lines d) = fold_right (fun it n => element_size it + n) 0 (d_lines d).
Proof.
  intros [H _]. induction H as [|x l [H1 H2] Hl IH]; [reflexivity|]. cbn [fold_right]. rewrite IH. f_equal. unfold fx_len, element_size, seriallen. cbn [seriallen_loop].
  destruct (N.ltb_spec (N.of_nat (length (fx_tail x))) 128); [|lia]. destruct (N.land (fx_flags x) 0xc0 =? 0); lia.
Qed.
Lemma tables_size_snoc l t : tables_size (l ++ [t]) = tables_size l + even_up (1 + fold_right (fun fx n => fx_len fx + n) 0 t).
Proof. induction l as [|u l IH]; cbn [tables_size app fold_right]; [lia|]. fold (tables_size (l ++ [t])) (tables_size l). rewrite IH. lia. Qed.
Lemma collect_size ds : forall fl, Forall fits_format ds -> tables_size (fl_tables (collect ds fl)) <= tables_size (fl_tables fl) + fold_right (fun d n => table_size (d_lines d) + n) 0 ds.
Proof.
  induction ds as [|d ds IH]; intros fl H; cbn [collect fold_left fold_right]; [lia|]. inversion H as [|? ? H1 H2]. subst. fold (collect ds (add_def (d_names d) (norm (d_lines d)) fl)).
  specialize (IH (add_def (d_names d) (norm (d_lines d)) fl) H2).
  assert (K : tables_size (fl_tables (add_def (d_names d) (norm (d_lines d)) fl)) <= tables_size (fl_tables fl) + table_size (d_lines d)).
  { unfold add_def. destruct (find_ftable _ _); cbn [fl_tables]; [lia|]. rewrite tables_size_snoc. pose proof (norm_len (d_lines d)). rewrite (sizes_eq d H1) in *. unfold table_size. pose proof (even_up_le (1 + fold_right (fun fx n => fx_len fx + n) 0 (norm (d_lines d)))). lia. }
  lia.
Qed.
