(** * DictTextProofs: compiled tables and alternations against the meaning of their texts. *)
From Coq Require Import String.
From Verif Require Import Base Serial WordTree TreeSpec Stems StemSpec CharTables CapScheme CapSpec GramMap RusRuntime LevelSpec RusSpec RusProofs Compile CompileSpec CompileProofs CompileProofs2 CompileProofs5
  Resolve ResolveSpec ResolveProofs StripSpec StripProofs3 Api EngCompileSpec Utf8 RusText RusTextSpec Tfc TfcSpec TfcProofs2 Makeich MakeichSpec DictTextSpec.
Local Open Scope N_scope.
Local Open Scope list_scope.
Notation length := List.length.
Notation lookup := RusText.lookup.

(** ** Order *)
Lemma before_irrefl a : ~ element_before a a.
Proof.
  unfold element_before. intros [H|(_ & [H|(_ & [H|(_ & H)])])]; try (apply N.lt_irrefl in H; exact H); apply lex_lt_irrefl in H; exact H.
Qed.
Lemma before_trans a b c : element_before a b -> element_before b c -> element_before a c.
Proof.
  unfold element_before. intros H K.
  destruct H as [H|(Et & H)]; destruct K as [K|(Et' & K)]; [left; eapply lex_lt_trans; eassumption|left; rewrite <- Et'; exact H|left; rewrite Et; exact K|]. right. split; [congruence|].
  destruct H as [H|(Ei & H)]; destruct K as [K|(Ei' & K)]; [left; eapply N.lt_trans; eassumption|left; rewrite <- Ei'; exact H|left; rewrite Ei; exact K|]. right. split; [congruence|].
  destruct H as [H|(Ef & H)]; destruct K as [K|(Ef' & K)]; [left; eapply N.lt_trans; eassumption|left; rewrite <- Ef'; exact H|left; rewrite Ef; exact K|]. right. split; [congruence|].
  eapply lex_lt_trans; eassumption.
Qed.
Lemma in_order_nodup l : in_order l -> NoDup l.
Proof.
  induction l as [|a l IH]; cbn [in_order]; [constructor|]. intros [H1 H2]. constructor; [|apply IH, H2]. intros K. rewrite Forall_forall in H1. apply (before_irrefl a), H1, K.
Qed.
Lemma in_order_unique l : forall l', in_order l -> in_order l' -> (forall it, In it l <-> In it l') -> l = l'.
Proof.
  induction l as [|a l IH]; intros [|a' l'] H H' E.
  - reflexivity.
  - exfalso. apply (proj2 (E a')). left. reflexivity.
  - exfalso. apply (proj1 (E a)). left. reflexivity.
  - cbn [in_order] in H, H'. destruct H as [H1 H2], H' as [H1' H2']. rewrite Forall_forall in H1, H1'. assert (Ea : a = a').
    { destruct (proj1 (E a) (or_introl eq_refl)) as [K|K]; [auto|]. destruct (proj2 (E a') (or_introl eq_refl)) as [K'|K']; [auto|]. exfalso. apply (before_irrefl a). eapply before_trans; [apply H1, K'|apply H1', K]. }
    subst a'. f_equal. apply IH; [exact H2|exact H2'|]. intros it. specialize (E it). split; intros K.
    + destruct (proj1 E (or_intror K)) as [<-|K']; [|exact K']. exfalso. apply (before_irrefl a), H1, K.
    + destruct (proj2 E (or_intror K)) as [<-|K']; [|exact K']. exfalso. apply (before_irrefl a), H1', K.
Qed.
Lemma ordered_unique lines l l' : ordered lines l -> ordered lines l' -> l = l'.
Proof. intros [H1 H2] [K1 K2]. apply in_order_unique; [exact H1|exact K1|]. intros it. rewrite H2, K2. reflexivity. Qed.
Lemma fewer_items ix k lines l items : fewer k lines -> ordered lines l -> Forall2 (same_element ix) l items -> (length items < k)%nat.
Proof. intros Hf [Ho Hl] H. rewrite <- (Forall2_len _ _ _ H). apply Hf; [apply in_order_nodup, Ho|intros it K; apply Hl, K]. Qed.
Lemma bit7_linked it : N.testbit (fx_flags it) 7 = true -> linked_to it.
Proof.
  unfold linked_to. intros H E. assert (K : N.testbit (N.land (fx_flags it) 0xc0) 7 = true) by (rewrite N.land_spec, H; reflexivity). rewrite E in K. discriminate.
Qed.

Section Tables.
  Variables (ds : list definition) (b : bytes) (ix : list (bytes * N)).
  Hypothesis HM : tables_mean ds b ix.

  Lemma table_here name off : lookup name ix = Some off -> exists lines l items, defined ds name lines /\ 0 < off < 2 ^ 16 /\ ordered lines l /\ table_at b off items /\ Forall2 (same_element ix) l items.
  Proof using HM.
    destruct HM as (_ & H1 & H2). intros Hl. destruct (proj1 (H1 name) (ex_intro _ _ Hl)) as (lines & Hd). destruct (H2 _ _ _ Hl Hd) as (K1 & (l & items & K2 & K3 & K4) & _). exists lines, l, items. auto.
  Qed.
  Lemma item_of name off items fi : lookup name ix = Some off -> table_at b off items -> In fi items -> exists lines it, defined ds name lines /\ In it lines /\ same_element ix it fi.
  Proof using HM.
    intros Hl T Hin. destruct (table_here _ _ Hl) as (lines & l & items' & Hd & _ & Ho & T' & H). rewrite (table_unique _ _ _ _ T T') in Hin. exists lines. clear T T' items.
    assert (K : exists it, In it l /\ same_element ix it fi). { clear - H Hin. induction H as [|x y l items H Hs IH]; [destruct Hin|]. destruct Hin as [<-|Hin]; [exists x; split; [left; reflexivity|exact H]|]. destruct (IH Hin) as (it & K1 & K2). exists it. split; [right; exact K1|exact K2]. }
    destruct K as (it & K1 & K2). exists it. split; [exact Hd|]. split; [apply Ho, K1|exact K2].
  Qed.
  Lemma next_linked it fi : same_element ix it fi -> fi_next fi <> 0 -> linked_to it /\ lookup (fx_next it) ix = Some (fi_next fi).
  Proof using. clear HM. intros (_ & _ & _ & [[H1 H2]|[_ H]]) K; [auto|contradiction]. Qed.
  Lemma linked_next_ne it fi : same_element ix it fi -> linked_to it -> fi_next fi <> 0 /\ lookup (fx_next it) ix = Some (fi_next fi).
  Proof using HM.
    intros (_ & _ & _ & [[H1 H2]|[K _]]) H; [|contradiction]. split; [|exact H2]. destruct (table_here _ _ H2) as (? & ? & ? & _ & K & _). lia.
  Qed.
  Lemma linked_table off o : linked b off o -> forall name, lookup name ix = Some off -> exists n, table_linked ds name n /\ lookup n ix = Some o.
  Proof using HM.
    induction 1 as [a|a items fi o T Hin Hne H IH]; intros name Hl; [exists name; split; [constructor|exact Hl]|].
    destruct (item_of _ _ _ _ Hl T Hin) as (lines & it & Hd & Hit & Hs). destruct (next_linked _ _ Hs Hne) as [K1 K2]. destruct (IH _ K2) as (n & N1 & N2). exists n. split; [|exact N2]. eapply tk_next; eassumption.
  Qed.
  Lemma begins_table off o : begins b off o -> forall name, lookup name ix = Some off -> exists n, table_begins ds name n /\ lookup n ix = Some o.
  Proof using HM.
    induction 1 as [a|a items fi o T Hin He Hne H IH]; intros name Hl; [exists name; split; [constructor|exact Hl]|].
    destruct (item_of _ _ _ _ Hl T Hin) as (lines & it & Hd & Hit & Hs). destruct (next_linked _ _ Hs Hne) as [K1 K2]. destruct (IH _ K2) as (n & N1 & N2). exists n. split; [|exact N2]. eapply tg_next; try eassumption. destruct Hs as (E & _). congruence.
  Qed.
  Lemma plain_told name off : lookup name ix = Some off -> plain_tables ds name -> plain_links b off.
  Proof using HM.
    intros Hl Hp o items Hb T. destruct (begins_table _ _ Hb _ Hl) as (n & N1 & N2). destruct (table_here _ _ N2) as (lines & l & items' & Hd & _ & Ho & T' & HF). rewrite (table_unique _ _ _ _ T T'). destruct (Hp _ _ N1 Hd) as [F1 F2]. split; [eapply fewer_items; eassumption|].
    intros fi Hin He H7. rewrite <- (table_unique _ _ _ _ T T') in Hin. destruct (item_of _ _ _ _ N2 T Hin) as (lines' & it & Hd' & Hit & Hs). rewrite (defined_unique _ _ _ _ Hd' Hd) in Hit. pose proof Hs as (E1 & E2 & E3 & [[K _]|[_ K]]); [|exact K].
    exfalso. apply (F2 it Hit); [congruence|congruence|exact K].
  Qed.

  (** ** Endings of the normal form *)
  Lemma describe_same it fi : same_element ix it fi -> describe fi = describe_line it.
  Proof using. clear HM. intros (E1 & E2 & E3 & _). unfold describe, describe_line. rewrite E1, E2, E3. reflexivity. Qed.
  Lemma after_same it fi d : same_element ix it fi -> after fi d = after_line it d.
  Proof using. clear HM. intros (E1 & E2 & E3 & _). unfold after, after_line. destruct d as [[s g] f]. rewrite E1, E2, E3. reflexivity. Qed.
  Lemma reflexive_same l items : Forall2 (same_element ix) l items -> map describe (filter reflexive_element items) = map describe_line (filter reflexive_line l).
  Proof using.
    clear HM. induction 1 as [|it fi l items Hs H IH]; [reflexivity|]. cbn [filter]. pose proof Hs as (_ & E2 & _). unfold reflexive_element at 1, reflexive_line at 1. rewrite E2. destruct (N.testbit (fx_info it) 15); [cbn [map]; rewrite (describe_same _ _ Hs), IH; reflexivity|exact IH].
  Qed.
  Lemma normal_same verb nf it fi : same_element ix it fi -> (normal_element verb nf fi <-> normal_line verb nf it).
  Proof using. clear HM. intros (_ & E2 & _). unfold normal_element, normal_line. rewrite E2. reflexivity. Qed.
  Lemma normal_compiled verb nf : forall name l, normal_told ds verb nf name l -> forall off, lookup name ix = Some off -> normal_endings b verb nf off l.
  Proof using HM.
    fix IH 3. intros name l H. destruct H as [name lines l ls Hd Ho HF]. intros off Hl. destruct (table_here _ _ Hl) as (lines' & l' & items & Hd' & _ & Ho' & T & HS).
    rewrite (defined_unique _ _ _ _ Hd Hd') in Ho. rewrite (ordered_unique _ _ _ Ho' Ho) in HS. rewrite <- (reflexive_same _ _ HS). constructor; [exact T|]. clear Hl Hd Hd' Ho Ho' T.
    revert items HS. induction HF as [|it d l ls H1 HF IHF]; intros items HS; inversion HS as [|? fi ? items' Hs HS']; subst; constructor; [|apply IHF, HS']. clear IHF HS HS' HF.
    destruct H1 as [it Hno|it Hn Hb|it d Hn Hb H1].
    - apply no_other. intros K. apply Hno, (normal_same verb nf _ _ Hs), K.
    - rewrite <- (describe_same _ _ Hs). apply no_here; [apply (normal_same verb nf _ _ Hs), Hn|]. destruct Hs as (_ & _ & -> & _). exact Hb.
    - rewrite (map_ext (after_line it) (after fi)) by (intros; symmetry; apply after_same, Hs). destruct (linked_next_ne _ _ Hs (bit7_linked _ Hb)) as [_ Hnx]. apply no_further; [apply (normal_same verb nf _ _ Hs), Hn| |exact (IH _ _ H1 _ Hnx)].
      destruct Hs as (_ & _ & -> & _). exact Hb.
  Qed.
  Lemma compiled_normal verb nf : forall off l, normal_endings b verb nf off l -> forall name, lookup name ix = Some off -> normal_told ds verb nf name l.
  Proof using HM.
    fix IH 3. intros off l H. destruct H as [off items ls T HF]. intros name Hl. destruct (table_here _ _ Hl) as (lines & l & items' & Hd & _ & Ho & T' & HS). rewrite <- (table_unique _ _ _ _ T T') in HS.
    rewrite (reflexive_same _ _ HS). econstructor; [exact Hd|exact Ho|]. clear Hl Hd Ho T T'. revert l HS.
    induction HF as [|fi d items ls H1 HF IHF]; intros l HS; inversion HS as [|it ? l' ? Hs HS']; subst; constructor; [|apply IHF, HS']. clear IHF HS HS' HF.
    destruct H1 as [fi Hno|fi Hn Hb|fi d Hn Hb H1].
    - apply nl_other. intros K. apply Hno, (normal_same verb nf _ _ Hs), K.
    - rewrite (describe_same _ _ Hs). apply nl_here; [apply (normal_same verb nf _ _ Hs), Hn|]. destruct Hs as (_ & _ & <- & _). exact Hb.
    - rewrite (map_ext (after fi) (after_line it)) by (intros; apply after_same, Hs). assert (Hb' : N.testbit (fx_flags it) 7 = true) by (destruct Hs as (_ & _ & <- & _); exact Hb).
      destruct (linked_next_ne _ _ Hs (bit7_linked _ Hb')) as [_ Hnx]. apply nl_further; [apply (normal_same verb nf _ _ Hs), Hn|exact Hb'|exact (IH _ _ H1 _ Hnx)].
  Qed.

  Lemma tidy_told name off : lookup name ix = Some off -> (forall n lines, table_linked ds name n -> defined ds n lines -> fewer 128 lines /\ Forall (fun it => (length (fx_tail it) < 16)%nat) lines) -> tidy_links b off.
  Proof using HM.
    intros Hl Hp o items Hb T. destruct (linked_table _ _ Hb _ Hl) as (n & N1 & N2). destruct (table_here _ _ N2) as (lines & l & items' & Hd & _ & Ho & T' & HF). destruct (Hp _ _ N1 Hd) as [F1 F2]. split; [rewrite (table_unique _ _ _ _ T T'); eapply fewer_items; eassumption|].
    intros fi Hin. destruct (item_of _ _ _ _ N2 T Hin) as (lines' & it & Hd' & Hit & Hs). rewrite (defined_unique _ _ _ _ Hd' Hd) in Hit. rewrite Forall_forall in F2. pose proof Hs as (E1 & _ & E3 & _). split.
    - rewrite E1. apply F2, Hit.
    - intros H7. rewrite E3 in H7. apply (linked_next_ne _ _ Hs (bit7_linked _ H7)).
  Qed.
  Lemma whole_told name off wd word : lookup name ix = Some off -> search_told ds wd name word -> continued_whole b (is_verb wd) (if is_verb wd then 0x8001 else normal_gramm wd word) off word.
  Proof using HM.
    intros Hl Hs o items fi l d Hb T Hin Hn H7 Hno Hd He. destruct (linked_table _ _ Hb _ Hl) as (n & N1 & N2). destruct (item_of _ _ _ _ N2 T Hin) as (lines & it & Hdf & Hit & Hsm). pose proof Hsm as (E1 & _ & E3 & _). rewrite E1. rewrite E3 in H7.
    destruct (linked_next_ne _ _ Hsm (bit7_linked _ H7)) as [_ Hnx]. eapply (st_whole _ _ _ _ Hs); try eassumption; [apply (normal_same _ _ _ _ Hsm), Hn|exact (compiled_normal _ _ _ _ Hno _ Hnx)].
  Qed.
  Lemma reflexive_told name off : lookup name ix = Some off -> reflexive_end ds name -> reflexive_last b off.
  Proof using HM.
    intros Hl [R1 R2] o items fi Hb T Hin Hr. destruct (linked_table _ _ Hb _ Hl) as (n & N1 & N2). destruct (item_of _ _ _ _ N2 T Hin) as (lines & it & Hd & Hit & Hs). pose proof Hs as (_ & E2 & E3 & _).
    unfold reflexive_element in Hr. rewrite E2 in *. rewrite E3. destruct (R1 _ _ _ N1 Hd Hit Hr) as [K1 K2]. split; [exact K1|]. split; [exact K2|]. intros ->.
    destruct (item_of _ _ _ _ Hl T Hin) as (lines' & it' & Hd' & Hit' & Hs'). pose proof Hs' as (_ & E2' & _). rewrite E2 in E2'. rewrite E2'. apply (R2 _ _ Hd' Hit'). unfold reflexive_line. rewrite <- E2'. exact Hr.
  Qed.
End Tables.

(** ** Alternations *)
Section Mixes.
  Variables (ms : list mixdef) (mb : bytes) (mix : list (bytes * list (N * bytes))).
  Hypothesis HM : mixes_mean ms mb mix.

  Definition refs_of (name : bytes) : list (N * bytes) := match lookup name mix with Some l => l | None => [] end.
  Lemma refs_told name : Forall2 (refers mb) (refs_of name) (mixes_of ms name).
  Proof using HM.
    destruct HM as (_ & H1 & H2). unfold refs_of. destruct (lookup name mix) as [refs|] eqn:E; [apply H2, E|]. rewrite (proj1 (H1 name) E). constructor.
  Qed.
  Lemma F2_in A B (R : A -> B -> Prop) l l' x : Forall2 R l l' -> In x l -> exists y, In y l' /\ R x y.
  Proof using. clear. induction 1 as [|a c l l' H Hs IH]; [intros []|]. intros [<-|K]; [exists c; split; [left; reflexivity|exact H]|]. destruct (IH K) as (y & K1 & K2). exists y. split; [right; exact K1|exact K2]. Qed.
  Lemma first_level o x alt : alternates_as mb o (ml_strings x) -> (first_string mb o alt <-> alt = level_string (ml_strings x) 0).
  Proof using.
    clear HM. intros (mx & Hm & Ht & _). assert (Hlt : (0 < 3)%nat) by lia. pose proof (fun s => Ht 0%nat s Hlt) as Hz. clear Ht. cbn [N.of_nat] in Hz. split.
    - intros (before & mask & behind & Hm' & Hbit & _). apply Hz. exists mask. split; [|exact Hbit]. rewrite (mix_unique _ _ _ _ Hm Hm'). apply in_or_app. right. left. reflexivity.
    - intros E. pose proof (proj2 (Hz alt) E) as (mask & Hin & Hbit).
      assert (K : exists before mask' alt' behind, mx = before ++ (mask', alt') :: behind /\ N.testbit mask' 0 = true /\ Forall (fun ma => N.testbit (fst ma) 0 = false) before).
      { clear - Hin Hbit. induction mx as [|[m a] mx IH]; [destruct Hin|]. destruct (N.testbit m 0) eqn:E.
        - exists [], m, a, mx. split; [reflexivity|]. split; [exact E|constructor].
        - destruct Hin as [K|K]; [injection K as -> ->; congruence|]. destruct (IH K) as (before & m' & a' & behind & -> & K1 & K2). exists ((m, a) :: before), m', a', behind. split; [reflexivity|]. split; [exact K1|]. constructor; [exact E|exact K2]. }
      destruct K as (before & mask' & alt' & behind & Emx & Hb' & Hf). exists before, mask', behind. assert (Ea : alt' = alt).
      { rewrite E. apply Hz. exists mask'. split; [rewrite Emx; apply in_or_app; right; left; reflexivity|exact Hb']. }
      subst alt'. rewrite <- Emx. auto.
  Qed.
  Lemma alternates_told verb stem rems oc x : refers mb oc x -> ((exists alt, alternates mb verb stem rems oc alt) <-> alternates_line verb stem rems x).
  Proof using.
    clear HM. intros (_ & Ec & Ha). unfold alternates, alternates_line. rewrite Ec. split.
    - intros (alt & H1 & H2 & H3). apply (first_level _ _ _ Ha) in H1. subst alt. auto.
    - intros [H1 H2]. exists (level_string (ml_strings x) 0). split; [apply (first_level _ _ _ Ha); reflexivity|auto].
  Qed.
  (** The alternation found is the one told, whatever of the two is known. *)
  Definition same_mix (mt : N) (o : option mixline) : Prop := match o with None => mt = 0 | Some x => 0 < mt < 2 ^ 16 /\ alternates_as mb mt (ml_strings x) end.
  Lemma alternation_compiled verb rems stem refs xs left mt : Forall2 (refers mb) refs xs -> alternation mb refs verb rems stem left mt -> exists o, alternation_told xs verb rems stem left o /\ same_mix mt o.
  Proof using.
    clear HM. intros HF H. inversion H as [Hno E1 E2|before oc behind alt lf E Hb Ha Es E1 E2]; subst.
    - exists None. split; [|reflexivity]. apply at_none. clear H. induction HF as [|oc x refs xs Hr HF IH]; constructor; [|apply IH; intros oc' alt' K; apply Hno; right; exact K].
      intros K. apply (alternates_told _ _ _ _ _ Hr) in K as (alt & K). apply (Hno oc alt (or_introl eq_refl) K).
    - apply Forall2_app_inv_l in HF as (bx & rx & HF1 & HF2 & ->). inversion HF2 as [|? x ? kx Hr HF3]; subst. exists (Some x). split; [|destruct Hr as (K1 & _ & K2); split; assumption].
      pose proof Ha as (Hf & _ & _). assert (Ea : alt = level_string (ml_strings x) 0) by (apply (first_level (fst oc)); [apply Hr|exact Hf]). subst alt.
      eapply at_found; [reflexivity| |apply (alternates_told _ _ _ _ _ Hr); eexists; exact Ha|reflexivity].
      clear - HF1 Hb. induction HF1 as [|oc0 x0 refs0 xs0 Hr0 HF0 IH]; constructor; [|apply IH; intros oc' alt' K; apply Hb; right; exact K].
      intros K. apply (alternates_told _ _ _ _ _ Hr0) in K as (alt & K). apply (Hb oc0 alt (or_introl eq_refl) K).
  Qed.
  Lemma told_unique xs verb rems stem left o left' o' : alternation_told xs verb rems stem left o -> alternation_told xs verb rems stem left' o' -> left = left' /\ o = o'.
  Proof using.
    clear. intros H H'. inversion H as [Hno E1 E2|b1 x k1 l1 E Hb Ha Es E1 E2]; subst; inversion H' as [Hno' E1' E2'|b2 y k2 l2 E' Hb' Ha' Es' E1' E2']; subst.
    - auto.
    - exfalso. rewrite Forall_forall in Hno. apply (Hno y); [apply in_or_app; right; left; reflexivity|exact Ha'].
    - exfalso. rewrite Forall_forall in Hno'. apply (Hno' x); [apply in_or_app; right; left; reflexivity|exact Ha].
    - assert (Exy : x = y).
      { clear H H' Es'. rewrite Forall_forall in Hb, Hb'. revert b2 E' Hb'. induction b1 as [|z b1 IH]; intros [|z' b2] E' Hb'; cbn [app] in E'.
        - injection E' as -> _. reflexivity.
        - injection E' as -> _. exfalso. apply (Hb' z' (or_introl eq_refl) Ha).
        - injection E' as -> _. exfalso. apply (Hb y (or_introl eq_refl) Ha').
        - injection E' as -> E'. apply (IH (fun q K => Hb q (or_intror K)) b2 E'). intros q K. apply Hb'. right. exact K. }
      subst y. split; [eapply app_inv_tail; exact Es'|reflexivity].
  Qed.
  Lemma alts_there name o cond : In (o, cond) (refs_of name) -> 0 < o < 2 ^ 16 /\ exists mx, mix_at mb o mx.
  Proof using HM.
    intros H. destruct (F2_in _ _ _ _ _ _ (refs_told name) H) as (x & _ & K1 & _ & mx & K2 & _). split; [exact K1|exists mx; exact K2].
  Qed.
End Mixes.

Lemma level_below wd g f : 1 <= alternation_level wd g f <= 3.
Proof.
  unfold alternation_level. destruct (noun_type (wd mod 64)) as [[k a]|]; [destruct (noun_alternates _ _ _); lia|]. destruct (_ && _); [|destruct (_ =? 25); [|lia]; destruct (g =? 0x80); [lia|]; destruct (g =? 0x300); lia].
  unfold verb_level. cbv zeta. generalize ((wd / 2048) mod 4). intros k. destruct k as [|[p|[p|p|]|]]; repeat match goal with |- context [if ?e then _ else _] => destruct e end; lia.
Qed.

(** ** Forms *)
Section Parts.
  Variables (ds : list definition) (b : bytes) (ix : list (bytes * N)) (mb : bytes).
  Hypothesis HM : tables_mean ds b ix.
  Lemma ending_tells name off s g f : lookup name ix = Some off -> (ending b off s g f <-> tells ds name s g f).
  Proof using HM.
    intros Hl. destruct HM as (_ & H1 & H2). destruct (proj1 (H1 name) (ex_intro _ _ Hl)) as (lines & Hd). destruct (H2 _ _ _ Hl Hd) as (_ & _ & K). apply K.
  Qed.
  Lemma part_compiled name off wd mt o part g f : lookup name ix = Some off -> wd mod 64 <> 51 -> same_mix mb mt o -> (changing b mb (Morphclass wd off mt) part g f <-> part_told ds wd name o part g f).
  Proof using HM.
    intros Hl H51 Hm. assert (Hi : inflected (Morphclass wd off mt) = true).
    { unfold inflected. cbn [m_tfoffs m_wdinfo]. destruct (table_here ds b ix HM _ _ Hl) as (? & ? & ? & _ & K & _). destruct (N.eqb_spec off 0); [lia|]. destruct (N.eqb_spec (wd mod 64) 51); [contradiction|reflexivity]. }
    split.
    - intros H. inversion H as [K|s g' f' _ K He Hn|mx mask alt s g' f' _ K Hx Hin Hbit He Hn]; subst; [congruence| |].
      + cbn [m_mtoffs m_tfoffs] in *. destruct o as [x|]; [destruct Hm as [Hm _]; lia|]. apply pt_ending; [apply (ending_tells name off), He; exact Hl|exact Hn].
      + cbn [m_mtoffs m_tfoffs m_wdinfo] in *. destruct o as [x|]; [|contradiction]. destruct Hm as [_ (mx' & Hx' & Ht & _)]. rewrite (mix_unique _ _ _ _ Hx Hx') in Hin. pose proof (level_below wd g f) as Hlv.
        assert (Ea : alt = level_string (ml_strings x) (N.to_nat (alternation_level wd g f - 1))) by (apply Ht; [lia|]; exists mask; rewrite N2Nat.id; auto). subst alt. apply pt_mixed; [apply (ending_tells name off), He; exact Hl|exact Hn].
    - intros H. inversion H as [s g' f' He Hn|x s g' f' He Hn]; subst.
      + cbn [same_mix] in Hm. subst mt. apply changing_ending; [exact Hi|reflexivity|apply (ending_tells name off), He; exact Hl|exact Hn].
      + destruct Hm as [Hm (mx & Hx & Ht & _)]. pose proof (level_below wd g f) as Hlv. destruct (proj2 (Ht (N.to_nat (alternation_level wd g f - 1)) _ ltac:(lia)) eq_refl) as (mask & Hin & Hbit). rewrite N2Nat.id in Hbit.
        eapply changing_mixed; [exact Hi|cbn [m_mtoffs]; lia|exact Hx|exact Hin|exact Hbit|apply (ending_tells name off), He; exact Hl|exact Hn].
  Qed.
End Parts.

(** ** Validity *)
Section Valid.
  Variables (alphabet : bytes) (ds : list definition) (b : bytes) (ix : list (bytes * N)) (ms : list mixdef) (mb : bytes) (mix : list (bytes * list (N * bytes))).
  Hypothesis HM : tables_mean ds b ix.
  Hypothesis HX : mixes_mean ms mb mix.
  Hypothesis HV : texts_valid alphabet ds ms.
  Lemma letters_told name off x o mx : lookup name ix = Some off -> In x (mixes_of ms name) -> letters_given ds name (ml_strings x) -> alternates_as mb o (ml_strings x) -> mix_at mb o mx -> mixed_letters b off mx.
  Proof using HM HV.
    intros Hl Hin Hg (mx' & Hm' & _ & Hs) Hm. rewrite (mix_unique _ _ _ _ Hm Hm') in *. clear Hm mx.
    assert (Hb : forall s, In s (ml_strings x) -> is_bytes s).
    { apply in_flat_map in Hin as (d & Hd & Hin). destruct (in_dec (list_eq_dec N.eq_dec) name (md_names d)); [|destruct Hin]. pose proof (tx_mix_format _ _ _ HV) as Hf. rewrite Forall_forall in Hf. specialize (Hf d Hd). unfold mix_fits in Hf. rewrite Forall_forall in Hf. destruct (Hf x Hin) as [_ Hf'].
      rewrite Forall_forall in Hf'. intros s Hss. apply Hf', Hss. }
    assert (Hc : forall c r, In (c :: r) (ml_strings x) -> c < 256) by (intros c r K; apply Hb in K; inversion K; assumption).
    destruct Hg as [Hg|[Hg1 Hg2]].
    - left. apply Forall_forall. intros [mask s] K. cbn [snd]. assert (Ks : In s (ml_strings x)) by (apply Hs; apply in_map_iff; exists (mask, s); auto). rewrite Forall_forall in Hg. destruct (Hg s Ks) as (c & r & -> & Hne). exists c, r. split; [reflexivity|]. specialize (Hc c r Ks). lia.
    - right. split.
      + intros mask c r K. assert (Ks : In (c :: r) (ml_strings x)) by (apply Hs; apply in_map_iff; exists (mask, c :: r); auto). destruct (Hg1 c r Ks) as (Hne & s & g & f & Ht & Hle). specialize (Hc c r Ks). split; [lia|]. exists s, g, f. split; [apply (ending_tells ds b ix HM name), Ht; exact Hl|exact Hle].
      + intros c rest g f He. apply (ending_tells ds b ix HM name _ _ _ _ Hl) in He. destruct (Hg2 _ _ _ _ He) as (c' & r' & K & Hle). apply Hs in K. apply in_map_iff in K as ((mask & s) & E & K). cbn [snd] in E. subst s. exists mask, c', r'. auto.
  Qed.
  Theorem texts_tables : tables_valid alphabet (Tables b ix mb mix).
  Proof using HM HX HV.
    constructor; cbn [tb_flex tb_findex tb_mix tb_mindex].
    - apply (tx_alphabet _ _ _ HV).
    - apply HM.
    - intros name off Hl. destruct (table_here ds b ix HM _ _ Hl) as (? & ? & ? & _ & K & _). exact K.
    - intros name off Hsp Hl. destruct (table_here ds b ix HM _ _ Hl) as (lines & ? & ? & Hd & _). apply (plain_told ds b ix HM name off Hl), (tx_links _ _ _ HV name lines Hsp Hd).
    - intros name off s g f Hl He. apply (ending_tells ds b ix HM name _ _ _ _ Hl) in He. apply (tx_endings _ _ _ HV _ _ _ _ He).
    - intros name off s l Hl Hn Ha. apply (tx_descs _ _ _ HV name s l Hn). intros gf K. apply (ending_tells ds b ix HM name off); [exact Hl|apply Ha, K].
    - intros name alts o cond Hl Hin. pose proof (refs_told ms mb mix HX name) as HF. unfold refs_of in HF. rewrite Hl in HF. destruct (F2_in _ _ _ _ _ _ HF Hin) as (x & Hx & K1 & _ & K2). cbn [fst] in *. split; [exact K1|]. split; [destruct K2 as (mx & K2 & _); exists mx; exact K2|].
      intros mx off Hm Hoff. destruct (table_here ds b ix HM _ _ Hoff) as (lines & ? & ? & Hd & _). eapply letters_told; [exact Hoff|exact Hx|exact (tx_mixes _ _ _ HV name lines x Hd Hx)|exact K2|exact Hm].
  Qed.
End Valid.
