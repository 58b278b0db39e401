(** * RusTextProofs6: whatever the compiler makes of an article is what the specification says. *)
From Coq Require Import String Ascii.
From Verif Require Import Base Serial SerialProofs WordTree TreeSpec Stems StemSpec CharTables CapScheme CapSpec GramMap RusRuntime RusSpec Compile CompileSpec CompileFormsSpec Resolve ResolveSpec ResolveProofs2
  Api Utf8 EngCompile EngCompileSpec EngCompileProofs EngCompileProofs4 RusText RusTextSpec RusTextProofs RusTextProofs2 RusTextProofs3 RusTextProofs4.
Local Open Scope N_scope.
Local Open Scope list_scope.
Notation length := List.length.
Notation visible := RusTextSpec.visible.

Lemma index_of_split c l i j : index_of c l i = Some j -> exists rest, l = firstn (N.to_nat (j - i)) l ++ c :: rest /\ ~ In c (firstn (N.to_nat (j - i)) l) /\ (N.to_nat (j - i) < length l)%nat /\ i <= j.
Proof.
  revert i j. induction l as [|d l IH]; intros i j; cbn [index_of]; [discriminate|]. destruct (N.eqb_spec d c) as [->|Hd].
  - intros [= <-]. rewrite N.sub_diag. exists l. cbn. repeat split; auto; lia.
  - intros E. destruct (IH _ _ E) as (rest & E1 & H1 & H2 & H3). replace (N.to_nat (j - i)) with (S (N.to_nat (j - (i + 1)))) by lia. exists rest. cbn [firstn app].
    split; [f_equal; exact E1|]. split; [intros [K|K]; [congruence|exact (H1 K)]|]. cbn [List.length]. split; lia.
Qed.

Section Entry.
  Variables (depth : nat) (T : tables) (x : rarticle) (comm lid : bytes).
  Hypotheses (HT : tables_ok T) (Hok : rarticle_ok x) (Hcomm : put_comm lid (r_notes x) comm) (Hlid : forall c, In c lid -> c <> 45 /\ c <> 123 /\ c <> 112 /\ 32 < c).

  Lemma entry_exists index r : resolve_class depth T (map no_yo (r_head x)) (r_mark x) (r_type x) index comm (r_id x) = Ok r -> entry depth T x index (Ok r).
  Proof using HT Hok Hcomm Hlid.
    intros H. unfold resolve_class in H. cbv zeta in H.
    destruct (N.eqb_spec (type_of (r_mark x ++ 32 :: r_type x)) 0) as [E0|E0].
    { injection H as <-. apply entry_untyped. intros n p Ht. apply typed_type in Ht as [E Hn]. rewrite E in E0. unfold type_bits in E0. destruct p; lia. }
    destruct (type_typed _ _ E0) as (n & p & Ht). pose proof (typed_type _ _ _ _ Ht) as [E Hn]. rewrite E, (bits_low n p Hn) in H.
    set (look := RusText.lookup (r_type x ++ 32 :: index) (tb_findex T)) in *.
    assert (Hl : match look with Some o => 0 < o < 2 ^ 16 | None => True end).
    { unfold look. destruct (RusText.lookup _ (tb_findex T)) as [o|] eqn:El; [|exact I]. exact (HT _ _ El). }
    set (off := if n <? 48 then match look with Some o => o mod 2 ^ 16 | None => 0 end else 0) in *.
    destruct ((n <? 48) && (off =? 0) && negb (if list_eq_dec N.eq_dec index [48] then true else false)) eqn:Eno.
    { injection H as <-. apply andb_true_iff in Eno as [Eno E3]. apply andb_true_iff in Eno as [E1 E2]. apply N.ltb_lt in E1. apply N.eqb_eq in E2.
      apply (entry_no_table depth T x index n p Ht).
      - unfold constant. lia.
      - change (text "0") with [48]. destruct (list_eq_dec N.eq_dec index [48]); [discriminate|assumption].
      - fold look. destruct look as [o|]; [|reflexivity]. exfalso. unfold off in E2. destruct (N.ltb_spec n 48); [|lia]. rewrite N.mod_small in E2 by apply Hl. lia. }
    rewrite headword_eq in H.
    rewrite (find_post_comm lid (r_notes x) comm Hcomm (ro_notes x Hok)) in H by (apply (lacks_char 112); [left; reflexivity|]; intros K; apply Hlid in K as (_ & _ & K & _); congruence).
    rewrite (get_remark_comm lid (r_notes x) comm Hcomm (ro_notes x Hok)) in H by (intros K; apply Hlid in K as (K & _); congruence).
    set (word := plain_word (r_head x)) in *. set (post := post_of (r_notes x)) in *. unfold cut at 1 in H. destruct (N.ltb_spec (N.of_nat (length word)) (N.of_nat (length post))) as [K|Hlen]; [discriminate|]. cbn [bind] in H. rewrite Nat2N.id in H.
    destruct (class_bits_eq x comm lid Hok Hcomm Hlid n p Hn) as [Ecb E63]. rewrite Ecb, (mix_index_eq _ n index E63), index_none_existsb in H.
    assert (Hlw : (length post <= length word)%nat) by lia. eapply (entry_found depth T x index n p off (case_scale index) _ (Ok r) Ht); [| | exact Hlw | | exact H].
    - unfold constant, off. fold look. destruct (N.ltb_spec n 48) as [L|L]; [right; split; [lia|]|left; auto]. destruct look as [o|] eqn:El.
      + left. f_equal. symmetry. apply N.mod_small, Hl.
      + right. split; [reflexivity|]. split; [|reflexivity]. unfold off in Eno. destruct (N.ltb_spec n 48); [|lia]. change (0 =? 0) with true in Eno. cbn [andb] in Eno. change (text "0") with [48].
        destruct (list_eq_dec N.eq_dec index [48]); [assumption|discriminate].
    - intros i. apply case_scale_eq.
    - fold word post. destruct (index_of 64 (firstn (length word - length post) word) 0) as [k|] eqn:Ek; cbn [option_map].
      + destruct (index_of_split _ _ _ _ Ek) as (rest & E1 & H1 & H2 & _). rewrite N.sub_0_r in *. rewrite firstn_firstn, firstn_length in *.
        replace (Nat.min (N.to_nat k) (length word - length post)) with (N.to_nat k) in * by lia. exists rest. split; [exact E1|]. split; [exact H1|]. lia.
      + exact (proj1 (index_of_none 64 _ 0) Ek).
  Qed.
End Entry.

Section Article.
  Variables (depth : nat) (T : tables) (x : rarticle) (sp1 sp2 sp3 notes sp4 num : bytes).
  Hypotheses (HT : tables_ok T) (Hok : rarticle_ok x) (H1 : gap sp1) (H2 : gap sp2) (H3 : gap sp3) (Hn : put_notes (r_notes x) notes) (H4 : gap sp4) (Hnum : numeral num (r_id x)).
  Let lid := text "LID:" ++ num.
  Let body := r_head x ++ sp1 ++ r_mark x ++ sp2 ++ r_type x ++ sp3 ++ r_index x ++ notes ++ sp4 ++ lid.

  Lemma build_stems_senses l : build_stems depth T body (r_id x) = Ok l -> senses depth T x l.
  Proof using HT Hok H1 H2 H3 Hn H4 Hnum.
    destruct (comm_of lid (r_notes x) notes Hn sp4 H4) as (sp & comm & Hsp & E & Hcomm). unfold body. rewrite E.
    assert (Hlid : forall c, In c lid -> c <> 45 /\ c <> 123 /\ c <> 112 /\ 32 < c) by (intros c; apply (lid_chars num (r_id x) c Hnum)).
    destruct (comm_cons lid (r_notes x) comm Hcomm (ro_notes x Hok)) as (cc & rc & Ec & Vc); [exists 76, (73 :: 68 :: 58 :: num); split; [reflexivity|unfold visible; lia]|].
    destruct (field_cons _ _ (ro_mark x Hok)) as (cm & rm & Em & Vm). destruct (field_cons _ _ (ro_type x Hok)) as (ct & rt & Et & Vt). destruct (field_cons _ _ (ro_index x Hok)) as (ci & ri & Ei & Vi).
    unfold build_stems. change 0x100%nat with 256%nat. change 0x20%nat with 32%nat.
    rewrite Em. cbn [app]. rewrite sub_text_eq by (apply Hok || assumption). cbn [bind]. change (cm :: rm ++ ?z) with ((cm :: rm) ++ z). rewrite <- Em.
    rewrite Et. cbn [app]. rewrite sub_text_eq by (apply Hok || assumption). cbn [bind]. change (ct :: rt ++ ?z) with ((ct :: rt) ++ z). rewrite <- Et.
    rewrite Ei. cbn [app]. rewrite sub_text_eq by (apply Hok || assumption). cbn [bind]. change (ci :: ri ++ ?z) with ((ci :: ri) ++ z). rewrite <- Ei.
    rewrite Ec. rewrite sub_text_eq by (apply Hok || assumption). cbn [bind]. rewrite <- Ec. cbv zeta.
    intros Hs. apply bind_ok_inv in Hs as (r & Er & Hs). apply (entry_exists depth T x comm lid HT Hok Hcomm Hlid) in Er. destruct r as [x0|]; [injection Hs as <-; apply senses_one; exact Er|].
    destruct (strstr (text "//") (r_index x)) as [[a rest]|] eqn:Es.
    - apply bind_ok_inv in Hs as (la & Ea & Hs). apply bind_ok_inv in Hs as (lb & Eb & Hs). injection Hs as <-. pose proof (strstr_some _ _ _ _ Es) as [Ex (b & ->)].
      change (skipn 2 (text "//" ++ b)) with b in Eb. apply (entry_exists depth T x comm lid HT Hok Hcomm Hlid) in Ea, Eb.
      apply (senses_two depth T x a b la lb Er); [exact Ex| |exact Ea|exact Eb]. exact (strstr_before (text "//") (r_index x) a _ ltac:(discriminate) Es).
    - injection Hs as <-. apply senses_none; [exact Er|]. apply strstr_none_lacks, Es.
  Qed.
  Lemma read_line_eq sp0 sp5 : Forall blank sp0 -> Forall line_end sp5 ->
    read_line depth T (sp0 ++ body ++ sp5) = let! xs := build_stems depth T body (r_id x) in Ok (xs, match xs with [] => [body] | _ => [] end).
  Proof using Hok H1 H2 H3 Hn H4 Hnum.
    intros H0 H5. unfold body, lid, read_line. rewrite (trim_body x sp1 sp2 sp3 notes sp4 num Hok Hnum sp0 sp5 H0 H5). cbv zeta.
    rewrite (head_not_comment x sp1 sp2 sp3 notes sp4 num Hok H1), (dict_body x sp1 sp2 sp3 notes sp4 num Hok H1 H2 H3 Hn H4 Hnum sp0 sp5 H0 H5). reflexivity.
  Qed.
End Article.

Theorem read_senses depth T x line body l u : tables_ok T -> rwritten x line body -> read_line depth T line = Ok (l, u) <-> senses depth T x l /\ u = match l with [] => [body] | _ => [] end.
Proof.
  intros HT Hw. split; [|intros [Hs ->]; apply (read_written depth T x line body l HT Hw Hs)].
  intros E. assert (Hs : senses depth T x l).
  { revert E. destruct Hw as (Hok & sp0 & sp5 & -> & H0 & H5 & [sp1 sp2 sp3 notes sp4 num H1 H2 H3 Hn H4 Hnum]). intros E. apply (build_stems_senses depth T x sp1 sp2 sp3 notes sp4 num HT Hok H1 H2 H3 Hn H4 Hnum).
    rewrite (read_line_eq depth T x sp1 sp2 sp3 notes sp4 num Hok H1 H2 H3 Hn H4 Hnum sp0 sp5 H0 H5) in E.
    apply bind_ok_inv in E as (xs & E1 & E). injection E as <- _. exact E1. }
  split; [exact Hs|]. rewrite (read_written depth T x line body l HT Hw Hs) in E. injection E as <-. reflexivity.
Qed.
