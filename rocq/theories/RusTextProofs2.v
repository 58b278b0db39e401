(** * RusTextProofs2: the notes of an article. *)
From Coq Require Import String Ascii.
From Verif Require Import Base Serial SerialProofs WordTree TreeSpec Stems StemSpec CharTables CapScheme CapSpec GramMap RusRuntime RusSpec Compile CompileSpec Resolve Api Utf8
  EngCompile EngCompileSpec EngCompileProofs EngCompileProofs2 RusText RusTextSpec RusTextProofs.
Local Open Scope N_scope.
Local Open Scope list_scope.
Notation length := List.length.
Notation visible := RusTextSpec.visible.

(** The notes without the white space before them, in front of [lid]. *)
Inductive put_comm (lid : bytes) : list note -> bytes -> Prop :=
| pc_nil : put_comm lid [] lid
| pc_cons n ns sp rest : gap sp -> put_comm lid ns rest -> put_comm lid (n :: ns) (put_note n ++ sp ++ rest).
Lemma comm_of lid ns notes : put_notes ns notes -> forall sp4, gap sp4 -> exists sp comm, gap sp /\ notes ++ sp4 ++ lid = sp ++ comm /\ put_comm lid ns comm.
Proof.
  induction 1 as [|n ns sp rest Hs H IH]; intros sp4 H4; [exists sp4, lid; repeat split; [apply H4|apply H4|constructor]|].
  destruct (IH sp4 H4) as (sp' & comm & H1 & E & H2). exists sp, (put_note n ++ sp' ++ comm). split; [exact Hs|]. split; [|constructor; assumption].
  rewrite <- !app_assoc, E. reflexivity.
Qed.
Lemma comm_cons lid ns comm : put_comm lid ns comm -> Forall note_ok ns -> (exists c r, lid = c :: r /\ visible c) -> exists c r, comm = c :: r /\ visible c.
Proof.
  intros [|n ns' sp rest Hs H] Hok Hl; [exact Hl|]. apply Forall_inv, note_visible in Hok as [H1 H2]. destruct (put_note n) as [|c r]; [congruence|].
  exists c. eexists. split; [reflexivity|]. apply (Forall_inv H1).
Qed.

(** The lexeme id *)
Lemma numeral_chars num n : numeral num n -> Forall (fun c => 48 <= c <= 57 \/ 97 <= c <= 102 \/ 65 <= c <= 70 \/ c = 120 \/ c = 88) num.
Proof.
  intros [(H1 & H2 & _)|[(u & -> & Hu & E)|(x & u & -> & Hx & Hne & Hu & E)]].
  - eapply Forall_impl; [|exact H1]. cbn. lia.
  - constructor; [lia|]. eapply Forall_impl; [|exact Hu]. cbn. lia.
  - constructor; [lia|]. constructor; [lia|]. eapply Forall_impl; [|exact Hu]. cbn. lia.
Qed.
Lemma lid_chars num n c : numeral num n -> In c (text "LID:" ++ num) -> c <> 45 /\ c <> 123 /\ c <> 112 /\ 32 < c.
Proof.
  intros H Hc. apply numeral_chars in H. rewrite Forall_forall in H. apply in_app_or in Hc as [Hc|Hc].
  - cbn in Hc. lia.
  - apply H in Hc. lia.
Qed.

Lemma strstr_none_lacks pat s : strstr pat s = None -> lacks pat s.
Proof.
  intros H u v ->. revert H. induction u as [|c u IH]; cbn [app].
  - rewrite strstr_here. discriminate.
  - cbn [strstr]. destruct (starts pat (c :: u ++ pat ++ v)); [discriminate|]. destruct (strstr pat (u ++ pat ++ v)) as [[a b]|]; [discriminate|]. intros _. apply IH. reflexivity.
Qed.

(** ** The postfix *)
Lemma post_pat : Forall visible (text "post:") /\ text "post:" <> [].
Proof. split; [unfold visible; repeat constructor|discriminate]. Qed.
Lemma find_post_comm lid ns comm : put_comm lid ns comm -> Forall note_ok ns -> lacks (text "post:") lid -> find_post comm = post_of ns.
Proof.
  intros H Hok Hl. unfold find_post.
  induction H as [|n ns sp rest Hs H IH].
  - rewrite (strstr_lacks _ _ Hl). reflexivity.
  - inversion Hok as [|? ? Hn Hns]; subst. pose proof (proj1 (proj2 (gap_spaces _ Hs))) as Hsm. destruct post_pat as [P1 P2].
    assert (T : lacks (text "post:") (put_note n) -> match strstr (text "post:") (put_note n ++ sp ++ rest) with
        | Some (_, p) => fst (take_until is_space (skip_space (skipn 5 p))) | None => [] end = post_of ns).
    { intros Ln. rewrite strstr_token; [|exact P1|exact P2|exact Ln|exact Hsm|apply Hs]. specialize (IH Hns).
      destruct (strstr (text "post:") rest) as [[u v]|]; exact IH. }
    assert (NC : forall s, ~ In 58 s -> lacks (text "post:") s) by (intros s; apply lacks_char; right; right; right; right; left; reflexivity).
    destruct n as [s|s|i|s]; cbn [note_ok put_note post_of] in *.
    + rewrite <- app_assoc, strstr_here. cbn [fst]. change (skipn 5 (text "post:" ++ s ++ sp ++ rest)) with (s ++ sp ++ rest).
      destruct Hn as [Hn _]. apply note_text_facts in Hn as (V & _ & _ & Ne). destruct s as [|c s]; [congruence|]. cbn [app skip_space].
      rewrite (visible_not_space c) by (apply (Forall_inv V)). change (c :: s ++ sp ++ rest) with ((c :: s) ++ sp ++ rest).
      rewrite take_field by assumption. reflexivity.
    + apply T, NC. destruct Hn as [Hn Hh]. apply note_text_facts in Hn as (_ & C & _). intros [K|K]; [discriminate|]. apply in_app_or in K as [K|[K|[]]]; [contradiction|discriminate].
    + apply T, NC. apply attr_facts in Hn as (_ & _ & C & _). exact C.
    + apply T, NC. destruct Hn as [Hn _]. apply note_text_facts in Hn as (_ & C & _). exact C.
Qed.

(** ** The remark *)
Lemma remark_skip a s : ~ In 45 a -> get_remark (a ++ s) = get_remark s.
Proof.
  induction a as [|c a IH]; intros H; [reflexivity|]. cbn [app get_remark]. destruct (N.eqb_spec c 45) as [->|_]; [exfalso; apply H; left; reflexivity|].
  apply IH. intros K. apply H. right. exact K.
Qed.
Lemma gap_hyphen sp : gap sp -> ~ In 45 sp.
Proof. intros H K. apply gap_spaces in H as (_ & H & _). rewrite Forall_forall in H. apply H in K. lia. Qed.
Lemma stop_hyphen b sp s : Forall visible b -> ~ In 45 b -> gap sp -> take_until (fun c => (c =? 45) || is_space c) (b ++ sp ++ s) = (b, sp ++ s).
Proof.
  intros Hb Hh Hs. destruct (gap_spaces _ Hs) as (H1 & _ & H2). destruct sp as [|c sp]; [congruence|]. cbn [app]. apply take_until_app.
  - rewrite Forall_forall in Hb |- *. intros d Hd. rewrite (visible_not_space d (Hb d Hd)), orb_false_r. apply N.eqb_neq. intros ->. contradiction.
  - rewrite (Forall_inv H1). apply orb_true_r.
Qed.
Lemma one_hyphen s : (count_occ N.eq_dec s 45%N <= 1)%nat -> ~ In 45 s \/ exists a b, s = a ++ 45 :: b /\ ~ In 45 a /\ ~ In 45 b.
Proof.
  induction s as [|c s IH]; intros H; [left; intros []|]. cbn [count_occ] in H. destruct (N.eq_dec c 45) as [->|Hc].
  - right. exists [], s. split; [reflexivity|]. split; [intros []|]. apply (count_occ_not_In N.eq_dec). lia.
  - destruct (IH H) as [K|(a & b & -> & K1 & K2)]; [left; intros [E|E]; [congruence|contradiction]|].
    right. exists (c :: a), b. split; [reflexivity|]. split; [intros [E|E]; [congruence|contradiction]|exact K2].
Qed.
Lemma remark_once tok sp s : Forall visible tok -> (count_occ N.eq_dec tok 45%N <= 1)%nat -> gap sp -> get_remark (tok ++ sp ++ s) = get_remark s.
Proof.
  intros Hv H Hs. destruct (one_hyphen tok H) as [K|(a & b & -> & K1 & K2)].
  - rewrite remark_skip by exact K. apply remark_skip, gap_hyphen, Hs.
  - rewrite <- app_assoc. rewrite remark_skip by exact K1. cbn [app get_remark]. change (45 =? 45) with true. cbn iota.
    apply Forall_app in Hv as [_ Hv]. apply Forall_inv_tail in Hv. rewrite stop_hyphen by assumption.
    assert (E : get_remark (b ++ sp ++ s) = get_remark s) by (rewrite remark_skip by exact K2; apply remark_skip, gap_hyphen, Hs).
    destruct Hs as [Hb Hne]. destruct sp as [|c sp]; [congruence|]. cbn [app] in *. apply Forall_inv in Hb. destruct Hb as [-> | ->]; exact E.
Qed.
Lemma get_remark_comm lid ns comm : put_comm lid ns comm -> Forall note_ok ns -> ~ In 45 lid -> get_remark comm = remark_of ns.
Proof.
  intros H Hok Hl. induction H as [|n ns sp rest Hs H IH]; [rewrite <- (app_nil_r lid); rewrite remark_skip by exact Hl; reflexivity|].
  inversion Hok as [|? ? Hn Hns]; subst. specialize (IH Hns).
  destruct n as [s|s|i|s]; cbn [put_note remark_of].
  - destruct (note_visible _ Hn) as [V _]. cbn [put_note] in V. rewrite remark_once; [exact IH|exact V| |exact Hs]. destruct Hn as [_ Hn]. exact Hn.
  - destruct Hn as [Hn Hh]. apply note_text_facts in Hn as (V & _ & _ & _). cbn [app get_remark]. change (45 =? 45) with true. cbn iota. rewrite <- app_assoc. cbn [app].
    rewrite take_until_app; [reflexivity| |reflexivity]. rewrite Forall_forall in V |- *. intros d Hd. rewrite (visible_not_space d (V d Hd)), orb_false_r. apply N.eqb_neq. intros ->. contradiction.
  - destruct (attr_facts i Hn) as (_ & _ & _ & K). cbv zeta in K. rewrite remark_skip by exact K. rewrite remark_skip by apply gap_hyphen, Hs. exact IH.
  - destruct Hn as [_ Hn]. rewrite remark_skip by exact Hn. rewrite remark_skip by apply gap_hyphen, Hs. exact IH.
Qed.

(** ** Attributes *)
Lemma attr_pat i : (i < 4)%nat -> let p := cyr (nth i attributes ""%string) in
  Forall visible p /\ p <> [] /\ In 123 p /\ forall j, (j < 4)%nat -> j <> i -> lacks p (cyr (nth j attributes ""%string)).
Proof.
  intros Hi. destruct (attr_facts i Hi) as (H1 & H2 & _). cbv zeta in *. split; [exact H1|]. split; [exact H2|]. split.
  - assert (K : forallb (fun i => existsb (N.eqb 123) (cyr (nth i attributes ""%string))) (seq 0 4) = true) by (vm_compute; reflexivity).
    rewrite forallb_forall in K. specialize (K i). rewrite in_seq in K. specialize (K ltac:(lia)). apply existsb_exists in K as (y & Hy & E). apply N.eqb_eq in E. subst y. exact Hy.
  - intros j Hj Hne. apply strstr_none_lacks.
    assert (K : forallb (fun i => forallb (fun j => Nat.eqb i j || negb (has_text (cyr (nth i attributes ""%string)) (cyr (nth j attributes ""%string)))) (seq 0 4)) (seq 0 4) = true) by (vm_compute; reflexivity).
    rewrite forallb_forall in K. specialize (K i). rewrite in_seq in K. specialize (K ltac:(lia)). rewrite forallb_forall in K. specialize (K j). rewrite in_seq in K. specialize (K ltac:(lia)).
    apply orb_true_iff in K as [K|K]; [apply Nat.eqb_eq in K; congruence|]. unfold has_text in K.
    destruct (strstr (cyr (nth i attributes ""%string)) (cyr (nth j attributes ""%string))); [discriminate|reflexivity].
Qed.
Lemma has_attr_comm lid ns comm i : (i < 4)%nat -> put_comm lid ns comm -> Forall note_ok ns -> ~ In 123 lid ->
  has_text (cyr (nth i attributes ""%string)) comm = has_attribute ns i.
Proof.
  intros Hi H Hok Hl. destruct (attr_pat i Hi) as (V & Ne & B & D). cbv zeta in V, Ne, B, D. set (p := cyr (nth i attributes ""%string)) in *.
  induction H as [|n ns sp rest Hs H IH].
  - unfold has_text. rewrite strstr_lacks; [reflexivity|]. apply (lacks_char 123); assumption.
  - inversion Hok as [|? ? Hn Hns]; subst. specialize (IH Hns). pose proof (proj1 (proj2 (gap_spaces _ Hs))) as Hsm.
    assert (T : lacks p (put_note n) -> has_text p (put_note n ++ sp ++ rest) = has_attribute ns i).
    { intros L. unfold has_text in *. rewrite strstr_token; [|exact V|exact Ne|exact L|exact Hsm|apply Hs]. destruct (strstr p rest) as [[u v]|]; exact IH. }
    assert (NB : forall s, ~ In 123 s -> lacks p s) by (intros s; apply lacks_char; exact B).
    unfold has_attribute. cbn [existsb]. fold (has_attribute ns i). destruct n as [s|s|j|s]; cbn [note_ok put_note] in *; cbn [orb].
    + apply T, NB. destruct Hn as [Hn _]. apply note_text_facts in Hn as (_ & _ & C & _). intros K. apply in_app_or in K as [K|K]; [cbn in K; lia|contradiction].
    + apply T, NB. destruct Hn as [Hn _]. apply note_text_facts in Hn as (_ & _ & C & _). intros [K|K]; [discriminate|]. apply in_app_or in K as [K|[K|[]]]; [contradiction|discriminate].
    + destruct (Nat.eqb_spec i j) as [<-|Hne].
      * cbn [orb]. unfold has_text. fold p. rewrite strstr_here. reflexivity.
      * cbn [orb]. apply T. apply D; [exact Hn|congruence].
    + apply T, NB. destruct Hn as [Hn _]. apply note_text_facts in Hn as (_ & _ & C & _). exact C.
Qed.
Lemma lex_flags_comm lid ns comm : put_comm lid ns comm -> Forall note_ok ns -> ~ In 123 lid -> lex_flags comm = attribute_bits ns.
Proof.
  intros H Hok Hl. unfold lex_flags.
  change lexflags with [(cyr (nth 0 attributes ""%string), 128); (cyr (nth 1 attributes ""%string), 256); (cyr (nth 2 attributes ""%string), 512); (cyr (nth 3 attributes ""%string), 1024)].
  cbn [fold_left fst snd]. rewrite !(has_attr_comm lid ns comm) by (assumption || lia). unfold attribute_bits.
  destruct (has_attribute ns 0), (has_attribute ns 1), (has_attribute ns 2), (has_attribute ns 3); reflexivity.
Qed.
