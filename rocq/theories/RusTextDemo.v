(** * RusTextDemo: a small dictionary in text that meets the conditions of RusTextSpec. *)
From Coq Require Import String Ascii.
From Verif Require Import Base Serial SerialProofs WordTree TreeSpec Stems StemSpec CharTables CapScheme CapSpec GramMap RusRuntime LevelSpec RusSpec Compile CompileSpec CompileFormsSpec CompileProofs CompileProofs2 CompileProofs5
  Resolve ResolveSpec ResolveProofs ResolveProofs2 CompileDemo CompileDemo2 Api Utf8 EngCompile EngCompileSpec EngCompileProofs EngCompileProofs2 EngCompileProofs4
  RusText RusTextSpec RusTextProofs RusTextProofs2 RusTextProofs3 RusTextProofs4 RusTextProofs5 RusTextProofs6.
Local Open Scope N_scope.
Local Open Scope list_scope.
Notation length := List.length.
Notation visible := RusTextSpec.visible.

(** ** A checker for articles written with single spaces *)
Definition spaced (x : rarticle) (num : bytes) : bytes :=
  r_head x ++ [32] ++ r_mark x ++ [32] ++ r_type x ++ [32] ++ r_index x ++ flat_map (fun n => 32 :: put_note n) (r_notes x) ++ [32] ++ text "LID:" ++ num.
Definition fieldb (room : nat) (s : bytes) : bool := forallb (fun c => 32 <? c) s && nonempty s && negb (has_text (text "LID:") s) && (Nat.ltb (length s) room).
Definition note_textb (s : bytes) : bool := forallb (fun c => (32 <? c) && negb (c =? 58) && negb (c =? 123)) s && nonempty s.
Definition noteb (n : note) : bool :=
  match n with
  | Postfix s => note_textb s && (Nat.leb (count_occ N.eq_dec s 45%N) 1)
  | Remark s | Aside s => note_textb s && negb (existsb (N.eqb 45) s)
  | Attribute i => Nat.ltb i 4
  end.
Definition articleb (x : rarticle) : bool :=
  fieldb 256 (r_head x) && negb (if list_eq_dec N.eq_dec (firstn 2 (r_head x)) (text "//") then true else false) && fieldb 32 (r_mark x) && fieldb 32 (r_type x) && fieldb 32 (r_index x) &&
  forallb noteb (r_notes x) && (0 <? r_id x) && (r_id x <? 2 ^ 32).
Lemma nonempty_ok (s : bytes) : nonempty s = true -> s <> [].
Proof. destruct s; [discriminate|congruence]. Qed.
Lemma fieldb_ok room s : fieldb room s = true -> field room s.
Proof.
  unfold fieldb, field. rewrite !andb_true_iff. intros [[[H1 H2] H3] H4]. split; [|split; [apply nonempty_ok, H2|split; [|apply Nat.ltb_lt, H4]]].
  - apply Forall_forall. intros c Hc. rewrite forallb_forall in H1. apply N.ltb_lt, H1, Hc.
  - apply strstr_none_lacks. unfold has_text in H3. destruct (strstr (text "LID:") s); [discriminate|reflexivity].
Qed.
Lemma note_textb_ok s : note_textb s = true -> note_text s.
Proof.
  unfold note_textb, note_text. rewrite andb_true_iff. intros [H1 H2]. split; [|apply nonempty_ok, H2]. apply Forall_forall. intros c Hc. rewrite forallb_forall in H1. apply H1 in Hc.
  rewrite !andb_true_iff, !negb_true_iff in Hc. destruct Hc as [[K1 K2] K3]. split; [apply N.ltb_lt, K1|]. split; apply N.eqb_neq; assumption.
Qed.
Lemma noteb_ok n : noteb n = true -> note_ok n.
Proof.
  destruct n as [s|s|i|s]; cbn [noteb note_ok].
  - rewrite andb_true_iff. intros [H1 H2]. split; [apply note_textb_ok, H1|apply Nat.leb_le, H2].
  - rewrite andb_true_iff, negb_true_iff. intros [H1 H2]. split; [apply note_textb_ok, H1|]. intros K. apply not_true_iff_false in H2. apply H2. apply existsb_exists. exists 45. auto.
  - apply Nat.ltb_lt.
  - rewrite andb_true_iff, negb_true_iff. intros [H1 H2]. split; [apply note_textb_ok, H1|]. intros K. apply not_true_iff_false in H2. apply H2. apply existsb_exists. exists 45. auto.
Qed.
Lemma articleb_ok x : articleb x = true -> rarticle_ok x.
Proof.
  unfold articleb. rewrite !andb_true_iff, negb_true_iff. intros (((((((H1 & H2) & H3) & H4) & H5) & H6) & H7) & H8). constructor; try (apply fieldb_ok; assumption).
  - destruct (list_eq_dec N.eq_dec (firstn 2 (r_head x)) (text "//")); [discriminate|assumption].
  - apply Forall_forall. intros n Hn. rewrite forallb_forall in H6. apply noteb_ok, H6, Hn.
  - split; apply N.ltb_lt; assumption.
Qed.
Definition decimalb (t : bytes) (n : N) : bool := forallb (fun c => (48 <=? c) && (c <=? 57)) t && nonempty t && negb (hd 0 t =? 48) && (fold_left (fun a c => 10 * a + (c - 48)) t 0 =? n).
Lemma decimalb_ok t n : decimalb t n = true -> numeral t n.
Proof.
  unfold decimalb. rewrite !andb_true_iff, negb_true_iff. intros [[[H1 H2] H3] H4]. left. split; [|split; [apply nonempty_ok, H2|split; [apply N.eqb_neq, H3|apply N.eqb_eq, H4]]].
  apply Forall_forall. intros c Hc. rewrite forallb_forall in H1. apply H1, andb_true_iff in Hc as [K1 K2]. split; apply N.leb_le; assumption.
Qed.
Lemma one_gap : gap [32].
Proof. split; [repeat constructor; right; reflexivity|discriminate]. Qed.
Lemma spaced_notes ns : put_notes ns (flat_map (fun n => 32 :: put_note n) ns).
Proof. induction ns as [|n ns IH]; [constructor|]. cbn [flat_map]. rewrite <- app_comm_cons. apply (pn_cons n ns [32]); [apply one_gap|exact IH]. Qed.
Lemma spaced_written x num : articleb x = true -> decimalb num (r_id x) = true -> rwritten x (spaced x num ++ [10]) (spaced x num).
Proof.
  intros H1 H2. split; [apply articleb_ok, H1|]. exists [], [10]. split; [reflexivity|]. split; [constructor|]. split; [repeat constructor; right; left; reflexivity|].
  apply (Rt_all x [32] [32] [32] _ [32] num one_gap one_gap one_gap (spaced_notes _) one_gap). apply decimalb_ok, H2.
Qed.

(** ** Tables and articles *)
Definition demo_tables : tables := Eval vm_compute in
  Tables demo_ftable [(cyr "м 1a", 1); (cyr "м 1*b", 1); (cyr "нсв 12a", 20)] demo_mtable [(cyr "м 1*b", demo_alts)].
Definition art (head mark type index : string) (notes : list note) (id : N) (num : string) : rarticle * bytes :=
  (RArticle (cyr head) (cyr mark) (cyr type) (cyr index) notes id, cyr num).
Definition demo_arts : list (rarticle * bytes) := Eval vm_compute in
  [ art "дом" "#" "м" "1a" [] 1 "1"; art "сон" "#" "м" "1*b" [] 2 "2"; art "сон-то" "#" "м" "1*b" [Aside (cyr "сон"); Postfix (cyr "-то")] 6 "6";
    art "мыть" "#" "нсв" "12a" [] 7 "7"; art "под" "#" "предл." "ШП:Т" [] 300 "300"; art "как" "#" "союз" "0" [] 3 "3"; art "глокая" "#" "кузд" "1a" [] 8 "8" ]%string.
Definition demo_articles : list rarticle := Eval vm_compute in map fst demo_arts.
Definition demo_lines : list bytes := Eval vm_compute in
  map (fun s => cyr s ++ [10])
    ["дом # м 1a LID:1"; "// существительные"; "сон # м 1*b LID:2"; ""; "сон-то # м 1*b сон post:-то LID:6"; "мыть # нсв 12a LID:7"; "под # предл. ШП:Т LID:300";
     "как # союз 0 LID:3"; "глокая # кузд 1a LID:8"; "  черновик"]%string.
Definition demo_unknown : list bytes := Eval vm_compute in map cyr ["// существительные"; "глокая # кузд 1a LID:8"]%string.

Lemma demo_written : Forall (fun xn => rwritten (fst xn) (spaced (fst xn) (snd xn) ++ [10]) (spaced (fst xn) (snd xn))) demo_arts.
Proof.
  assert (H : forallb (fun xn => articleb (fst xn) && decimalb (snd xn) (r_id (fst xn))) demo_arts = true) by (vm_compute; reflexivity).
  apply Forall_forall. intros xn Hx. rewrite forallb_forall in H. apply H, andb_true_iff in Hx as [H1 H2]. apply spaced_written; assumption.
Qed.
Lemma demo_tables_ok : tables_ok demo_tables.
Proof. intros name off H. apply lookup_in in H. assert (K : Forall (fun kv => 0 < snd kv < 2 ^ 16) (tb_findex demo_tables)) by (repeat constructor). rewrite Forall_forall in K. exact (K _ H). Qed.

Lemma demo_comment : comment (nth 1 demo_lines []) (nth 0 demo_unknown []).
Proof. exists [], [10], (skipn 2 (nth 0 demo_unknown [])). repeat match goal with |- _ /\ _ => split end; try (vm_compute; reflexivity); repeat constructor; vm_compute; congruence. Qed.
Lemma demo_blank : no_entry (nth 3 demo_lines []).
Proof. left. repeat constructor. vm_compute. congruence. Qed.
Lemma demo_draft : no_entry (nth 9 demo_lines []).
Proof.
  right. split; [apply strstr_none_lacks; vm_compute; reflexivity|]. intros body H. apply comment_body in H as [H1 H2]. rewrite <- H1 in H2. vm_compute in H2. discriminate.
Qed.
Lemma rl_step line body lines x l u xs ls us ls' us' line' : rwritten x line body -> read_line 8 demo_tables line = Ok (l, u) -> line' = line -> rlists 8 demo_tables lines xs ls us ->
  ls' = l ++ ls -> us' = u ++ us -> rlists 8 demo_tables (line' :: lines) (x :: xs) ls' us'.
Proof. intros W E -> H -> ->. apply (read_senses 8 demo_tables x line body l u demo_tables_ok W) in E as [Hs ->]. apply (rl_article 8 demo_tables line body); assumption. Qed.
Lemma demo_rlists : rlists 8 demo_tables demo_lines demo_articles demo_ys demo_unknown.
Proof.
  pose proof demo_written as W. unfold demo_arts in W.
  repeat match type of W with Forall _ (_ :: _) => let H := fresh "W" in pose proof (Forall_inv W) as H; apply Forall_inv_tail in W; cbn [fst snd] in H end. clear W.
  assert (E : exists ls us, rlists 8 demo_tables demo_lines demo_articles ls us /\ ls = demo_ys /\ us = demo_unknown).
  { eexists. eexists. split.
    - eapply rl_step; [exact W0|vm_compute; reflexivity|vm_compute; reflexivity| |reflexivity|reflexivity].
      eapply rl_comment; [apply demo_comment|].
      eapply rl_step; [exact W1|vm_compute; reflexivity|vm_compute; reflexivity| |reflexivity|reflexivity].
      eapply rl_none; [apply demo_blank|].
      eapply rl_step; [exact W2|vm_compute; reflexivity|vm_compute; reflexivity| |reflexivity|reflexivity].
      eapply rl_step; [exact W3|vm_compute; reflexivity|vm_compute; reflexivity| |reflexivity|reflexivity].
      eapply rl_step; [exact W4|vm_compute; reflexivity|vm_compute; reflexivity| |reflexivity|reflexivity].
      eapply rl_step; [exact W5|vm_compute; reflexivity|vm_compute; reflexivity| |reflexivity|reflexivity].
      eapply rl_step; [exact W6|vm_compute; reflexivity|vm_compute; reflexivity| |reflexivity|reflexivity].
      eapply rl_none; [apply demo_draft|]. apply rl_nil.
    - split; reflexivity. }
  destruct E as (ls & us & H & -> & ->). exact H.
Qed.

Lemma demo_ok x : In x demo_ys -> lexeme_ok demo_ftable demo_mtable cyrillic x.
Proof.
  intros Hx. apply lexemeb_ok; [apply demo_bytes| |].
  - assert (H : forallb (lexemeb demo_ftable cyrillic) demo_ys = true) by (vm_compute; reflexivity). rewrite forallb_forall in H. apply H, Hx.
  - assert (H : forallb (fun x => (m_mtoffs (l_class x) =? 0) || (m_mtoffs (l_class x) =? 1)) demo_ys = true) by reflexivity. rewrite forallb_forall in H. apply H, orb_true_iff in Hx as [E|E]; apply N.eqb_eq in E.
    + left. exact E.
    + right. rewrite E. split; [reflexivity|]. exists sleep. apply sleep_at.
Qed.
Lemma demo_off name off : In (name, off) (tb_findex demo_tables) -> exists x, In x demo_ys /\ inflected (l_class x) = true /\ m_tfoffs (l_class x) = off.
Proof.
  intros H. repeat destruct H as [[= _ <-]|H]; try contradiction.
  - exists (nth 0 demo_ys (Lexeme [] (Morphclass 0 0 0) 0 0 [] 0)). repeat split. left. reflexivity.
  - exists (nth 0 demo_ys (Lexeme [] (Morphclass 0 0 0) 0 0 [] 0)). repeat split. left. reflexivity.
  - exists (nth 3 demo_ys (Lexeme [] (Morphclass 0 0 0) 0 0 [] 0)). repeat split. right. right. right. left. reflexivity.
Qed.
Lemma demo_tables_valid : tables_valid cyrillic demo_tables.
Proof.
  split; [apply cyrillic_ok|apply demo_bytes|apply demo_tables_ok| | | |].
  - intros name off _ H. apply lookup_in in H. repeat destruct H as [[= _ <-]|H]; try contradiction; apply nouns_plain || apply verbs_plain.
  - intros name off s g f H He. apply lookup_in in H; destruct (demo_off _ _ H) as (x & Hx & Hi & E). subst off. apply (lo_endings _ _ _ _ (demo_ok x Hx) Hi s g f He).
  - intros name off s l H Hnd Hl. apply lookup_in in H; destruct (demo_off _ _ H) as (x & Hx & Hi & E). subst off. apply (lo_descs _ _ _ _ (demo_ok x Hx) Hi s l Hnd Hl).
  - intros name alts o cond H Ho. apply lookup_in in H. destruct H as [[= _ <-]|[]]. destruct Ho as [[= <- <-]|[]]. split; [lia|]. split; [exists sleep; apply sleep_at|intros mx off Hm _; left; apply sleep_letters, Hm].
Qed.
Lemma demo_articles_valid : Forall (rarticle_valid cyrillic) demo_articles.
Proof.
  assert (H : forallb (fun x => inb cyrillic (firstn (length (plain_word (r_head x)) - length (post_of (r_notes x))) (plain_word (r_head x))) &&
      forallb (fun c => c <? 256) (post_of (r_notes x)) && Nat.ltb (length (post_of (r_notes x))) 128 && (attribute_bits (r_notes x) =? 0)) demo_articles = true) by (vm_compute; reflexivity).
  apply Forall_forall. intros x Hx. pose proof Hx as Hin. rewrite forallb_forall in H. apply H in Hx. rewrite !andb_true_iff in Hx. destruct Hx as [[[H1 H2] H3] H4]. split.
  - apply inb_ok, H1.
  - split; [apply Forall_forall; intros c Hc; rewrite forallb_forall in H2; apply N.ltb_lt, H2, Hc|apply Nat.ltb_lt, H3].
  - intros p Hp. split; [apply N.eqb_eq, H4|]. apply typed_type in Hp as [Hp _].
    assert (K : forallb (fun x => negb ((type_of (r_mark x ++ 32 :: r_type x) =? type_bits 51 true) || (type_of (r_mark x ++ 32 :: r_type x) =? type_bits 51 false)) || negb (case_scale (r_index x) =? 0)) demo_articles = true) by (vm_compute; reflexivity).
    rewrite forallb_forall in K. apply K in Hin. rewrite Hp in Hin. destruct p; rewrite N.eqb_refl in Hin; cbn [orb negb] in Hin; rewrite ?orb_true_r in Hin; cbn [orb negb] in Hin;
      apply negb_true_iff, N.eqb_neq in Hin; exists (N.to_nat (N.log2 (case_scale (r_index x)))); apply case_scale_eq; rewrite N2Nat.id; apply N.bit_log2; exact Hin.
Qed.
Lemma demo_rcompile : rcompile_lines 8 demo_tables demo_lines = Ok (Some (ys_compiled, demo_unknown)).
Proof. rewrite (rcompile_eq 8 demo_tables demo_lines demo_articles demo_ys demo_unknown demo_tables_ok demo_rlists). change (tb_flex demo_tables) with demo_ftable. change (tb_mix demo_tables) with demo_mtable. rewrite ys_compile. reflexivity. Qed.
