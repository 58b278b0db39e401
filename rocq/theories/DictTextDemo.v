(** * DictTextDemo: a decision procedure for the conditions of DictTextSpec, and a small dictionary in three texts. *)
From Coq Require Import String.
From Verif Require Import Base Serial SerialProofs WordTree TreeSpec Stems StemSpec CharTables CapScheme CapSpec GramMap RusRuntime LevelSpec RusSpec RusProofs Compile CompileSpec CompileProofs CompileProofs2 CompileProofs5 CompileDemo
  Resolve ResolveSpec ResolveProofs ResolveProofs2 StripSpec StripProofs StripProofs2 StripProofs3 Api EngCompile EngCompileSpec EngCompileProofs Utf8 RusText RusTextSpec RusTextProofs RusTextProofs2 RusTextProofs3 RusTextProofs4 RusTextProofs5 RusTextProofs6 RusTextDemo
  PropRusTextLemmas Tfc TfcSpec TfcProofs TfcProofs2 TfcDemo PropTfcLemmas Makeich MakeichSpec MakeichDemo PropMakeichLemmas DictTextSpec DictTextProofs DictTextProofs2 DictTextProofs3.
Local Open Scope N_scope.
Local Open Scope list_scope.
Notation length := List.length.
Notation lookup := RusText.lookup.

(** ** Deciding *)
Definition first_def (ds : list definition) (name : bytes) : option (list fxitem) := option_map d_lines (find (fun d => has_name name (d_names d)) ds).
Lemma first_def_some ds name lines : first_def ds name = Some lines <-> defined ds name lines.
Proof.
  unfold first_def. split.
  - induction ds as [|d ds IH]; cbn [find]; [discriminate|]. destruct (has_name name (d_names d)) eqn:E.
    + cbn [option_map]. intros H. injection H as <-. apply has_name_iff in E. exists [], d, ds. repeat split; auto.
    + intros H. destruct (IH H) as (a & d' & z & -> & K1 & K2 & K3). exists (d :: a), d', z. repeat split; auto. constructor; [|exact K3]. intros K. apply has_name_iff in K. congruence.
  - intros (a & d & z & -> & K1 & -> & K3). induction a as [|x a IH]; cbn [app find].
    + apply has_name_iff in K1. rewrite K1. reflexivity.
    + inversion K3 as [|? ? Q1 Q2]; subst. destruct (has_name name (d_names x)) eqn:E; [apply has_name_iff in E; contradiction|]. apply IH, Q2.
Qed.
Fixpoint gather {A B : Type} (f : A -> option (list B)) (l : list A) : option (list B) :=
  match l with [] => Some [] | a :: l' => match f a, gather f l' with Some x, Some y => Some (x ++ y) | _, _ => None end end.
Lemma gather_in {A B : Type} (f : A -> option (list B)) l : forall r, gather f l = Some r -> (forall a, In a l -> exists x, f a = Some x /\ incl x r) /\ forall y, In y r -> exists a x, In a l /\ f a = Some x /\ In y x.
Proof.
  induction l as [|a l IH]; cbn [gather]; intros r H; [injection H as <-; split; [intros a []|intros y []]|]. destruct (f a) as [x|] eqn:E; [|discriminate]. destruct (gather f l) as [y|]; [|discriminate]. injection H as <-. destruct (IH y eq_refl) as [I1 I2]. split.
  - intros a' [<-|K]; [exists x; split; [exact E|apply incl_appl, incl_refl]|]. destruct (I1 a' K) as (x' & K1 & K2). exists x'. split; [exact K1|apply incl_appr, K2].
  - intros z K. apply in_app_or in K as [K|K]; [exists a, x; split; [left; reflexivity|auto]|]. destruct (I2 z K) as (a' & x' & K1 & K2). exists a', x'. split; [right; exact K1|exact K2].
Qed.
Section Check.
  Variable ds : list definition.
  Definition is_linked (it : fxitem) : bool := negb (N.land (fx_flags it) 0xc0 =? 0).
  Lemma is_linked_iff it : is_linked it = true <-> linked_to it.
  Proof. unfold is_linked, linked_to. rewrite negb_true_iff. apply N.eqb_neq. Qed.
  (** all endings *)
  Fixpoint tell_list (k : nat) (name : bytes) : option (list described) :=
    match k with
    | O => None
    | S k' => match first_def ds name with
              | None => None
              | Some lines => gather (fun it => match (if is_linked it then tell_list k' (fx_next it) else Some []) with
                                                | None => None
                                                | Some l => Some ((if N.testbit (fx_flags it) 7 then [] else [describe_line it]) ++ map (after_line it) l)
                                                end) lines
              end
    end.
  Lemma tell_list_all k : forall name l, tell_list k name = Some l -> forall s g f, tells ds name s g f <-> In (s, g, f) l.
  Proof.
    induction k as [|k IH]; intros name l H; [discriminate|]. cbn [tell_list] in H. destruct (first_def ds name) as [lines|] eqn:E; [|discriminate]. apply first_def_some in E. destruct (gather_in _ _ _ H) as [G1 G2]. intros s g f. split.
    - intros Ht. inversion Ht as [name' lines' it Hd Hin Hb|name' lines' it s' g' f' Hd Hin Hlk Ht']; subst; rewrite (defined_unique _ _ _ _ Hd E) in Hin; destruct (G1 it Hin) as (x & Ex & Hi); destruct (if is_linked it then _ else _) as [l'|] eqn:El; try discriminate; injection Ex as <-; apply Hi, in_or_app.
      + left. rewrite Hb. left. reflexivity.
      + right. apply is_linked_iff in Hlk. rewrite Hlk in El. apply in_map_iff. exists (s', g', f'). split; [reflexivity|]. apply (IH _ _ El), Ht'.
    - intros Hin. destruct (G2 _ Hin) as (it & x & Hit & Ex & Hx). destruct (if is_linked it then _ else _) as [l'|] eqn:El; [|discriminate]. injection Ex as <-. apply in_app_or in Hx as [Hx|Hx].
      + destruct (N.testbit (fx_flags it) 7) eqn:E7; [destruct Hx|]. destruct Hx as [Hx|[]]. unfold describe_line in Hx. injection Hx as <- <- <-. eapply tells_here; eassumption.
      + apply in_map_iff in Hx as ([[s' g'] f'] & Ea & Hx). cbn [after_line] in Ea. injection Ea as <- <- <-. destruct (is_linked it) eqn:Elk; [|injection El as <-; destruct Hx]. apply is_linked_iff in Elk. eapply tells_further; try eassumption. apply (IH _ _ El), Hx.
  Qed.
  (** the endings of the normal form *)
  Definition normal_lineb (verb : bool) (nf : N) (it : fxitem) : bool := if verb then fx_info it mod 128 =? 1 else fx_info it =? nf.
  Lemma normal_lineb_iff verb nf it : normal_lineb verb nf it = true <-> normal_line verb nf it.
  Proof. unfold normal_lineb, normal_line. destruct verb; apply N.eqb_eq. Qed.
  Fixpoint each {A B : Type} (f : A -> option B) (l : list A) : option (list B) :=
    match l with [] => Some [] | a :: l' => match f a, each f l' with Some x, Some y => Some (x :: y) | _, _ => None end end.
  Lemma each_all {A B : Type} (f : A -> option B) (R : A -> B -> Prop) l : (forall a x, f a = Some x -> R a x) -> forall r, each f l = Some r -> Forall2 R l r.
  Proof.
    intros HR. induction l as [|a l IH]; cbn [each]; intros r H; [injection H as <-; constructor|]. destruct (f a) as [x|] eqn:E; [|discriminate]. destruct (each f l) as [y|]; [|discriminate]. injection H as <-. constructor; [apply HR, E|apply IH; reflexivity].
  Qed.
  Fixpoint normal_list (k : nat) (verb : bool) (nf : N) (name : bytes) : option (list described) :=
    match k with
    | O => None
    | S k' => match first_def ds name with
              | None => None
              | Some lines =>
                  match each (fun it => if normal_lineb verb nf it then if N.testbit (fx_flags it) 7 then option_map (map (after_line it)) (normal_list k' verb nf (fx_next it)) else Some [describe_line it] else Some []) (norm lines) with
                  | None => None
                  | Some ls => Some (concat ls ++ if verb then map describe_line (filter reflexive_line (norm lines)) else [])
                  end
              end
    end.
  Lemma normal_list_told k verb nf : forall name l, normal_list k verb nf name = Some l -> normal_told ds verb nf name l.
  Proof.
    induction k as [|k IH]; intros name l H; [discriminate|]. cbn [normal_list] in H. destruct (first_def ds name) as [lines|] eqn:E; [|discriminate]. apply first_def_some in E. destruct (each _ (norm lines)) as [ls|] eqn:El; [|discriminate]. injection H as <-.
    eapply nt_table; [exact E|apply norm_ordered|]. refine (each_all _ _ _ _ _ El). intros it x. destruct (normal_lineb verb nf it) eqn:En.
    - apply normal_lineb_iff in En. destruct (N.testbit (fx_flags it) 7) eqn:E7.
      + destruct (normal_list k verb nf (fx_next it)) as [l'|] eqn:E'; [|discriminate]. cbn [option_map]. intros K. injection K as <-. apply nl_further; [exact En|exact E7|apply IH, E'].
      + intros K. injection K as <-. apply nl_here; assumption.
    - intros K. injection K as <-. apply nl_other. intros Q. apply normal_lineb_iff in Q. congruence.
  Qed.
  (** the tables that continue a table *)
  Fixpoint names_from (k : nat) (through : fxitem -> bool) (name : bytes) : option (list bytes) :=
    match k with
    | O => None
    | S k' => match first_def ds name with
              | None => None
              | Some lines => option_map (cons name) (gather (fun it => if through it && is_linked it then names_from k' through (fx_next it) else Some []) lines)
              end
    end.
  Lemma names_linked k : forall name l, names_from k (fun _ => true) name = Some l -> forall n, table_linked ds name n -> In n l.
  Proof.
    induction k as [|k IH]; intros name l H n Hn; [discriminate|]. cbn [names_from] in H. destruct (first_def ds name) as [lines|] eqn:E; [|discriminate]. apply first_def_some in E. destruct (gather _ lines) as [r|] eqn:Eg; [|discriminate]. cbn [option_map] in H. injection H as <-.
    inversion Hn as [|n' lines' it m Hd Hin Hlk Hn']; subst; [left; reflexivity|right]. rewrite (defined_unique _ _ _ _ Hd E) in Hin. destruct (proj1 (gather_in _ _ _ Eg) it Hin) as (x & Ex & Hi). apply is_linked_iff in Hlk. rewrite Hlk in Ex. cbn [andb] in Ex. apply Hi, (IH _ _ Ex), Hn'.
  Qed.
  Definition is_empty (it : fxitem) : bool := match fx_tail it with [] => true | _ => false end.
  Lemma names_begin k : forall name l, names_from k is_empty name = Some l -> forall n, table_begins ds name n -> In n l.
  Proof.
    induction k as [|k IH]; intros name l H n Hn; [discriminate|]. cbn [names_from] in H. destruct (first_def ds name) as [lines|] eqn:E; [|discriminate]. apply first_def_some in E. destruct (gather _ lines) as [r|] eqn:Eg; [|discriminate]. cbn [option_map] in H. injection H as <-.
    inversion Hn as [|n' lines' it m Hd Hin He Hlk Hn']; subst; [left; reflexivity|right]. rewrite (defined_unique _ _ _ _ Hd E) in Hin. destruct (proj1 (gather_in _ _ _ Eg) it Hin) as (x & Ex & Hi). apply is_linked_iff in Hlk. rewrite Hlk in Ex. unfold is_empty in Ex at 1. rewrite He in Ex. cbn [andb] in Ex. apply Hi, (IH _ _ Ex), Hn'.
  Qed.
  Definition lines_at (name : bytes) : list fxitem := match first_def ds name with Some l => l | None => [] end.
  Lemma lines_at_eq name lines : defined ds name lines -> lines_at name = lines.
  Proof. intros H. apply first_def_some in H. unfold lines_at. rewrite H. reflexivity. Qed.
  Lemma fewer_length k lines : (length lines < k)%nat -> fewer k lines.
  Proof. intros H l Hn Hi. eapply Nat.le_lt_trans; [apply NoDup_incl_length; eassumption|exact H]. Qed.

  Definition plain_check (k : nat) (name : bytes) : bool :=
    match names_from k is_empty name with
    | None => false
    | Some l => forallb (fun n => Nat.ltb (length (lines_at n)) 128 && forallb (fun it => negb (is_empty it) || N.testbit (fx_flags it) 7 || negb (is_linked it)) (lines_at n)) l
    end.
  Lemma plain_checked k name : plain_check k name = true -> plain_tables ds name.
  Proof.
    unfold plain_check. destruct (names_from k is_empty name) as [l|] eqn:E; [|discriminate]. intros H n lines Hb Hd. rewrite forallb_forall in H. specialize (H n (names_begin _ _ _ E n Hb)). rewrite (lines_at_eq _ _ Hd) in H. apply andb_true_iff in H as [H1 H2].
    split; [apply fewer_length, Nat.ltb_lt, H1|]. intros it Hin He H7 Hl. rewrite forallb_forall in H2. specialize (H2 it Hin). apply is_linked_iff in Hl. unfold is_empty in H2. rewrite He, H7, Hl in H2. discriminate.
  Qed.
  Definition ends_withb (s t : bytes) : bool := Nat.leb (length t) (length s) && (if list_eq_dec N.eq_dec (skipn (length s - length t) s) t then true else false).
  Lemma ends_withb_iff s t : ends_withb s t = true <-> ends_with s t.
  Proof.
    unfold ends_withb, ends_with. split.
    - intros H. apply andb_true_iff in H as [_ H]. destruct (list_eq_dec N.eq_dec _ t) as [E|]; [|discriminate]. exists (firstn (length s - length t) s). rewrite <- E at 2. symmetry. apply firstn_skipn.
    - intros (a & ->). rewrite app_length. replace (length a + length t - length t)%nat with (length a) by lia. rewrite skipn_app, skipn_all, Nat.sub_diag. cbn [app skipn]. destruct (list_eq_dec N.eq_dec t t) as [_|K]; [|contradiction K; reflexivity]. rewrite andb_true_r. apply Nat.leb_le. lia.
  Qed.
  Definition search_check (k : nat) (wd : N) (name word : bytes) : bool :=
    let nf := if is_verb wd then 0x8001 else normal_gramm wd word in
    negb (is_verb wd && N.testbit wd 6) && negb (existsb (N.eqb 0) word) &&
    (match normal_list k (is_verb wd) nf name with None => false | Some _ => true end) &&
    match names_from k (fun _ => true) name with
    | None => false
    | Some l => forallb (fun n => Nat.ltb (length (lines_at n)) 128 &&
        forallb (fun it => Nat.ltb (length (fx_tail it)) 16 && (negb (normal_lineb (is_verb wd) nf it && N.testbit (fx_flags it) 7) ||
          match normal_list k (is_verb wd) nf (fx_next it) with None => false | Some ends => forallb (fun d => negb (ends_withb word (fst (fst d))) || ends_withb word (fx_tail it ++ fst (fst d))) ends end)) (lines_at n)) l
    end.
  Lemma search_checked k wd name word : search_check k wd name word = true -> search_told ds wd name word /\ exists l, normal_of_table ds wd name word l.
  Proof.
    unfold search_check. set (nf := if is_verb wd then 0x8001 else normal_gramm wd word). intros H. apply andb_true_iff in H as [H Hl]. apply andb_true_iff in H as [H Hn]. apply andb_true_iff in H as [Hp Hz].
    destruct (names_from k (fun _ => true) name) as [l|] eqn:El; [|discriminate]. rewrite forallb_forall in Hl. split; [constructor|].
    - intros Hv. rewrite Hv in Hp. apply negb_true_iff in Hp. exact Hp.
    - intros n lines Hk Hd. specialize (Hl n (names_linked _ _ _ El n Hk)). rewrite (lines_at_eq _ _ Hd) in Hl. apply andb_true_iff in Hl as [H1 H2]. split; [apply fewer_length, Nat.ltb_lt, H1|]. apply Forall_forall. intros it Hin. rewrite forallb_forall in H2. specialize (H2 it Hin). apply andb_true_iff in H2 as [H2 _]. apply Nat.ltb_lt, H2.
    - intros n lines it l' d Hk Hd Hin Hno H7 Hnt Hd' He. specialize (Hl n (names_linked _ _ _ El n Hk)). rewrite (lines_at_eq _ _ Hd) in Hl. apply andb_true_iff in Hl as [_ H2]. rewrite forallb_forall in H2. specialize (H2 it Hin). apply andb_true_iff in H2 as [_ H2].
      apply normal_lineb_iff in Hno. fold nf in Hno. rewrite Hno, H7 in H2. cbn [andb negb orb] in H2. destruct (normal_list k (is_verb wd) nf (fx_next it)) as [ends|] eqn:En; [|discriminate]. apply normal_list_told in En. unfold normal_of_table in Hnt. fold nf in Hnt. rewrite (normal_told_unique _ _ _ _ _ En _ Hnt) in H2.
      rewrite forallb_forall in H2. specialize (H2 d Hd'). apply ends_withb_iff in He. rewrite He in H2. apply ends_withb_iff, H2.
    - apply existsb_false_in, negb_true_iff, Hz.
    - destruct (normal_list k (is_verb wd) nf name) as [l'|] eqn:En; [|discriminate]. exists l'. apply (normal_list_told _ _ _ _ _ En).
  Qed.

  Definition texts_check (k : nat) (alphabet : bytes) (ms : list mixdef) : bool :=
    format_check ds && links_check ds && (whole_size ds <=? 0x20000) && fits_check ms && consistent_check ms && (mixes_size ms <=? 0x10000) &&
    forallb (fun name => (negb (existsb (N.eqb 32) name) || plain_check k name) &&
      match tell_list k name with None => false | Some l => Nat.leb (length l) 64 && forallb (fun d => inb alphabet (fst (fst d))) l end &&
      forallb (fun x => forallb (fun s => match s with [] => false | c :: _ => negb (c =? 0) end) (ml_strings x)) (mixes_of ms name)) (all_names ds).
  Lemma name_listed name lines : defined ds name lines -> In name (all_names ds).
  Proof. intros (a & d & z & -> & K & _). unfold all_names. apply in_flat_map. exists d. split; [apply in_or_app; right; left; reflexivity|exact K]. Qed.
  Lemma tells_defined name s g f : tells ds name s g f -> exists lines, defined ds name lines.
  Proof. intros H. destruct H; eauto. Qed.
  Lemma texts_checked k alphabet ms : alphabet_ok alphabet -> texts_check k alphabet ms = true -> texts_valid alphabet ds ms.
  Proof.
    intros Ha H. unfold texts_check in H. do 6 (apply andb_true_iff in H; let K := fresh "K" in destruct H as [H K]). rewrite forallb_forall in K.
    assert (G : forall name lines, defined ds name lines -> exists l, tell_list k name = Some l /\ (length l <= 64)%nat /\ (forall d, In d l -> incl (fst (fst d)) alphabet)).
    { intros name lines Hd. specialize (K name (name_listed _ _ Hd)). apply andb_true_iff in K as [K _]. apply andb_true_iff in K as [_ K]. destruct (tell_list k name) as [l|]; [|discriminate]. exists l. split; [reflexivity|]. apply andb_true_iff in K as [Q1 Q2]. split; [apply Nat.leb_le, Q1|].
      intros d Hin. rewrite forallb_forall in Q2. apply inb_ok, Q2, Hin. }
    constructor.
    - exact Ha.
    - apply format_checked, H.
    - apply links_checked. assumption.
    - apply N.leb_le. assumption.
    - apply fits_checked. assumption.
    - apply consistent_checked. assumption.
    - apply N.leb_le. assumption.
    - intros name lines Hsp Hd. specialize (K name (name_listed _ _ Hd)). apply andb_true_iff in K as [K _]. apply andb_true_iff in K as [K _]. apply orb_true_iff in K as [K|K]; [|eapply plain_checked, K]. exfalso. revert Hsp. apply existsb_false_in, negb_true_iff, K.
    - intros name s g f Ht. destruct (tells_defined _ _ _ _ Ht) as (lines & Hd). destruct (G _ _ Hd) as (l & El & _ & Hi). apply (tell_list_all _ _ _ El) in Ht. apply (Hi _ Ht).
    - intros name s l Hn Hl. destruct l as [|gf l]; [cbn; lia|]. destruct (tells_defined _ _ _ _ (Hl gf (or_introl eq_refl))) as (lines & Hd). destruct (G _ _ Hd) as (r & Er & Hr & _). etransitivity; [|exact Hr].
      rewrite <- (map_length (fun gf => (s, fst gf, snd gf)) (gf :: l)). apply NoDup_incl_length.
      + apply FinFun.Injective_map_NoDup; [|exact Hn]. intros [a1 a2] [b1 b2] E. cbn [fst snd] in E. congruence.
      + intros d Hin. apply in_map_iff in Hin as (gf' & <- & Hin). apply (tell_list_all _ _ _ Er), Hl, Hin.
    - intros name lines x Hd Hx. specialize (K name (name_listed _ _ Hd)). apply andb_true_iff in K as [_ K]. rewrite forallb_forall in K. specialize (K x Hx). rewrite forallb_forall in K. left. apply Forall_forall. intros s Hs. specialize (K s Hs). destruct s as [|c s]; [discriminate|]. exists c, s. split; [reflexivity|]. apply N.eqb_neq, negb_true_iff, K.
  Qed.

  (** articles *)
  Definition typed_list (mark type : bytes) : list (N * bool) := map fst (filter (fun np => has_name (mark ++ 32 :: type) (map cyr (snd np))) word_types).
  Lemma typed_listed mark type n p : typed mark type n p -> In (n, p) (typed_list mark type).
  Proof. intros (names & name & H1 & H2 & E). unfold typed_list. apply in_map_iff. exists (n, p, names). split; [reflexivity|]. apply filter_In. split; [exact H1|]. cbn [snd]. apply has_name_iff. rewrite <- E. apply in_map, H2. Qed.
  Definition base_of (x : rarticle) : bytes := firstn (length (plain_word (r_head x)) - length (post_of (r_notes x))) (plain_word (r_head x)).
  Definition article_check (k : nat) (x : rarticle) : bool :=
    negb (has_text (text "//") (r_index x)) &&
    forallb (fun np => (48 <=? fst np) || match first_def ds (table_name x (r_index x)) with None => true | Some _ => search_check k (class_bits x (fst np) (snd np)) (table_name x (r_index x)) (base_of x) end) (typed_list (r_mark x) (r_type x)).
  Lemma article_checked k x : article_check k x = true -> article_searchable ds x.
  Proof.
    unfold article_check. intros H index n p base lines Hr Ht Hc Hd Hw. apply andb_true_iff in H as [H1 H2].
    assert (Ei : index = r_index x).
    { destruct Hr as [E|(other & E)]; [exact E|]. exfalso. apply negb_true_iff in H1. unfold has_text in H1. destruct (strstr (text "//") (r_index x)) eqn:Es; [discriminate|]. apply strstr_none_lacks in Es. destruct E as [E|E]; eapply Es; exact E. }
    subst index. rewrite forallb_forall in H2. specialize (H2 _ (typed_listed _ _ _ _ Ht)). cbn [fst snd] in H2. apply orb_true_iff in H2 as [H2|H2]; [exfalso; apply Hc; apply N.leb_le, H2|]. rewrite (proj2 (first_def_some ds _ _) Hd) in H2.
    assert (Eb : base = base_of x). { destruct Hw as (rest & E & L). unfold base_of. rewrite E, app_length, <- L. replace (length base + length rest - length rest)%nat with (length base) by lia. rewrite firstn_app, Nat.sub_diag, firstn_all, app_nil_r. reflexivity. }
    rewrite Eb. eapply search_checked, H2.
  Qed.
End Check.

Definition in_lines_check (ls : list bytes) : bool := forallb (fun l => negb (existsb (N.eqb 10) (removelast l)) && (last l 0 =? 10) && Nat.ltb (length (removelast l)) 1022) ls.
Lemma in_lines_checked ls : in_lines_check ls = true -> in_lines (concat ls) ls.
Proof.
  induction ls as [|l ls IH]; intros H; [apply il_nil|]. unfold in_lines_check in H. cbn [forallb] in H. rewrite !andb_true_iff, negb_true_iff in H. destruct H as [[[H1 H2] H3] H4]. apply N.eqb_eq in H2.
  cbn [concat]. apply (in_lines_cons (removelast l)).
  - destruct l as [|c l]; [discriminate|]. rewrite <- H2. apply app_removelast_last. discriminate.
  - apply existsb_false_in, H1.
  - apply Nat.ltb_lt, H3.
  - apply IH, H4.
Qed.
Definition valid_check (alphabet : bytes) (x : rarticle) : bool :=
  inb alphabet (base_of x) && forallb (fun c => c <? 256) (post_of (r_notes x)) && Nat.ltb (length (post_of (r_notes x))) 128 && (attribute_bits (r_notes x) =? 0) &&
  (negb (existsb (fun np => fst np =? 51) (typed_list (r_mark x) (r_type x))) || negb (case_scale (r_index x) =? 0)).
Lemma valid_checked alphabet x : valid_check alphabet x = true -> rarticle_valid alphabet x.
Proof.
  unfold valid_check. intros H. do 4 (apply andb_true_iff in H; let K := fresh "K" in destruct H as [H K]). split.
  - apply inb_ok, H.
  - split; [apply Forall_forall; intros c Hc; rewrite forallb_forall in K2; apply N.ltb_lt, K2, Hc|apply Nat.ltb_lt, K1].
  - intros p Hp. split; [apply N.eqb_eq, K0|]. apply orb_true_iff in K as [K|K]; apply negb_true_iff in K.
    + exfalso. apply not_true_iff_false in K. apply K, existsb_exists. exists (51, p). split; [apply typed_listed, Hp|reflexivity].
    + apply N.eqb_neq in K. exists (N.to_nat (N.log2 (case_scale (r_index x)))). apply case_scale_eq. rewrite N2Nat.id. apply N.bit_log2. exact K.
Qed.

(** ** The dictionary *)
Definition dt_nouns_tf : bytes := Eval vm_compute in lines_of [
  ".тип м 1a, м 1*b"; "{"; "  .число Е"; "    '', И     // дом, сон"; "    а, Р"; "    у, Д"; "    '', В"; "    ом, Т"; "    е, П"; "  .число М"; "    ы, И"; "    ов, Р"; "    ам, Д"; "    ы, В"; "    ами, Т"; "    ах, П"; "}"]%string.
Definition dt_files (name : bytes) : option bytes :=
  lookup name [(text "tables/all.tf", all_tf); (text "tables/flex/verbs.tf", verbs_tf); (text "tables/flex/common.tf", common_tf); (text "tables/flex/nouns.tf", dt_nouns_tf)].
Definition dt_mix : bytes := Eval vm_compute in lines_of [".таблица м 1*b"; "{"; "  о ец ц   // боец"; "  о он н   // сон"; "}"]%string.
Definition dt_mix_files (name : bytes) : option bytes := lookup name [(text "all.mix", dt_mix)].
Definition dt_arts : list (rarticle * bytes) := Eval vm_compute in
  [ art "дом" "#" "м" "1a" [] 1 "1"; art "сон" "#" "м" "1*b" [] 2 "2"; art "сон-то" "#" "м" "1*b" [Postfix (cyr "-то")] 6 "6";
    art "делать" "#" "нсв" "1a" [] 7 "7"; art "под" "#" "предл." "ШП:Т" [] 300 "300"; art "как" "#" "союз" "0" [] 3 "3"; art "глокая" "#" "кузд" "1a" [] 8 "8" ]%string.
Definition dt_articles : list rarticle := Eval vm_compute in map fst dt_arts.
Definition dt_lines : list bytes := Eval vm_compute in
  map (fun s => cyr s ++ [10]) ["дом # м 1a LID:1"; "сон # м 1*b LID:2"; "сон-то # м 1*b post:-то LID:6"; "делать # нсв 1a LID:7"; "под # предл. ШП:Т LID:300"; "как # союз 0 LID:3"; "глокая # кузд 1a LID:8"]%string.
Definition dt_file : bytes := Eval vm_compute in concat dt_lines.
Definition dt_defs : list definition := Eval vm_compute in match parse_file dt_files same 3 (text "tables/all.tf") with Some ds => ds | None => [] end.
Definition dt_mixes : list mixdef := Eval vm_compute in match mparse_file dt_mix_files same 1 (text "all.mix") with Some ds => ds | None => [] end.
Lemma dt_defines : file_defines dt_files same 3 (text "tables/all.tf") dt_defs.
Proof. apply parse_says; [exact same_white|]. vm_compute. reflexivity. Qed.
Lemma dt_mixes_defined : mixes_defined dt_mix_files same 1 (text "all.mix") dt_mixes.
Proof. apply mparse_says; [exact same_white|]. vm_compute. reflexivity. Qed.
Lemma dt_in_lines : in_lines dt_file dt_lines.
Proof. apply (in_lines_checked dt_lines). vm_compute. reflexivity. Qed.
Lemma dt_written : Forall (fun xn => rwritten (fst xn) (spaced (fst xn) (snd xn) ++ [10]) (spaced (fst xn) (snd xn))) dt_arts.
Proof.
  assert (H : forallb (fun xn => articleb (fst xn) && decimalb (snd xn) (r_id (fst xn))) dt_arts = true) by (vm_compute; reflexivity).
  apply Forall_forall. intros xn Hx. rewrite forallb_forall in H. apply H, andb_true_iff in Hx as [H1 H2]. apply spaced_written; assumption.
Qed.
Lemma all_articles l : Forall (fun xn => rwritten (fst xn) (spaced (fst xn) (snd xn) ++ [10]) (spaced (fst xn) (snd xn))) l -> articles_in (map (fun xn => spaced (fst xn) (snd xn) ++ [10]) l) (map fst l).
Proof. induction 1 as [|xn l H Hs IH]; [constructor|]. cbn [map]. eapply ai_article; eassumption. Qed.
Lemma dt_articles_in : articles_in (map (map same) (concat [dt_lines])) dt_articles.
Proof.
  pose proof (all_articles _ dt_written) as H. assert (E1 : map (map same) (concat [dt_lines]) = map (fun xn => spaced (fst xn) (snd xn) ++ [10]) dt_arts) by (vm_compute; reflexivity). rewrite E1. exact H.
Qed.
Lemma dt_valid : dictionary_valid cyrillic dt_defs dt_mixes dt_articles.
Proof.
  constructor.
  - apply (texts_checked dt_defs 5); [apply cyrillic_ok|]. vm_compute. reflexivity.
  - assert (H : forallb (valid_check cyrillic) dt_articles = true) by (vm_compute; reflexivity). rewrite forallb_forall in H. apply Forall_forall. intros x Hx. apply valid_checked, H, Hx.
  - assert (H : forallb (article_check dt_defs 5) dt_articles = true) by (vm_compute; reflexivity). rewrite forallb_forall in H. apply Forall_forall. intros x Hx. eapply article_checked, H, Hx.
  - reflexivity.
Qed.
Definition dt_compiled : option (arrays * list bytes) := Eval vm_compute in
  match tfc 3 dt_files same (text "tables/all.tf"), makeich 1 dt_mix_files same (text "all.mix") with
  | Some (b, ix), Some (mb, mix) => match rcompile 8 (Tables b ix mb mix) same [dt_file] with Ok (Some r) => Some r | _ => None end
  | _, _ => None
  end.
Definition dt_A : arrays := Eval vm_compute in match dt_compiled with Some (A, _) => A | None => Arrays [] [] [] [] [] end.
Lemma dt_fit : arrays_fit dt_A.
Proof. split; [|split]; vm_compute; congruence. Qed.
Definition dt_tfc : bytes * list (bytes * N) := Eval vm_compute in match tfc 3 dt_files same (text "tables/all.tf") with Some r => r | None => ([], []) end.
Definition dt_makeich : bytes * list (bytes * list (N * bytes)) := Eval vm_compute in match makeich 1 dt_mix_files same (text "all.mix") with Some r => r | None => ([], []) end.
Lemma dt_built : built dt_defs dt_mixes dt_articles dt_A.
Proof.
  eapply (built_from _ _ _ _ dt_files same 3 (text "tables/all.tf") dt_mix_files same 1 (text "all.mix") (fst dt_tfc) (snd dt_tfc) (fst dt_makeich) (snd dt_makeich) 8 same [dt_file] [dt_lines]).
  - exact dt_defines.
  - exact dt_mixes_defined.
  - constructor; [exact dt_in_lines|constructor].
  - exact dt_articles_in.
  - vm_compute. reflexivity.
  - vm_compute. reflexivity.
  - vm_compute. reflexivity.
Qed.
(** A word that does not end with a hyphen and two letters needs no postfix. *)
Lemma dt_reached ignore w x tw part g f : firstn 3 (rev (map (locase rus_casing) w)) <> rev (cyr "-то") -> dictionary_word dt_defs dt_mixes dt_articles ignore w x tw part g f -> postfix_reached dt_defs x tw part.
Proof.
  intros Hw (Hin & _ & _ & E & _). right. repeat destruct Hin as [<-|Hin]; try destruct Hin; try exact I. exfalso. apply Hw. rewrite E.
  match goal with |- context [post_of ?n] => change (post_of n) with (cyr "-то") end. rewrite !rev_app_distr. rewrite <- app_assoc. rewrite firstn_app. reflexivity.
Qed.
(** сон: table "м 1*b", the ending of the normal form is empty, он alternates with н. *)
Definition dt_son : rarticle := Eval vm_compute in nth 1 dt_articles (RArticle [] [] [] [] [] 0).
Definition dt_son_mix : mixline := MixLine (cyr "о") [cyr "он"; cyr "н"].
Definition dt_son_word : tword := Eval vm_compute in TWord (cyr "с") 7 (Some (table_name dt_son (r_index dt_son))) (Some dt_son_mix) 0.
Definition dt_son_lines : list fxitem := Eval vm_compute in match first_def dt_defs (table_name dt_son (r_index dt_son)) with Some l => l | None => [] end.
Lemma dt_son_in : In dt_son dt_articles.
Proof. right. left. reflexivity. Qed.
Lemma dt_son_typed : typed (r_mark dt_son) (r_type dt_son) 7 false.
Proof.
  exists ["# м"; "м мп"; "м ммс"]%string, "# м"%string. split; [|split; [left; reflexivity|vm_compute; reflexivity]]. do 6 right. left. reflexivity.
Qed.
Lemma dt_son_defined : defined dt_defs (table_name dt_son (r_index dt_son)) dt_son_lines.
Proof. apply first_def_some. vm_compute. reflexivity. Qed.
Lemma dt_son_sense : sense dt_defs dt_mixes dt_son (r_index dt_son) (Some dt_son_word).
Proof.
  assert (Hl : normal_list dt_defs 5 false 0 (table_name dt_son (r_index dt_son)) = Some [([], 0, 3)]) by (vm_compute; reflexivity). apply normal_list_told in Hl.
  eapply (sn_changes dt_defs dt_mixes dt_son (r_index dt_son) 7 false (cyr "сон") dt_son_lines [([], 0, 3)] None (cyr "сон") (cyr "с") (Some dt_son_mix)).
  - exact dt_son_typed.
  - unfold constant. lia.
  - exact dt_son_defined.
  - exists []. split; reflexivity.
  - cbn [marked]. vm_compute. intuition discriminate.
  - exact Hl.
  - apply (ue_normal _ _ _ _ (cyr "сон") ([], 0, 3)); [reflexivity|]. exists [], []. repeat split. constructor.
  - change (mixes_of dt_mixes (table_name dt_son (r_index dt_son))) with ([MixLine (cyr "о") [cyr "ец"; cyr "ц"]] ++ dt_son_mix :: []). eapply at_found; [reflexivity| | |reflexivity].
    + constructor; [|constructor]. intros [[r E] _]. apply (f_equal (@rev N)) in E. rewrite rev_app_distr in E. vm_compute in E. discriminate E.
    + split; [exists (cyr "с"); reflexivity|]. left. reflexivity.
Qed.
