(** * DictTextProofs3: articles and whole dictionaries. *)
From Coq Require Import String.
From Verif Require Import Base Serial WordTree TreeSpec Stems StemSpec CharTables CapScheme CapSpec GramMap RusRuntime LevelSpec RusSpec RusProofs Compile CompileSpec CompileProofs CompileProofs2 CompileProofs5
  Resolve ResolveSpec ResolveProofs ResolveProofs2 StripSpec StripProofs StripProofs2 StripProofs3 Api EngCompileSpec Utf8 RusText RusTextSpec RusTextProofs RusTextProofs2 RusTextProofs3 RusTextProofs4 RusTextProofs5 RusTextProofs6 PropRusTextLemmas
  Tfc TfcSpec TfcProofs2 Makeich MakeichSpec DictTextSpec DictTextProofs DictTextProofs2.
Local Open Scope N_scope.
Local Open Scope list_scope.
Notation length := List.length.
Notation lookup := RusText.lookup.


Section Articles.
  Variables (ds : list definition) (b : bytes) (ix : list (bytes * N)) (ms : list mixdef) (mb : bytes) (mix : list (bytes * list (N * bytes))).
  Hypothesis HM : tables_mean ds b ix.
  Hypothesis HX : mixes_mean ms mb mix.
  Let T := Tables b ix mb mix.

  Lemma entry_sense depth x index o : read_with x index -> article_searchable ds x -> entry depth T x index (Ok o) ->
    exists o', sense ds ms x index o' /\ same_sense ds b mb x o o'.
  Proof using HM HX.
    intros Hrw Hs He. inversion He as [U E|n p Ht Hc Hz Hno E|n p off cases m r Ht Hoff Hcs word post Hlen Hat Hr E]; subst.
    - exists None. split; [apply sn_untyped, U|exact I].
    - exists None. split; [eapply sn_no_table; try eassumption; apply (no_lookup ds b ix HM), Hno|exact I].
    - cbn [tb_flex tb_mix tb_mindex tb_findex T] in *. pose proof (without_cut x Hlen) as Hw. fold word post in Hw. set (base := firstn (length word - length post) word) in *.
      assert (Hcon : constant n \/ ~ constant n) by (unfold constant; lia).
      assert (Fix : off = 0 -> constant n \/ index = text "0" /\ no_table ds (table_name x index) -> exists o', sense ds ms x index o' /\ same_sense ds b mb x o o').
      { intros -> K. pose proof Hw as (rest & Ew & El). destruct (fixed_resolve ds b mb _ _ index _ _ _ _ _ _ _ _ _ rest Ht Ew El Hr Hcs) as (l & -> & Hsw). eexists. split; [eapply sn_fixed; eassumption|exact Hsw]. }
      destruct Hoff as [[K ->]|[K [Hl|(Hl & -> & ->)]]].
      + apply Fix; [reflexivity|left; exact K].
      + destruct (table_here ds b ix HM _ _ Hl) as (lines & _ & _ & Hd & _). destruct (Hs index n p base lines Hrw Ht K Hd Hw) as [Hst (l & Hn)].
        rewrite colon_same in Hr. eapply (changing_word ds b ix ms mb mix HM HX depth x index n p off cases m base l); try eassumption.
        destruct Hw as (rest & Ew & _). eapply marked_cut; [exact Ew|exact Hat].
      + apply Fix; [reflexivity|right; split; [reflexivity|apply (no_lookup ds b ix HM), Hl]].
  Qed.
  Lemma sense_once x index o o' : read_with x index -> article_searchable ds x -> sense ds ms x index o -> sense ds ms x index o' -> o = o'.
  Proof using.
    clear. intros Hrw Hs H H'. eapply sense_unique; [exact H|exact H'|]. intros n p base lines Ht Hc Hd Hw. destruct (Hs index n p base lines Hrw Ht Hc Hd Hw) as [_ (l & Hn)]. exists l. intros l' Hn'. eapply normal_told_unique; eassumption.
  Qed.
  Definition some_list (A : Type) (o : option A) : list A := match o with Some a => [a] | None => [] end.
  Lemma senses_meanings depth x ls : article_searchable ds x -> senses depth T x ls -> exists tws, meanings ds ms x tws /\ Forall2 (same_word ds b mb x) ls tws.
  Proof using HM HX.
    intros Hs H. assert (R0 : read_with x (r_index x)) by (left; reflexivity).
    assert (G : forall o o', same_sense ds b mb x o o' -> Forall2 (same_word ds b mb x) (match o with Some l => [l] | None => [] end) (match o' with Some l => [l] | None => [] end)).
    { intros [l|] [tw|]; cbn [same_sense]; try contradiction; intros K; [constructor; [exact K|constructor]|constructor]. }
    destruct H as [l He|He Hlk|a c la lb He Ei Hlk Ha Hb].
    - destruct (entry_sense _ _ _ _ R0 Hs He) as ([tw|] & K1 & K2); [|destruct K2]. exists [tw]. split; [apply mg_one, K1|]. apply (G (Some l) (Some tw)), K2.
    - destruct (entry_sense _ _ _ _ R0 Hs He) as ([tw|] & K1 & K2); [destruct K2|]. exists []. split; [apply mg_none; assumption|constructor].
    - destruct (entry_sense _ _ _ _ R0 Hs He) as ([tw|] & K1 & K2); [destruct K2|].
      assert (Ra : read_with x a) by (right; exists c; left; exact Ei). assert (Rb : read_with x c) by (right; exists a; right; exact Ei).
      destruct (entry_sense _ _ _ _ Ra Hs Ha) as (oa & A1 & A2). destruct (entry_sense _ _ _ _ Rb Hs Hb) as (ob & B1 & B2).
      eexists. split; [eapply mg_two; eassumption|]. apply Forall2_app; [apply (G la oa A2)|apply (G lb ob B2)].
  Qed.
  Lemma split_once a c a' c' : a ++ text "//" ++ c = a' ++ text "//" ++ c' -> lacks (text "//") (a ++ text "/") -> lacks (text "//") (a' ++ text "/") -> a = a' /\ c = c'.
  Proof using.
    clear. change (text "//") with [47; 47]. change (text "/") with [47].
    assert (L : forall a a' c c', a ++ [47; 47] ++ c = a' ++ [47; 47] ++ c' -> lacks [47; 47] (a' ++ [47]) -> (length a' <= length a)%nat).
    { clear. intros a a' c c' E H. destruct (Nat.le_gt_cases (length a') (length a)) as [K|K]; [exact K|]. exfalso.
      assert (E2 : exists t, a' = a ++ 47 :: t /\ (t = [] \/ hd 0 t = 47)).
      { revert a' E K H. induction a as [|x a IH]; intros [|x' a'] E K H; cbn [length] in K; try lia.
        - cbn [app] in E. injection E as <- E. exists a'. split; [reflexivity|]. destruct a' as [|y a']; [left; reflexivity|right]. cbn [app] in E. injection E as <- _. reflexivity.
        - cbn [app] in E. injection E as <- E. destruct (IH a' E ltac:(lia)) as (t & -> & Ht).
          + intros p q Eq. apply (H (x :: p) q). exact (f_equal (cons x) Eq).
          + exists t. split; [reflexivity|exact Ht]. }
      destruct E2 as (t & -> & [->|Ht]).
      - apply (H a []). rewrite <- app_assoc. reflexivity.
      - destruct t as [|y t]; cbn [hd] in Ht; [discriminate|]. subst y. apply (H a (t ++ [47])). rewrite <- app_assoc. reflexivity. }
    intros E H H'. pose proof (L _ _ _ _ E H') as L1. pose proof (L _ _ _ _ (eq_sym E) H) as L2. assert (El : length a = length a') by lia. clear L L1 L2 H H'.
    revert a' E El. induction a as [|x a IH]; intros [|x' a'] E El; cbn [length] in El; try discriminate.
    - cbn [app] in E. injection E as <-. auto.
    - cbn [app] in E. injection E as <- E. destruct (IH a' E ltac:(lia)) as [-> ->]. auto.
  Qed.
  Lemma meanings_unique x tws tws' : article_searchable ds x -> meanings ds ms x tws -> meanings ds ms x tws' -> tws = tws'.
  Proof using.
    clear. intros Hs H H'. assert (R0 : read_with x (r_index x)) by (left; reflexivity).
    assert (Z : forall o o', sense ds ms x (r_index x) o -> sense ds ms x (r_index x) o' -> o = o') by (intros; eapply sense_once; eassumption).
    destruct H as [tw He|He Hlk|a c la lb He Ei Hlk Ha Hb]; destruct H' as [tw' He'|He' Hlk'|a' c' la' lb' He' Ei' Hlk' Ha' Hb']; try (pose proof (Z _ _ He He') as E; try discriminate E; try (injection E as ->; reflexivity)).
    - reflexivity.
    - exfalso. apply (Hlk _ _ Ei').
    - exfalso. apply (Hlk' _ _ Ei).
    - rewrite Ei in Ei'. destruct (split_once _ _ _ _ Ei' Hlk Hlk') as [<- <-]. rewrite Ei in *.
      assert (Ra : read_with x a) by (right; exists c; left; exact Ei). assert (Rb : read_with x c) by (right; exists a; right; exact Ei).
      rewrite (sense_once _ _ _ _ Ra Hs Ha Ha'), (sense_once _ _ _ _ Rb Hs Hb Hb'). reflexivity.
  Qed.

  (** ** Lines *)
  Lemma listed depth lines xs : tables_ok T -> articles_in lines xs -> forall bu us o, read_lines depth T bu us lines = Ok (Some o) -> exists ls us', rlists depth T lines xs ls us'.
  Proof using.
    intros HT. induction 1 as [|line lines xs Hn H IH|line body lines xs Hc H IH|line body lines x xs Hw H IH]; intros bu us o E.
    - exists [], []. constructor.
    - cbn [read_lines] in E. rewrite (read_none _ _ _ Hn) in E. cbn [bind add_lexemes] in E. destruct (IH _ _ _ E) as (ls & us' & K). exists ls, us'. apply rl_none; assumption.
    - cbn [read_lines] in E. rewrite (read_comment _ _ _ _ Hc) in E. cbn [bind add_lexemes] in E. destruct (IH _ _ _ E) as (ls & us' & K). eexists _, _. apply rl_comment; eassumption.
    - cbn [read_lines] in E. apply bind_ok_inv in E as ((l & u) & El & E). pose proof (proj1 (read_senses depth T x line body l u HT Hw) El) as [Hs _]. apply bind_ok_inv in E as ([bu'|] & _ & E); [|discriminate].
      destruct (IH _ _ _ E) as (ls & us' & K). eexists _, _. eapply rl_article; eassumption.
  Qed.
  Lemma listed_length depth lines xs ls us : rlists depth T lines xs ls us -> (length ls <= 2 * length xs)%nat.
  Proof using.
    induction 1 as [|line lines xs ls us Hn H IH|line body lines xs ls us Hc H IH|line body lines x l xs ls us Hw Hs H IH]; cbn [length]; try lia. rewrite app_length.
    assert (length l <= 2)%nat; [|lia]. destruct Hs as [l0 _|_ _|? ? la lb _ _ _ _ _]; cbn [length]; try lia. destruct la, lb; cbn [length app]; lia.
  Qed.
End Articles.
