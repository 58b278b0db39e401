(** * DicdumpProofs4: the lines of a dump. *)
From Coq Require Import Sorted.
From Verif Require Import Base RusBuildSpec CxxApi CxxProofs Dump DumpSpec DumpProofs Dicdump DicdumpSpec DicdumpProofs DicdumpProofs2 DicdumpProofs3 DicdumpBuild DicdumpBuildSpec.
Local Open Scope N_scope.

(** ** the common beginning *)
Lemma begins_firstn p w : begins p w <-> firstn (length p) w = p.
Proof.
  split; [intros (t & ->); rewrite firstn_app, Nat.sub_diag, firstn_all; cbn; apply app_nil_r|]. intros H. exists (skipn (length p) w). rewrite <- H at 1. rewrite firstn_skipn. reflexivity.
Qed.
Lemma shorten_ok cc base s : (cc <= length base)%nat ->
  (shorten cc base s <= cc)%nat /\ begins (firstn (shorten cc base s) base) s /\
  forall k, (k <= cc)%nat -> begins (firstn k base) s -> (k <= shorten cc base s)%nat.
Proof.
  induction cc as [|cc IH]; intros Hc; [split; [cbn; lia|]; split; [exists s; reflexivity|intros k Hk _; cbn; lia]|].
  cbn [shorten]. destruct (same_line (firstn (S cc) base) (firstn (S cc) s)) eqn:E.
  - apply same_line_iff in E. split; [lia|]. split; [|intros; lia]. apply begins_firstn. rewrite firstn_length_le by lia. symmetry. exact E.
  - destruct (IH ltac:(lia)) as (H1 & H2 & H3). split; [lia|]. split; [exact H2|]. intros k Hk Hb. apply H3; [|exact Hb].
    destruct (Nat.eq_dec k (S cc)) as [->|]; [|lia]. exfalso. apply begins_firstn in Hb. rewrite firstn_length_le in Hb by lia. rewrite Hb in E.
    rewrite (proj2 (same_line_iff _ _) eq_refl) in E. discriminate.
Qed.
Lemma begins_shorter j k base s : (j <= k)%nat -> begins (firstn k base) s -> begins (firstn j base) s.
Proof.
  intros H (t & ->). exists (skipn j (firstn k base) ++ t). rewrite app_assoc. f_equal. rewrite <- (firstn_skipn j (firstn k base)) at 1. rewrite firstn_firstn. rewrite Nat.min_l by exact H. reflexivity.
Qed.
Lemma common_ok m : forall cc base, (cc <= length base)%nat ->
  let k := common_length cc base m in (k <= cc)%nat /\ Forall (begins (firstn k base)) (map snd m) /\
  forall j, (j <= cc)%nat -> Forall (begins (firstn j base)) (map snd m) -> (j <= k)%nat.
Proof.
  induction m as [|[i s] m IH]; intros cc base Hc; cbv zeta; cbn [common_length map snd].
  - split; [lia|]. split; [constructor|intros; lia].
  - destruct (cc =? 0)%nat eqn:E.
    + apply Nat.eqb_eq in E. subst. split; [lia|]. split; [|intros; lia]. apply Forall_forall. intros x _. exists x. reflexivity.
    + destruct (shorten_ok cc base s Hc) as (H1 & H2 & H3). destruct (IH (shorten cc base s) base ltac:(lia)) as (I1 & I2 & I3). split; [lia|]. split.
      * constructor; [apply (begins_shorter _ (shorten cc base s)); assumption|exact I2].
      * intros j Hj HF. inversion HF; subst. apply I3; [apply H3; assumption|assumption].
Qed.
Lemma longest_ok w (m : list (N * bytes)) : longest_common (firstn (common_length (length w) w m) w) (w :: map snd m).
Proof.
  destruct (common_ok m (length w) w (le_n _)) as (H1 & H2 & H3). split.
  - constructor; [|exact H2]. exists (skipn (common_length (length w) w m) w). rewrite firstn_skipn. reflexivity.
  - intros q HF. inversion HF as [|? ? (t & Ht) HF']; subst. rewrite firstn_length_le by exact H1. apply H3; [rewrite app_length; lia|].
    rewrite firstn_app, Nat.sub_diag, firstn_all. cbn [firstn]. rewrite app_nil_r. exact HF'.
Qed.

(** ** the text of a line *)
Fixpoint forms_text (div : bytes) (m : list (N * bytes)) : bytes :=
  match m with [] => [] | (id, s) :: m' => (div ++ s ++ [124] ++ print_hex 2 id) ++ forms_text [47] m' end.
Definition line_text (n : N) (m : list (N * bytes)) : bytes := print_hex 0 n ++ [9] ++ forms_text [] m.
Definition text_ok (f : bytes) : Prop := ~ In 0 f /\ ~ In 10 f /\ (length f <= 251)%nat.

Lemma hex2_length id : id < 256 -> length (print_hex 2 id) = 2%nat.
Proof.
  intros H. set (P := fun b => (length (print_hex 2 b) =? 2)%nat). assert (HP : forallb P (map N.of_nat (seq 0 256)) = true) by (vm_compute; reflexivity).
  rewrite forallb_forall in HP. specialize (HP id). apply Nat.eqb_eq. apply HP. apply in_map_iff. exists (N.to_nat id). split; [lia|]. apply in_seq. lia.
Qed.
Lemma map_forms_ok m : forall div, (length div <= 1)%nat -> Forall (fun e => fst e < 256 /\ (length (snd e) <= 251)%nat) m -> map_forms div m = Ok (forms_text div m).
Proof.
  induction m as [|[id s] m IH]; intros div Hd H; [reflexivity|]. inversion H as [|? ? (H1 & H2) H3]; subst. cbn [fst snd map_forms forms_text] in *.
  assert (E : (256 <=? length (div ++ s ++ [124%N] ++ print_hex 2 id))%nat = false).
  { apply Nat.leb_gt. rewrite !app_length, hex2_length by exact H1. cbn [length]. lia. }
  rewrite E. rewrite IH by (auto; cbn; lia). reflexivity.
Qed.
Lemma digit_plain d : digit d <> 9 /\ digit d <> 10 /\ digit d <> 0.
Proof. unfold digit. destruct (d <? 10) eqn:E; [apply N.ltb_lt in E|apply N.ltb_ge in E]; repeat split; lia. Qed.
Lemma digits_plain base fuel : forall n acc c, In c (digits_of fuel base n acc) -> In c acc \/ (c <> 9 /\ c <> 10 /\ c <> 0).
Proof.
  induction fuel as [|fuel IH]; intros n acc c H; cbn [digits_of] in H; [left; exact H|].
  destruct (n / base =? 0).
  - destruct H as [<-|H]; [right; apply digit_plain|left; exact H].
  - apply IH in H. destruct H as [[<-|H]|H]; [right; apply digit_plain|left; exact H|right; exact H].
Qed.
Lemma hex_plain k n c : In c (print_hex k n) -> c <> 9 /\ c <> 10 /\ c <> 0.
Proof.
  unfold print_hex, zero_padded. intros H. apply in_app_or in H as [H|H]; [apply repeat_spec in H; subst; repeat split; discriminate|].
  apply digits_plain in H as [[]|H]. exact H.
Qed.
Lemma forms_text_plain m : forall div, ~ In 0 div /\ ~ In 10 div -> Forall (fun e => text_ok (snd e)) m -> ~ In 0 (forms_text div m) /\ ~ In 10 (forms_text div m).
Proof.
  induction m as [|[id s] m IH]; intros div (D0 & D10) H; [split; intros []|]. inversion H as [|? ? (S0 & S10 & _) H3]; subst. cbn [snd forms_text] in *.
  destruct (IH [47] ltac:(split; intros [X|[]]; discriminate X) H3) as (I0 & I10).
  split; rewrite !in_app_iff; intros [[X|[X|[X|X]]]|X]; auto; try (destruct X as [X|[]]; discriminate X); apply hex_plain in X; destruct X as (? & ? & ?); congruence.
Qed.
Lemma line_plain n m : Forall (fun e => text_ok (snd e)) m -> ~ In 0 (line_text n m) /\ ~ In 10 (line_text n m) /\ line_text n m <> [].
Proof.
  intros H. destruct (forms_text_plain m [] ltac:(split; intros []) H) as (I0 & I10). unfold line_text. repeat split.
  - rewrite !in_app_iff. intros [X|[X|X]]; auto; [apply hex_plain in X; destruct X as (? & ? & ?); congruence|destruct X as [X|[]]; discriminate X].
  - rewrite !in_app_iff. intros [X|[X|X]]; auto; [apply hex_plain in X; destruct X as (? & ? & ?); congruence|destruct X as [X|[]]; discriminate X].
  - destruct (print_hex_cons 0 n) as (c & w & ->). discriminate.
Qed.
Lemma before_tab_app a b : ~ In 9 a -> before_tab (a ++ 9 :: b) = a.
Proof.
  induction a as [|c a IH]; intros H; [reflexivity|]. cbn [before_tab app]. replace (c =? 9) with false; [rewrite IH; [reflexivity|intros X; apply H; right; exact X]|].
  symmetry. apply N.eqb_neq. intros ->. apply H. left. reflexivity.
Qed.
Lemma line_id_text n m : n < 2 ^ 32 -> line_id (line_text n m) = n.
Proof.
  intros H. unfold line_id, line_text. cbn [app]. rewrite before_tab_app by (intros X; apply hex_plain in X; destruct X as (? & _); congruence).
  rewrite print_hex_number, N.mod_small by exact H. reflexivity.
Qed.

Lemma shown_rest_ok stem m : Forall (begins stem) (map snd m) -> shown_rest stem m (forms_text [47] (map (fun e => (fst e, skipn (length stem) (snd e))) m)).
Proof.
  induction m as [|[id s] m IH]; intros H; [reflexivity|]. inversion H as [|? ? (t & Ht) H2]; subst. cbn [map fst snd] in *. cbn [forms_text shown_rest map fst snd].
  exists t. eexists. split; [reflexivity|]. split; [|apply IH; exact H2]. rewrite skipn_app, skipn_all, Nat.sub_diag. cbn [skipn app]. rewrite <- !app_assoc. reflexivity.
Qed.
Lemma cut_line n m : m <> [] -> dumped_line n m (line_text n (cut m)).
Proof.
  destruct m as [|[id w] m]; intros H; [congruence|]. cbn [dumped_line cut]. pose proof (longest_ok w m) as HL. set (cc := common_length (length w) w m) in *.
  assert (Hc : (cc <= length w)%nat) by apply (common_ok m (length w) w (le_n _)).
  exists (firstn cc w), (forms_text [47] (map (fun e => (fst e, skipn cc (snd e))) m)). split; [exact HL|]. split.
  - assert (Hl : length (firstn cc w) = cc) by (apply firstn_length_le; exact Hc). destruct HL as (HF & _). cbn [map snd] in HF. assert (HB : Forall (begins (firstn cc w)) (map snd m)) by (inversion HF; assumption).
    pose proof (shown_rest_ok (firstn cc w) m HB) as X. rewrite Hl in X. exact X.
  - unfold line_text. cbn [forms_text app]. rewrite <- !app_assoc. reflexivity.
Qed.

Section Dump.
  Variables (build : bytes -> N -> N -> res (Z * bytes)) (info : N -> res Z) (stack : N -> bytes) (forms : N -> N -> list bytes).
  Hypothesis Han : answers build info forms.
  Hypothesis Hstack : forall n, length (stack n) = 256%nat.
  Notation ents := (entries forms).

  Definition firsts (n : N) (ids : list N) : list (N * bytes) := flat_map (fun fid => match forms n fid with [] => [] | f :: _ => [(fid, f)] end) ids.
  Lemma entries_firsts n : ents n = firsts n form_ids.
  Proof. unfold entries, firsts, form_ids. generalize (seq 0 256). intros l. induction l as [|k l IH]; [reflexivity|]. cbn [flat_map map]. rewrite IH. reflexivity. Qed.
  Lemma form_ids_small : Forall (fun fid => fid < 256) form_ids.
  Proof. unfold form_ids. apply Forall_forall. intros x Hx. apply in_map_iff in Hx as (k & <- & Hk). apply in_seq in Hk. lia. Qed.

  Lemma forms_from_ok n : n <= 0x3ffff -> forall ids buf, Forall (fun fid => fid < 256) ids -> length buf = 256%nat -> forms_from build ids n buf = Ok (firsts n ids).
  Proof.
    intros Hn. induction ids as [|fid ids IH]; intros buf Hi Hb; [reflexivity|]. inversion Hi as [|? ? Hf Hfs]; subst. cbn [forms_from firsts flat_map].
    destruct (an_build _ _ _ Han buf n fid Hb Hn Hf) as (z & mem' & E & Hm & K0 & K1). rewrite E. cbn [bind].
    destruct (forms n fid) as [|f fs] eqn:Ef.
    - specialize (K0 eq_refl). replace (0 <? z)%Z with false by lia. cbn [bind]. rewrite IH by assumption. reflexivity.
    - destruct (K1 ltac:(discriminate)) as (-> & rest & ->). replace (0 <? Z.of_nat (length (f :: fs)))%Z with true by (cbn [length]; lia).
      rewrite Nat2Z.id, take_strings_ok.
      + cbn [bind]. rewrite IH by assumption. reflexivity.
      + apply Forall_forall. intros g Hg. rewrite <- Ef in Hg. apply (an_text _ _ _ Han n fid g Hf) in Hg. apply Hg.
  Qed.
  Lemma get_forms_ok n : n <= 0x3ffff -> get_forms build stack n = Ok (cut (ents n)).
  Proof. intros Hn. unfold get_forms. rewrite forms_from_ok by (auto using form_ids_small). cbn [bind]. rewrite entries_firsts. reflexivity. Qed.
  Lemma entries_ok n : Forall (fun e => fst e < 256 /\ text_ok (snd e)) (ents n).
  Proof.
    rewrite entries_firsts. unfold firsts. apply Forall_forall. intros e He. apply in_flat_map in He as (fid & Hf & He). destruct (forms n fid) as [|f fs] eqn:Ef; [destruct He|].
    destruct He as [<-|[]]. split; [exact (proj1 (Forall_forall _ _) form_ids_small _ Hf)|]. apply (an_text _ _ _ Han n fid); [exact (proj1 (Forall_forall _ _) form_ids_small _ Hf)|]. rewrite Ef. left. reflexivity.
  Qed.
  Lemma cut_ok m : Forall (fun e => fst e < 256 /\ text_ok (snd e)) m -> Forall (fun e => fst e < 256 /\ text_ok (snd e)) (cut m).
  Proof.
    destruct m as [|[id w] m]; [auto|]. intros H. inversion H; subst. cbn [cut]. constructor; [assumption|]. apply Forall_forall. intros e He. apply in_map_iff in He as ([i s] & <- & Hi).
    cbn [fst snd]. rewrite Forall_forall in H3. destruct (H3 _ Hi) as (A & B0 & B10 & BL). cbn [fst snd] in *. split; [exact A|]. repeat split.
    - intros X. apply in_skipn in X. auto. - intros X. apply in_skipn in X. auto. - rewrite skipn_length. lia.
  Qed.
  Definition the_line (n : N) : bytes := line_text n (cut (ents n)).
  Lemma map_line_ok n : map_line n (cut (ents n)) = Ok (the_line n).
  Proof.
    unfold map_line. rewrite map_forms_ok; [reflexivity|cbn; lia|]. refine (Forall_impl _ _ (cut_ok _ (entries_ok n))). intros e (A & _ & _ & B). split; assumption.
  Qed.
  Lemma the_line_plain n : ~ In 0 (the_line n) /\ ~ In 10 (the_line n) /\ the_line n <> [].
  Proof. apply line_plain. refine (Forall_impl _ _ (cut_ok _ (entries_ok n))). intros e (_ & B). exact B. Qed.
  Lemma cut_nil m : cut m = [] <-> m = [].
  Proof. destruct m as [|[i s] m]; [tauto|]. split; discriminate. Qed.
  Lemma unknown_entries n z : n <= 0x3ffff -> info n = Ok z -> z = 0%Z -> ents n = [].
  Proof.
    intros Hn Hi Hz. destruct (an_info _ _ _ Han n Hn) as (z' & E & H). rewrite E in Hi. injection Hi as ->. specialize (H Hz). rewrite entries_firsts.
    pose proof form_ids_small as HF. induction HF as [|fid ids Hf HF IH]; [reflexivity|]. cbn [firsts flat_map]. rewrite H by exact Hf. exact IH.
  Qed.

  Lemma skip_ok' fuel : forall n, exists n', skip_unknown info fuel n = Ok n' /\ n <= n' /\ forall i, n <= i < n' -> i <= 0x3ffff -> ents i = [].
  Proof.
    induction fuel as [|fuel IH]; intros n; cbn [skip_unknown]; [exists n; repeat split; lia|].
    destruct (n <=? 0x3ffff) eqn:En; [|exists n; repeat split; lia]. apply N.leb_le in En. destruct (an_info _ _ _ Han n En) as (z & E & _). rewrite E. cbn [bind].
    destruct (z =? 0)%Z eqn:Ez; [|exists n; repeat split; lia]. apply Z.eqb_eq in Ez. destruct (IH (n + 1)) as (n' & E' & Hle & H). exists n'. split; [exact E'|]. split; [lia|].
    intros i Hi Hi2. destruct (N.eq_dec i n) as [->|]; [apply (unknown_entries n z); assumption|apply H; lia].
  Qed.
  Definition ids_from (n : N) (ids : list N) : Prop := StronglySorted N.lt ids /\ forall i, In i ids <-> n <= i <= 0x3ffff /\ ents i <> [].
  Lemma ids_same n n' ids : ids_from n ids -> n <= n' -> (forall i, n <= i < n' -> i <= 0x3ffff -> ents i = []) -> ids_from n' ids.
  Proof.
    intros (Hs & H) Hle He. split; [exact Hs|]. intros i. rewrite H. split; intros (Hi & Hn); (split; [|exact Hn]); [|lia].
    destruct (N.lt_ge_cases i n') as [Hl|Hl]; [|lia]. exfalso. apply Hn, He; lia.
  Qed.
  Lemma next_ok fuel : forall n ids, ids_from n ids -> (N.to_nat (0x40000 - n) < fuel)%nat ->
    match ids with
    | [] => exists n', next_line build info stack fuel n = Ok ([], n') /\ 0x3ffff < n'
    | i :: _ => next_line build info stack fuel n = Ok (the_line i, i + 1)
    end.
  Proof.
    induction fuel as [|fuel IH]; intros n ids Hids Hf; [lia|]. cbn [next_line]. destruct (n <=? 0x3ffff) eqn:En.
    - apply N.leb_le in En. rewrite get_forms_ok by exact En. cbn [bind]. destruct (ents n) as [|e es] eqn:Ee.
      + cbn [cut]. destruct (skip_ok' (left_from (n + 1)) (n + 1)) as (n' & E & Hle & Hn). rewrite E. cbn [bind]. apply IH; [|lia].
        apply (ids_same n); [exact Hids|lia|]. intros i Hi Hi2. destruct (N.eq_dec i n) as [->|]; [exact Ee|apply Hn; lia].
      + destruct Hids as (Hs & H). assert (Hin : In n ids) by (apply H; split; [lia|rewrite Ee; discriminate]).
        destruct ids as [|i ids]; [destruct Hin|]. assert (i = n).
        { destruct Hin as [Hin|Hin]; [exact Hin|]. inversion Hs as [|? ? _ HF]; subst. rewrite Forall_forall in HF. specialize (HF n Hin). destruct (proj1 (H i) (or_introl eq_refl)) as ((Hi & _) & _). lia. }
        subst i. rewrite <- Ee. destruct (cut (ents n)) as [|e' es'] eqn:Ec; [apply (proj1 (cut_nil _)) in Ec; rewrite Ec in Ee; discriminate Ee|]. rewrite <- Ec. rewrite map_line_ok. reflexivity.
    - apply N.leb_gt in En. destruct Hids as (_ & H). destruct ids as [|i ids]; [exists n; split; [reflexivity|exact En]|]. destruct (proj1 (H i) (or_introl eq_refl)) as (Hi & _). lia.
  Qed.
  Lemma ids_next n i ids : ids_from n (i :: ids) -> ids_from (i + 1) ids.
  Proof.
    intros (Hs & H). inversion Hs as [|? ? Hs' HF]; subst. split; [exact Hs'|]. rewrite Forall_forall in HF. intros j. split.
    - intros Hj. destruct (proj1 (H j) (or_intror Hj)) as (A & B). specialize (HF j Hj). split; [lia|exact B].
    - intros (A & B). destruct (proj1 (H i) (or_introl eq_refl)) as (C & _). destruct (proj2 (H j) (conj (ltac:(lia) : n <= j <= 0x3ffff) B)) as [->|Hj]; [lia|exact Hj].
  Qed.
  Lemma ids_exist n : exists ids, ids_from n ids.
  Proof.
    assert (G : forall k, forall n, 0x40000 <= n + k -> exists ids, ids_from n ids).
    { intros k. induction k as [|k IH] using N.peano_ind; intros m Hm.
      - exists []. split; [constructor|]. intros i. split; [intros []|]. intros ((A & B) & _). lia.
      - destruct (IH (m + 1) ltac:(lia)) as (ids & Hs & H). destruct (N.le_gt_cases m 0x3ffff) as [Hl|Hl].
        + destruct (ents m) as [|e es] eqn:Ee.
          * exists ids. split; [exact Hs|]. intros i. rewrite H. split; intros (A & B); (split; [|exact B]); [lia|]. destruct (N.eq_dec i m) as [->|]; [congruence|lia].
          * exists (m :: ids). split; [constructor; [exact Hs|]; apply Forall_forall; intros i Hi; apply H in Hi; lia|]. intros i. cbn [In]. rewrite H. split.
            -- intros [<-|(A & B)]; [split; [lia|rewrite Ee; discriminate]|split; [lia|exact B]].
            -- intros (A & B). destruct (N.eq_dec m i) as [|]; [left; assumption|right; split; [lia|exact B]].
        + exists []. split; [constructor|]. intros i. split; [intros []|]. intros ((A & B) & _). lia. }
    apply (G 0x40000). lia.
  Qed.

  Definition get (n : N) : bytes * N := match libmorph_get build info stack n with Ok r => r | Ub => ([], n) end.
  Lemma get_defined n : libmorph_get build info stack n = Ok (get n).
  Proof.
    unfold get. destruct (ids_exist n) as (ids & Hids). pose proof (next_ok (left_from n) n ids Hids ltac:(unfold left_from; lia)) as H. unfold libmorph_get.
    destruct ids as [|i ids]; [destruct H as (n' & -> & _)|rewrite H]; reflexivity.
  Qed.
  Lemma get_gives n ids : ids_from n ids -> gives get n (map the_line ids).
  Proof.
    intros H. refine (gives_by get (fun n l => exists ids, ids_from n ids /\ l = map the_line ids) _ _ n _ (ex_intro _ ids (conj H eq_refl))).
    - clear n ids H. intros n l (ids & Hids & ->). pose proof (next_ok (left_from n) n ids Hids ltac:(unfold left_from; lia)) as H. unfold get at 1, libmorph_get.
      destruct ids as [|i ids].
      + destruct H as (n' & E & Hn). exists n'. rewrite E. split; [reflexivity|]. exists []. split; [|reflexivity]. split; [constructor|]. intros i. split; [intros []|]. intros (A & _). lia.
      + exists (i + 1). rewrite H. split; [reflexivity|]. exists ids. split; [apply (ids_next n); exact Hids|reflexivity].
    - intros m l (js & _ & ->). apply Forall_forall. intros x Hx. apply in_map_iff in Hx as (j & <- & _). apply the_line_plain.
  Qed.
  Lemma dump_of_lines n ids : ids_from n ids -> dump_of forms n (map the_line ids).
  Proof.
    intros (Hs & H). exists ids. split; [exact Hs|]. split; [exact H|]. assert (HF : Forall (fun i => ents i <> []) ids) by (apply Forall_forall; intros i Hi; apply H in Hi; apply Hi).
    clear Hs H. induction HF; constructor; [apply cut_line; assumption|assumption].
  Qed.
  Lemma ascending_lines n ids : ids_from n ids -> ascending line_id (map the_line ids).
  Proof.
    intros (Hs & H). assert (HF : Forall (fun i => i < 2 ^ 32) ids) by (apply Forall_forall; intros i Hi; apply H in Hi; lia). clear H.
    induction Hs as [|i ids Hs IH Hi]; [exact I|]. inversion HF; subst. cbn [map ascending]. split; [|apply IH; assumption]. apply Forall_forall. intros x Hx. apply in_map_iff in Hx as (j & <- & Hj).
    unfold the_line. rewrite !line_id_text; [rewrite Forall_forall in Hi; apply Hi; exact Hj| |assumption]. rewrite Forall_forall in H2. apply H2. exact Hj.
  Qed.
  Lemma dump_lines_ok fuel : forall n ids, ids_from n ids -> (N.to_nat (0x40000 - n) < fuel)%nat -> dump_lines build info stack fuel n = Ok (as_text (map the_line ids)).
  Proof.
    induction fuel as [|fuel IH]; intros n ids Hids Hf; [lia|]. cbn [dump_lines]. unfold libmorph_get.
    pose proof (next_ok (left_from n) n ids Hids ltac:(unfold left_from; lia)) as H. destruct ids as [|i ids].
    - destruct H as (n' & E & _). rewrite E. reflexivity.
    - rewrite H. cbn [bind]. destruct (the_line i) as [|c t] eqn:El; [destruct (the_line_plain i) as (_ & _ & X); congruence|]. rewrite <- El.
      destruct Hids as (Hs & Hi). destruct (proj1 (Hi i) (or_introl eq_refl)) as (A & _).
      rewrite (IH (i + 1) ids) by (try (apply (ids_next n); split; assumption); lia). cbn [bind map as_text flat_map]. rewrite <- app_assoc. reflexivity.
  Qed.
  Lemma lines_back ids : lines_of (as_text (map the_line ids)) (map the_line ids) /\ ~ In 0 (as_text (map the_line ids)).
  Proof.
    induction ids as [|i ids (I1 & I2)]; [split; [constructor|intros []]|]. destruct (the_line_plain i) as (P0 & P10 & PN). unfold as_text in *. cbn [map flat_map]. rewrite <- app_assoc. cbn [app]. split.
    - apply lines_more; assumption.
    - rewrite in_app_iff. intros [X|[X|X]]; [auto|discriminate X|auto].
  Qed.

  Lemma dump_ok : exists lines, dump_of forms 0 lines /\ dump_dict build info stack = Ok (as_text lines) /\ lines_of (as_text lines) lines /\ ~ In 0 (as_text lines) /\
    ascending line_id lines /\ exists get2, (forall n, libmorph_get build info stack n = Ok (get2 n)) /\ gives get2 0 lines.
  Proof.
    destruct (ids_exist 0) as (ids & Hids). exists (map the_line ids). split; [apply dump_of_lines; exact Hids|]. split; [apply dump_lines_ok; [exact Hids|unfold left_from; lia]|].
    destruct (lines_back ids) as (L1 & L2). split; [exact L1|]. split; [exact L2|]. split; [apply (ascending_lines 0); exact Hids|]. exists get. split; [exact get_defined|apply get_gives; exact Hids].
  Qed.
End Dump.
