(** * CodepageProofs8: the search by pattern in the caller's code page.  PROOFS (as WildProofs4). *)
From Verif Require Import Base Serial SerialProofs WordTree TreeSpec WordTreeProofs FlatScan FlatScanProofs TreeWalk Stems StemSpec StemsProofs GramMap
  CharTables CapScheme CapSpec CapProofs CapProofs2 RusRuntime RusBuild RusSpec RusProofs RusProofs2 RusProofs3 Wild WildSpec WildProofs WildProofs2 WildProofs3 WildProofs4
  RusBuildSpec RusReadings RusLemmaSpec Codepage CodepageSpec.
Local Open Scope N_scope.

Section Target.
  Context {U : Type}.
  Variable E : encoding.
  Variable add : U -> N -> list (bytes * N) -> U * Z.

  Definition cp_tgt (s : reglex_state) (x : N * bytes * gram) : res (reglex_state * Z) := cp_reglex E add (fst (fst x)) (snd (fst x)) (snd x) s.
  Definition enc_ev (x : N * bytes * gram) : N * bytes * gram := (fst (fst x), encode E (snd (fst x)), snd x).
  Definition str_fits (x : N * bytes * gram) : Prop := (length (encode E (snd (fst x))) + slack E <= 96)%nat.

  Lemma reglex_ret lid str gr (s : @reglex_state U) s' z : reglex add lid str gr s = Ok (s', z) -> z = 0%Z.
  Proof.
    unfold reglex. destruct (rg_forms _); [|discriminate]. destruct (_ || _); [discriminate|]. intros [= <- <-]. reflexivity.
  Qed.

  Lemma cp_tgt_fits xs : Forall str_fits xs -> forall s, until_nonzero cp_tgt xs s = until_nonzero (tgt add) (map enc_ev xs) s.
  Proof.
    induction 1 as [|x xs Hx _ IH]; intros s; [reflexivity|]. cbn [map until_nonzero].
    assert (Ex : cp_tgt s x = tgt add s (enc_ev x)).
    { unfold cp_tgt, cp_reglex, tgt, convert. cbn [enc_ev fst snd]. unfold str_fits in Hx.
      destruct (Nat.ltb_spec 96 (length (encode E (snd (fst x))) + slack E)); [lia|reflexivity]. }
    rewrite Ex. destruct (tgt add s (enc_ev x)) as [[s' z]|]; cbn [bind]; [|reflexivity]. destruct (Z.eqb z 0); [apply IH|reflexivity].
  Qed.

  Lemma cp_tgt_over xs : ~ Forall str_fits xs -> forall s, until_nonzero cp_tgt xs s = Ub.
  Proof.
    induction xs as [|x xs IH]; intros H s; [exfalso; apply H; constructor|]. cbn [until_nonzero].
    unfold cp_tgt at 1. unfold cp_reglex, convert. destruct (Nat.ltb_spec 96 (length (encode E (snd (fst x))) + slack E)) as [Hl|Hl]; [reflexivity|].
    destruct (reglex add _ _ _ s) as [[s' z]|] eqn:Er; cbn [bind]; [|reflexivity]. apply reglex_ret in Er. subst z. cbn [Z.eqb].
    apply IH. intros Hx. apply H. constructor; [exact Hl|exact Hx].
  Qed.
End Target.

Section Dict.
  Variable A : arrays.
  Variable L : lexicon.
  Hypothesis HL : holds A L.
  Hypothesis Hfix : fixed_plain L.
  Hypothesis Hroom : strings_within 47 L.
  Variable E : encoding.

  Lemma cp_list_does {U} (add : U -> N -> list (bytes * N) -> U * Z) path l pt junk mem s : lookup path (words L) = Some l -> length mem = 48%nat -> firstn (length path) mem = path ->
    (length path <= 48)%nat ->
    does (wild_list (match_model A (cp_reglex E add)) (stems_ser l ++ junk) pt mem (length path) s) (length path) mem
         (until_nonzero (cp_tgt E add) (list_ev A L path l pt) s).
  Proof.
    intros Hl Hmem Hpath Hlen. unfold list_ev. apply wild_list_does; [apply (holds_lists A L HL path l Hl)|].
    intros e mem' s' Hin L' F'. assert (Hr : has_record (words L) path e) by (exists l; auto).
    destruct (class_here A L HL Hfix Hroom path e Hr) as (st & c & room & Ec & H1 & H2 & H3 & H4 & H5 & H6). unfold entry_ev. rewrite Ec. rewrite until_map.
    destruct (match_model_ev A st c (oclass e) (nlexid e) pt (stpost e) path room H1 H2 H3 H4 H5) as [H _].
    apply (H reglex_state (cp_reglex E add)).
    - congruence.
    - congruence.
    - intros Hne. specialize (H6 Hne). rewrite L', Hmem. lia.
  Qed.

  Lemma cp_dict_does {U} (add : U -> N -> list (bytes * N) -> U * Z) pt rest mem s : stemtree A = stemtree_bytes (words L) ++ rest -> rest <> [] \/ lookup [] (words L) <> None -> length mem = 48%nat ->
    does (wild_tree (match_model A (cp_reglex E add)) (S (length (stemtree A) + length pt)) (stemtree A) pt mem 0 s) 0 mem
         (until_nonzero (cp_tgt E add) (dict_ev A L (S (length (stemtree A) + length pt)) pt) s).
  Proof.
    intros Er Hne Hmem. rewrite Er at 2. unfold stemtree_bytes, dict_ev.
    apply (wild_tree_does (match_model A (cp_reglex E add)) (cp_tgt E add) (list_ev A L) 48
             (fun path l => lookup path (words L) = Some l)) with (h := 47%nat) (path := []); try assumption.
    - intros path l pat junk mem' s' Hl Hm Hp Hle. apply cp_list_does; assumption.
    - apply (holds_dump A L HL).
    - apply lookup_all_data; [apply (holds_ordered A L HL)|]. intros key l Hl. apply stems_ser_len. apply (holds_lists A L HL key l Hl).
    - apply (proj1 Hroom).
    - rewrite Er, app_length. unfold stemtree_bytes. lia.
    - reflexivity.
    - cbn [length]. lia.
    - intros k l Hl. exact Hl.
  Qed.
End Dict.

Lemma given_length w psz cch : given w psz cch -> exists p, psz = Some p /\ firstn (length w) p = w /\ (length w <= length p)%nat /\
  (if cch =? 2 ^ 64 - 1 then let! w := cstr p in Ok (N.of_nat (length w)) else Ok cch) = Ok (N.of_nat (length w)).
Proof.
  intros Hg. destruct Hg as [w after Hw|w after Hz].
  - exists (w ++ after). split; [reflexivity|]. rewrite firstn_app, Nat.sub_diag, firstn_all. cbn [firstn]. rewrite app_nil_r, app_length. split; [reflexivity|]. split; [lia|].
    destruct (N.eqb_spec (N.of_nat (length w)) (2 ^ 64 - 1)); [lia|reflexivity].
  - exists (w ++ 0 :: after). split; [reflexivity|]. rewrite firstn_app, Nat.sub_diag, firstn_all. cbn [firstn]. rewrite app_nil_r, app_length. split; [reflexivity|]. split; [lia|].
    rewrite N.eqb_refl. rewrite cstr_app by assumption. reflexivity.
Qed.

Lemma overwrite_length a b : (length a <= length b)%nat -> length (overwrite a b) = length b.
Proof. intros H. unfold overwrite. rewrite app_length, skipn_length. lia. Qed.

Lemma cp_find_match_start {U} (add : U -> N -> list (bytes * N) -> U * Z) E A w psz cch junk buf u :
  given w psz cch -> w <> [] -> (length w < 48)%nat ->
  let t := dec E w in is_bytes t -> t <> [] -> (length t < 48)%nat -> (length t + slack E <= 48)%nat -> (length (parts rus_casing t) <= 16)%nat ->
  length junk = 48%nat -> length buf = 48%nat -> exists buf', length buf' = 48%nat /\
  cp_find_match E add A junk buf psz cch u =
    (let! (_, s, nerror) := wild_tree (match_model A (cp_reglex E add)) (S (length (stemtree A) + length (map (locase rus_casing) t))) (stemtree A)
                              (map (locase rus_casing) t) buf' 0 (Reglex 0 [] None u) in
     if negb (Z.eqb nerror 0) then Ok (rg_user s, nerror)
     else if rg_last s =? 0 then Ok (rg_user s, 0%Z) else Ok (add (rg_user s) (rg_last s) (rg_match s))).
Proof.
  intros Hg Hne Hlw t Hb Ht Hlen Hsl Hp Hj Hbuf.
  destruct (given_length w psz cch Hg) as (p & -> & Hw & Hpl & Hn).
  set (cps := if Nat.ltb (length t) 48 then t ++ [0] else t).
  assert (Hcps : (length cps <= 48)%nat) by (unfold cps; destruct (Nat.ltb_spec (length t) 48); [rewrite app_length; cbn [length]|]; lia).
  exists (overwrite cps buf). split; [rewrite overwrite_length; [assumption|unfold bytes in *; lia]|].
  unfold cp_find_match. rewrite Hn. cbn [bind].
  assert (length w <> 0)%nat by (destruct w; [contradiction|discriminate]).
  destruct (N.eqb_spec (N.of_nat (length w)) 0); [lia|]. destruct (N.leb_spec 48 (N.of_nat (length w))); [lia|].
  destruct (N.ltb_spec (N.of_nat (length p)) (N.of_nat (length w))); [lia|]. rewrite Nnat.Nat2N.id, Hw. fold t.
  unfold convert. destruct (Nat.ltb_spec 48 (length t + slack E)); [lia|]. cbv zeta. fold cps.
  rewrite cap_get_eq; [|apply rus_dlm|assumption|assumption|assumption]. cbn [bind].
  set (low := map (locase rus_casing) t). assert (Hlow : length low = length t) by apply map_length.
  assert (Em : mem_write (overwrite (low ++ [0]) junk) (length t) 0 = Ok (low ++ 0 :: skipn (S (length t)) junk)).
  { unfold overwrite. rewrite app_length, Hlow. cbn [length]. replace (length t + 1)%nat with (S (length t)) by lia.
    rewrite <- app_assoc. cbn [app]. unfold mem_write. rewrite app_length, Hlow. cbn [length].
    destruct (Nat.ltb_spec (length t) (length t + S (length (skipn (S (length t)) junk)))); [|lia].
    rewrite <- Hlow, firstn_app, firstn_all, Nat.sub_diag, firstn_O, app_nil_r.
    rewrite skipn_app, skipn_all2 by lia. replace (S (length low) - length low)%nat with 1%nat by lia. reflexivity. }
  rewrite Em. cbn [bind]. rewrite <- Hlow at 2. rewrite firstn_app, firstn_all, Nat.sub_diag, firstn_O, app_nil_r, Hlow. reflexivity.
Qed.

Lemma cp_find_match_eq E A L t rest : holds A L -> fixed_plain L -> strings_within 47 L ->
  stemtree A = stemtree_bytes (words L) ++ rest -> rest <> [] \/ lookup [] (words L) <> None ->
  (forall key e, has_record (words L) key e -> nlexid e <> 0) ->
  is_bytes t -> t <> [] -> (length t < 48)%nat -> (length t + slack E <= 48)%nat -> (length (parts rus_casing t) <= 16)%nat ->
  exists evs : list (N * bytes * N),
    (forall w psz cch, given w psz cch -> w <> [] -> (length w < 48)%nat -> dec E w = t ->
       forall U (add : U -> N -> list (bytes * N) -> U * Z) junk buf u, length junk = 48%nat -> length buf = 48%nat ->
       let fit := Forall (fun ev => (length (encode E (snd (fst ev))) + slack E <= 96)%nat) evs /\ Forall call_fits (runs (map (told_in E) evs)) in
       (fit -> cp_find_match E add A junk buf psz cch u = Ok (deliver add (runs (map (told_in E) evs)) u)) /\
       (~ fit -> cp_find_match E add A junk buf psz cch u = Ub)) /\
    (forall lid str id, In (lid, str, id) evs -> matching L (map (locase rus_casing) t) lid str id) /\
    (bounds_ok L -> forall key e part str id, has_form L key e part str id -> glob (map (locase rus_casing) t) str -> ~ In 42 str ->
       part <> [] \/ match stpost e with [] => True | b :: _ => chrmin e <= b <= chrmax e end -> In (nlexid e, str, id) evs).
Proof.
  intros HL Hfix Hroom Erest Hne Hids Hb Ht Hlen Hsl Hp.
  set (low := map (locase rus_casing) t). set (xs := dict_ev A L (S (length (stemtree A) + length low)) low).
  exists (map told xs). split; [|split].
  - intros w psz cch Hg Hw Hlw Ed U add junk buf u Hj Hbuf.
    destruct (cp_find_match_start add E A w psz cch junk buf u Hg Hw Hlw) as (buf' & Hbuf' & ->); rewrite ?Ed; try assumption.
    fold low. pose proof (cp_dict_does A L HL Hfix Hroom E add low rest buf' (Reglex 0 [] None u) Erest Hne Hbuf') as D. fold xs in D.
    assert (Hz : Forall (fun x : N * bytes * gram => fst (fst x) <> 0) (map (enc_ev E) xs)).
    { apply Forall_map, Forall_forall. intros [[lid str] gr] Hin. cbn [enc_ev fst]. destruct (dict_ev_sound A L HL Hfix Hroom _ _ _ _ _ Hin) as (key & e & part & [Hr _] & <- & _). apply (Hids key e Hr). }
    assert (Em : map told (map (enc_ev E) xs) = map (told_in E) (map told xs)) by (rewrite !map_map; reflexivity).
    assert (Ef : Forall (str_fits E) xs <-> Forall (fun ev : N * bytes * N => (length (encode E (snd (fst ev))) + slack E <= 96)%nat) (map told xs))
      by (rewrite Forall_map; reflexivity).
    cbv zeta. rewrite <- Ef, <- Em. split.
    + intros [Hs Hc]. rewrite (cp_tgt_fits E add xs Hs) in D. destruct (tgt_all add _ u Hz Hc) as (s & E1 & E2). rewrite E1 in D.
      destruct D as (mem' & -> & _). cbn [bind]. exact E2.
    + intros Hn. assert (Eu : until_nonzero (cp_tgt E add) xs (Reglex 0 [] None u) = Ub).
      { assert (Hd : {Forall (str_fits E) xs} + {~ Forall (str_fits E) xs}) by (apply Forall_dec; intros x; apply le_dec). destruct Hd as [Hs|Hs].
        - rewrite (cp_tgt_fits E add xs Hs). apply tgt_all_over; [exact Hz|]. tauto.
        - apply cp_tgt_over, Hs. }
      rewrite Eu in D. unfold does in D. rewrite D. reflexivity.
  - intros lid str id Hin. apply in_map_iff in Hin. destruct Hin as ([[lid' str'] gr] & Eq & Hin). unfold told in Eq. cbn [fst snd] in Eq. injection Eq as -> -> <-.
    apply (dict_ev_sound A L HL Hfix Hroom) in Hin. exact Hin.
  - intros Hbo key e part str id Hf G H42 Hpart. destruct (dict_ev_complete A L HL Hfix Hroom low key e part str id Hbo Hf G H42 Hpart) as (gr & Hin & <-).
    apply in_map_iff. exists (nlexid e, str, gr). auto.
Qed.

Lemma cp_find_match_degenerate {U} (add : U -> N -> list (bytes * N) -> U * Z) E A junk buf u cch :
  cp_find_match E add A junk buf None cch u = Ok (u, (-5)%Z) /\
  (forall psz, given [] psz cch -> cp_find_match E add A junk buf psz cch u = Ok (u, 0%Z)) /\
  (forall w psz, given w psz cch -> w <> [] -> (48 <= length w)%nat \/ (48 < length (dec E w) + slack E)%nat ->
     cp_find_match E add A junk buf psz cch u = Ok (u, (-4)%Z)).
Proof.
  split; [reflexivity|]. split.
  - intros psz Hg. destruct (given_length [] psz cch Hg) as (p & -> & _ & _ & Hn). unfold cp_find_match. rewrite Hn. reflexivity.
  - intros w psz Hg Hne Hl. destruct (given_length w psz cch Hg) as (p & -> & Hw & Hpl & Hn). unfold cp_find_match. rewrite Hn. cbn [bind].
    assert (length w <> 0)%nat by (destruct w; [contradiction|discriminate]).
    destruct (N.eqb_spec (N.of_nat (length w)) 0); [lia|]. destruct (N.leb_spec 48 (N.of_nat (length w))); [reflexivity|].
    destruct (N.ltb_spec (N.of_nat (length p)) (N.of_nat (length w))); [lia|]. rewrite Nnat.Nat2N.id, Hw. unfold convert.
    destruct (Nat.ltb_spec 48 (length (dec E w) + slack E)); [reflexivity|lia].
Qed.
