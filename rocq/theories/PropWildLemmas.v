(** * PropWildLemmas: proofs for Prop_Wild.v. *)
From Verif Require Import Base Serial SerialProofs WordTree TreeSpec WordTreeProofs FlatScan TreeWalk LidsProofs Stems StemSpec StemsProofs DictProofs GramMap
  CharTables CapScheme CapSpec RusRuntime RusBuild RusSpec RusProofs RusProofs2 RusProofs3 RusBuildProofs3 RusDemo RusDemo2
  Wild WildSpec WildProofs WildProofs2 WildProofs3 WildProofs4.
From Coq Require Import Permutation.
Local Open Scope N_scope.

(** The same arrays with [tl] behind the stem tree. *)
Definition tailed (A : arrays) (tl : bytes) : arrays := Arrays (flexTree A) (mxTables A) (classmap A) (stemtree A ++ tl) (lidstree A).

Lemma tailed_holds A L tl : holds A L -> holds (tailed A tl) L.
Proof.
  intros H. constructor.
  - destruct (holds_stems A L H) as (rest & E). exists (rest ++ tl). cbn [tailed stemtree]. rewrite E, <- app_assoc. reflexivity.
  - apply (holds_dump A L H).
  - apply (holds_nonzero A L H).
  - apply (holds_lists A L H).
  - intros key e Hr. destruct (holds_classes A L H key e Hr) as (st & c & H1 & H2 & H3). exists st, c. split; [exact H1|]. split; [exact H2|exact H3].
Qed.

Lemma record_item items key e : itemsb items = true -> has_record (words_of items) key e -> In (key, e) items.
Proof.
  intros Hok (l & Hl & Hin). destruct (dict_reader_facts items wempty) as (_ & F2 & _ & _).
  - apply ordered_wempty.
  - apply (items_facts items Hok).
  - intros k l'. rewrite lookup_wempty. discriminate.
  - specialize (F2 key). unfold words_of in Hl. rewrite Hl, lookup_wempty in F2. cbn [default] in F2. rewrite app_nil_r in F2.
    apply (Permutation_in _ F2) in Hin. unfold records_of in Hin. apply in_map_iff in Hin. destruct Hin as ([k e'] & <- & Hin).
    apply filter_In in Hin. destruct Hin as [Hin E]. cbn [fst snd] in *. destruct (list_eq_dec N.eq_dec k key); [subst; exact Hin|discriminate].
Qed.

Lemma within_items_n n items : Forall (fun ke => (length (fst ke) <= n)%nat) items -> within n (words_of items).
Proof.
  intros H. unfold words_of, dict_reader. assert (Hw : within n (@wempty (list entry))) by apply within_wempty. revert Hw. generalize (@wempty (list entry)) as t.
  induction H as [|ke items Hke H IH]; intros t Ht; cbn [fold_left]; [exact Ht|]. apply IH, within_insert; assumption.
Qed.

Lemma small_within items n : itemsb items = true -> Forall (fun ke => (length (fst ke) + 3 + length (stpost (snd ke)) <= n)%nat) items ->
  strings_within n (lexicon_of (words_of items)).
Proof.
  intros Hok Hlen. split.
  - cbn [words lexicon_of]. apply within_items_n. eapply Forall_impl; [|exact Hlen]. intros ke H. cbn beta in H. lia.
  - intros key e st c ft Hr Hc Hf. apply (record_item items key e Hok) in Hr. rewrite Forall_forall in Hlen. specialize (Hlen _ Hr). cbn [fst snd] in Hlen.
    exists 1%nat, 2%nat. split; [|split; [|lia]].
    + apply class_cases in Hc as [->|[[-> _]|[->|[->|[->| ->]]]]]; try discriminate; injection Hf as <-;
        (unfold endings1 || unfold endings2); repeat (apply within_insert; [|cbn; lia]); apply within_wempty.
    + intros mx Hm. apply class_cases in Hc as [->|[[-> _]|[->|[->|[->| ->]]]]]; try discriminate. injection Hm as <-. repeat constructor; cbn; lia.
Qed.

Lemma small_plain items : itemsb items = true ->
  Forall (fun ke => (oclass (snd ke) = 10 \/ oclass (snd ke) = 12) -> stpost (snd ke) = []) items -> fixed_plain (lexicon_of (words_of items)).
Proof.
  intros Hok Hp key e st c Hr Hc Hf. pose proof (record_item items key e Hok Hr) as Hi. rewrite Forall_forall in Hp. specialize (Hp _ Hi). cbn [snd] in Hp. apply Hp.
  cbn [class_of lexicon_of] in Hc.
  destruct (oclass e =? 0); [injection Hc as <- <-; discriminate|]. destruct (oclass e =? 4); [injection Hc as <- <-; discriminate|].
  destruct (N.eqb_spec (oclass e) 10); [left; assumption|]. destruct (N.eqb_spec (oclass e) 12); [right; assumption|].
  destruct (oclass e =? 16); [injection Hc as <- <-; discriminate|]. destruct (oclass e =? 20); [injection Hc as <- <-; discriminate|discriminate].
Qed.

(** ** A concrete dictionary: "дом", "с(о)н", "с(о)н-то", "как", "под", "иван" *)
Definition wild_arrays : arrays := tailed demo2_arrays [0].
Lemma wild_holds : holds wild_arrays demo2_lexicon.
Proof. apply tailed_holds, demo2_holds. Qed.
Lemma wild_within : strings_within 47 demo2_lexicon.
Proof. apply small_within; [apply demo2_items_ok|]. repeat constructor. Qed.
Lemma wild_plain : fixed_plain demo2_lexicon.
Proof. apply small_plain; [apply demo2_items_ok|]. repeat constructor; cbn; intuition discriminate. Qed.
Lemma wild_ids key e : has_record (words demo2_lexicon) key e -> nlexid e <> 0.
Proof. intros H. apply (record_item demo2_items key e demo2_items_ok) in H. cbn in H. repeat (destruct H as [[= <- <-]|H]; [discriminate|]). destruct H. Qed.

(** collecting the calls *)
Definition note (u : list (N * list (bytes * N))) (l : N) (ms : list (bytes * N)) : list (N * list (bytes * N)) * Z := (u ++ [(l, ms)], 0%Z).
Definition searched (A : arrays) (pat : bytes) : res (list (N * list (bytes * N)) * Z) :=
  find_match note A (repeat 7 48) (repeat 9 48) (Some pat) (N.of_nat (length pat)) [].

(** ** Refutations *)
Lemma fixed_wrong : exists A L w lid str id, holds A L /\ strings_within 47 L /\ is_bytes w /\ length w = 3%nat /\
  (exists ms, find_match note A (repeat 7 48) (repeat 9 48) (Some w) 3 [] = Ok ([(3, [(str, id)]); (lid, ms)], 0%Z) /\ In (str, id) ms) /\
  ~ matching L (map (locase rus_casing) w) lid str id.
Proof.
  exists (tailed demo_arrays [0]), demo_lexicon, [234; 224; 234], 4, [234; 224; 234], 255.
  split; [apply tailed_holds, demo_holds|]. split; [apply small_within; [apply demo_items_ok|repeat constructor]|].
  split; [repeat constructor|]. split; [reflexivity|]. split.
  - exists [([234; 224; 234], 255)]. split; [vm_compute; reflexivity|left; reflexivity].
  - intros (key & e & part & [Hr (st & c & g & f & Hc & Hf & Es & _)] & Hid & _).
    apply (record_item demo_items key e demo_items_ok) in Hr. cbn in Hr.
    repeat (destruct Hr as [[= <- <-]|Hr]; [try discriminate Hid|]); [|destruct Hr].
    apply (f_equal (@length N)) in Es. rewrite !app_length in Es. cbn in Es. lia.
Qed.

Lemma postfix_missed : exists A L w key e str id, holds A L /\ bounds_ok L /\ strings_within 47 L /\
  has_form L key e [] str id /\ glob (map (locase rus_casing) w) str /\ ~ In 42 str /\
  find_match note A (repeat 7 48) (repeat 9 48) (Some w) (N.of_nat (length w)) [] = Ok ([], 0%Z).
Proof.
  exists (tailed demo_arrays [0]), demo_lexicon, [228; 238; 236; 45; 242; 238], [228; 238; 236], (Entry 224 251 5 0 [45; 242; 238]), [228; 238; 236; 45; 242; 238], 0.
  split; [apply tailed_holds, demo_holds|]. split; [apply demo_bounds|]. split; [apply small_within; [apply demo_items_ok|repeat constructor]|].
  split; [|split; [|split]].
  - split.
    + exists [Entry 224 251 1 0 []; Entry 224 251 5 0 [45; 242; 238]]. split; [vm_compute; reflexivity|right; left; reflexivity].
    + exists st_plain, cl_plain, 0, 3. split; [reflexivity|]. split; [|split; [reflexivity|vm_compute; reflexivity]].
      apply form_plain with endings1; [reflexivity|reflexivity|exists [(0, 3); (0x3000, 3)]; split; [vm_compute; reflexivity|left; reflexivity]|].
      intros H. discriminate.
  - change (map (locase rus_casing) [228; 238; 236; 45; 242; 238]) with [228; 238; 236; 45; 242; 238]. repeat (apply glob_same; [discriminate|discriminate|]). apply glob_end.
  - cbn. intuition discriminate.
  - vm_compute. reflexivity.
Qed.

Lemma repeated : exists A L w lid m before between after, holds A L /\ bounds_ok L /\ strings_within 47 L /\ fixed_plain L /\
  find_match note A (repeat 7 48) (repeat 9 48) (Some w) (N.of_nat (length w)) [] = Ok ([(lid, before ++ m :: between ++ m :: after)], 0%Z) /\
  length w = 3%nat.
Proof.
  exists wild_arrays, demo2_lexicon, [228; 42; 224], 1, ([228; 238; 236; 224], 10), [], [([228; 238; 236; 224], 1)], [([228; 238; 236; 224], 1)].
  split; [apply wild_holds|]. split; [exact (small_bounds demo2_items demo2_items_ok)|]. split; [apply wild_within|]. split; [apply wild_plain|].
  split; [vm_compute; reflexivity|reflexivity].
Qed.

Lemma overrun : exists A L w, holds A L /\ bounds_ok L /\ strings_within 47 L /\ fixed_plain L /\ is_bytes w /\ (length w < 48)%nat /\
  forall U (add : U -> N -> list (bytes * N) -> U * Z) u,
    find_match add A (repeat 7 48) (repeat 9 48) (Some w) (N.of_nat (length w)) u = Ub.
Proof.
  exists wild_arrays, demo2_lexicon, (241 :: repeat 42 6).
  split; [apply wild_holds|]. split; [exact (small_bounds demo2_items demo2_items_ok)|]. split; [apply wild_within|]. split; [apply wild_plain|].
  split; [repeat constructor|]. split; [cbn; lia|]. intros U add u. vm_compute. reflexivity.
Qed.

Lemma read_past : exists A L, holds A L /\ stemtree A = stemtree_bytes (words L) /\ bounds_ok L /\ strings_within 47 L /\ fixed_plain L /\
  forall U (add : U -> N -> list (bytes * N) -> U * Z) u,
    find_match add A (repeat 7 48) (repeat 9 48) (Some [63]) 1 u = Ub.
Proof.
  exists demo2_arrays, demo2_lexicon.
  split; [apply demo2_holds|]. split; [reflexivity|]. split; [exact (small_bounds demo2_items demo2_items_ok)|]. split; [apply wild_within|]. split; [apply wild_plain|].
  intros U add u. vm_compute. reflexivity.
Qed.

Definition zero_items : list (bytes * entry) := [([228; 238; 236], Entry 224 251 0 0 [])].
Lemma zero_ok : itemsb zero_items = true.
Proof. vm_compute. reflexivity. Qed.
Lemma zero_id : exists A L rest, holds A L /\ stemtree A = stemtree_bytes (words L) ++ rest /\ rest <> [] /\ bounds_ok L /\ strings_within 47 L /\ fixed_plain L /\
  forall U (add : U -> N -> list (bytes * N) -> U * Z) u,
    find_match add A (repeat 7 48) (repeat 9 48) (Some [228; 238; 236]) 3 u = Ub.
Proof.
  exists (tailed (arrays_of (words_of zero_items)) [0]), (lexicon_of (words_of zero_items)), [0].
  split; [apply tailed_holds, (small_holds zero_items zero_ok)|]. split; [reflexivity|]. split; [discriminate|]. split; [exact (small_bounds zero_items zero_ok)|].
  split; [apply small_within; [apply zero_ok|repeat constructor]|].
  split; [apply small_plain; [apply zero_ok|]; repeat constructor; cbn; intuition discriminate|].
  intros U add u. vm_compute. reflexivity.
Qed.
