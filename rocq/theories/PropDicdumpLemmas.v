(** * PropDicdumpLemmas: the statements of Prop_Dicdump. *)
From Coq Require Import Sorted.
From Verif Require Import Base Serial WordTree TreeSpec Stems StemSpec GramMap RusRuntime RusSpec RusBuild RusBuildSpec CxxApi CxxProofs Dump DumpSpec DumpProofs
  Dicdump DicdumpSpec DicdumpProofs DicdumpProofs2 DicdumpProofs3 DicdumpBuild DicdumpBuildSpec DicdumpProofs4 DicdumpProofs5.
Local Open Scope N_scope.

Lemma list_gives l : Forall (fun x => x <> []) l -> gives from_list l l.
Proof.
  intros H. refine (gives_by from_list (fun s l => s = l /\ Forall (fun x => x <> []) l) _ _ l l (conj eq_refl H)).
  - intros s l' (-> & HF). exists (tl l'). destruct HF; [split; [reflexivity|split; [reflexivity|constructor]]|]. split; [reflexivity|]. split; [reflexivity|assumption].
  - intros s l' (_ & HF). exact HF.
Qed.

Section Diff.
  Context {S1 S2 : Type} (get1 : S1 -> bytes * S1) (get2 : S2 -> bytes * S2).
  Lemma nothing_iff s1 s2 l1 l2 : gives get1 s1 l1 -> gives get2 s2 l2 -> (exists fuel, dump_diff get1 get2 fuel s1 s2 = Some []) <-> l1 = l2.
  Proof.
    intros G1 G2. split.
    - intros (fuel & H). apply edit_nothing. exact (diff_edit get1 get2 fuel s1 s2 l1 l2 [] G1 G2 H).
    - intros ->. exists (S (length l2)). apply (diff_same get1 get2 l2 s1 s2 G1 G2). lia.
  Qed.
  Lemma ends key s1 s2 l1 l2 : gives get1 s1 l1 -> gives get2 s2 l2 -> ascending key l1 -> ascending key l2 ->
    exists out, dump_diff get1 get2 (S (length l1 + length l2)) s1 s2 = Some out.
  Proof.
    intros G1 G2 A1 A2. assert (H := diff_ends key get1 get2 (S (length l1 + length l2)) s1 s2 l1 l2 G1 G2 (ascending_sorted key l1 A1 (proj1 G1)) (ascending_sorted key l2 A2 (proj1 G2)) ltac:(lia)).
    destruct (dump_diff get1 get2 _ s1 s2) as [out|]; [eauto|congruence].
  Qed.
  Lemma short_exact s1 s2 l1 l2 fuel out : gives get1 s1 l1 -> gives get2 s2 l2 -> NoDup l1 -> NoDup l2 -> (length l1 <= 1024)%nat -> (length l2 <= 1024)%nat ->
    dump_diff get1 get2 fuel s1 s2 = Some out -> tells_difference l1 l2 out.
  Proof.
    intros G1 G2 D1 D2 B1 B2 H. split; [apply (edit_lines l1 l2); exact (diff_edit get1 get2 fuel s1 s2 l1 l2 out G1 G2 H)|].
    exact (diff_exact get1 get2 fuel s1 s2 l1 l2 out G1 G2 D1 D2 B1 B2 H).
  Qed.
  Lemma report_edit s1 s2 l1 l2 fuel out : gives get1 s1 l1 -> gives get2 s2 l2 -> dump_diff get1 get2 fuel s1 s2 = Some out ->
    edit l1 l2 out /\ ~ In Too_big out /\ (forall x, x <> [] -> In (Left x) out -> In x l1) /\ (forall x, x <> [] -> In (Right x) out -> In x l2) /\
    (forall x, In x l1 -> ~ In x l2 -> In (Left x) out) /\ (forall x, In x l2 -> ~ In x l1 -> In (Right x) out).
  Proof.
    intros G1 G2 H. pose proof (diff_edit get1 get2 fuel s1 s2 l1 l2 out G1 G2 H) as HE. destruct (edit_lines _ _ _ HE) as (E0 & E1 & E2 & E3 & E4).
    split; [exact HE|]. split; [exact E0|]. split; [exact E1|]. split; [exact E2|]. split; intros x Hi Hn; [destruct (E3 x Hi)|destruct (E4 x Hi)]; tauto.
  Qed.
End Diff.

(** ** more than 1024 new lines in front of a common one *)
Definition two_bytes (k : nat) : bytes := [N.of_nat k / 200 + 11; N.of_nat k mod 200 + 11].
Definition of_two (x : bytes) : N := match x with [a; b] => (a - 11) * 200 + (b - 11) | _ => 0 end.
Lemma of_two_ok k : of_two (two_bytes k) = N.of_nat k.
Proof. unfold of_two, two_bytes. rewrite !N.add_sub. rewrite N.mul_comm. symmetry. apply N.div_mod. discriminate. Qed.
Lemma two_ascending n : forall a, ascending of_two (map two_bytes (seq a n)).
Proof.
  induction n as [|n IH]; intros a; [exact I|]. cbn [seq map ascending]. split; [|apply IH]. apply Forall_forall. intros x Hx. apply in_map_iff in Hx as (k & <- & Hk). apply in_seq in Hk.
  rewrite !of_two_ok. lia.
Qed.
Lemma two_nonempty l : Forall (fun x => x <> []) (map two_bytes l).
Proof. apply Forall_forall. intros x Hx. apply in_map_iff in Hx as (k & <- & _). discriminate. Qed.
Definition said_left (x : bytes) (r : option (list printed)) : bool :=
  match r with Some out => existsb (fun p => match p with Left y => same_line x y | _ => false end) out | None => false end.
Lemma window : let l1 := [two_bytes 1024] in let l2 := map two_bytes (seq 0 1025) in
  ascending of_two l1 /\ ascending of_two l2 /\ gives from_list l1 l1 /\ gives from_list l2 l2 /\
  exists fuel out x, dump_diff from_list from_list fuel l1 l2 = Some out /\ In (Left x) out /\ In x l1 /\ In x l2.
Proof.
  cbv zeta. split; [exact (two_ascending 1 1024)|]. split; [exact (two_ascending 1025 0)|]. split; [apply list_gives, (two_nonempty [1024%nat])|]. split; [apply list_gives, two_nonempty|].
  exists 8%nat. assert (H : said_left (two_bytes 1024) (dump_diff from_list from_list 8 [two_bytes 1024] (map two_bytes (seq 0 1025))) = true) by (vm_compute; reflexivity).
  destruct (dump_diff from_list from_list 8 [two_bytes 1024] (map two_bytes (seq 0 1025))) as [out|]; [|discriminate]. exists out, (two_bytes 1024). split; [reflexivity|]. cbn [said_left] in H.
  apply existsb_exists in H as (p & Hp & E). destruct p as [y| |]; try discriminate. apply same_line_iff in E. subst y. split; [exact Hp|]. split; [left; reflexivity|].
  apply in_map, in_seq. lia.
Qed.

(** ** two dictionaries with one dump *)
Definition serve (forms : N -> N -> list bytes) (mem : bytes) (n fid : N) : res (Z * bytes) :=
  let fs := forms n fid in if (total fs <? 256)%nat then Ok (Z.of_nat (length fs), filled fs mem) else Ok ((-1)%Z, mem).
Definition known (forms : N -> N -> list bytes) (n : N) : res Z := Ok (if n =? 1 then 1%Z else 0%Z).
Definition only_one (fs0 fs1 : list bytes) (n fid : N) : list bytes := if n =? 1 then if fid =? 0 then fs0 else if fid =? 1 then fs1 else [] else [].
Lemma serve_answers fs0 fs1 : (total fs0 < 256)%nat -> (total fs1 < 256)%nat ->
  (forall f, In f fs0 \/ In f fs1 -> ~ In 0 f /\ ~ In 10 f /\ (length f <= 251)%nat) -> answers (serve (only_one fs0 fs1)) (known (only_one fs0 fs1)) (only_one fs0 fs1).
Proof.
  intros H0 H1 Ht. assert (Hsmall : forall n fid, (total (only_one fs0 fs1 n fid) < 256)%nat).
  { intros n fid. unfold only_one. destruct (n =? 1); [|cbn; lia]. destruct (fid =? 0); [assumption|]. destruct (fid =? 1); [assumption|cbn; lia]. }
  split.
  - intros mem n fid Hm _ _. unfold serve. rewrite (proj2 (Nat.ltb_lt _ _) (Hsmall n fid)). eexists _, _. split; [reflexivity|].
    split; [rewrite filled_len; [exact Hm|right; specialize (Hsmall n fid); lia]|]. split; [intros ->; cbn; lia|]. intros _. split; [reflexivity|]. eexists. reflexivity.
  - intros n fid f _ Hf. apply Ht. unfold only_one in Hf. destruct (n =? 1); [|destruct Hf]. destruct (fid =? 0); [left; exact Hf|]. destruct (fid =? 1); [right; exact Hf|destruct Hf].
  - intros n _. eexists. split; [reflexivity|]. unfold only_one. destruct (n =? 1); [discriminate|reflexivity].
Qed.
Lemma only_ids fs0 fs1 : fs0 <> [] -> ids_from (only_one fs0 fs1) 0 [1].
Proof.
  intros H. split; [repeat constructor|]. intros i. cbn [In]. split.
  - intros [<-|[]]. split; [lia|]. unfold entries. cbn [seq flat_map]. destruct fs0; [congruence|]. discriminate.
  - intros (_ & Hn). left. destruct (N.eq_dec 1 i) as [E|E]; [exact E|]. exfalso. apply Hn. unfold entries. generalize (seq 0 256). intros l. induction l as [|k l IH]; [reflexivity|].
    cbn [flat_map]. unfold only_one at 1. replace (i =? 1) with false by lia. cbn [app]. exact IH.
Qed.
Lemma same_dump : let f := only_one [[97; 98; 99]] [[97; 98; 99; 100]] in let g := only_one [[97; 98; 99]; [120]] [[97; 98; 100]] in
  answers (serve f) (known f) f /\ answers (serve g) (known g) g /\ f 1 1 <> g 1 1 /\
  forall stack, (forall n, length (stack n) = 256%nat) -> dump_dict (serve f) (known f) stack = dump_dict (serve g) (known g) stack.
Proof.
  cbv zeta. assert (Hf : answers (serve (only_one [[97; 98; 99]] [[97; 98; 99; 100]])) (known (only_one [[97; 98; 99]] [[97; 98; 99; 100]])) (only_one [[97; 98; 99]] [[97; 98; 99; 100]])).
  { apply serve_answers; [cbn; lia|cbn; lia|]. intros f [[<-|[]]|[<-|[]]]; cbn [In length]; repeat split; try lia; intros H; repeat destruct H as [H|H]; try discriminate H; destruct H. }
  assert (Hg : answers (serve (only_one [[97; 98; 99]; [120]] [[97; 98; 100]])) (known (only_one [[97; 98; 99]; [120]] [[97; 98; 100]])) (only_one [[97; 98; 99]; [120]] [[97; 98; 100]])).
  { apply serve_answers; [cbn; lia|cbn; lia|]. intros f [[<-|[<-|[]]]|[<-|[]]]; cbn [In length]; repeat split; try lia; intros H; repeat destruct H as [H|H]; try discriminate H; destruct H. }
  split; [exact Hf|]. split; [exact Hg|]. split; [vm_compute; discriminate|]. intros stack Hs. unfold dump_dict.
  rewrite (dump_lines_ok _ _ stack _ Hf Hs (left_from 0) 0 [1]) by (try (apply only_ids; discriminate); unfold left_from; lia).
  rewrite (dump_lines_ok _ _ stack _ Hg Hs (left_from 0) 0 [1]) by (try (apply only_ids; discriminate); unfold left_from; lia).
  f_equal; vm_compute; reflexivity.
Qed.

(** ** a dump and its check *)
Section Check.
  Variables (build : bytes -> N -> N -> res (Z * bytes)) (info : N -> res Z) (stack : N -> bytes) (forms : N -> N -> list bytes).
  Hypothesis Han : answers build info forms.
  Hypothesis Hstack : forall n, length (stack n) = 256%nat.
  Lemma dump_shows : exists lines, dump_of forms 0 lines /\ dump_dict build info stack = Ok (as_text lines).
  Proof. destruct (dump_ok build info stack forms Han Hstack) as (lines & H1 & H2 & _). exists lines. split; assumption. Qed.
  Lemma check_same t : dump_dict build info stack = Ok t ->
    exists get2 fuel, (forall n, libmorph_get build info stack n = Ok (get2 n)) /\ dump_diff queue_get get2 fuel t 0 = Some [].
  Proof.
    intros H. destruct (dump_ok build info stack forms Han Hstack) as (lines & _ & H2 & H3 & H4 & _ & get2 & H5 & H6). rewrite H in H2. injection H2 as ->.
    exists get2, (S (length lines)). split; [exact H5|]. apply (diff_same queue_get get2 lines); [apply queue_gives; assumption|exact H6|lia].
  Qed.
  Lemma check_other t l1 : lines_of t l1 -> ~ In 0 t -> ascending line_id l1 ->
    exists get2 l2 fuel out, (forall n, libmorph_get build info stack n = Ok (get2 n)) /\ dump_of forms 0 l2 /\ dump_diff queue_get get2 fuel t 0 = Some out /\
      edit l1 l2 out /\ (out = [] <-> l1 = l2).
  Proof.
    intros Hl H0 Ha. destruct (dump_ok build info stack forms Han Hstack) as (l2 & D & _ & _ & _ & A2 & get2 & H5 & H6).
    pose proof (queue_gives t l1 Hl H0) as G1. destruct (ends queue_get get2 line_id t 0 l1 l2 G1 H6 Ha A2) as (out & E).
    exists get2, l2, (S (length l1 + length l2)), out. split; [exact H5|]. split; [exact D|]. split; [exact E|]. pose proof (diff_edit queue_get get2 _ _ _ _ _ _ G1 H6 E) as HE. split; [exact HE|]. split.
    - intros ->. apply edit_nothing. exact HE.
    - intros El. rewrite <- El in H6. rewrite (diff_same queue_get get2 l1 t 0 G1 H6) in E by lia. congruence.
  Qed.
End Check.

Lemma dictionary_dump A L junk stack : holds A L -> buildable L -> indexed A L -> unique_ids L -> plain_forms L ->
  (forall n, n <= 0x3ffff -> (length (lexkeylen n ++ junk n) = 16)%nat) -> (forall n, length (stack n) = 256%nat) ->
  exists forms lines, describes L forms /\ answers (dict_build A junk) (dict_info A junk) forms /\
    dump_of forms 0 lines /\ dump_dict (dict_build A junk) (dict_info A junk) stack = Ok (as_text lines).
Proof.
  intros HL HB HI HU HP Hj Hs. destruct (dict_answers A L junk HL HB HI HU HP Hj) as (D & An). destruct (dump_shows _ _ stack _ An Hs) as (lines & H1 & H2).
  exists (called A junk), lines. auto.
Qed.
