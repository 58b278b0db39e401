(** * Prop_Holes: C108, the list of free lexeme ids of a dictionary. *)
From Coq Require Import String Sorting.Sorted.
From Verif Require Import Base Api EngCompile EngCompileSpec RusText RusTextSpec RusTextProofs RusTextProofs2 Dump Holes HolesSpec HolesProofs HolesProofs2 HolesProofs3 PropRusTextLemmas RusTextDemo.
Local Open Scope N_scope.
Local Open Scope list_scope.
Notation length := List.length.

Lemma beyond_iff ids lo hi : (beyond ids lo hi = [] \/ beyond ids lo hi = [(hi + 1, hi + 1)]) /\ (beyond ids lo hi <> [] <-> lo < hi /\ In (hi - 1) ids /\ (hi + 1) mod 32 <> 0).
Proof.
  unfold beyond. rewrite <- mem_in. destruct (N.ltb_spec lo hi) as [H|H]; cbn [andb].
  - destruct (existsb (N.eqb (hi - 1)) ids); cbn [andb].
    + destruct (N.eqb_spec ((hi + 1) mod 32) 0) as [Z|Z]; cbn [negb]; (split; [auto|]); split; [congruence|intros (_ & _ & K); contradiction|auto|intros _; discriminate].
    + split; [auto|]. split; [congruence|]. intros (_ & K & _). discriminate.
  - split; [auto|]. split; [congruence|]. intros (K & _). lia.
Qed.

(** ** C108: the gaps between the ids of a dictionary are listed, the repeated ids are reported *)
Theorem C108_holes_partial : forall file lines ids us lo hi, in_lines file lines -> shown lines ids -> again [] ids us -> least ids lo -> greatest ids hi -> hi < 2 ^ 32 - 2 ->
  lo mod 32 = 0 -> exists gs extra, get_holes file = Ok (Lexemes lo hi (gs ++ extra), us) /\ gaps ids lo hi gs /\
    (extra = [] \/ extra = [(hi + 1, hi + 1)]) /\ (extra <> [] <-> lo < hi /\ In (hi - 1) ids /\ (hi + 1) mod 32 <> 0).
Proof.
  intros file lines ids us lo hi HL HS HA Hlo Hhi Hs Hm. destruct (get_holes_spec file lines ids us HL HS HA) as (map & M & ->).
  pose proof (print_map_spec map ids lo hi M Hlo Hhi ltac:(unfold none; lia)) as P. rewrite Hm in P. cbn [N.eqb] in P. destruct P as (gs & -> & G).
  exists gs, (beyond ids lo hi). split; [reflexivity|]. split; [assumption|]. apply beyond_iff.
Qed.
(** The articles of the dictionary are such lines. *)
Theorem C108_articles : forall x line body, rwritten x line body -> shows_id line (r_id x).
Proof. exact article_shows. Qed.
Theorem C108_articles_case : Forall (fun xn => rwritten (fst xn) (spaced (fst xn) (snd xn) ++ [10]) (spaced (fst xn) (snd xn))) demo_arts /\ (0 < length demo_arts)%nat.
Proof. split; [exact demo_written|vm_compute; lia]. Qed.

(** If the least id is not a multiple of 32, nothing is found. *)
Theorem C108_least_refuted : (forall file lines ids us lo hi, in_lines file lines -> shown lines ids -> again [] ids us -> least ids lo -> greatest ids hi -> hi < 2 ^ 32 - 2 ->
    lo mod 32 <> 0 -> get_holes file = Ok (No_lexemes, us)) /\
  get_holes (text "one LID:1") = Ok (No_lexemes, []).
Proof.
  split; [|vm_compute; reflexivity]. intros file lines ids us lo hi HL HS HA Hlo Hhi Hs Hm. destruct (get_holes_spec file lines ids us HL HS HA) as (map & M & ->).
  pose proof (print_map_spec map ids lo hi M Hlo Hhi ltac:(unfold none; lia)) as P. destruct (N.eqb_spec (lo mod 32) 0) as [|_]; [contradiction|]. rewrite P. reflexivity.
Qed.

Definition nl : bytes := [10].
Definition ids_file : bytes := text "one LID:64" ++ nl ++ text "free text" ++ nl ++ text "// two LID:0x41 x" ++ nl ++ text "three LID:0107" ++ nl ++ text "four LID:64" ++ nl.
Definition ids_lines : list bytes := [text "one LID:64" ++ nl; text "free text" ++ nl; text "// two LID:0x41 x" ++ nl; text "three LID:0107" ++ nl; text "four LID:64" ++ nl].
Ltac each := match goal with |- Forall _ ?l => let v := eval vm_compute in l in change l with v end; repeat (apply Forall_cons; [lia|]); apply Forall_nil.
Ltac no_lid := apply strstr_none_lacks; vm_compute; reflexivity.
Lemma ids_shown : shown ids_lines [64; 65; 71; 64].
Proof.
  apply sh_id; [|apply sh_none; [discriminate|no_lid|apply sh_id; [|apply sh_id; [|apply sh_id; [|constructor]]]]].
  - exists (text "one "), (text "64"), nl. split; [reflexivity|]. split; [discriminate|]. split; [vm_compute; discriminate|]. split; [no_lid|].
    split; [left; split; [each|split; [discriminate|split; [discriminate|reflexivity]]]|]. split; [lia|cbn; lia].
  - exists (text "// two "), (text "0x41"), (text " x" ++ nl). split; [reflexivity|]. split; [discriminate|]. split; [vm_compute; discriminate|]. split; [no_lid|].
    split; [right; right; exists 120, (text "41"); split; [reflexivity|split; [left; reflexivity|split; [discriminate|split; [each|reflexivity]]]]|]. split; [lia|cbn; lia].
  - exists (text "three "), (text "0107"), nl. split; [reflexivity|]. split; [discriminate|]. split; [vm_compute; discriminate|]. split; [no_lid|].
    split; [right; left; exists (text "107"); split; [reflexivity|split; [each|reflexivity]]|]. split; [lia|cbn; lia].
  - exists (text "four "), (text "64"), nl. split; [reflexivity|]. split; [discriminate|]. split; [vm_compute; discriminate|]. split; [no_lid|].
    split; [left; split; [each|split; [discriminate|split; [discriminate|reflexivity]]]|]. split; [lia|cbn; lia].
Qed.
Lemma ids_in_lines : in_lines ids_file ids_lines.
Proof.
  unfold ids_file, ids_lines. rewrite <- (app_nil_r (text "four LID:64" ++ nl)) at 1. rewrite !(app_assoc _ nl).
  assert (C : forall line file lines, ~ In 10 line -> (length line < 1022)%nat -> in_lines file lines -> in_lines ((line ++ nl) ++ file) ((line ++ nl) :: lines)).
  { intros line file lines H1 H2 H3. apply (in_lines_cons line); auto. }
  repeat (apply C; [vm_compute; intuition discriminate|vm_compute; lia|]). constructor.
Qed.
(** The id of a comment counts as well. *)
Theorem C108_holes_case : in_lines ids_file ids_lines /\ shown ids_lines [64; 65; 71; 64] /\ again [] [64; 65; 71; 64] [64] /\ least [64; 65; 71; 64] 64 /\ greatest [64; 65; 71; 64] 71 /\
  get_holes ids_file = Ok (Lexemes 64 71 [(66, 70)], [64]).
Proof.
  split; [exact ids_in_lines|]. split; [exact ids_shown|]. split.
  { apply ag_new; [intros []|]. apply ag_new; [cbn; intuition discriminate|]. apply ag_new; [cbn; intuition discriminate|]. apply ag_old; [cbn; auto|constructor]. }
  split; [split; [left; reflexivity|cbn; intros n H; intuition subst; lia]|]. split; [split; [right; right; left; reflexivity|cbn; intros n H; intuition subst; lia]|]. vm_compute. reflexivity.
Qed.
(** Two ids in a row, and a hole behind them. *)
Theorem C108_last_hole_refuted : exists file, get_holes file = Ok (Lexemes 32 33 [(34, 34)], []) /\ exists lines, in_lines file lines /\ shown lines [32; 33].
Proof.
  exists (text "one LID:32" ++ nl ++ text "two LID:33"). split; [vm_compute; reflexivity|]. exists [text "one LID:32" ++ nl; text "two LID:33"]. split.
  - rewrite app_assoc. apply (in_lines_cons (text "one LID:32")); [reflexivity|vm_compute; intuition discriminate|vm_compute; lia|]. apply il_last; [vm_compute; intuition discriminate|discriminate|vm_compute; lia].
  - apply sh_id; [|apply sh_id; [|constructor]].
    + exists (text "one "), (text "32"), nl. split; [reflexivity|]. split; [discriminate|]. split; [vm_compute; discriminate|]. split; [no_lid|].
      split; [left; split; [each|split; [discriminate|split; [discriminate|reflexivity]]]|]. split; [lia|cbn; lia].
    + exists (text "two "), (text "33"), []. split; [reflexivity|]. split; [discriminate|]. split; [vm_compute; discriminate|]. split; [no_lid|].
      split; [left; split; [each|split; [discriminate|split; [discriminate|reflexivity]]]|]. split; [lia|exact I].
Qed.
(** A file that ends in "LID:" is read beyond the end of its last line. *)
Theorem C108_end_refuted : get_holes (text "one LID:") = Ub.
Proof. vm_compute. reflexivity. Qed.
