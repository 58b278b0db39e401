(** * CxxProofs: proofs about the C++ wrappers. *)
From Coq Require Import Permutation.
From Verif Require Import Base Serial WordTree TreeSpec FlatScan Stems StemSpec CharTables CapScheme CapSpec GramMap RusRuntime LevelSpec RusSpec
  RusProofs3 RusBuild RusBuildSpec RusReadings RusLemmaSpec EngRuntime EngSpec EngFormsSpec EngLemmaSpec Fuzzy FuzzySpec CxxApi CxxSpec.
Local Open Scope N_scope.

(** ** Strings *)
Lemma total_app_cons a l : total (a :: l) = (length a + 1 + total l)%nat.
Proof. reflexivity. Qed.

Lemma take_strings_ok : forall fs rest, Forall (fun f => ~ In 0 f) fs -> take_strings (length fs) (joined fs ++ rest) = Ok fs.
Proof.
  induction fs as [|f fs IH]; intros rest H; [reflexivity|]. inversion H as [|? ? Hf Hfs]; subst.
  cbn [length take_strings joined flat_map]. rewrite <- !app_assoc. cbn [app]. rewrite cstr_app by exact Hf. cbn [bind].
  replace (f ++ 0 :: flat_map (fun f0 => f0 ++ [0]) fs ++ rest) with ((f ++ [0]) ++ joined fs ++ rest)
    by (rewrite <- app_assoc; reflexivity).
  rewrite advance_app by (rewrite app_length; cbn [length]; lia). cbn [bind]. fold (joined fs). rewrite IH by exact Hfs. reflexivity.
Qed.

Lemma strings_delivered call buffer fs limits : length buffer = 256%nat -> Forall (fun f => ~ In 0 f) fs ->
  delivered buffer fs limits (call (Some buffer)) -> all_or_none 256 fs limits (strings_from call buffer).
Proof.
  intros Hl H0 (H1 & H2). rewrite Hl in H1, H2. unfold all_or_none, strings_from, bytes in *. split; intros H.
  - rewrite (H1 H). cbn [bind]. rewrite Nat2Z.id. unfold filled. apply take_strings_ok. exact H0.
  - destruct (H2 H) as (mem' & _ & ->). reflexivity.
Qed.

(** ** Lexemes *)
Section Lexemes.
  Context {X : Type}.
  Lemma moved_moved (x : cxx_lexeme X) : lexeme_moved (lexeme_moved x) = lexeme_moved x.
  Proof. reflexivity. Qed.

  Lemma push_all_eq grow st gr (infos : list (cxx_info X)) xs : Forall2 (fun i x => lexeme_from st gr i = Ok x) infos xs -> forall output,
    map lexeme_moved output = output -> push_all grow st gr infos output = Ok (output ++ map lexeme_moved xs).
  Proof.
    induction 1 as [|i x infos xs H _ IH]; intros output Ho; cbn [push_all map]; [rewrite app_nil_r; reflexivity|]. rewrite H. cbn [bind].
    rewrite IH.
    - unfold push_back. rewrite Ho. destruct (grow _); rewrite <- app_assoc; reflexivity.
    - unfold push_back. rewrite Ho. destruct (grow _); rewrite map_app, Ho; reflexivity.
  Qed.

  (** an element with its strings in the arrays *)
  Lemma lexeme_from_eq st gr (i : cxx_info X) pre l post gpre gs gpost :
    i_plemma i = PLocal (length pre) -> st = pre ++ l ++ 0 :: post -> ~ In 0 l ->
    i_pgrams i = PLocal (length gpre) -> i_ngrams i = length gs -> gr = gpre ++ gs ++ gpost ->
    exists x, lexeme_from st gr i = Ok x /\ seen (lexeme_moved x) = (i_rest i, l, gs) /\ self_contained (lexeme_moved x).
  Proof.
    intros Hp Hst Hl Hg Hn Hgr. unfold lexeme_from. rewrite Hp. rewrite Hst, advance_app by reflexivity. cbn [bind].
    rewrite cstr_app by exact Hl. cbn [bind]. rewrite Hn. destruct (Nat.eqb_spec (length gs) 0) as [E|E]; cbn [bind].
    - eexists. split; [reflexivity|]. destruct gs; [|discriminate]. split; [reflexivity|]. repeat split.
    - rewrite Hg. rewrite Hgr, !app_length. destruct (Nat.ltb_spec (length gpre + (length gs + length gpost)) (length gpre + length gs)); [lia|].
      cbn [bind]. rewrite skipn_app, skipn_all, Nat.sub_diag. cbn [app skipn]. rewrite firstn_app, firstn_all, Nat.sub_diag, app_nil_r.
      eexists. split; [reflexivity|]. split; [reflexivity|]. repeat split.
  Qed.

  Lemma lexemes_from_eq grow (infos : list (cxx_info X)) st gr rows :
    Forall2 (fun i row => exists x, lexeme_from st gr i = Ok x /\ seen (lexeme_moved x) = row /\ self_contained (lexeme_moved x)) infos rows ->
    forall rest, exists xs, lexemes_from grow (Z.of_nat (length rows)) (infos ++ rest) st gr = Ok (Returned xs) /\ map seen xs = rows /\ Forall self_contained xs.
  Proof.
    intros H rest. assert (Hx : exists xs, Forall2 (fun i x => lexeme_from st gr i = Ok x) infos xs /\ map seen (map lexeme_moved xs) = rows /\
      Forall self_contained (map lexeme_moved xs) /\ length infos = length rows).
    { clear rest. induction H as [|i row infos rows (x & H1 & H2 & H3) _ (xs & I1 & I2 & I3 & I4)].
      - exists []. repeat split; constructor.
      - exists (x :: xs). split; [constructor; assumption|]. cbn [map length]. rewrite H2, I2, I4. split; [reflexivity|]. split; [constructor; assumption|reflexivity]. }
    destruct Hx as (xs & H1 & H2 & H3 & H4). exists (map lexeme_moved xs). split; [|split; assumption]. unfold lexemes_from.
    destruct (Z.leb_spec 0 (Z.of_nat (length rows))); [|lia]. rewrite Nat2Z.id, app_length.
    destruct (Nat.ltb_spec (length infos + length rest) (length rows)); [lia|].
    rewrite <- H4, firstn_app, firstn_all, Nat.sub_diag, app_nil_r. rewrite (push_all_eq grow st gr infos xs H1 []) by reflexivity. reflexivity.
  Qed.
End Lexemes.
