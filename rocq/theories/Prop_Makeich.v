(** * Prop_Makeich: the compiler of alternation tables. *)
From Coq Require Import String.
From Verif Require Import Base Serial WordTree TreeSpec Stems StemSpec GramMap RusRuntime LevelSpec RusSpec Compile CompileSpec Api EngCompileSpec Utf8 RusText Tfc TfcSpec TfcDemo PropTfcLemmas Makeich MakeichSpec MakeichDemo PropMakeichLemmas.
Local Open Scope N_scope.
Local Open Scope list_scope.
Notation length := List.length.

(** ** C88: a text that defines alternations is compiled to them *)
Theorem C88_text_compiled : forall depth fs conv name ds, mixes_defined fs conv depth name ds -> consistent ds -> Forall mix_fits ds -> mixes_size ds <= 0x10000 ->
  exists b ix, makeich depth fs conv name = Some (b, ix) /\ mixes_mean ds b ix.
Proof. exact mixes_compiled. Qed.
(** Alternations of /repo/lang-rus/tables/mix: one with an empty string, some with two and some with three levels, one with a comma at the end of its line. *)
Theorem C88_text_compiled_case : mixes_defined mix_files same 2 (text "mix/all.mix") demo_mixdefs /\ consistent demo_mixdefs /\ Forall mix_fits demo_mixdefs /\ mixes_size demo_mixdefs <= 0x10000 /\
  mixes_of demo_mixdefs (cyr "п 3*a/c'E6") = [MixLine (cyr "о") [cyr "ьк"; cyr "ек"; []]] /\
  mixes_of demo_mixdefs (cyr "п 3*a/c'") = [MixLine (cyr "о") [cyr "дк"; cyr "док"; cyr "ж"]; MixLine (cyr "о") [cyr "к"; cyr "ок"; cyr "ч"]; MixLine (cyr "*") [cyr "д"; cyr "т"]].
Proof.
  split; [exact demo_mixes|]. split; [exact demo_mix_consistent|]. split; [exact demo_mix_fits|]. split; [exact demo_mix_size|]. split; vm_compute; reflexivity.
Qed.

(** ** C89: only well-formed texts are compiled; names that share definitions share their alternations *)
Theorem C89_accepted : forall depth fs conv name b ix, readable fs -> conv_white conv -> makeich depth fs conv name = Some (b, ix) ->
  exists ds, mixes_defined fs conv depth name ds /\ (Forall mix_fits ds -> mixes_size ds <= 0x10000 -> mixes_grouped ds b ix).
Proof. exact mixes_accepted. Qed.
Theorem C89_accepted_case : readable mix_files /\ conv_white same /\ exists b ix, makeich 2 mix_files same (text "mix/all.mix") = Some (b, ix).
Proof.
  split; [|split; [exact same_white|]].
  - intros n f. unfold mix_files. cbn [lookup]. intros H. exists (split_lines [] f). apply short_text. repeat (destruct (list_eq_dec N.eq_dec n _); [injection H as <-; vm_compute; reflexivity|]). discriminate.
  - destruct (mixes_compiled _ _ _ _ _ demo_mixes demo_mix_consistent demo_mix_fits demo_mix_size) as (b & ix & H & _). eauto.
Qed.

(** ** C90: what is not checked *)
(** A name gets the alternations of an earlier definition that does not mention it: "A", then "A, C". *)
Theorem C90_own_alternations_refuted : exists ds b ix refs, mixes_defined (mix_text alias_lines) same 1 (text "a.tf") ds /\ makeich 1 (mix_text alias_lines) same (text "a.tf") = Some (b, ix) /\
  lookup (text "C") ix = Some refs /\ mixes_of ds (text "C") = [MixLine (cyr "о") [cyr "г"; cyr "ж"]] /\ length refs = 2%nat.
Proof.
  exists alias_defs. eexists _, _, _. split; [exact alias_defined|]. split; [vm_compute; reflexivity|]. split; [vm_compute; reflexivity|]. split; vm_compute; reflexivity.
Qed.
(** ... although a definition with names of two earlier ones is refused, and so is one without names. *)
Theorem C90_refused : mixes_defined (mix_text alias_back) same 1 (text "a.tf") back_defs /\ makeich 1 (mix_text alias_back) same (text "a.tf") = None /\
  mixes_defined (mix_text comma_lines) same 1 (text "a.tf") comma_defs /\ makeich 1 (mix_text comma_lines) same (text "a.tf") = None.
Proof. split; [exact back_defined|]. split; [vm_compute; reflexivity|]. split; [exact comma_defined|]. vm_compute. reflexivity. Qed.
(** A string of 16 letters. *)
Theorem C90_length_checked_refuted : exists b, mixes_defined (mix_text long_lines) same 1 (text "a.tf") [MixDef [text "A"] [MixLine (cyr "о") [cyr "абвгдежзийклмноп"; cyr "к"]]] /\
  makeich 1 (mix_text long_lines) same (text "a.tf") = Some (b, [(text "A", [(6, cyr "о")])]) /\ ~ alternates_as b 6 [cyr "абвгдежзийклмноп"; cyr "к"].
Proof. exists (fst long_out). split; [exact long_defined|]. split; [exact long_compiled|exact long_lost]. Qed.
