(** * DumpSpec2: what the options of makerus and makeeng come to, and the arrays of the libraries by name.  SPECIFICATION ONLY. *)
From Coq Require Import String Ascii.
From Verif Require Import Base Api RusRuntime EngRuntime DumpSpec.
Local Open Scope N_scope.
Local Open Scope list_scope.

Definition default (v d : bytes) : bytes := match v with [] => d | _ => v end.

Definition rus_keys_known : list bytes := map text ["flex-table"; "flex-index"; "intr-table"; "intr-index"; "target-dir"; "unknown"; "namespace"; "codepage"]%string.
Definition rus_options (args : list bytes) (ftab fidx mtab midx folder unk ns : bytes) (dicts : list bytes) : Prop :=
  in_order rus_keys_known args /\
  value_of (text "flex-table") args ftab /\ value_of (text "flex-index") args fidx /\ value_of (text "intr-table") args mtab /\ value_of (text "intr-index") args midx /\
  (exists v, value_of (text "target-dir") args v /\ folder = default v (text "./")) /\ value_of (text "unknown") args unk /\
  (exists v, value_of (text "namespace") args v /\ ns = default v (text "__libmorphrus__")) /\ plain args dicts.
Definition rus_arrays (A : arrays) : list (bytes * bytes) :=
  [(text "stemtree", stemtree A); (text "lidstree", lidstree A); (text "mxTables", mxTables A); (text "flexTree", flexTree A);
   (text "mixTypes", mixTypes); (text "classmap", classmap A)].

Definition eng_keys_known : list bytes := map text ["target-dir"; "unknown"; "namespace"]%string.
Definition eng_options (args : list bytes) (folder unk ns : bytes) (dicts : list bytes) : Prop :=
  in_order eng_keys_known args /\ (exists v, value_of (text "target-dir") args v /\ folder = default v (text "./")) /\ value_of (text "unknown") args unk /\
  (exists v, value_of (text "namespace") args v /\ ns = default v (text "__libmorpheng__")) /\ plain args dicts.
Definition eng_arrays (A : earrays) : list (bytes * bytes) :=
  [(text "stemtree", e_stems A); (text "lidstree", e_lids A); (text "flexTree", e_flex A); (text "classmap", e_class A)].
