(** * FivesSpec: the game of five letters over the wide interface of the Russian analyser.  SPECIFICATION ONLY. *)
From Verif Require Import Base Serial WordTree Stems CharTables CapScheme CapSpec RusRuntime RusSpec Wild WildSpec PropWildLemmas WideApi WideSpec Letters LettersSpec TasksSpec.
Local Open Scope N_scope.

(** What FindMatch of the wide interface hands over for a pattern; [note] writes down the calls. *)
Definition wide_find (W : wide) (A : arrays) (junk buf szword : list N) (pattern : wstring) : list (N * list (wstring * N)) :=
  match wc_find_match W note A junk buf szword (Some pattern) (N.of_nat (length pattern)) [] with Ok (calls, _) => calls | Ub => [] end.

(** The converters know the letters а to я, as small letters of windows-1251, and the question mark. *)
Definition knows_letters (W : wide) : Prop :=
  of_wide W 63 = 63 /\
  forall c, is_letter c -> to_wide W (of_wide W c) = c /\ locase rus_casing (of_wide W c) = of_wide W c /\ of_wide W c <> 42 /\ of_wide W c <> 63.

(** The forms of a lexicon, in wide characters. *)
Definition forms_of (W : wide) (L : lexicon) : forms :=
  fun lex w id => exists key e part str, has_form L key e part str id /\ nlexid e = lex /\ w = widened W str.
(** No form has an asterisk; those without changing part and with a postfix are within the bounds of their stem (C26). *)
Definition forms_plain (L : lexicon) : Prop :=
  forall key e part str id, has_form L key e part str id ->
    is_bytes str /\ ~ In 42 str /\ (part <> [] \/ match stpost e with [] => True | b :: _ => chrmin e <= b <= chrmax e end).
