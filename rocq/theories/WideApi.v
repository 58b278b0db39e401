(** * WideApi: the wide-character interface of the Russian and English analysers.  MODEL ONLY.
    xmorph/mlmawide.hpp: [CMlmaWc], instantiated over the windows-1251 instances (lang-rus/libdict/mlmamain.cpp:113,
    lang-eng/libdict/mlmamain.cpp:107).  The converters [codepages::widetombcs] and [codepages::mbcstowide] come from the library
    moonycode, not in the repository: they are parameters (for windows-1251 one wide character is one byte). *)
From Verif Require Import Base Serial WordTree FlatScan Stems CharTables CapScheme GramMap RusRuntime RusBuild Wild EngRuntime EngWild Codepage.
Local Open Scope N_scope.

(** The wide character of a byte, the byte of a wide character, and, as for [encoding], whether the converters demand room for a
    terminator ([wslack] 1) or not ([wslack] 0). *)
Record wide := Wide { to_wide : N -> N; of_wide : N -> N; wslack : nat }.

Section Wide.
  Variable W : wide.

  (** [codepages::widetombcs( codepage_1251, arr, size, p, cch )]: the array afterwards and the length; [None] for -1. *)
  Definition to_narrow (arr : bytes) (size : nat) (p : list N) (cch : N) : res (option (bytes * N)) :=
    let! w := (if cch =? 2 ^ 64 - 1 then cstr p else if N.of_nat (length p) <? cch then Ub else Ok (firstn (N.to_nat cch) p)) in
    match convert (wslack W) size (map (of_wide W) w) with
    | None => Ok None
    | Some out => Ok (Some (overwrite out arr, N.of_nat (length w)))
    end.

  (** The loops mlmawide.hpp:100-107, 128-135 and 166-173: [n] strings at [src] go to [mem] from [pos] on.  A failed conversion returns
      -1, so that nothing advances. *)
  Fixpoint widen_strings (n : nat) (mem : list N) (pos : nat) (src : bytes) : res (list N) :=
    match n with
    | O => Ok mem
    | S n' =>
        if Nat.ltb (length mem) pos then Ub
        else
          let! s := cstr src in
          match convert (wslack W) (length mem - pos) (map (to_wide W) s) with
          | None => widen_strings n' mem pos src
          | Some out => let! mem := mem_writes mem pos out in widen_strings n' mem (pos + (length s + 1)) (skipn (length s + 1) src)
          end
    end.

  (** mlmawide.hpp:51-61 [CheckWord]; [szword] is what the local array of 48 bytes holds before, [check] the narrow [CheckWord]. *)
  Definition wide_check_word (check : option bytes -> N -> N -> res Z) (szword : bytes) (p : list N) (cch dwsets : N) : res Z :=
    let! r := to_narrow szword 48 p cch in
    match r with
    | None => Ok (-4)%Z
    | Some (word, ccword) => check (Some word) ccword dwsets
    end.

  (** mlmawide.hpp:118-137: the forms are built into [szform[98]] by [build] and converted. *)
  Definition wide_forms (build : option bytes -> res (Z * option bytes)) (szform : bytes) (mem : list N) : res (Z * option (list N)) :=
    let room := (Nat.min (length mem) 98 - 1)%nat in
    let! (fcount, out) := build (Some (firstn room szform)) in
    if (fcount <=? 0)%Z then Ok (fcount, Some mem)
    else match out with
         | None => Ub
         | Some b => let! mem := widen_strings (Z.to_nat fcount) mem 0 (b ++ skipn room szform) in Ok (fcount, Some mem)
         end.

  (** mlmawide.hpp:110-138 [BuildForm]. *)
  Definition wide_build_form (build : option bytes -> N -> N -> res (Z * option bytes)) (szform : bytes)
    (output : option (list N)) (nlexid idform : N) : res (Z * option (list N)) :=
    match output with
    | None => Ok ((-5)%Z, None)
    | Some [] => Ok ((-5)%Z, Some [])
    | Some mem => wide_forms (fun out => build out nlexid idform) szform mem
    end.

  (** mlmawide.hpp:140-177 [FindForms]; the word is converted into [szword[98]], of which as many bytes are used as the word has
      characters (161). *)
  Definition wide_find_forms (find : option bytes -> option bytes -> N -> N -> N -> res (Z * option bytes)) (szword szform : bytes)
    (output : option (list N)) (pwsstr : option (list N)) (cchstr idform dwsets : N) : res (Z * option (list N)) :=
    match output, pwsstr with
    | None, _ => Ok ((-5)%Z, None)
    | Some [], _ => Ok ((-5)%Z, Some [])
    | Some mem, None => Ok ((-5)%Z, Some mem)
    | Some mem, Some p =>
        if cchstr =? 0 then Ok ((-5)%Z, Some mem)
        else
          let! r := to_narrow szword (N.to_nat (N.min cchstr 98)) p cchstr in
          match r with
          | None => Ok ((-4)%Z, Some mem)
          | Some (word, ccword) => wide_forms (fun out => find out (Some word) ccword idform dwsets) szform mem
          end
    end.

  (** mlmawide.hpp:63-108 [Lemmatize]; [lmbuff] (32 elements), [szlemm] and [szword] (240 bytes) are the local arrays.  A pointer into
      [szlemm] is an offset, the same in [plemma]. *)
  Definition wide_lemmatize
    (lemmatize : option bytes -> N -> option (list lemm) -> option bytes -> option (list gram) -> N -> res (Z * (option (list lemm) * option bytes * option (list gram))))
    (lmbuff : list lemm) (szlemm szword : bytes) (p : list N) (cchstr : N)
    (output : option (list lemm)) (plemma : option (list N)) (pgrams : option (list gram)) (dwsets : N)
    : res (Z * (option (list lemm) * option (list N) * option (list gram))) :=
    let! r := to_narrow szword 240 p cchstr in
    match r with
    | None => Ok ((-4)%Z, (output, plemma, pgrams))
    | Some (word, ccword) =>
        let! (lcount, res) := lemmatize (Some word) ccword (option_map (fun m => firstn (Nat.min (length m) 32) lmbuff) output)
                                (option_map (fun m => firstn (Nat.min (length m) 240) szlemm) plemma) pgrams dwsets in
        let '(lemms, lemmas, grams) := res in
        if (lcount <=? 0)%Z then Ok (lcount, (output, plemma, grams))
        else
          let! output := (match output, lemms with
                          | Some m, Some cells => if Nat.ltb (length m) (Z.to_nat lcount) || Nat.ltb (length cells) (Z.to_nat lcount) then Ub
                                                  else Ok (Some (firstn (Z.to_nat lcount) cells ++ skipn (Z.to_nat lcount) m))
                          | Some _, None => Ub
                          | None, _ => Ok None
                          end) in
          let! plemma := (match plemma, lemmas with
                          | Some m, Some b => let! m' := widen_strings (Z.to_nat lcount) m 0 (b ++ skipn (Nat.min (length m) 240) szlemm) in Ok (Some m')
                          | Some _, None => Ub
                          | None, _ => Ok None
                          end) in
          Ok (lcount, (output, plemma, grams))
    end.

  Section FindMatch.
    Context {U : Type}.
    (** The caller's [IMlmaMatch::AddLexeme], given wide strings. *)
    Variable AddLexeme : U -> N -> list (list N * N) -> U * Z.

    (** The loop mlmawide.hpp:215-223: [room] wide characters of [strbuf] are left. *)
    Fixpoint widen_matches (room : nat) (ms : list (bytes * N)) : res (list (list N * N)) :=
      match ms with
      | [] => Ok []
      | (s, id) :: ms' =>
          match convert (wslack W) room (map (to_wide W) s) with
          | None => Ub
          | Some _ => if Nat.ltb room (length s + 1) then Ub
                      else let! l := widen_matches (room - (length s + 1)) ms' in Ok ((map (to_wide W) s, id) :: l)
          end
      end.

    (** mlmawide.hpp:204-225 [WcMatch::AddLexeme]: [amatch[512]], [strbuf[512 * 48]].  Undefined behaviour is remembered in the state. *)
    Definition wide_add (u : res U) (lid : N) (ms : list (bytes * N)) : res U * Z :=
      match u with
      | Ub => (Ub, 0%Z)
      | Ok u =>
          if Nat.ltb 512 (length ms) then (Ub, 0%Z)
          else match widen_matches (512 * 48) ms with
               | Ub => (Ub, 0%Z)
               | Ok l => let (u, z) := AddLexeme u lid l in (Ok u, z)
               end
      end.

    (** mlmawide.hpp:185-200 [FindMatch], [pmatch] not null. *)
    Definition wide_find_match (find_match : (res U -> N -> list (bytes * N) -> res U * Z) -> option bytes -> N -> res U -> res (res U * Z))
      (szword : bytes) (pwsstr : option (list N)) (cchstr : N) (u : U) : res (U * Z) :=
      match pwsstr with
      | None => Ok (u, (-5)%Z)
      | Some p =>
          if cchstr =? 0 then Ok (u, (-5)%Z)
          else
            let! r := to_narrow szword 48 p cchstr in
            match r with
            | None => Ok (u, (-4)%Z)
            | Some (word, ccword) =>
                let! (s, z) := find_match wide_add (Some word) ccword (Ok u) in
                let! u := s in Ok (u, z)
            end
      end.
  End FindMatch.

  (** ** The instances *)
  (** lang-rus/libdict/mlmamain.cpp:113. *)
  Definition wc_check_word A junk szword p cch dwsets := wide_check_word (fun psz cch sets => check_word A junk psz cch sets) szword p cch dwsets.
  Definition wc_build_form A junk szform output nlexid idform :=
    wide_build_form (fun out id f => build_form A junk out id f) szform output nlexid idform.
  Definition wc_find_forms A junk szword szform output pws cch idform dwsets :=
    wide_find_forms (fun out psz cch f sets => find_forms A junk out psz cch f sets) szword szform output pws cch idform dwsets.
  Definition wc_lemmatize A junk lmbuff szlemm szword p cch output plemma pgrams dwsets :=
    wide_lemmatize (fun psz cch l f g sets => lemmatize A junk psz cch l f g sets) lmbuff szlemm szword p cch output plemma pgrams dwsets.
  Definition wc_find_match {U} (add : U -> N -> list (list N * N) -> U * Z) A junk buf szword pws cch u :=
    wide_find_match add (fun add psz cch u => find_match add A junk buf psz cch u) szword pws cch u.
  (** lang-eng/libdict/mlmamain.cpp:107. *)
  Definition wc_echeck_word A junk szword p cch dwsets := wide_check_word (fun psz cch sets => echeck_word A junk psz cch sets) szword p cch dwsets.
  Definition wc_ebuild_form A junk szform output nlexid idform :=
    wide_build_form (fun out id f => ebuild_form A junk out id f) szform output nlexid idform.
  Definition wc_efind_forms A junk szword szform output pws cch idform dwsets :=
    wide_find_forms (fun out psz cch f sets => efind_forms A junk out psz cch f sets) szword szform output pws cch idform dwsets.
  Definition wc_elemmatize A junk lmbuff szlemm szword p cch output plemma pgrams dwsets :=
    wide_lemmatize (fun psz cch l f g sets => elemmatize A junk psz cch l f g sets) lmbuff szlemm szword p cch output plemma pgrams dwsets.
  Definition wc_efind_match {U} (add : U -> N -> list (list N * N) -> U * Z) A junk buf szword pws cch u :=
    wide_find_match add (fun add psz cch u => efind_match add A junk buf psz cch u) szword pws cch u.
End Wide.
