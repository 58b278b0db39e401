(** * GuessWide: the wide-character interface of the guessers of both languages.  MODEL ONLY.
    xmorph/mlfawide.hpp: [CMlfaWc], instantiated over the windows-1251 instances (lang-rus/libprob/mlfamain.cpp:107,
    lang-eng/libprob/mlfamain.cpp:107).  The converters are parameters, as in WideApi.v.  [Attach] and [Detach] return 1. *)
From Verif Require Import Base Serial CharTables CapScheme GramMap RusRuntime RusBuild Codepage WideApi Fuzzy Guess.
Local Open Scope N_scope.

(** mlfawide.hpp:32-36 [GetWdInfo]. *)
Definition wg_wd_info (F : fuzzy) (given : bool) (uclass : N) : res (Z * option N) := fuzzy_wd_info F given uclass.

Section Wide.
  Variable W : wide.
  Variable T : tongue.
  Variable F : fuzzy.

  (** The loop mlfawide.hpp:49-58; [None] if a conversion fails.  What was written until then stays. *)
  Fixpoint widen_models (n : nat) (mem : list N) (pos : nat) (src : bytes) : res (bool * list N) :=
    match n with
    | O => Ok (true, mem)
    | S n' =>
        if Nat.ltb (length mem) pos then Ub
        else
          let! s := cstr src in
          match convert (wslack W) (length mem - pos) (map (to_wide W) s) with
          | None => Ok (false, mem)
          | Some out => let! mem := mem_writes mem pos out in widen_models n' mem (pos + (length s + 1)) (skipn (length s + 1) src)
          end
    end.

  (** mlfawide.hpp:38-61 [GetModels]; [buffer] is what the local array of 1024 bytes holds before.  Samples found but no array to put them:
      undefined. *)
  Definition wg_models (buffer : bytes) (models : option (list N)) (modlen : N) (uclass : N) : res (Z * option (list N)) :=
    let room := N.to_nat (N.min 1024 modlen) in
    let! (mcount, out) := gmodels Win1251 F (Some (firstn room buffer)) uclass in
    if (mcount <=? 0)%Z then Ok (mcount, models)
    else match out, models with
         | Some b, Some mem =>
             let! (ok, mem) := widen_models (Z.to_nat mcount) mem 0 (b ++ skipn room buffer) in
             Ok (if ok then mcount else (-1)%Z, Some mem)
         | _, _ => Ub
         end.

  (** mlfawide.hpp:63-108 [Lemmatize]; [stbuff] (32 elements), [szlemm] and [szword] (240 bytes) are the local arrays.  A pointer into
      [szlemm] is an offset, the same in [plemma]. *)
  Definition wg_lemmatize (rank : N -> N -> N -> N -> bool -> Z) (sort : list stem_info -> list stem_info) (junk : nat -> bytes) (below lojunk : bytes)
    (stbuff : list stem_info) (szlemm szword : bytes) (p : list N) (cchstr : N)
    (output : option (list stem_info)) (plemma : option (list N)) (pgrams : option (list gram)) (dwsets : N)
    : res (Z * option (list stem_info) * option (list N) * option (list gram)) :=
    let! r := to_narrow W szword 240 p cchstr in
    match r with
    | None => Ok ((-4)%Z, output, plemma, pgrams)
    | Some (word, ccword) =>
        let! (lcount, stems, lemmas, grams) :=
          glemmatize T Win1251 rank sort junk F below lojunk (Some word) ccword
            (option_map (fun m => firstn (Nat.min (length m) 32) stbuff) output)
            (option_map (fun m => firstn (Nat.min (length m) 240) szlemm) plemma) pgrams dwsets in
        if (lcount <=? 0)%Z then Ok (lcount, output, plemma, grams)
        else
          let! output := (match output, stems with
                          | Some m, Some cells => if Nat.ltb (length m) (Z.to_nat lcount) || Nat.ltb (length cells) (Z.to_nat lcount) then Ub
                                                  else Ok (Some (firstn (Z.to_nat lcount) cells ++ skipn (Z.to_nat lcount) m))
                          | Some _, None => Ub
                          | None, _ => Ok None
                          end) in
          let! plemma := (match plemma, lemmas with
                          | Some m, Some b => let! m' := widen_strings W (Z.to_nat lcount) m 0 (b ++ skipn (Nat.min (length m) 240) szlemm) in Ok (Some m')
                          | Some _, None => Ub
                          | None, _ => Ok None
                          end) in
          Ok (lcount, output, plemma, grams)
    end.

  (** mlfawide.hpp:110-149 [BuildForm]; [slemma] (64 bytes) and [szform] (96 bytes) are the local arrays.  The length of the stem is passed
      on as the caller gave it. *)
  Definition wg_build_form (lojunk junk slemma szform : bytes) (output : option (list N)) (plemma : option (list N)) (clemma : N)
    (nclass idform : N) : res (Z * option (list N)) :=
    match output, plemma with
    | None, _ => Ok ((-4)%Z, None)
    | Some mem, None => Ok ((-1)%Z, Some mem)
    | Some mem, Some p =>
        let! r := to_narrow W slemma 64 p clemma in
        match r with
        | None => Ok ((-4)%Z, Some mem)
        | Some (stem, _) =>
            let room := Nat.min (length mem) 95 in
            let! (fcount, out) := gbuild_form T Win1251 F lojunk junk (Some (firstn room szform)) (Some stem) clemma nclass idform in
            if (fcount <=? 0)%Z then Ok (fcount, Some mem)
            else match out with
                 | None => Ub
                 | Some b => let! mem := widen_strings W (Z.to_nat fcount) mem 0 (b ++ skipn room szform) in Ok (fcount, Some mem)
                 end
        end
    end.
End Wide.
