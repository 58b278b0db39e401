(** * Fuzzy: the guesser of unknown words, lang-rus/libprob.  MODEL ONLY.
    Only the windows-1251 instance is modelled.  [WildScan], [MatchKey], [GetStems] of scandict.hpp have no callers.
    mtc's [::FetchFrom], not in the repo, is assumed to read a [uint8_t] as one byte and every other integer as
    [getserial] does; JumpOver and ScanTree read the same numbers as [int] and as [size_t], so these encodings agree. *)
From Verif Require Import Base Serial CharTables CapScheme GramMap RusRuntime RusBuild.
Local Open Scope N_scope.

(** ** The index of reversed endings *)

(** lang-rus/libprob/scandict.hpp:45-59 [JumpOver]. *)
Fixpoint jump_over (nnodes : nat) (thedic : bytes) : res bytes :=
  match nnodes with
  | O => Ok thedic
  | S n =>
      let! (cchars, thedic) := getserial thedic in
      let! (cnodes, thedic) := getserial thedic in
      let! thedic := advance cchars thedic in
      let! (curlen, thedic) := getserial thedic in
      let! thedic := advance curlen thedic in
      jump_over n thedic
  end.

Section Scan.
  Context {St : Type}.
  (** The collector: clemma, uclass, upower, idform ([plemma] is always the beginning of the word). *)
  Variable output : St -> N -> N -> N -> N -> res (St * Z).

  (** scandict.hpp:70-86, the loop of [ScanList]. *)
  Fixpoint scan_refs (ccount : nat) (pstems : bytes) (clemma : N) (s : St) : res (St * Z) :=
    match ccount with
    | O => Ok (s, 0%Z)
    | S n =>
        let! (uclass, pstems) := getserial pstems in
        let! (upower, pstems) := getserial pstems in
        let! (idform, pstems) := rd pstems in
        let! (s, nerror) := output s clemma uclass upower idform in
        if Z.eqb nerror 0 then scan_refs n pstems clemma s else Ok (s, nerror)
    end.

  (** scandict.hpp:61-87 [ScanList]. *)
  Definition scan_refs_at (pstems : bytes) (clemma : N) (s : St) : res (St * Z) :=
    let! (ccount, pstems) := getserial pstems in scan_refs (N.to_nat ccount) pstems clemma s.

  (** scandict.hpp:109-111: comparing the label with the key.  [key] is the memory of the word read backwards from
      [revkey]. *)
  Fixpoint match_label (nchars : nat) (patree key : bytes) : res (option (bytes * bytes)) :=
    match nchars with
    | O => Ok (Some (patree, key))
    | S n =>
        let! (c, patree) := rd patree in
        let! (k, key) := rd key in
        if c =? k then match_label n patree key else Ok None
    end.

  (** scandict.hpp:121-147, selecting the nested node. *)
  Fixpoint select_node (nnodes : nat) (key patree : bytes) : res (option (N * N * bytes)) :=
    match nnodes with
    | O => Ok None
    | S n =>
        let! (cchars, patree) := getserial patree in
        let! (cnodes, patree) := getserial patree in
        let! (k, _) := rd key in
        let! (c, _) := rd patree in
        if c <? k then
          let! patree := advance cchars patree in
          let! (sublen, patree) := getserial patree in
          let! patree := advance sublen patree in
          select_node n key patree
        else if c =? k then Ok (Some (cchars, cnodes, patree))
        else Ok None
    end.

  (** scandict.hpp:99-150, the loop of [ScanTree].  [cchkey] characters of the word are left; what precedes the array of
      the word in memory follows them in [key].  [fuel] bounds the iterations, each of which reads bytes of the index. *)
  Fixpoint scan_node (fuel : nat) (patree : bytes) (nchars nnodes : N) (key : bytes) (cchkey : N) (s : St) : res (St * Z) :=
    match fuel with
    | O => Ub
    | S fuel' =>
        if nnodes =? 0 then Ok (s, 0%Z)
        else
          let hasval := N.testbit nnodes 0 in
          let nnodes := N.shiftr nnodes 1 in
          if cchkey <? nchars then Ok (s, 0%Z)
          else
            let! m := match_label (N.to_nat nchars) patree key in
            match m with
            | None => Ok (s, 0%Z)
            | Some (patree, key) =>
                let cchkey := cchkey - nchars in
                let! (s, nerror) :=
                  (if hasval
                   then let! (sublen, p) := getserial patree in
                        let! p := jump_over (N.to_nat nnodes) p in
                        scan_refs_at p cchkey s
                   else Ok (s, 0%Z)) in
                if negb (Z.eqb nerror 0) then Ok (s, nerror)
                else
                  let! (sublen, patree) := getserial patree in
                  let! next := select_node (N.to_nat nnodes) key patree in
                  match next with
                  | None => Ok (s, 0%Z)
                  | Some (nchars, nnodes, patree) => scan_node fuel' patree nchars nnodes key cchkey s
                  end
            end
    end.

  (** scandict.hpp:90-151 [ScanTree]. *)
  Definition scan_tree (patree key : bytes) (cchkey : N) (s : St) : res (St * Z) :=
    let! (nchars, p) := getserial patree in
    let! (nnodes, p) := getserial p in
    scan_node (S (length patree)) p nchars nnodes key cchkey s.
End Scan.

(** ** The classes *)

(** classtable.hpp:41-44: the compiled arrays; [ClassNumber] is the length of [ClassOffset]. *)
Record fuzzy := Fuzzy { reverse_dict : bytes; class_offset : list N; class_tables : bytes }.

(** classtable.hpp:45-51 [GetClass]; [None] is the exception [std::invalid_argument]. *)
Definition GetClass (F : fuzzy) (uclass : N) : res (option bytes) :=
  match nth_error (class_offset F) (N.to_nat uclass) with
  | None => Ok None
  | Some off => let! p := advance off (class_tables F) in Ok (Some p)
  end.

(** mlfamain.cpp:101-116 [GetWdInfo]: the value returned and what is stored in [*pwinfo]; [given] tells whether the pointer
    is not null. *)
Definition fuzzy_wd_info (F : fuzzy) (given : bool) (uclass : N) : res (Z * option N) :=
  if negb given then Ok ((-5)%Z, None)
  else
    let! p := GetClass F uclass in
    match p with None => Ok ((-5)%Z, None) | Some p => let! (b, _) := rd p in Ok (1%Z, Some b) end.

(** mlfamain.cpp:138-145: skipping the inflexions of a class. *)
Fixpoint skip_flex (fcount : nat) (pclass : bytes) : res bytes :=
  match fcount with
  | O => Ok pclass
  | S n =>
      let! (_, pclass) := rd pclass in
      let! (ccflex, pclass) := rd pclass in
      let! pclass := advance ccflex pclass in skip_flex n pclass
  end.

(** mlfamain.cpp:149-168, writing the samples; [mcount] are written. *)
Fixpoint put_models (fcount : nat) (pclass : bytes) (c : coder) (mcount : Z) : res (Z * bytes) :=
  match fcount with
  | O => Ok (mcount, cmem c)
  | S n =>
      let! (_, pclass) := rd pclass in
      let! (_, pclass) := rd pclass in
      let! (_, pclass) := getserial pclass in
      let! (mdsize, pclass) := getserial pclass in
      let! sample := (if N.of_nat (length pclass) <? mdsize then Ub else Ok (firstn (N.to_nat mdsize) pclass)) in
      let! r := coder_append c sample in
      match r with
      | None => Ok (if Z.eqb mcount 0 then (-1)%Z else mcount, cmem c)
      | Some c =>
          let! pclass := advance mdsize pclass in
          put_models n pclass (Coder (cmem c) (S (cpos c))) (mcount + 1)%Z
      end
  end.

(** mlfamain.cpp:119-175 [GetModels]: the value returned and the caller's array. *)
Definition fuzzy_models (F : fuzzy) (models : option bytes) (uclass : N) : res (Z * option bytes) :=
  match models with
  | None => Ok ((-5)%Z, None)
  | Some [] => Ok ((-5)%Z, Some [])
  | Some mem =>
      let! p := GetClass F uclass in
      match p with
      | None => Ok ((-5)%Z, Some mem)
      | Some p =>
          let! (partSp, p) := rd p in
          let! (clSets, p) := rd p in
          let! (fcount, p) := getserial p in
          let! p := skip_flex (N.to_nat fcount) p in
          let! (fcount, p) := getserial p in
          let! (r, mem) := put_models (N.to_nat fcount) p (Coder mem 0) 0%Z in
          Ok (r, Some mem)
      end
  end.

(** ** Building forms *)

(** [strncpy( dst, src, n )]: the bytes stored. *)
Fixpoint strncpy (n : nat) (src : bytes) : res bytes :=
  match n with
  | O => Ok []
  | S n' =>
      let! (c, src') := rd src in
      if c =? 0 then Ok (repeat 0 n) else let! r := strncpy n' src' in Ok (c :: r)
  end.

(** lang-rus/chartype.cpp:206 [pspMinCapValue][64], indexed with the part of speech. *)
Definition psp_min_cap (partSp : N) : res N :=
  match nth_error rus_pspMinCapValue (N.to_nat partSp) with Some m => Ok m | None => Ub end.

(** buildforms.hpp:75-76: skipping the inflexions of lesser forms. *)
Fixpoint skip_until (fcount : nat) (idform : N) (pclass : bytes) : res (nat * bytes) :=
  match fcount with
  | O => Ok (O, pclass)
  | S n =>
      let! (id, p) := rd pclass in
      if id <? idform
      then let! (ccflex, p) := rd p in let! p := advance ccflex p in skip_until n idform p
      else Ok (fcount, pclass)
  end.

(** buildforms.hpp:86-95 and lemmatizer.hpp:211-224: [szform[0x40]] after the copies and [casing.Set].  The array is not
    terminated: [Set] reads what it held before. *)
Definition make_form (szform stem : bytes) (ccflex : N) (flex : bytes) (mincap : N) : res bytes :=
  let! tail := strncpy (N.to_nat ccflex) flex in
  let str := overwrite (stem ++ tail) szform in
  if Nat.ltb (length szform) (length stem + N.to_nat ccflex) then Ub
  else cap_set rus_casing str (length stem + N.to_nat ccflex) mincap.

(** buildforms.hpp:79-101: building all the variants; [szform] is what the array holds. *)
Fixpoint build_variants (fcount : nat) (idform : N) (stem szform : bytes) (partSp : N) (pclass : bytes) (c : coder) (nbuilt : Z)
  : res (Z * bytes) :=
  match fcount with
  | O => Ok (nbuilt, cmem c)
  | S n =>
      let! (id, p) := rd pclass in
      if id =? idform
      then
        let! (ccflex, p) := rd p in
        let ccform := (length stem + N.to_nat ccflex)%nat in
        if Nat.ltb 64 ccform then Ok ((-4)%Z, cmem c)
        else
          let! mincap := psp_min_cap partSp in
          let! szform := make_form szform stem ccflex p mincap in
          let! p := advance ccflex p in
          let! (c, ok) := coder_put c (firstn ccform szform) in
          if ok then build_variants n idform stem szform partSp p c (nbuilt + 1)%Z else Ok ((-1)%Z, cmem c)
      else Ok (nbuilt, cmem c)
  end.

(** buildforms.hpp:61-102 [Buildform::operator()]: the value returned and the caller's array; [None] is the exception.
    [junk] is what the uninitialised [szform[0x40]] holds. *)
Definition fuzzy_forms (F : fuzzy) (junk stem : bytes) (uclass idform : N) (c : coder) : res (option (Z * bytes)) :=
  let! p := GetClass F uclass in
  match p with
  | None => Ok None
  | Some p =>
      let! (partSp, p) := rd p in
      let! (cFlags, p) := rd p in
      let! (fcount, p) := getserial p in
      let! (fcount, p) := skip_until (N.to_nat fcount) idform p in
      let! r := build_variants fcount idform stem junk partSp p c 0%Z in
      Ok (Some r)
  end.

(** mlfamain.cpp:247-273 [ToCanonic] of the 1251 instance with [locase[256]]. *)
Definition fuzzy_canonic (psz : option bytes) (cch : N) : res (N * bytes) :=
  match psz with
  | None => Ok (0, [])
  | Some p =>
      let! w := (if cch =? 2 ^ 64 - 1 then cstr p
                 else if N.of_nat (length p) <? cch then Ub else Ok (firstn (N.to_nat cch) p)) in
      match w with
      | [] => Ok (0, [])
      | _ => cap_get rus_casing 256 w
      end
  end.

(** mlfamain.cpp:214-245 [BuildForm].  [locase] holds [lojunk] beyond the bytes stored. *)
Definition fuzzy_build_form (F : fuzzy) (lojunk junk : bytes) (output : option bytes) (psz : option bytes) (cch : N)
  (nclass idform : N) : res (Z * option bytes) :=
  let! (scheme, stored) := fuzzy_canonic psz cch in
  match output with
  | None => Ok ((-5)%Z, None)
  | Some [] => Ok ((-5)%Z, Some [])
  | Some mem =>
      if N.of_nat (length (class_offset F)) <=? nclass then Ok ((-5)%Z, Some mem)
      else if negb (cch =? 0) && match psz with None => true | Some _ => false end then Ok ((-5)%Z, Some mem)
      else if scheme =? 2 ^ 32 - 1 then Ok ((-4)%Z, Some mem)
      else if scheme =? 0 then Ok (0%Z, Some mem)
      else
        let len := N.to_nat (N.shiftr scheme 16) in
        let locase := overwrite stored lojunk in
        if Nat.ltb (length locase) len then Ub
        else
          let! r := fuzzy_forms F junk (firstn len locase) nclass idform (Coder mem 0) in
          match r with
          | None => Ok ((-5)%Z, Some mem)
          | Some (r, mem) => Ok (r, Some mem)
          end
  end.

(** ** Lemmatising *)

(** api.h [SStemInfoA]: pointers into the caller's arrays are offsets; [sweight] stands for the [float] (see [rank]). *)
Record stem_info := StemInfo { splemma : option nat; sccstem : N; snclass : N; spgrams : nat; sngrams : nat; sweight : Z }.

(** lemmatizer.hpp:68-81: what has been collected: [astems[64]] in order, the two output arrays ([None] is a null pointer)
    and the current position in the second. *)
Record fstate := FState { f_stems : list stem_info; f_forms : option coder; f_grams : option (list gram * nat) }.

(** mlfamain.cpp:49 [inflexProbTable][16]; lang-rus/libprob/class/pspfid.cpp:103-154 [pspfidProbTable][47]: the lengths of
    [ranges], 0 for a null pointer. *)
Definition inflex_prob_len : N := 16.
Definition psp_ranges : list N :=
  [0; 234; 0; 0; 0; 0; 0; 17; 0; 0; 0; 0; 0; 17; 0; 0; 17; 0; 0; 0; 0; 0; 0; 0; 0; 249; 0; 0; 0; 0; 0; 0; 0; 0; 0; 0; 0;
   0; 17; 17; 16; 11; 31; 0; 7; 7; 7].

Definition ngrams_now (s : fstate) : nat := match f_grams s with None => 0%nat | Some (_, cur) => cur end.
(** lemmatizer.hpp:141-142 and 166-167: the number of grammars of the last stem. *)
Definition close_last (s : fstate) : fstate :=
  match rev (f_stems s) with
  | [] => s
  | last :: before =>
      FState (rev before ++ [StemInfo (splemma last) (sccstem last) (snclass last) (spgrams last)
                                      (ngrams_now s - spgrams last) (sweight last)]) (f_forms s) (f_grams s)
  end.

Section Lemmatizer.
  (** lemmatizer.hpp:128-134, the weight: a function of the five numbers it is computed from, in floating point; all that
      matters is the order of the values, for which integers stand. *)
  Variable rank : N -> N -> N -> N -> bool -> Z.
  (** lemmatizer.hpp:188-189 [std::sort], by decreasing weight: which of the sorted permutations it gives is not
      specified. *)
  Variable sort : list stem_info -> list stem_info.
  (** What [szform[0x40]] holds when the n-th stem is built. *)
  Variable junk : nat -> bytes.
  Variable F : fuzzy.

  (** lemmatizer.hpp:205-231 [BuildNormalStr]: the error and the coder. *)
  Definition build_normal (szform stem : bytes) (pclass : bytes) (partSp : N) (c : coder) : res (Z * coder) :=
    let! (_, p) := rd pclass in
    let! (ccflex, p) := rd p in
    let ccform := (length stem + N.to_nat ccflex)%nat in
    if Nat.leb 64 ccform then Ok ((-4)%Z, c)
    else
      let! mincap := psp_min_cap partSp in
      let! szform := make_form szform stem ccflex p mincap in
      let! (c, ok) := coder_put c (firstn ccform szform) in
      Ok (if ok then 0%Z else (-1)%Z, c).

  (** lemmatizer.hpp:104-163 [Lemmatizer::operator()]; the exception of [GetClass] is returned as -1 by mlfamain.cpp:211.
      [word] is [locase] and [cchstr] the length of the word. *)
  Definition fuzzy_lemma (word : bytes) (cchstr scheme dwsets : N) (s : fstate) (clemma uclass upower idform : N)
    : res (fstate * Z) :=
    let! p := GetClass F uclass in
    match p with
    | None => Ok (s, (-1)%Z)
    | Some p =>
        let! (partsp, p) := rd p in
        let! (clSets, p) := rd p in
        let! (fcount, pclass) := getserial p in
        let! skip := (if bit 1 dwsets then Ok false else let! m := psp_min_cap partsp in Ok (negb (IsGoodSheme scheme m))) in
        if skip then Ok (s, 0%Z)
        else
          let another := match rev (f_stems s) with
                         | [] => true
                         | last :: _ => negb (snclass last =? uclass) || negb (sccstem last =? clemma + 2)
                         end in
          let! (s, nerror) :=
            (if negb another then Ok (s, 0%Z)
             else
               if (cchstr <=? clemma) || (inflex_prob_len <=? cchstr - clemma - 1) then Ub
               else
                 match nth_error psp_ranges (N.to_nat partsp) with
                 | None => Ub
                 | Some maxlen =>
                     if negb (maxlen =? 0) && (maxlen <=? idform) then Ub
                     else
                       let weight := rank (cchstr - clemma - 1) upower partsp idform (N.testbit clSets 0) in
                       if Nat.eqb (length (f_stems s)) 64 then Ok (s, (-1)%Z)
                       else
                         let n := length (f_stems s) in
                         let s := close_last s in
                         let s := FState (f_stems s ++ [StemInfo (option_map cpos (f_forms s)) (clemma + 2) uclass
                                                                 (ngrams_now s) 0 weight])
                                         (f_forms s) (f_grams s) in
                         match f_forms s with
                         | None => Ok (s, 0%Z)
                         | Some c =>
                             if Nat.ltb (length word) (N.to_nat clemma + 2) then Ub
                             else
                               let! (nerror, c) := build_normal (junk n) (firstn (N.to_nat clemma + 2) word) pclass partsp c in
                               Ok (FState (f_stems s) (Some c) (f_grams s), nerror)
                         end
                 end) in
          if negb (Z.eqb nerror 0) then Ok (s, nerror)
          else
            match f_grams s with
            | None => Ok (s, 0%Z)
            | Some (mem, cur) =>
                if Nat.eqb cur (length mem) then Ok (s, (-3)%Z)
                else
                  let! mem := mem_write mem cur (Gram partsp idform 0 0) in
                  Ok (FState (f_stems s) (f_forms s) (Some (mem, S cur)), 0%Z)
            end
    end.

  (** mlfamain.cpp:177-212 [Lemmatize] and lemmatizer.hpp:164-194 [operator int]: the value returned and the caller's three
      arrays.  [below] is what lies in memory before [locase]. *)
  Definition fuzzy_lemmatize (below lojunk : bytes) (psz : option bytes) (cch : N)
    (plemma : option (list stem_info)) (pforms : option bytes) (pgrams : option (list gram)) (dwsets : N)
    : res (Z * option (list stem_info) * option bytes * option (list gram)) :=
    let! (scheme, stored) := fuzzy_canonic psz cch in
    if scheme =? 2 ^ 32 - 1 then Ok ((-4)%Z, plemma, pforms, pgrams)
    else if scheme =? 0 then Ok (0%Z, plemma, pforms, pgrams)
    else if (N.land scheme 0xff =? 0xff) && negb (bit 1 dwsets) then Ok (0%Z, plemma, pforms, pgrams)
    else
      let locase := overwrite stored lojunk in
      let len := N.shiftr scheme 16 in
      if N.of_nat (length locase) <? len then Ub
      else
        let! (s, nerror) :=
          scan_tree (fuzzy_lemma locase len (N.land scheme 0xffff) dwsets)
            (reverse_dict F) (rev (firstn (N.to_nat len) locase) ++ below) len
            (FState [] (option_map (fun m => Coder m 0) pforms) (option_map (fun m => (m, 0%nat)) pgrams)) in
        let forms := option_map cmem (f_forms s) in
        let grams := option_map fst (f_grams s) in
        if negb (Z.eqb nerror 0) then Ok (nerror, plemma, forms, grams)
        else
          let s := close_last s in
          match plemma with
          | None => Ok (Z.of_nat (length (f_stems s)), None, forms, grams)
          | Some mem =>
              if Nat.ltb (length mem) (length (f_stems s)) then Ok ((-1)%Z, plemma, forms, grams)
              else
                let! mem := mem_writes mem 0 (sort (f_stems s)) in
                Ok (Z.of_nat (length (f_stems s)), Some mem, forms, grams)
          end.
End Lemmatizer.

(** ** The compiler: lang-rus/libprob/tools/compile-dict.cpp *)

(** A class of the source: "partSp", "accent" = "b", the "models" and the "inflex" with id and string. *)
Record model_src := ModelSrc { m_suffix : bytes; m_sample : bytes; m_weight : N }.
Record class_src := ClassSrc { c_partsp : N; c_accent : bool; c_models : list model_src; c_inflex : list (N * bytes) }.

(** compile-dict.cpp:44-56 [ClassRef]. *)
Record class_ref := ClassRef { r_class : N; r_power : N; r_form : N }.

(** compile-dict.cpp:282-291: search the key, then add to its list or insert it.  [mtc::patricia::tree] is not in the repo: it
    is taken to be a map; insertion is modelled at the end. *)
Fixpoint index_add (key : bytes) (r : class_ref) (m : list (bytes * list class_ref)) : list (bytes * list class_ref) :=
  match m with
  | [] => [(key, [r])]
  | (k, l) :: m' => if list_eq_dec N.eq_dec k key then (k, l ++ [r]) :: m' else (k, l) :: index_add key r m'
  end.

(** compile-dict.cpp:279-291: the key is the inflexion reverted and the two characters of the suffix, the last first. *)
Definition index_key (flex suffix : bytes) : bytes := rev flex ++ [nth 1 suffix 0; nth 0 suffix 0].

Definition index_flex (uclass : N) (models : list model_src) (flex : N * bytes) (m : list (bytes * list class_ref)) :=
  fold_left (fun m md => index_add (index_key (snd flex) (m_suffix md)) (ClassRef uclass (m_weight md) (fst flex mod 256)) m) models m.
Definition index_class (uclass : N) (c : class_src) (m : list (bytes * list class_ref)) :=
  fold_left (fun m f => index_flex uclass (c_models c) f m) (c_inflex c) m.
Fixpoint index_classes (uclass : N) (cs : list class_src) (m : list (bytes * list class_ref)) :=
  match cs with [] => m | c :: cs' => index_classes (uclass + 1) cs' (index_class uclass c m) end.

(** compile-dict.cpp:238-240, 245-249, 268-275, what is refused. *)
Definition class_accepted (c : class_src) : bool :=
  negb (Nat.eqb (length (c_models c)) 0) && negb (Nat.eqb (length (c_inflex c)) 0) &&
  forallb (fun m => Nat.eqb (length (m_suffix m)) 2) (c_models c) &&
  forallb (fun f => Nat.leb (length (snd f)) 30) (c_inflex c).

(** compile-dict.cpp:58-82 [FlexNode::Serialize], 95-107 [Model::Serialize] (a string is its length and its characters). *)
Definition guess_flex_ser (f : N * bytes) : bytes :=
  (fst f mod 256) :: N.of_nat (length (snd f)) mod 256 :: firstn (N.to_nat (N.of_nat (length (snd f)) mod 256)) (snd f).
Definition guess_model_ser (m : model_src) : bytes :=
  firstn 2 (m_suffix m) ++ putserial (m_weight m) ++ putserial (N.of_nat (length (m_sample m))) ++ m_sample m.

(** compile-dict.cpp:297-313: a class of the table; [sort] is [std::sort] of the models. *)
Definition guess_class_ser (sort : list model_src -> list model_src) (c : class_src) : bytes :=
  (c_partsp c mod 256) :: (if c_accent c then 1 else 0) ::
  putserial (N.of_nat (length (c_inflex c))) ++ flat_map guess_flex_ser (c_inflex c) ++
  putserial (N.of_nat (length (c_models c))) ++ flat_map guess_model_ser (sort (c_models c)).

(** compile-dict.cpp:334-342: the offsets of the classes. *)
Fixpoint class_offsets (offset : N) (l : list bytes) : list N :=
  match l with [] => [] | b :: l' => offset :: class_offsets (offset + N.of_nat (length b)) l' end.

(** [::Serialize] of [std::vector<ClassRef>]. *)
Definition refs_ser (l : list class_ref) : bytes :=
  putserial (N.of_nat (length l)) ++ flat_map (fun r => putserial (r_class r) ++ putserial (r_power r) ++ [r_form r]) l.
