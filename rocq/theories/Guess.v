(** * Guess: the guesser of unknown words in every language and code page.  MODEL ONLY.
    [Fuzzy] models the Russian windows-1251 instance.  lang-eng/libprob is a copy of lang-rus/libprob with other tables and without
    the checks and changes of the capitalisation; each of the two instantiates [CMlfaMb] for six code pages (mlfamain.cpp:101-107 /
    101-107).  Line numbers are those of lang-rus/libprob; the English ones are shifted by the lines left out. *)
From Verif Require Import Base Serial CharTables CapScheme GramMap RusRuntime RusBuild Codepage Fuzzy.
Local Open Scope N_scope.

(** What differs between the languages: the tables of the characters (lang-rus/chartype.cpp, lang-eng/chartype.cpp), whether the
    capitalisation is looked at ([casing.Set] at buildforms.hpp:95 and lemmatizer.hpp:224, the test at lemmatizer.hpp:121-122: not
    in lang-eng), and the lengths of [pspfidProbTable] (class/pspfid.cpp). *)
Inductive tongue := Russian | English.
Definition tg_casing (T : tongue) : casing := match T with Russian => rus_casing | English => eng_casing end.
Definition tg_caps (T : tongue) : bool := match T with Russian => true | English => false end.
(** lang-rus/libprob/class/pspfid.cpp (see [psp_ranges]) and lang-eng/libprob/class/pspfid.cpp:24-31. *)
Definition tg_ranges (T : tongue) : list N := match T with Russian => psp_ranges | English => [0; 4; 5; 3; 3] end.

(** The template argument [codepage]: windows-1251, UTF-8, or one of the others.  An encoding as in Codepage.v. *)
Inductive page := Win1251 | Other (E : encoding) | Utf8 (E : encoding).

(** xmorph/codepages.hpp:89-94 [MbcsCoder::append] for the code page. *)
Definition page_append (P : page) (c : coder) (s : bytes) : res (option coder) :=
  match P with Win1251 => coder_append c s | Other E | Utf8 E => cp_append E c s end.
(** [append( p, l ) && append( '\0' )]. *)
Definition page_put (P : page) (c : coder) (s : bytes) : res (coder * bool) :=
  match P with Win1251 => coder_put c s | Other E | Utf8 E => cp_put E c s end.

(** mlfamain.cpp:247-273 [ToCanonic] with [locase[256]] and [mbsstr[256]]. *)
Definition gcanonic (T : tongue) (P : page) (psz : option bytes) (cch : N) : res (N * bytes) :=
  match psz with
  | None => Ok (0, [])
  | Some p =>
      let! w := (if cch =? 2 ^ 64 - 1 then cstr p
                 else if N.of_nat (length p) <? cch then Ub else Ok (firstn (N.to_nat cch) p)) in
      match w with
      | [] => Ok (0, [])
      | _ => match P with
             | Win1251 => cap_get (tg_casing T) 256 w
             | Other E | Utf8 E =>
                 match convert (slack E) 256 (dec E w) with
                 | None => Ok (2 ^ 32 - 1, [])
                 | Some _ => cap_get (tg_casing T) 256 (dec E w)
                 end
             end
      end
  end.

(** mlfamain.cpp:149-168, as [put_models]; [modend - models] wraps around once [models] is beyond [modend]. *)
Fixpoint gput_models (P : page) (fcount : nat) (pclass : bytes) (c : coder) (mcount : Z) : res (Z * bytes) :=
  match fcount with
  | O => Ok (mcount, cmem c)
  | S n =>
      let! (_, pclass) := rd pclass in
      let! (_, pclass) := rd pclass in
      let! (_, pclass) := getserial pclass in
      let! (mdsize, pclass) := getserial pclass in
      let! sample := (if N.of_nat (length pclass) <? mdsize then Ub else Ok (firstn (N.to_nat mdsize) pclass)) in
      if Nat.ltb (length (cmem c)) (cpos c) then Ub
      else
        let! r := page_append P c sample in
        match r with
        | None => Ok (if Z.eqb mcount 0 then (-1)%Z else mcount, cmem c)
        | Some c =>
            let! pclass := advance mdsize pclass in
            gput_models P n pclass (Coder (cmem c) (S (cpos c))) (mcount + 1)%Z
        end
  end.

(** mlfamain.cpp:119-175 [GetModels], as [fuzzy_models]. *)
Definition gmodels (P : page) (F : fuzzy) (models : option bytes) (uclass : N) : res (Z * option bytes) :=
  match models with
  | None => Ok ((-5)%Z, None)
  | Some [] => Ok ((-5)%Z, Some [])
  | Some mem =>
      let! p := GetClass F uclass in
      match p with
      | None => Ok ((-5)%Z, Some mem)
      | Some p =>
          let! (partSp, p) := rd p in
          let! (clSets, p) := rd p in
          let! (fcount, p) := getserial p in
          let! p := skip_flex (N.to_nat fcount) p in
          let! (fcount, p) := getserial p in
          let! (r, mem) := gput_models P (N.to_nat fcount) p (Coder mem 0) 0%Z in
          Ok (r, Some mem)
      end
  end.

(** buildforms.hpp:86-95 and lemmatizer.hpp:211-224 (86-92 and 206-215 in lang-eng): [szform[0x40]] after the copies and, in Russian,
    [casing.Set]. *)
Definition gform (T : tongue) (szform stem : bytes) (ccflex : N) (flex : bytes) (partSp : N) : res bytes :=
  if tg_caps T
  then let! mincap := psp_min_cap partSp in make_form szform stem ccflex flex mincap
  else
    let! tail := strncpy (N.to_nat ccflex) flex in
    if Nat.ltb (length szform) (length stem + N.to_nat ccflex) then Ub
    else Ok (overwrite (stem ++ tail) szform).

(** buildforms.hpp:79-101, as [build_variants]. *)
Fixpoint gvariants (T : tongue) (P : page) (fcount : nat) (idform : N) (stem szform : bytes) (partSp : N) (pclass : bytes) (c : coder) (nbuilt : Z)
  : res (Z * bytes) :=
  match fcount with
  | O => Ok (nbuilt, cmem c)
  | S n =>
      let! (id, p) := rd pclass in
      if id =? idform
      then
        let! (ccflex, p) := rd p in
        let ccform := (length stem + N.to_nat ccflex)%nat in
        if Nat.ltb 64 ccform then Ok ((-4)%Z, cmem c)
        else
          let! szform := gform T szform stem ccflex p partSp in
          let! p := advance ccflex p in
          let! (c, ok) := page_put P c (firstn ccform szform) in
          if ok then gvariants T P n idform stem szform partSp p c (nbuilt + 1)%Z else Ok ((-1)%Z, cmem c)
      else Ok (nbuilt, cmem c)
  end.

(** buildforms.hpp:61-102, as [fuzzy_forms]. *)
Definition gforms (T : tongue) (P : page) (F : fuzzy) (junk stem : bytes) (uclass idform : N) (c : coder) : res (option (Z * bytes)) :=
  let! p := GetClass F uclass in
  match p with
  | None => Ok None
  | Some p =>
      let! (partSp, p) := rd p in
      let! (cFlags, p) := rd p in
      let! (fcount, p) := getserial p in
      let! (fcount, p) := skip_until (N.to_nat fcount) idform p in
      let! r := gvariants T P fcount idform stem junk partSp p c 0%Z in
      Ok (Some r)
  end.

(** mlfamain.cpp:214-245 [BuildForm], as [fuzzy_build_form]. *)
Definition gbuild_form (T : tongue) (P : page) (F : fuzzy) (lojunk junk : bytes) (output : option bytes) (psz : option bytes) (cch : N)
  (nclass idform : N) : res (Z * option bytes) :=
  let! (scheme, stored) := gcanonic T P psz cch in
  match output with
  | None => Ok ((-5)%Z, None)
  | Some [] => Ok ((-5)%Z, Some [])
  | Some mem =>
      if N.of_nat (length (class_offset F)) <=? nclass then Ok ((-5)%Z, Some mem)
      else if negb (cch =? 0) && match psz with None => true | Some _ => false end then Ok ((-5)%Z, Some mem)
      else if scheme =? 2 ^ 32 - 1 then Ok ((-4)%Z, Some mem)
      else if scheme =? 0 then Ok (0%Z, Some mem)
      else
        let len := N.to_nat (N.shiftr scheme 16) in
        let locase := overwrite stored lojunk in
        if Nat.ltb (length locase) len then Ub
        else
          let! r := gforms T P F junk (firstn len locase) nclass idform (Coder mem 0) in
          match r with
          | None => Ok ((-5)%Z, Some mem)
          | Some (r, mem) => Ok (r, Some mem)
          end
  end.

Section Lemmatizer.
  Variable T : tongue.
  Variable P : page.
  (** As in Fuzzy.v. *)
  Variable rank : N -> N -> N -> N -> bool -> Z.
  Variable sort : list stem_info -> list stem_info.
  Variable junk : nat -> bytes.
  Variable F : fuzzy.

  (** lemmatizer.hpp:205-231 [BuildNormalStr], as [build_normal]. *)
  Definition gnormal (szform stem : bytes) (pclass : bytes) (partSp : N) (c : coder) : res (Z * coder) :=
    let! (_, p) := rd pclass in
    let! (ccflex, p) := rd p in
    let ccform := (length stem + N.to_nat ccflex)%nat in
    if Nat.leb 64 ccform then Ok ((-4)%Z, c)
    else
      let! szform := gform T szform stem ccflex p partSp in
      let! (c, ok) := page_put P c (firstn ccform szform) in
      Ok (if ok then 0%Z else (-1)%Z, c).

  (** lemmatizer.hpp:104-163, as [fuzzy_lemma]. *)
  Definition glemma (word : bytes) (cchstr scheme dwsets : N) (s : fstate) (clemma uclass upower idform : N)
    : res (fstate * Z) :=
    let! p := GetClass F uclass in
    match p with
    | None => Ok (s, (-1)%Z)
    | Some p =>
        let! (partsp, p) := rd p in
        let! (clSets, p) := rd p in
        let! (fcount, pclass) := getserial p in
        let! skip := (if tg_caps T
                      then if bit 1 dwsets then Ok false else let! m := psp_min_cap partsp in Ok (negb (IsGoodSheme scheme m))
                      else Ok false) in
        if skip then Ok (s, 0%Z)
        else
          let another := match rev (f_stems s) with
                         | [] => true
                         | last :: _ => negb (snclass last =? uclass) || negb (sccstem last =? clemma + 2)
                         end in
          let! (s, nerror) :=
            (if negb another then Ok (s, 0%Z)
             else
               if (cchstr <=? clemma) || (inflex_prob_len <=? cchstr - clemma - 1) then Ub
               else
                 match nth_error (tg_ranges T) (N.to_nat partsp) with
                 | None => Ub
                 | Some maxlen =>
                     if negb (maxlen =? 0) && (maxlen <=? idform) then Ub
                     else
                       let weight := rank (cchstr - clemma - 1) upower partsp idform (N.testbit clSets 0) in
                       if Nat.eqb (length (f_stems s)) 64 then Ok (s, (-1)%Z)
                       else
                         let n := length (f_stems s) in
                         let s := close_last s in
                         let s := FState (f_stems s ++ [StemInfo (option_map cpos (f_forms s)) (clemma + 2) uclass
                                                                 (ngrams_now s) 0 weight])
                                         (f_forms s) (f_grams s) in
                         match f_forms s with
                         | None => Ok (s, 0%Z)
                         | Some c =>
                             if Nat.ltb (length word) (N.to_nat clemma + 2) then Ub
                             else
                               let! (nerror, c) := gnormal (junk n) (firstn (N.to_nat clemma + 2) word) pclass partsp c in
                               Ok (FState (f_stems s) (Some c) (f_grams s), nerror)
                         end
                 end) in
          if negb (Z.eqb nerror 0) then Ok (s, nerror)
          else
            match f_grams s with
            | None => Ok (s, 0%Z)
            | Some (mem, cur) =>
                if Nat.eqb cur (length mem) then Ok (s, (-3)%Z)
                else
                  let! mem := mem_write mem cur (Gram partsp idform 0 0) in
                  Ok (FState (f_stems s) (f_forms s) (Some (mem, S cur)), 0%Z)
            end
    end.

  (** lemmatizer.hpp:173-185: for UTF-8, and if there is an array for the normal forms, the length of the stem becomes the number of
      bytes of its characters ([codepages::utf8::cbchar] is taken to be the length of what the converter writes). *)
  Fixpoint in_bytes (E : encoding) (word : bytes) (stems : list stem_info) : res (list stem_info) :=
    match stems with
    | [] => Ok []
    | x :: stems =>
        if N.of_nat (length word) <? sccstem x then Ub
        else
          let! rest := in_bytes E word stems in
          Ok (StemInfo (splemma x) (N.of_nat (length (encode E (firstn (N.to_nat (sccstem x)) word)))) (snclass x) (spgrams x)
                       (sngrams x) (sweight x) :: rest)
    end.
  Definition corrected (word : bytes) (s : fstate) : res (list stem_info) :=
    match P with
    | Utf8 E => match f_forms s with None => Ok (f_stems s) | Some _ => in_bytes E word (f_stems s) end
    | Win1251 | Other _ => Ok (f_stems s)
    end.

  (** mlfamain.cpp:177-212 [Lemmatize] and lemmatizer.hpp:164-194 [operator int], as [fuzzy_lemmatize]. *)
  Definition glemmatize (below lojunk : bytes) (psz : option bytes) (cch : N)
    (plemma : option (list stem_info)) (pforms : option bytes) (pgrams : option (list gram)) (dwsets : N)
    : res (Z * option (list stem_info) * option bytes * option (list gram)) :=
    let! (scheme, stored) := gcanonic T P psz cch in
    if scheme =? 2 ^ 32 - 1 then Ok ((-4)%Z, plemma, pforms, pgrams)
    else if scheme =? 0 then Ok (0%Z, plemma, pforms, pgrams)
    else if (N.land scheme 0xff =? 0xff) && negb (bit 1 dwsets) then Ok (0%Z, plemma, pforms, pgrams)
    else
      let locase := overwrite stored lojunk in
      let len := N.shiftr scheme 16 in
      if N.of_nat (length locase) <? len then Ub
      else
        let! (s, nerror) :=
          scan_tree (glemma locase len (N.land scheme 0xffff) dwsets)
            (reverse_dict F) (rev (firstn (N.to_nat len) locase) ++ below) len
            (FState [] (option_map (fun m => Coder m 0) pforms) (option_map (fun m => (m, 0%nat)) pgrams)) in
        let forms := option_map cmem (f_forms s) in
        let grams := option_map fst (f_grams s) in
        if negb (Z.eqb nerror 0) then Ok (nerror, plemma, forms, grams)
        else
          let s := close_last s in
          match plemma with
          | None => Ok (Z.of_nat (length (f_stems s)), None, forms, grams)
          | Some mem =>
              if Nat.ltb (length mem) (length (f_stems s)) then Ok ((-1)%Z, plemma, forms, grams)
              else
                let! stems := corrected locase s in
                let! mem := mem_writes mem 0 (sort stems) in
                Ok (Z.of_nat (length (f_stems s)), Some mem, forms, grams)
          end.
End Lemmatizer.
