(** * RusBuild: building forms and lemmatisation with the compiled Russian dictionary.  MODEL ONLY.
    As in [RusRuntime] only the windows-1251 instance is modelled. *)
From Verif Require Import Base Serial WordTree FlatScan Stems CharTables CapScheme GramMap RusRuntime.
Local Open Scope N_scope.

(** ** Memory *)

(** [mem[pos] = x]; outside the array it is undefined. *)
Definition mem_write {X} (mem : list X) (pos : nat) (x : X) : res (list X) :=
  if Nat.ltb pos (length mem) then Ok (firstn pos mem ++ x :: skipn (S pos) mem) else Ub.
Fixpoint mem_writes {X} (mem : list X) (pos : nat) (xs : list X) : res (list X) :=
  match xs with
  | [] => Ok mem
  | x :: xs' => let! mem := mem_write mem pos x in mem_writes mem (S pos) xs'
  end.
(** [mem[pos]] *)
Definition mem_read {X} (mem : list X) (pos : nat) : res X :=
  match nth_error mem pos with Some x => Ok x | None => Ub end.

(** The bytes of a fragment; reading beyond the array is undefined. *)
Definition fbytes (f : frag) : res bytes :=
  if N.of_nat (length (fstr f)) <? flen f then Ub else Ok (firstn (N.to_nat (flen f)) (fstr f)).

(** ** Output buffers *)

(** xmorph/buildforms.hpp:39-77 [Collector]: bytes free and bytes written.  Bytes not yet written are not represented:
    reading them is undefined. *)
Record collector := Collector { croom : nat; cout : bytes }.

(** buildforms.hpp:58-73 the three [append]s; a single [char] is a string of length 1. *)
Definition col_append (c : collector) (p : bytes) : option collector :=
  if Nat.ltb (croom c) (length p) then None else Some (Collector (croom c - length p) (cout c ++ p)).

(** The chains [append( a ) && append( b ) && ...]: the collector afterwards and the value. *)
Fixpoint col_appends (c : collector) (ps : list bytes) : collector * bool :=
  match ps with
  | [] => (c, true)
  | p :: ps' => match col_append c p with None => (c, false) | Some c' => col_appends c' ps' end
  end.

(** [MakeCollector( fmbuff )] with [char fmbuff[256]]. *)
Definition fmbuff : collector := Collector 256 [].

(** xmorph/codepages.hpp:6-40 [MbcsCoder]: the caller's array and the offset of [outptr]. *)
Record coder := Coder { cmem : bytes; cpos : nat }.

(** codepages.hpp:56-72 [ToCodepage] with equal codepages and 89-94 [MbcsCoder::append]: [None] is [false].  A single
    [char] (line 37) is a string of length 1. *)
Definition coder_append (c : coder) (s : bytes) : res (option coder) :=
  if Nat.leb (length (cmem c) - cpos c) (length s) then Ok None
  else let! m := mem_writes (cmem c) (cpos c) (s ++ [0]) in Ok (Some (Coder m (cpos c + length s))).

(** [append( p, l ) && append( '\0' )]: the coder afterwards and the value. *)
Definition coder_put (c : coder) (s : bytes) : res (coder * bool) :=
  let! r := coder_append c s in
  match r with
  | None => Ok (c, false)
  | Some c1 =>
      let! r := coder_append c1 [0] in
      match r with None => Ok (c1, false) | Some c2 => Ok (c2, true) end
  end.

(** ** Building forms from the inflexion table *)

(** xmorph/buildforms.cpp:56-60, the search for a fitting description: [ngrams] left at [tabptr]. *)
Fixpoint has_desc (fx : flexinfo) (ngrams : nat) (tabptr : bytes) : res bool :=
  match ngrams with
  | O => Ok false
  | S n =>
      let! (g, tabptr) := getword16 tabptr in
      let! (f, tabptr) := rd tabptr in
      if (g =? gramm fx) && negb (N.land f (flags fx) =? 0) then Ok true else has_desc fx n tabptr
  end.

(** buildforms.cpp:54-69, the lambda of [GetFlexForms]; the state is the collector and [ntails]. *)
Definition flex_visit (fx : flexinfo) (prefix suffix : frag) (s : collector * Z) (tabptr : bytes) (szflex : bytes)
  : res (collector * Z * Z) :=
  let! (ngrams, p) := rd tabptr in
  let! found := has_desc fx (N.to_nat ngrams) p in
  if found then
    let! pre := fbytes prefix in
    let! suf := fbytes suffix in
    let '(c, ok) := col_appends (fst s) [pre; szflex; suf; [0]] in
    if ok then Ok ((c, (snd s + 1)%Z), 0%Z) else Ok ((c, snd s), (-1)%Z)
  else Ok (s, 0%Z).

(** buildforms.cpp:45-72 [GetFlexForms]; [atrack] has 0x40 bytes. *)
Definition get_flex_forms (c : collector) (ptable : bytes) (fx : flexinfo) (prefix suffix : frag) : res (collector * Z) :=
  let! (s, rtrack) := get_track C8 (flex_visit fx prefix suffix) 65 None ptable [] (c, 0%Z) in
  Ok (fst s, if Z.eqb rtrack 0 then snd s else rtrack).

(** buildforms.cpp:89-98, the lambda of [GetFirstFlex].  [reflex] is a pointer to the beginning of [atrack], as is
    [szflex], so that their comparison (xmorph/typedefs.h:82-88) is that of their lengths; the state is the length of
    [reflex] and [fxinfo], once [ntails] is 1. *)
Definition first_visit (s : option (nat * flexinfo)) (tabptr : bytes) (szflex : bytes) : res (option (nat * flexinfo) * Z) :=
  if match s with None => true | Some (len, _) => Nat.ltb (length szflex) len end
  then
    let! (_, p) := rd tabptr in
    let! (g, p) := getword16 p in
    let! (f, _) := rd p in
    Ok (Some (length szflex, Flexinfo g f), 0%Z)
  else Ok (s, 0%Z).

(** buildforms.cpp:82-101 [GetFirstFlex]. *)
Definition get_first_flex (ptable : bytes) : res (option (nat * flexinfo)) :=
  let! (s, _) := get_track C8 first_visit 65 None ptable [] None in Ok s.

(** lang-rus/libdict/buildform.cpp:70-74 and 126-130: the first alternation with the bit of the level. *)
Fixpoint find_mix (mpmask : N) (mcount : nat) (mixtab : bytes) : res (option bytes) :=
  match mcount with
  | O => Ok None
  | S n =>
      let! (head, rest) := rd mixtab in
      if N.land head mpmask =? 0
      then let! next := advance (N.land head 0x0f) rest in find_mix mpmask n next
      else Ok (Some mixtab)
  end.
Definition level_mix (A : arrays) (st : steminfo) (fx : flexinfo) : res (option bytes) :=
  let! swap := GetSwapTable A st in
  match swap with
  | None => Ub
  | Some mixtab =>
      let! (mcount, mixtab) := rd mixtab in
      find_mix (N.shiftl 8 (GetSwapLevel (wdinfo st) (gramm fx) (flags fx))) (N.to_nat mcount) mixtab
  end.

(** buildform.cpp:53-58, 108-113: the form without inflexion. *)
Definition plain_form (c : collector) (prefix suffix : frag) : res (collector * Z) :=
  let! pre := fbytes prefix in
  let! suf := fbytes suffix in
  let '(c, ok) := col_appends c [pre; suf; [0]] in
  Ok (c, if ok then 1%Z else (-1)%Z).

(** buildform.cpp:44-89 [GetWordForms]; [szform] has 0x40 bytes and stays uninitialised when the prefix does not fit. *)
Definition get_word_forms (A : arrays) (c : collector) (st : steminfo) (fx : flexinfo) (prefix suffix : frag)
  : res (collector * Z) :=
  let! flex := GetFlexTable A st in
  match flex with
  | None => plain_form c prefix suffix
  | Some ptflex =>
      if negb (mtoffs st =? 0)
      then
        let! mix := level_mix A st fx in
        match mix with
        | None => Ok (c, 0%Z)
        | Some mixstr =>
            let! (head, mixstr) := rd mixstr in
            let ccform := flen prefix + N.land 0x0f head in
            if ccform <? 0x40
            then
              let! pre := fbytes prefix in
              let! mix := fbytes (Frag mixstr (ccform - flen prefix)) in
              get_flex_forms c ptflex fx (Frag (pre ++ mix) ccform) suffix
            else Ub
        end
      else get_flex_forms c ptflex fx prefix suffix
  end.

(** buildform.cpp:97-146 [GetFirstForm].  [szflex] points into the array [atrack] of the finished [GetFirstFlex]: reading
    any byte of it is undefined. *)
Definition get_first_form (A : arrays) (c : collector) (st : steminfo) (prefix suffix : frag) : res (collector * Z) :=
  let! flex := GetFlexTable A st in
  match flex with
  | None => plain_form c prefix suffix
  | Some ptflex =>
      let! first := get_first_flex ptflex in
      match first with
      | None => Ok (c, 0%Z)
      | Some (len, fx) =>
          let! pre := fbytes prefix in
          let! suf := fbytes suffix in
          if negb (mtoffs st =? 0)
          then
            let! mix := level_mix A st fx in
            match mix with
            | None => Ok (c, 0%Z)
            | Some mixstr =>
                let! (head, mixstr) := rd mixstr in
                let '(c, ok) := col_appends c [pre] in
                if negb ok then Ok (c, (-1)%Z)
                else if Nat.ltb (croom c) (N.to_nat head) then Ok (c, (-1)%Z)
                else
                  let! mix := fbytes (Frag mixstr head) in
                  if Nat.ltb 0 len then Ub
                  else let '(c, ok) := col_appends c [mix; []; suf; [0]] in Ok (c, if ok then 1%Z else (-1)%Z)
            end
          else if Nat.ltb 0 len then Ub
          else let '(c, ok) := col_appends c [pre; []; suf; [0]] in Ok (c, if ok then 1%Z else (-1)%Z)
      end
  end.

(** lang-rus/libdict/mlmadefs.h:198-215 [FindDictForm]; [nfAdjVerbs] is bit 8. *)
Definition FindDictForm (st : steminfo) (fx : flexinfo) (dwsets : N) : flexinfo :=
  if IsVerb (wdinfo st)
  then
    if bit 8 dwsets && IsParticiple (gramm fx)
    then Flexinfo (u16 (N.lor (N.land (gramm fx) 0x67) 0x200)) 3
    else Flexinfo 1 3
  else Flexinfo (N.lor (if IsAdjective (wdinfo st) then 0x200 else 0) (if bit 6 (wdinfo st) then 0x800 else 0)) 3.

(** buildform.cpp:154-180 [GetDictForms]. *)
Definition get_dict_forms (A : arrays) (c : collector) (dwsets : N) (st : steminfo) (fx : flexinfo) (prefix suffix : frag)
  : res (collector * Z) :=
  let nf := FindDictForm st fx dwsets in
  let! (c, n) := get_word_forms A c st nf prefix suffix in
  if negb (Z.eqb n 0) then Ok (c, n)
  else
    let! (c, n) := (if negb (bit 15 (gramm nf)) && (IsVerb (wdinfo st) || IsAdjective (wdinfo st))
                    then get_word_forms A c st (Flexinfo (u16 (N.lor (gramm nf) 0x8000)) (flags nf)) prefix suffix
                    else Ok (c, 0%Z)) in
    if negb (Z.eqb n 0) then Ok (c, n) else get_first_form A c st prefix suffix.

(** ** FormBuild *)

(** lang-rus/libdict/chartype.cpp [pspMinCapValue], indexed with the word type. *)
Definition min_cap (st : steminfo) : N := nth (N.to_nat (N.land (wdinfo st) 0x3f)) rus_pspMinCapValue 0.

(** buildform.cpp:240-248, the loop of [FormBuild::operator()]: [p] is [fmbuff] from the next form on. *)
Fixpoint put_forms (st : steminfo) (nforms : nat) (p : bytes) (s : coder * Z) : res (coder * Z * Z) :=
  match nforms with
  | O => Ok (s, 0%Z)
  | S n =>
      let! form := cstr p in
      let! p := cap_set rus_casing p (length form) (min_cap st) in
      let! (c, ok) := coder_put (fst s) (firstn (length form) p) in
      if ok then put_forms st n (skipn (S (length form)) p) (c, (snd s + 1)%Z) else Ok ((c, snd s), (-1)%Z)
  end.

(** buildform.cpp:214-252 [FormBuild::operator()]; the state is the output buffer and [nbuilt]; [szstem] is the array the
    stem was collected in. *)
Definition form_build (A : arrays) (szstem : bytes) (idform : N)
  (s : coder * Z) (lid : N) (st : steminfo) (inflex suffix : frag) (gr : list gram) : res (coder * Z * Z) :=
  let grinfo := GetGramInfo (wdinfo st) idform in
  if flexinfo_eq grinfo noflex && negb (idform =? 255) then Ok (s, 0%Z)
  else if negb (Bool.eqb (negb (tfoffs st =? 0)) (negb (idform =? 255))) then Ok (s, 0%Z)
  else
    let! (c, nforms) := get_word_forms A fmbuff st grinfo
                          (Frag szstem (N.of_nat (length szstem - length (fstr inflex)))) suffix in
    if (nforms <=? 0)%Z then Ok (s, nforms) else put_forms st (Z.to_nat nforms) (cout c) s.

(** lang-rus/libdict/mlmamain.cpp:174-204 [BuildForm]: the value returned and the caller's array afterwards; [None] is a null
    pointer.  [szstem] has 48 bytes; its part after the collected stem is not represented. *)
Definition build_form (A : arrays) (junk : bytes) (output : option bytes) (nlexid idform : N) : res (Z * option bytes) :=
  match output with
  | None => Ok ((-5)%Z, None)
  | Some [] => Ok ((-5)%Z, Some [])
  | Some mem =>
      let! found := find_lid (lidstree A) junk nlexid in
      match found with
      | None => Ok (0%Z, Some mem)
      | Some ofsptr =>
          let! (off, _) := getserial ofsptr in
          let! dicpos := advance off (stemtree A) in
          let dicpos := length dicpos in
          let! (s, nerror) :=
            get_track C8 (fun s pstems track => select_view (build_class A (form_build A track idform)) dicpos s pstems track)
                      49 (Some dicpos) (stemtree A) [] (Coder mem 0, 0%Z) in
          Ok (if (nerror <? 0)%Z then nerror else snd s, Some (cmem (fst s)))
      end
  end.

(** mlmamain.cpp:206-240 [FindForms]. *)
Definition find_forms (A : arrays) (junk : bytes) (output : option bytes) (psz : option bytes) (cch idform dwsets : N)
  : res (Z * option bytes) :=
  let! _ := to_canonic psz cch in
  match output with
  | None => Ok ((-5)%Z, None)
  | Some [] => Ok ((-5)%Z, Some [])
  | Some mem =>
      prologue psz cch dwsets junk (fun r => (r, Some mem))
        (fun locase len scheme =>
           let! (s, nerror) := scan_words A (form_build A locase idform) scheme dwsets locase len (Coder mem 0, 0%Z) in
           Ok (if (nerror <? 0)%Z then nerror else snd s, Some (cmem (fst s))))
  end.

(** ** Lemmatizer *)

(** api.h:113-119 [SLemmInfoA]: pointers into the caller's arrays are offsets. *)
Record lemm := Lemm { lm_id : N; lm_form : option nat; lm_grams : N; lm_ngrams : N }.

(** lang-rus/libdict/lemmatize.hpp:86-93: the arrays ([None] is a null pointer), the offsets of the current positions, and
    [nbuilt]. *)
Record lstate := LState { l_lemms : option (list lemm * nat); l_forms : option coder; l_grams : option (list gram * nat); l_built : Z }.

(** lang-rus/libdict/lemmatize.cpp:41-49 [has_graminfo]: [n] descriptions from [pos] on are examined. *)
Fixpoint has_graminfo (mem : list gram) (pos n : nat) (idForm : N) : res bool :=
  match n with
  | O => Ok false
  | S n' => let! gr := mem_read mem pos in if gidForm gr =? idForm then Ok true else has_graminfo mem (S pos) n' idForm
  end.

(** lemmatize.cpp:51-64 [set_graminfo]: the value stored. *)
Definition set_graminfo (st : steminfo) (g : gram) : gram :=
  if negb (tfoffs st =? 0)
  then let wd := N.ldiff (wdinfo st) 0xf800 in Gram wd (MapWordInfo wd (ggrInfo g) (gbFlags g)) (ggrInfo g) (gbFlags g)
  else Gram (N.ldiff (wdinfo st) 0xe000) 0xff (ggrInfo g) (gbFlags g).

(** lemmatize.cpp:161-165: descriptions left, the array and its current position. *)
Fixpoint put_grams (st : steminfo) (grbuff : list gram) (mem : list gram) (cur : nat) : res (nat * list gram * nat) :=
  match grbuff with
  | [] => Ok (0%nat, mem, cur)
  | g :: gs =>
      if Nat.eqb cur (length mem) then Ok (length grbuff, mem, cur)
      else let! mem := mem_write mem cur (set_graminfo st g) in put_grams st gs mem (S cur)
  end.

(** lemmatize.cpp:154-160, merging with the description [last]. *)
Fixpoint merge_grams (st : steminfo) (last : lemm) (grbuff : list gram) (mem : list gram) (cur : nat)
  : res (nat * list gram * nat) :=
  match grbuff with
  | [] => Ok (0%nat, mem, cur)
  | g :: gs =>
      if Nat.eqb cur (length mem) then Ok (length grbuff, mem, cur)
      else
        let! has := has_graminfo mem (N.to_nat (lm_grams last)) (N.to_nat (lm_ngrams last)) (gidForm g) in
        if has then merge_grams st last gs mem cur
        else let! mem := mem_write mem cur (set_graminfo st g) in merge_grams st last gs mem (S cur)
  end.

(** lemmatize.cpp:134-141: the least of the strings that follow one another at [select]; [n] are left after the one at
    [fmnext]. *)
Fixpoint skip_str (p : bytes) : res bytes :=
  match p with [] => Ub | c :: p' => if c =? 0 then Ok p' else skip_str p' end.
Fixpoint select_min (n : nat) (fmnext select : bytes) : res bytes :=
  match n with
  | O => Ok select
  | S n' =>
      let! fmnext := skip_str fmnext in
      let! a := cstr fmnext in
      let! b := cstr select in
      select_min n' fmnext (match strcmp a b with Lt => fmnext | _ => select end)
  end.

(** lemmatize.cpp:105-116: may the lexeme be stored or merged?  [None] is the failure, else the array and [merge_lexeme]. *)
Definition start_lemm (s : lstate) (nlexid : N) : res (option (lstate * bool)) :=
  match l_lemms s with
  | None => Ok (Some (s, false))
  | Some (mem, cur) =>
      let! same := (if Z.eqb (l_built s) 0 then Ok false
                    else match cur with O => Ub | S prev => let! last := mem_read mem prev in Ok (lm_id last =? nlexid) end) in
      if same then Ok (Some (s, true))
      else if Nat.eqb cur (length mem) then Ok None
      else
        let! mem := mem_write mem cur
                      (Lemm nlexid (match l_forms s with None => None | Some c => Some (cpos c) end)
                            (match l_grams s with None => 0 | Some (_, g) => N.of_nat g end) 0) in
        Ok (Some (LState (Some (mem, cur)) (l_forms s) (l_grams s) (l_built s), false))
  end.

(** lemmatize.cpp:120-149: building the normal form; [Some r] is an early [return r]. *)
Definition put_lemma (A : arrays) (szstem : bytes) (dwsets : N) (c : coder) (st : steminfo) (inflex suffix : frag) (grs : list gram)
  : res (coder * option Z) :=
  match grs with
  | [] => Ub
  | g :: _ =>
      let! (col, nforms) := get_dict_forms A fmbuff dwsets st (Flexinfo (ggrInfo g) (gbFlags g))
                              (Frag szstem (N.of_nat (length szstem - length (fstr inflex)))) suffix in
      if (nforms <=? 0)%Z then Ok (c, Some nforms)
      else
        let! select := select_min (Z.to_nat (nforms - 1)) (cout col) (cout col) in
        let! form := cstr select in
        let! p := cap_set rus_casing select (length form) (min_cap st) in
        let! (c, ok) := coder_put c (firstn (length form) p) in
        Ok (c, if ok then None else Some (-1)%Z)
  end.

(** lemmatize.cpp:152-169: the descriptions.  The count is stored in the element at the current position. *)
Definition put_infos (s : lstate) (merge : bool) (st : steminfo) (grs : list gram) : res (lstate * option Z) :=
  match l_lemms s, l_grams s with
  | Some (lmem, cur), Some (gmem, gcur) =>
      let! (togo, gmem', gcur') :=
        (if merge
         then match cur with
              | O => Ub
              | S prev => let! last := mem_read lmem prev in merge_grams st last grs gmem gcur
              end
         else put_grams st grs gmem gcur) in
      if Nat.eqb togo 0
      then
        let! cell := mem_read lmem cur in
        let n := (N.of_nat gcur' + 2 ^ 64 - lm_grams cell mod 2 ^ 64) mod 2 ^ 32 in
        let! lmem' := mem_write lmem cur (Lemm (lm_id cell) (lm_form cell) (lm_grams cell) n) in
        Ok (LState (Some (lmem', cur)) (l_forms s) (Some (gmem', gcur')) (l_built s), None)
      else Ok (LState (l_lemms s) (l_forms s) (Some (gmem', gcur')) (l_built s), Some (-3)%Z)
  | _, _ => Ok (s, None)
  end.

(** lemmatize.cpp:94-180 [Lemmatizer::operator()]. *)
Definition lemmatizer (A : arrays) (szstem : bytes) (dwsets : N)
  (s : lstate) (nlexid : N) (st : steminfo) (inflex suffix : frag) (grs : list gram) : res (lstate * Z) :=
  if (l_built s <? 0)%Z then Ok (s, l_built s)
  else
    let! started := start_lemm s nlexid in
    match started with
    | None => Ok (LState (l_lemms s) (l_forms s) (l_grams s) (-2)%Z, (-2)%Z)
    | Some (s, merge) =>
        let! (s, ret) :=
          (match l_forms s with
           | Some c =>
               if merge then Ok (s, None)
               else
                 let! (c, ret) := put_lemma A szstem dwsets c st inflex suffix grs in
                 Ok (LState (l_lemms s) (Some c) (l_grams s) (l_built s), ret)
           | None => Ok (s, None)
           end) in
        match ret with
        | Some r => Ok (s, r)
        | None =>
            let! (s, ret) := put_infos s merge st grs in
            match ret with
            | Some r => Ok (s, r)
            | None =>
                if merge then Ok (s, 0%Z)
                else Ok (LState (match l_lemms s with None => None | Some (mem, cur) => Some (mem, S cur) end)
                                (l_forms s) (l_grams s) (l_built s + 1)%Z, 0%Z)
            end
        end
    end.

(** lang-rus/libdict/mlmamain.cpp:140-172 [Lemmatize]: the value returned and the three arrays afterwards. *)
Definition lemmatize (A : arrays) (junk : bytes) (psz : option bytes) (cch : N)
  (plemma : option (list lemm)) (pforms : option bytes) (pgrams : option (list gram)) (dwsets : N)
  : res (Z * (option (list lemm) * option bytes * option (list gram))) :=
  prologue psz cch dwsets junk (fun r => (r, (plemma, pforms, pgrams)))
    (fun locase len scheme =>
       let! (s, nerror) :=
         scan_words A (lemmatizer A locase dwsets) scheme dwsets locase len
           (LState (option_map (fun m => (m, 0%nat)) plemma) (option_map (fun m => Coder m 0) pforms)
                   (option_map (fun m => (m, 0%nat)) pgrams) 0%Z) in
       Ok (if (nerror <? 0)%Z then nerror else l_built s,
           (option_map fst (l_lemms s), option_map cmem (l_forms s), option_map fst (l_grams s)))).
