(** * Api: selecting an interface by key or codepage name.
    MODEL.  Pointers to interfaces are represented by the instance they point to; [memcmp] and [strcasecmp] are those of the C
    library in the C locale.  A C string is a pointer ([bytes] up to the end of the object it is in). *)
From Coq Require Import String Ascii.
From Verif Require Import Base.
Local Open Scope N_scope.

Definition text (s : string) : bytes := List.map N_of_ascii (list_ascii_of_string s).

(** lang-rus/libdict/mlmamain.cpp:20-60, lang-rus/libprob/mlfamain.cpp: the static objects; [WcInstance] is the UTF-16 one. *)
Inductive instance := Mb1251 | MbKoi8 | Mb866 | MbIso | MbMac | MbUtf8 | WcInstance.

(** What the caller's pointer holds: what it held before, a null pointer, an instance. *)
Inductive held := Untouched | Null | Points (i : instance).
Definition EINVAL : Z := 22%Z.

(** lang-rus/libdict/mlmamain.cpp:384-412 [codepageList]; lang-rus/libprob/mlfamain.cpp has the same list. *)
Definition codepageList : list (instance * bytes) :=
  [ (Mb1251, text "Windows-1251"); (Mb1251, text "Windows"); (Mb1251, text "1251"); (Mb1251, text "Win-1251"); (Mb1251, text "Win")
  ; (Mb1251, text "Windows 1251"); (Mb1251, text "Win 1251"); (Mb1251, text "ansi")
  ; (MbKoi8, text "koi-8"); (MbKoi8, text "koi8"); (MbKoi8, text "20866")
  ; (Mb866, text "dos"); (Mb866, text "oem"); (Mb866, text "866")
  ; (MbIso, text "28595"); (MbIso, text "iso-88595"); (MbIso, text "iso-8859-5")
  ; (MbMac, text "10007"); (MbMac, text "mac")
  ; (MbUtf8, text "65001"); (MbUtf8, text "utf-8"); (MbUtf8, text "utf8")
  ; (WcInstance, text "utf-16"); (WcInstance, text "utf16") ].

(** C library. *)
Definition tolower (c : N) : N := if (65 <=? c) && (c <=? 90) then c + 32 else c.

(** [strcasecmp( a, p ) == 0] for a string literal [a]: characters are compared up to the first difference or terminator. *)
Fixpoint strcasecmp_eq (a : bytes) (p : bytes) : res bool :=
  let! (c, p') := rd p in
  match a with
  | [] => Ok (c =? 0)
  | x :: a' => if (tolower x =? tolower c) && negb (c =? 0) then strcasecmp_eq a' p' else Ok false
  end.

(** [memcmp( p, a, n ) == 0]: both objects must have [n = length a] bytes. *)
Definition memcmp_eq (p : bytes) (a : bytes) : res bool :=
  if Nat.ltb (List.length p) (List.length a) then Ub else Ok (if list_eq_dec N.eq_dec (firstn (List.length a) p) a then true else false).

(** the loop over [codepageList] *)
Fixpoint find_page (l : list (instance * bytes)) (name : bytes) : res (option instance) :=
  match l with
  | [] => Ok None
  | (i, n) :: l' => let! same := strcasecmp_eq n name in if same then Ok (Some i) else find_page l' name
  end.

(** api.h:332-333; [sizeof] counts the terminator, hence the colon is the last of the bytes compared. *)
Definition MORPH_MAGIC : bytes := text "libmorph.api.v4".
Definition FUZZY_MAGIC : bytes := text "libfuzzy.api.v4".
Definition sizeof_magic : N := 16.

(** lang-rus/libdict/mlmamain.cpp:467-481 [mlmaruGetAPI]; lang-rus/libprob/mlfamain.cpp:350-364 [mlfaruGetAPI] with its own magic.
    [ppv]: is the pointer to the result given?  The value returned and what the result holds. *)
Definition rus_get_api (magic : bytes) (key : option bytes) (ppv : bool) : res (Z * held) :=
  if negb ppv then Ok (EINVAL, Untouched)
  else match key with
       | None => Ok (EINVAL, Untouched)
       | Some p =>
           let! same := memcmp_eq p (magic ++ text ":") in
           if negb same then Ok (EINVAL, Untouched)
           else
             let! name := advance sizeof_magic p in
             let! found := find_page codepageList name in
             match found with
             | Some i => Ok (0%Z, Points i)
             | None => Ok (EINVAL, Null)
             end
       end.

(** lang-rus/libdict/mlmamain.cpp:441-457 [mlmaruLoadCpAPI]. *)
Definition rus_load_cp (ptr : bool) (codepage : option bytes) : res (Z * held) :=
  match ptr, codepage with
  | true, Some p =>
      let! (c, _) := rd p in
      if c =? 0 then Ok (EINVAL, Untouched)
      else
        let! found := find_page codepageList p in
        match found with
        | Some WcInstance => Ok (EINVAL, Untouched)
        | Some i => Ok (0%Z, Points i)
        | None => Ok (EINVAL, Null)
        end
  | _, _ => Ok (EINVAL, Untouched)
  end.

(** lang-rus/libprob/mlfamain.cpp:328-340 [mlfaruLoadCpAPI]: the wide instance is handed out as a narrow one. *)
Definition rus_fuzzy_load_cp (ptr : bool) (codepage : option bytes) : res (Z * held) :=
  match ptr, codepage with
  | true, Some p =>
      let! (c, _) := rd p in
      if c =? 0 then Ok (EINVAL, Untouched)
      else
        let! found := find_page codepageList p in
        match found with
        | Some i => Ok (0%Z, Points i)
        | None => Ok (EINVAL, Null)
        end
  | _, _ => Ok (EINVAL, Untouched)
  end.

(** [LoadMbAPI], [LoadWcAPI]: mlmamain.cpp:433-439, 459-465 (Russian dictionary: [missing = EINVAL]); -1 in the other libraries
    (lang-rus/libprob/mlfamain.cpp:320-326, 342-348, lang-eng/libdict/mlmamain.cpp:369-375, 383-389, lang-eng/libprob/mlfamain.cpp). *)
Definition load_api (missing : Z) (i : instance) (ptr : bool) : Z * held :=
  if ptr then (0%Z, Points i) else (missing, Untouched).

(** lang-eng/libdict/mlmamain.cpp:391-407 [mlmaenGetAPI]; lang-eng/libprob/mlfamain.cpp:312-329 [mlfaenGetAPI] with its own magic.
    The English libraries have one narrow instance, here [Mb1251]. *)
Definition eng_get_api (magic : bytes) (key : option bytes) (ppv : bool) : res (Z * held) :=
  if negb ppv then Ok (EINVAL, Untouched)
  else match key with
       | None => Ok (EINVAL, Untouched)
       | Some p =>
           let! same := memcmp_eq p (magic ++ text ":") in
           if negb same then Ok (EINVAL, Untouched)
           else
             let! name := advance sizeof_magic p in
             let! wide := strcasecmp_eq (text "utf-16") name in
             let! wide := (if wide then Ok true else strcasecmp_eq (text "utf16") name) in
             Ok (if wide then load_api (-1)%Z WcInstance true else load_api (-1)%Z Mb1251 true)
       end.
