(** * ApiSpec: the documented interface keys, independently of the code.  SPECIFICATION ONLY. *)
From Coq Require Import String Ascii.
From Verif Require Import Base Api.
Local Open Scope N_scope.

(** Two characters are the same but for the case of Latin letters. *)
Definition same_letter (x y : N) : Prop := x = y \/ 65 <= x <= 90 /\ y = x + 32 \/ 65 <= y <= 90 /\ x = y + 32.
Definition any_case (a b : bytes) : Prop := Forall2 same_letter a b.

(** The documented names: windows-1251, koi8-r, the DOS codepage 866, ISO 8859-5, Macintosh, UTF-8 and UTF-16. *)
Definition documented (i : instance) : list string :=
  match i with
  | Mb1251 => ["windows-1251"; "windows"; "1251"; "win-1251"; "win"; "windows 1251"; "win 1251"; "ansi"]
  | MbKoi8 => ["koi-8"; "koi8"; "20866"]
  | Mb866 => ["dos"; "oem"; "866"]
  | MbIso => ["28595"; "iso-88595"; "iso-8859-5"]
  | MbMac => ["10007"; "mac"]
  | MbUtf8 => ["65001"; "utf-8"; "utf8"]
  | WcInstance => ["utf-16"; "utf16"]
  end%string.
Definition names (i : instance) (name : bytes) : Prop := exists d, In d (documented i) /\ any_case (text d) name.

(** A key as the caller passes it: the text, a terminator, and whatever follows in memory. *)
Definition passed (key : bytes) (p : bytes) : Prop := ~ In 0 key /\ exists after, p = key ++ 0 :: after.
