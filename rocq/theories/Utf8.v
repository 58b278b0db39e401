(** * Utf8: UTF-8 as a code page of windows-1251 texts, the case the theorems of Prop_Codepage.v are shown to apply to.
    Written from the published tables; the converter the program uses is in the library moonycode, not in the repository. *)
From Verif Require Import Base Codepage CodepageSpec.
Local Open Scope N_scope.

(** Unicode numbers of the windows-1251 characters 128 ... 255 (152 is not assigned: kept). *)
Definition cp1251_upper : list N :=
  [1026; 1027; 8218; 1107; 8222; 8230; 8224; 8225; 8364; 8240; 1033; 8249; 1034; 1036; 1035; 1039; 1106; 8216; 8217; 8220; 8221; 8226; 8211; 8212; 152;
   8482; 1113; 8250; 1114; 1116; 1115; 1119; 160; 1038; 1118; 1032; 164; 1168; 166; 167; 1025; 169; 1028; 171; 172; 173; 174; 1031; 176; 177; 1030; 1110;
   1169; 181; 182; 183; 1105; 8470; 1108; 187; 1112; 1029; 1109; 1111; 1040; 1041; 1042; 1043; 1044; 1045; 1046; 1047; 1048; 1049; 1050; 1051; 1052;
   1053; 1054; 1055; 1056; 1057; 1058; 1059; 1060; 1061; 1062; 1063; 1064; 1065; 1066; 1067; 1068; 1069; 1070; 1071; 1072; 1073; 1074; 1075; 1076; 1077;
   1078; 1079; 1080; 1081; 1082; 1083; 1084; 1085; 1086; 1087; 1088; 1089; 1090; 1091; 1092; 1093; 1094; 1095; 1096; 1097; 1098; 1099; 1100; 1101; 1102;
   1103].
Definition to_unicode (c : N) : N := if c <? 128 then c else nth (N.to_nat (c - 128)) cp1251_upper 63.
Fixpoint position (u : N) (l : list N) (i : N) : N := match l with [] => 63 | x :: l' => if x =? u then i else position u l' (i + 1) end.
Definition from_unicode (u : N) : N := if u <? 128 then u else position u cp1251_upper 128.

(** One to three bytes (no windows-1251 character needs four). *)
Definition utf8_char (u : N) : bytes :=
  if u <? 128 then [u]
  else if u <? 2048 then [192 + u / 64; 128 + u mod 64]
  else [224 + u / 4096; 128 + u / 64 mod 64; 128 + u mod 64].
Fixpoint utf8_decode (s : bytes) : bytes :=
  match s with
  | [] => []
  | a :: s1 =>
      if a <? 128 then a :: utf8_decode s1
      else if a <? 224 then
        match s1 with b :: s2 => from_unicode ((a - 192) * 64 + (b - 128)) :: utf8_decode s2 | [] => [63] end
      else
        match s1 with b :: c :: s3 => from_unicode ((a - 224) * 4096 + (b - 128) * 64 + (c - 128)) :: utf8_decode s3 | _ => [63] end
  end.
Definition utf8 (slack : nat) : encoding := Encoding (fun c => utf8_char (to_unicode c)) utf8_decode slack.

Definition char_fine (c : N) : bool :=
  match utf8_char (to_unicode c) with
  | [a] => (a <? 128) && (a =? c)
  | [a; b] => (128 <=? a) && (a <? 224) && negb (b =? 0) && (from_unicode ((a - 192) * 64 + (b - 128)) =? c)
  | [a; b; d] => (224 <=? a) && negb (b =? 0) && negb (d =? 0) && (from_unicode ((a - 224) * 4096 + (b - 128) * 64 + (d - 128)) =? c)
  | _ => false
  end.
Lemma chars_fine : forallb (fun n => char_fine (N.of_nat n)) (seq 0 256) = true.
Proof. vm_compute. reflexivity. Qed.
Lemma char_is_fine c : c < 256 -> char_fine c = true.
Proof.
  intros H. pose proof chars_fine as F. rewrite forallb_forall in F. specialize (F (N.to_nat c)). rewrite N2Nat.id in F. apply F. apply in_seq. lia.
Qed.
Lemma decode_char c rest : c < 256 -> utf8_decode (utf8_char (to_unicode c) ++ rest) = c :: utf8_decode rest.
Proof.
  intros H. apply char_is_fine in H. unfold char_fine in H. destruct (utf8_char (to_unicode c)) as [|a [|b [|d [|]]]]; try discriminate; cbn [app utf8_decode].
  - apply andb_prop in H as [-> H]. apply N.eqb_eq in H. subst. reflexivity.
  - apply andb_prop in H as [H H4]. apply andb_prop in H as [H H3]. apply andb_prop in H as [H1 H2]. apply N.eqb_eq in H4. rewrite H4, H2.
    replace (a <? 128) with false by (symmetry; apply N.ltb_ge, N.leb_le, H1). reflexivity.
  - apply andb_prop in H as [H H4]. apply andb_prop in H as [H H3]. apply andb_prop in H as [H1 H2]. apply N.eqb_eq in H4. rewrite H4.
    apply N.leb_le in H1. replace (a <? 128) with false by (symmetry; apply N.ltb_ge; lia). replace (a <? 224) with false by (symmetry; apply N.ltb_ge, H1). reflexivity.
Qed.

Lemma to_unicode_nonzero c : c <> 0 -> to_unicode c <> 0.
Proof.
  intros H. unfold to_unicode. destruct (N.ltb_spec c 128); [exact H|].
  assert (F : Forall (fun u => u <> 0) cp1251_upper) by (repeat constructor; discriminate). rewrite Forall_forall in F.
  destruct (nth_in_or_default (N.to_nat (c - 128)) cp1251_upper 63) as [Hn|Hn]; [apply F, Hn|]. rewrite Hn. discriminate.
Qed.
Lemma utf8_char_fine u : u <> 0 -> utf8_char u <> [] /\ ~ In 0 (utf8_char u).
Proof.
  intros H. unfold utf8_char. destruct (u <? 128); [|destruct (u <? 2048)]; (split; [discriminate|]); intros Hi; cbn [In] in Hi; lia.
Qed.

Lemma utf8_ok k : encoding_ok (utf8 k).
Proof.
  split.
  - reflexivity.
  - intros c Hc. apply utf8_char_fine, to_unicode_nonzero, Hc.
  - intros s Hb _. cbn [dec]. induction s as [|c s IH]; [reflexivity|]. inversion Hb as [|? ? Hc Hs]; subst.
    unfold encode in *. cbn [flat_map enc]. cbn [enc utf8] in *. rewrite decode_char by exact Hc. f_equal. exact (IH Hs).
Qed.
