(** * C117: the game of five letters (lang-rus/libdict/utils/5-letters.cpp). *)
From Verif Require Import Base Letters LettersSpec LettersProofs.
Local Open Scope N_scope.

(** C117: over any dictionary of nouns of five letters а to я the game ends (in as many rounds as there are nouns, and one), without undefined shifts
    or reads outside the table of ranks; every word guessed is a noun of the dictionary, shown with its marks, none is guessed twice, each makes use of all marks shown before and
    is a heaviest of the nouns still possible, and it is given up only if none are; the
    verdict is "guessed" exactly if the word to be guessed is among them.  If that word is a noun of the dictionary, fits the pattern of the letters
    known and has none of the letters ruled out, it is guessed. *)
Theorem C117_letters_game find wd nouns sample search unused fuel : dictionary_of find wd nouns -> Forall (fun w => five w /\ Forall is_letter w) nouns ->
  five sample -> pattern_ok search -> Forall is_letter unused -> (length nouns < fuel)%nat ->
  exists lines v, letters_game find wd fuel sample search unused = Ok (lines, v) /\ fair_game nouns sample lines v /\ greedy_game nouns sample search unused lines v /\
    (In sample nouns -> fits search sample -> (forall c, In c sample -> ~ In c unused) -> v = Guessed).
Proof. apply game_ok. Qed.

(** A dictionary given by the list of its nouns. *)
Fixpoint fitsb (pattern w : wstring) : bool :=
  match pattern, w with [], [] => true | q :: p', c :: w' => ((q =? 63) || (q =? c)) && fitsb p' w' | _, _ => false end.
Lemma fitsb_ok : forall pattern w, fitsb pattern w = true <-> fits pattern w.
Proof.
  induction pattern as [|q p IH]; intros [|c w]; cbn [fitsb]; (split; [intros H|intros H; try (inversion H; fail)]); try discriminate; try constructor.
  - apply andb_true_iff in H as [H _]. lia.
  - apply IH. apply andb_true_iff in H as [_ H]. exact H.
  - inversion H as [|? ? ? ? Hq Hf]; subst. apply IH in Hf. rewrite Hf. lia.
Qed.
Definition listed (nouns : list wstring) (pattern : wstring) : list (N * list (wstring * N)) := [(5, [([1072], 3)]); (1, map (fun w => (w, 0)) (filter (fitsb pattern) nouns))].
Definition listed_wd (lex : N) : N := if lex =? 1 then 7 else 1.
Lemma listed_ok nouns : dictionary_of (listed nouns) listed_wd nouns.
Proof.
  intros pattern _ w. unfold noun_found, listed. split.
  - intros (lex & ms & id & [H|[H|[]]] & Hw & Hm & _); injection H as <- <-; cbn in Hw; [lia|]. apply in_map_iff in Hm as (w' & E & Hf). injection E as -> _.
    apply filter_In in Hf as [Hi Hf]. split; [exact Hi|apply fitsb_ok; exact Hf].
  - intros [Hi Hf]. exists 1, (map (fun w => (w, 0)) (filter (fitsb pattern) nouns)), 0. split; [right; left; reflexivity|]. split; [cbn; lia|]. split; [|left; reflexivity].
    apply in_map_iff. exists w. split; [reflexivity|]. apply filter_In. split; [exact Hi|apply fitsb_ok; exact Hf].
Qed.

(** шляпа, тесто, тембр, течка, терем. *)
Definition shlyapa : wstring := [1096; 1083; 1103; 1087; 1072].
Definition testo : wstring := [1090; 1077; 1089; 1090; 1086].
Definition tembr : wstring := [1090; 1077; 1084; 1073; 1088].
Definition techka : wstring := [1090; 1077; 1095; 1082; 1072].
Definition terem : wstring := [1090; 1077; 1088; 1077; 1084].
Definition five_nouns := [shlyapa; testo; tembr; techka; terem].
Lemma five_nouns_ok : Forall (fun w => five w /\ Forall is_letter w) five_nouns.
Proof. repeat (constructor; [split; [reflexivity|repeat (constructor; [unfold is_letter; lia|]); constructor]|]). constructor. Qed.

(** The theorem at work: тембр of a dictionary of five nouns, те??? known. *)
Example C117_case : exists lines, letters_game (listed five_nouns) listed_wd 6 tembr shipped_search shipped_unused = Ok (lines, Guessed) /\ In tembr (map fst lines).
Proof.
  destruct (C117_letters_game (listed five_nouns) listed_wd five_nouns tembr shipped_search shipped_unused 6) as (lines & v & E & F & _ & G).
  - apply listed_ok.
  - apply five_nouns_ok.
  - reflexivity.
  - split; [reflexivity|repeat (constructor; [unfold is_letter; lia|]); constructor].
  - repeat (constructor; [unfold is_letter; lia|]); constructor.
  - cbn; lia.
  - assert (v = Guessed); [|subst; exists lines; split; [exact E|apply (fg_guessed _ _ _ _ F); reflexivity]]. apply G.
    + right. right. left. reflexivity.
    + apply fitsb_ok. reflexivity.
    + intros c Hc Hu. revert Hc. cbv in Hu. repeat destruct Hu as [<-|Hu]; [..|destruct Hu]; cbv; intuition discriminate.
Qed.
(** Its lines. *)
Example C117_run : letters_game (listed five_nouns) listed_wd 6 tembr shipped_search [] =
  Ok ([(terem, [1090; 1077; 43; 43; 43]); (tembr, tembr)], Guessed).
Proof. vm_compute. reflexivity. Qed.

(** A claim the program does not keep: with its own constants its word, although a noun of the dictionary, is not guessed; it does not fit те???. *)
Theorem C117_shipped_constants_refuted : shipped_sample = shlyapa /\ In shlyapa five_nouns /\
  exists lines, letters_game (listed five_nouns) listed_wd 6 shipped_sample shipped_search shipped_unused = Ok (lines, Not_guessed).
Proof. split; [reflexivity|]. split; [left; reflexivity|]. eexists. vm_compute. reflexivity. Qed.
(** Another: the letters ruled out at first are forgotten after a guess, and words with them are guessed. *)
Definition terma : wstring := [1090; 1077; 1088; 1084; 1072].
Theorem C117_unused_forgotten_refuted : exists nouns lines v, letters_game (listed nouns) listed_wd 9 tembr shipped_search [1072; 1086] = Ok (lines, v) /\
  In terma (map fst lines) /\ In 1072 terma /\ (forall c, In c tembr -> ~ In c [1072; 1086]).
Proof.
  exists [terem; terma; tembr], [(terem, [1090; 1077; 43; 43; 43]); (terma, [1090; 1077; 43; 43; 45]); (tembr, tembr)], Guessed.
  split; [vm_compute; reflexivity|]. split; [right; left; reflexivity|]. split; [cbv; tauto|]. intros c Hc Hu. cbv in Hu. revert Hc. destruct Hu as [<-|[<-|[]]]; cbv; intuition discriminate.
Qed.
(** Another: a noun with the letter ё is shifted out of the 32 bits. *)
Definition tyorka : wstring := [1090; 1105; 1088; 1082; 1072].
Theorem C117_yo_refuted : letters_game (listed [tyorka]) listed_wd 9 tembr [63; 63; 63; 63; 63] [] = Ub.
Proof. vm_compute. reflexivity. Qed.

Print Assumptions C117_letters_game.
