(** * DumpProofs5: compile-dict. *)
From Coq Require Import String Ascii.
From Verif Require Import Base Serial WordTree Stems GramMap RusRuntime Compile Api EngRuntime EngCompile RusText Fuzzy FuzzySpec Dump DumpSpec DumpSpec2 DumpProofs DumpProofs2 DumpProofs3.
Local Open Scope N_scope.
Local Open Scope list_scope.
Notation length := List.length.

(** ** The offsets *)

Definition offset_word_of (n : N) : bytes := [48; 120] ++ print_hex 6 n.
Fixpoint offset_list (off : N) (classes : list bytes) : list N :=
  match classes with [] => [] | c :: cs => off :: offset_list ((off + N.of_nat (length c)) mod 2 ^ 32) cs end.
Definition offset_tokens (l : list N) : list token := flat_map (fun o => [Punct 44; Word (offset_word_of o)]) l.

Lemma offset_word_ok n : offset_word_of n <> [] /\ forallb word_char (offset_word_of n) = true.
Proof. split; [discriminate|]. unfold offset_word_of. rewrite forallb_app, print_hex_words. reflexivity. Qed.
Lemma lex_offsets classes : forall sep i off w, sep = [44; 32] \/ sep = [44; 10; 32; 32; 32; 32] ->
  lex (In_word w) (offset_texts sep i off classes ++ end_text) = (Between, Word w :: offset_tokens (offset_list off classes) ++ [Punct 125; Punct 59]).
Proof.
  induction classes as [|c cs IH]; intros sep i off w Hs; cbn [offset_texts offset_list].
  - reflexivity.
  - assert (H1 : lex (In_word w) sep = (Between, [Word w; Punct 44])) by (destruct Hs as [-> | ->]; reflexivity).
    assert (H2 : lex Between (offset_word_of off) = (In_word (offset_word_of off), [])) by (apply lex_word; apply offset_word_ok).
    set (sep' := if Nat.eqb (i mod 6) 5 then [44; 10; 32; 32; 32; 32] else [44; 32]).
    assert (H3 := IH sep' (S i) ((off + N.of_nat (length c)) mod 2 ^ 32) (offset_word_of off)).
    unfold offset_tokens. cbn [flat_map]. fold (offset_tokens (offset_list ((off + N.of_nat (length c)) mod 2 ^ 32) cs)). cbn [app].
    change (text "0x") with [48; 120]. rewrite (app_assoc [48; 120]). fold (offset_word_of off). rewrite <- !app_assoc.
    refine (lex_then _ _ _ _ _ _ _ H1 (lex_then _ _ _ _ _ _ _ H2 (H3 _))). unfold sep'. destruct (Nat.eqb (i mod 6) 5); auto.
Qed.
Lemma reads_offsets l : forall w v rest, literal w = Some v -> v < 2 ^ 32 -> Forall (fun o => o < 2 ^ 32) l ->
  initialiser (2 ^ 32 - 1) (Word w :: offset_tokens l ++ Punct 125 :: rest) = Some (v :: l, rest).
Proof.
  induction l as [|o l IH]; intros w v rest Hw Hv Hb.
  - unfold offset_tokens. cbn [flat_map app initialiser]. rewrite Hw. replace (2 ^ 32 - 1 <? v) with false by lia. reflexivity.
  - inversion Hb as [|? ? Hb1 Hb2]; subst.
    assert (HL : literal (offset_word_of o) = Some o) by (unfold offset_word_of; rewrite offset_word, N.mod_small by assumption; reflexivity).
    specialize (IH (offset_word_of o) o rest HL Hb1 Hb2).
    change (initialiser (2 ^ 32 - 1) (Word w :: Punct 44 :: (Word (offset_word_of o) :: offset_tokens l ++ Punct 125 :: rest)) = Some (v :: o :: l, rest)).
    remember (Word (offset_word_of o) :: offset_tokens l ++ Punct 125 :: rest) as ts. cbn [initialiser]. rewrite Hw. replace (2 ^ 32 - 1 <? v) with false by lia.
    change (punct_is "}" 44) with false. change (punct_is "," 44) with true. cbv iota. rewrite IH. reflexivity.
Qed.
Lemma offset_list_small classes : forall off, off < 2 ^ 32 -> Forall (fun o => o < 2 ^ 32) (offset_list off classes).
Proof. induction classes as [|c cs IH]; intros off H; cbn [offset_list]; constructor; [assumption|]. apply IH. apply N.mod_lt. discriminate. Qed.
Lemma offset_list_points classes : forall off before, N.of_nat (length before) = off -> off + N.of_nat (length (concat classes)) < 2 ^ 32 ->
  length (offset_list off classes) = length classes /\
  forall i c, nth_error classes i = Some c -> exists o, nth_error (offset_list off classes) i = Some o /\ firstn (length c) (skipn (N.to_nat o) (before ++ concat classes)) = c.
Proof.
  induction classes as [|c cs IH]; intros off before Hoff Hl; cbn [offset_list concat length].
  - split; [reflexivity|]. intros [|i] c H; discriminate.
  - cbn [concat] in Hl. rewrite app_length in Hl. rewrite N.mod_small by lia.
    destruct (IH (off + N.of_nat (length c)) (before ++ c)) as [L P]; [rewrite app_length; lia|lia|]. split; [f_equal; exact L|].
    intros [|i] x H; cbn [nth_error] in H |- *.
    + injection H as <-. exists off. split; [reflexivity|]. replace (N.to_nat off) with (length before) by lia.
      rewrite skipn_app, skipn_all, Nat.sub_diag. cbn [app skipn]. rewrite firstn_app, Nat.sub_diag, firstn_all. cbn [firstn]. apply app_nil_r.
    + rewrite app_assoc. apply P. assumption.
Qed.

(** ** The file *)

Definition number_text (n : N) : bytes := text "  unsigned  ClassNumber = " ++ print_dec n ++ text ";" ++ nl.
Definition offsets_text (classes : list bytes) : bytes :=
  nl ++ text "  unsigned  ClassOffset[] =" ++ nl ++ text "  {" ++ nl ++ offset_texts (text "    ") 0 0 classes ++ end_text.
Lemma number_declares n : n < 2 ^ 32 -> declares (number_text n) (Unsigned_variable (text "ClassNumber") n).
Proof.
  intros Hn. destruct (count_word n Hn) as (L & W & NE). exists [Word (text "ClassNumber"); Punct 61; Word (print_dec n); Punct 59]. split.
  - unfold number_text. refine (lex_then _ _ Between [Word (text "unsigned"); Word (text "ClassNumber"); Punct 61] _ _ _ _ _); [reflexivity|].
    refine (lex_then _ _ (In_word (print_dec n)) [] _ _ _ _ _); [apply lex_word; assumption|reflexivity].
  - intros rest. cbn [app declaration]. change (word_is "unsigned" (text "unsigned")) with true. change (word_is "char" (text "ClassNumber")) with false.
    change (is_name (text "ClassNumber")) with true. cbn [negb]. cbv iota. change (punct_is "=" 61 && punct_is ";" 59) with true. cbv iota.
    rewrite L. replace (n <? 2 ^ 32) with true by lia. reflexivity.
Qed.
Lemma offsets_declare classes : classes <> [] -> declares (offsets_text classes) (Unsigned_array (text "ClassOffset") (offset_list 0 classes)).
Proof.
  intros Hne. destruct classes as [|c cs]; [congruence|]. clear Hne.
  exists (Word (text "ClassOffset") :: [Punct 91; Punct 93; Punct 61; Punct 123] ++ (Word (offset_word_of 0) :: offset_tokens (offset_list (N.of_nat (length c) mod 2 ^ 32) cs)) ++ [Punct 125; Punct 59]). split.
  - unfold offsets_text. rewrite (app_assoc nl (text "  {")), (app_assoc (text "  unsigned  ClassOffset[] =")).
    rewrite (app_assoc nl). refine (lex_then _ _ Between [Word (text "unsigned"); Word (text "ClassOffset"); Punct 91; Punct 93; Punct 61; Punct 123] _ _ _ _ _); [reflexivity|].
    refine (lex_then _ _ Between [] _ _ _ _ _); [reflexivity|]. cbn [offset_texts]. rewrite <- !app_assoc.
    refine (lex_then _ _ Between [] _ _ _ _ _); [reflexivity|]. change (text "0x") with [48; 120]. rewrite (app_assoc [48; 120]). fold (offset_word_of 0).
    assert (H2 : lex Between (offset_word_of 0) = (In_word (offset_word_of 0), [])) by (apply lex_word; apply offset_word_ok).
    refine (lex_then _ _ _ _ _ _ _ H2 _). apply lex_offsets. left. reflexivity.
  - intros rest. cbn [app declaration]. change (word_is "unsigned" (text "unsigned")) with true. change (word_is "char" (text "ClassOffset")) with false.
    change (is_name (text "ClassOffset")) with true. cbn [negb]. cbv iota. cbn [array_of].
    change (punct_is "[" 91 && punct_is "]" 93 && punct_is "=" 61 && punct_is "{" 123) with true. cbv iota. rewrite <- app_assoc. cbn [app].
    rewrite (reads_offsets (offset_list (N.of_nat (length c) mod 2 ^ 32) cs) (offset_word_of 0) 0 (Punct 59 :: rest)).
    + change (punct_is ";" 59) with true. reflexivity.
    + reflexivity.
    + reflexivity.
    + apply offset_list_small. apply N.mod_lt. discriminate.
Qed.

(** ** The command line *)

Definition ns_arg (arg : bytes) : option bytes :=
  match arg with 45 :: a => if starts (text "ns=") a then Some (skipn 3 a) else if starts (text "nspace=") a then Some (skipn 7 a) else None | _ => None end.
Lemma ns_arg_iff arg v : ns_arg arg = Some v <-> names_ns v arg.
Proof.
  unfold ns_arg, names_ns. split.
  - destruct arg as [|c a]; [discriminate|]. destruct (N.eqb_spec c 45) as [->|Hc]; [|intros H; exfalso; destruct c as [|p]; [discriminate|]; do 6 (destruct p as [p|p|]; try discriminate); apply Hc; reflexivity].
    destruct (starts (text "ns=") a) eqn:E1.
    + apply starts_iff in E1. destruct E1 as (r & ->). intros H. injection H as <-. left. reflexivity.
    + destruct (starts (text "nspace=") a) eqn:E2; [|discriminate]. apply starts_iff in E2. destruct E2 as (r & ->). intros H. injection H as <-. right. reflexivity.
  - intros [-> | ->]; reflexivity.
Qed.
Lemma guess_step source output nspace a args : guess_args source output nspace (a :: args) =
  if is_dash a then match ns_arg a with Some v => guess_args source output (Some v) args | None => None end
  else match source, output with
       | None, _ => guess_args (Some a) output nspace args
       | Some _, None => guess_args source (Some a) nspace args
       | Some _, Some _ => None
       end.
Proof.
  destruct a as [|c a]; [reflexivity|]. destruct (N.eqb_spec c 45) as [->|Hc].
  - cbn [is_dash ns_arg guess_args]. destruct (starts (text "ns=") a); [reflexivity|]. destruct (starts (text "nspace=") a); reflexivity.
  - assert (E : is_dash (c :: a) = false) by (destruct c as [|p]; [reflexivity|]; do 6 (destruct p as [p|p|]; try reflexivity; try congruence)). rewrite E.
    destruct c as [|p]; [reflexivity|]; do 6 (destruct p as [p|p|]; try reflexivity; try congruence).
Qed.
Definition ns_after (acc : option bytes) (args : list bytes) : option bytes := fold_left (fun acc a => match ns_arg a with Some v => Some v | None => acc end) args acc.
Lemma not_dash_ns a : is_dash a = false -> ns_arg a = None.
Proof.
  destruct (ns_arg a) as [v|] eqn:E; [|reflexivity]. apply ns_arg_iff in E. intros H. assert (is_dash a = true); [|congruence]. apply is_dash_iff. destruct E as [-> | ->]; eexists; reflexivity.
Qed.
(** What the arguments come to: the words that are left take the free places. *)
Definition placed (source output : option bytes) (ps : list bytes) : option (option bytes * option bytes) :=
  match source, output, ps with
  | None, None, [] => Some (None, None)
  | None, None, [s] => Some (Some s, None)
  | None, None, [s; o] => Some (Some s, Some o)
  | Some s, None, [] => Some (Some s, None)
  | Some s, None, [o] => Some (Some s, Some o)
  | Some s, Some o, [] => Some (Some s, Some o)
  | _, _, _ => None
  end.
Lemma guess_args_eq args : forall source output nspace ps, (source = None -> output = None) -> switches_known args -> plain args ps ->
  guess_args source output nspace args = match placed source output ps with Some (s, o) => Some (s, o, ns_after nspace args) | None => None end.
Proof.
  induction args as [|a args IH]; intros source output nspace ps Hso Hk Hp.
  - inversion Hp; subst. cbn [guess_args ns_after fold_left]. destruct source, output; try reflexivity. specialize (Hso eq_refl). discriminate.
  - rewrite guess_step. assert (Hk' : switches_known args) by (intros x Hx; apply Hk; right; assumption).
    inversion Hp as [|? ? ps' Hs Hp'|? ? ps' Hs Hp']; subst.
    + rewrite (proj2 (is_dash_iff a) Hs). destruct (Hk a (or_introl eq_refl) Hs) as (v & Hv). apply ns_arg_iff in Hv. rewrite Hv.
      rewrite (IH _ _ _ ps Hso Hk' Hp'). unfold ns_after. cbn [fold_left]. rewrite Hv. reflexivity.
    + assert (E : is_dash a = false) by (destruct (is_dash a) eqn:E; [exfalso; apply Hs; apply is_dash_iff; assumption|reflexivity]). rewrite E.
      unfold ns_after. cbn [fold_left]. rewrite (not_dash_ns a E). fold (ns_after nspace args).
      destruct source as [s|].
      * destruct output as [o|]; [reflexivity|]. rewrite (IH (Some s) (Some a) nspace ps'); [|discriminate|assumption|assumption]. destruct ps' as [|? [|]]; reflexivity.
      * rewrite (Hso eq_refl). rewrite (IH (Some a) None nspace ps'); [|discriminate|assumption|assumption]. destruct ps' as [|? [|? ?]]; reflexivity.
Qed.
Lemma guess_args_unknown args : ~ switches_known args -> forall source output nspace, guess_args source output nspace args = None.
Proof.
  induction args as [|a args IH]; intros Hk source output nspace; [exfalso; apply Hk; intros x []|]. rewrite guess_step.
  destruct (is_dash a) eqn:E.
  - destruct (ns_arg a) as [v|] eqn:Ev; [|reflexivity]. apply IH. intros H. apply Hk. intros x [<-|Hx]; [intros _; exists v; apply ns_arg_iff; assumption|apply H; assumption].
  - assert (Hk' : ~ switches_known args). { intros H. apply Hk. intros x [<-|Hx] Hs; [apply is_dash_iff in Hs; congruence|apply H; assumption]. }
    destruct source; [destruct output; [reflexivity|]|]; apply IH; assumption.
Qed.
Lemma ns_of_iff def args v : ns_of def args v <-> match ns_after None args with Some n => n | None => def end = v.
Proof.
  assert (N : forall l acc, (forall a w, In a l -> ~ names_ns w a) -> ns_after acc l = acc).
  { induction l as [|a l IH]; intros acc H; unfold ns_after; cbn [fold_left]; [reflexivity|]. fold (ns_after (match ns_arg a with Some v => Some v | None => acc end) l).
    rewrite IH by (intros; apply H; right; assumption). destruct (ns_arg a) as [w|] eqn:E; [|reflexivity]. apply ns_arg_iff in E. exfalso. exact (H a w (or_introl eq_refl) E). }
  split.
  - intros [args0 H|before arg after w G H]; [rewrite N by assumption; reflexivity|].
    unfold ns_after. rewrite fold_left_app. cbn [fold_left]. rewrite (proj2 (ns_arg_iff arg w) G). fold (ns_after (Some w) after). rewrite N by assumption. reflexivity.
  - intros <-. induction args as [|a args IH] using rev_ind; [apply no_none; intros x w []|].
    unfold ns_after. rewrite fold_left_app. cbn [fold_left]. destruct (ns_arg a) as [w|] eqn:E.
    + apply ns_arg_iff in E. apply no_last; [assumption|intros x u []].
    + fold (ns_after None args). assert (Na : forall w, ~ names_ns w a) by (intros w G; apply ns_arg_iff in G; congruence).
      revert IH. generalize (match ns_after None args with Some n => n | None => def end) as u0. intros u0 IH.
      inversion IH as [args0 H E1 E2|before arg after w G H E1 E2]; subst.
      * apply no_none. intros x u Hx. apply in_app_or in Hx. destruct Hx as [Hx|[<-|[]]]; [apply H; assumption|apply Na].
      * rewrite <- app_assoc. cbn [app]. apply no_last; [assumption|]. intros x u Hx. apply in_app_or in Hx. destruct Hx as [Hx|[<-|[]]]; [apply H; assumption|apply Na].
Qed.

Lemma offset_list_eq classes : forall off, off + N.of_nat (length (concat classes)) < 2 ^ 32 -> offset_list off classes = class_offsets off classes.
Proof.
  induction classes as [|c cs IH]; intros off H; cbn [offset_list class_offsets]; [reflexivity|]. cbn [concat] in H. rewrite app_length in H.
  rewrite N.mod_small by lia. f_equal. apply IH. lia.
Qed.
Section CompileDict.
  Variable parse : bytes -> option (list class_src).
  Variable dict_pieces : list (bytes * list class_ref) -> list bytes.
  Variable default_ns : bytes.
  Variable sort : list model_src -> list model_src.
  Variable can : bytes -> bool.
  Variable fs : bytes -> option bytes.

  Lemma compile_dict_run argv0 args src output ns file cs :
    switches_known args -> plain args [src; output] -> ns_of default_ns args ns -> fs src = Some file -> parse file = Some cs -> cs <> [] ->
    Forall (fun c => class_accepted c = true) cs -> output <> [] -> can output = true -> ns = [] \/ is_name ns = true ->
    let classes := map (guess_class_ser sort) cs in
    let dict := concat (dict_pieces (index_classes 0 cs [])) in
    concat classes <> [] -> is_bytes (concat classes) -> N.of_nat (length (concat classes)) < 2 ^ 32 -> N.of_nat (length cs) < 2 ^ 32 -> array_contents dict ->
    let offsets := offset_list 0 classes in
    exists t, compile_dict parse dict_pieces default_ns sort can fs argv0 args = Ok (Run (Exit 0) [(output, t)]) /\
      read_source t = Some (Source (match ns with [] => None | _ => Some ns end)
        [Unsigned_variable (text "ClassNumber") (N.of_nat (length cs)); Unsigned_array (text "ClassOffset") offsets;
         Bytes_array (text "ClassTables") (concat classes); Bytes_array (text "ReverseDict") dict]) /\
      length offsets = length cs /\
      forall i c, nth_error cs i = Some c -> exists o, nth_error offsets i = Some o /\
        firstn (length (guess_class_ser sort c)) (skipn (N.to_nat o) (concat classes)) = guess_class_ser sort c.
  Proof.
    intros Hk Hp Hns Hf HP Hcs HA Ho Hcan Hn classes dict Hne Hb Hl Hcount HD offsets.
    unfold compile_dict. rewrite (guess_args_eq args None None None [src; output]) by (auto). cbn [placed].
    apply ns_of_iff in Hns. rewrite Hf, HP. destruct cs as [|c0 cs0]; [congruence|]. clear Hcs.
    assert (HA' : forallb class_accepted (c0 :: cs0) = true) by (apply forallb_forall; rewrite Forall_forall in HA; exact HA). rewrite HA'. cbn [negb].
    cbv zeta. fold classes. rewrite Hns.
    unfold dumper_print, dumper_dump, open_file. cbn [d_file d_szname d_outdir d_nspace d_header].
    rewrite (proj2 (nonempty_iff output) Ho). change (target_path [] output) with output. rewrite Hcan.
    cbn [bind option_map put_text d_file d_szname d_outdir d_nspace d_header]. unfold dumper_close. cbn [d_file d_nspace put_text nonempty app].
    eexists. split; [reflexivity|].
    assert (HO := offset_list_points classes 0 [] eq_refl ltac:(lia)). destruct HO as [OL OP].
    split; [|split].
    - assert (HF : Forall2 declares [number_text (N.of_nat (length classes)); offsets_text classes; dump_text (text "ClassTables") classes; dump_text (text "ReverseDict") (dict_pieces (index_classes 0 (c0 :: cs0) []))]
        [Unsigned_variable (text "ClassNumber") (N.of_nat (length (c0 :: cs0))); Unsigned_array (text "ClassOffset") (offset_list 0 classes);
         Bytes_array (text "ClassTables") (concat classes); Bytes_array (text "ReverseDict") dict]).
      { repeat (apply Forall2_cons || apply Forall2_nil).
        - unfold classes at 1. rewrite map_length. apply number_declares. assumption.
        - apply offsets_declare. discriminate.
        - apply dump_declares; [reflexivity|assumption|assumption|lia].
        - destruct HD as (D1 & D2 & D3). apply dump_declares; [reflexivity|assumption|assumption|assumption]. }
      pose proof (file_reads [] ns _ _ (or_introl eq_refl) Hn HF) as FR. cbn [nonempty app concat] in FR. rewrite app_nil_r in FR.
      replace (spaced_name ns) with (match ns with [] => None | _ => Some ns end) in FR by (destruct ns; reflexivity).
      unfold offsets. rewrite <- FR. f_equal. unfold classes_text, number_text, offsets_text, end_text. rewrite <- !app_assoc. reflexivity.
    - unfold offsets. rewrite OL. unfold classes. apply map_length.
    - intros i c Hi. unfold offsets. apply OP. unfold classes. rewrite nth_error_map, Hi. reflexivity.
  Qed.
  Lemma compile_dict_writes argv0 args r : compile_dict parse dict_pieces default_ns sort can fs argv0 args = Ok r -> r_written r <> [] ->
    exists src output, switches_known args /\ plain args [src; output] /\ r_ending r = Exit 0 /\ map fst (r_written r) = [output] /\
      exists file cs, fs src = Some file /\ parse file = Some cs /\ cs <> [] /\ Forall (fun c => class_accepted c = true) cs.
  Proof.
    assert (DK : switches_known args \/ ~ switches_known args).
    { clear. induction args as [|a args [IH|IH]].
      - left. intros x [].
      - destruct (is_dash a) eqn:E.
        + destruct (ns_arg a) as [v|] eqn:Ev.
          * left. intros x [<-|Hx]; [intros _; exists v; apply ns_arg_iff; assumption|apply IH; assumption].
          * right. intros H. destruct (H a (or_introl eq_refl)) as (v & Hv); [apply is_dash_iff; assumption|]. apply ns_arg_iff in Hv. congruence.
        + left. intros x [<-|Hx]; [intros Hs; apply is_dash_iff in Hs; congruence|apply IH; assumption].
      - right. intros H. apply IH. intros x Hx. apply H. right. assumption. }
    unfold compile_dict. destruct DK as [Hk|Hk]; [|rewrite guess_args_unknown by assumption; intros H Hw; injection H as <-; cbn [r_written] in Hw; congruence].
    assert (Hp : exists ps, plain args ps) by (eexists; apply plain_filter; reflexivity). destruct Hp as (ps & Hp).
    rewrite (guess_args_eq args None None None ps) by auto.
    assert (US : usage argv0 = Ok r -> r_written r = []). { unfold usage. destruct (in_dec N.eq_dec 47 argv0); [|discriminate]. intros H. injection H as <-. reflexivity. }
    destruct ps as [|src [|output [|x ps]]]; cbn [placed]; try (intros H Hw; exfalso; apply Hw; apply US; assumption); [|intros H Hw; injection H as <-; exfalso; apply Hw; reflexivity].
    destruct (fs src) as [file|] eqn:Ef; [|intros H Hw; injection H as <-; exfalso; apply Hw; reflexivity].
    destruct (parse file) as [[|c cs]|] eqn:EP; try (intros H Hw; injection H as <-; exfalso; apply Hw; reflexivity).
    destruct (forallb class_accepted (c :: cs)) eqn:EA; cbn [negb]; [|intros H Hw; injection H as <-; exfalso; apply Hw; reflexivity].
    cbv zeta. unfold dumper_print, dumper_dump, open_file. cbn [d_file d_szname d_outdir d_nspace d_header].
    destruct (nonempty output); [|discriminate]. change (target_path [] output) with output. destruct (can output); cbn [bind option_map]; [|intros H Hw; injection H as <-; exfalso; apply Hw; reflexivity].
    cbn [put_text d_file d_szname d_outdir d_nspace d_header bind option_map]. intros H Hw. injection H as <-. exists src, output. split; [assumption|]. split; [assumption|].
    split; [reflexivity|]. split; [reflexivity|]. exists file, (c :: cs). split; [assumption|]. split; [assumption|]. split; [discriminate|].
    apply Forall_forall. rewrite forallb_forall in EA. exact EA.
  Qed.
  (** The arrays are those of the guesser (FuzzySpec). *)
  Lemma compile_dict_arrays argv0 args src output ns file cs t F :
    switches_known args -> plain args [src; output] -> ns_of default_ns args ns -> fs src = Some file -> parse file = Some cs -> cs <> [] ->
    Forall (fun c => class_accepted c = true) cs -> output <> [] -> can output = true -> ns = [] \/ is_name ns = true ->
    compiled sort cs t F -> concat (dict_pieces (index_classes 0 cs [])) = reverse_dict F ->
    array_contents (reverse_dict F) -> array_contents (class_tables F) -> N.of_nat (length (class_tables F)) < 2 ^ 32 -> N.of_nat (length cs) < 2 ^ 32 ->
    exists s, compile_dict parse dict_pieces default_ns sort can fs argv0 args = Ok (Run (Exit 0) [(output, s)]) /\
      read_source s = Some (Source (match ns with [] => None | _ => Some ns end)
        [Unsigned_variable (text "ClassNumber") (N.of_nat (length cs)); Unsigned_array (text "ClassOffset") (class_offset F);
         Bytes_array (text "ClassTables") (class_tables F); Bytes_array (text "ReverseDict") (reverse_dict F)]).
  Proof.
    intros Hk Hp Hns Hf HP Hcs HA Ho Hcan Hn [_ _ _ _ CO CT] HD AD (T1 & T2 & T3) Hl Hcount.
    rewrite CT in *. rewrite CO. rewrite <- HD in *.
    destruct (compile_dict_run argv0 args src output ns file cs Hk Hp Hns Hf HP Hcs HA Ho Hcan Hn T1 T2 Hl Hcount AD) as (s & E & R & _).
    exists s. split; [exact E|]. rewrite R. rewrite offset_list_eq by lia. reflexivity.
  Qed.
End CompileDict.
