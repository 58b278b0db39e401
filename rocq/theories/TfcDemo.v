(** * TfcDemo: a decision procedure for the specification of tables, and a small set of tables taken from /repo/lang-rus/tables/flex. *)
From Coq Require Import String.
From Verif Require Import Base Serial WordTree TreeSpec Stems StemSpec SerialProofs DictProofs GramMap RusRuntime LevelSpec RusSpec Compile CompileSpec CompileProofs Api EngCompile EngCompileSpec EngCompileProofs EngCompileProofs4 Utf8 RusText Tfc TfcSpec TfcProofs TfcProofs2 TfcProofs3 TfcProofs4 TfcProofs5 TfcProofs6.
Local Open Scope N_scope.
Local Open Scope list_scope.
Notation length := List.length.

Fixpoint split_lines (line : bytes) (file : bytes) : list bytes :=
  match file with
  | [] => match line with [] => [] | _ => [line] end
  | c :: file' => if c =? 10 then (line ++ [10]) :: split_lines [] file' else split_lines (line ++ [c]) file'
  end.
Lemma split_text file : forall line, ~ In 10 line -> Forall (fun l => (length l <= 4095)%nat) (split_lines line file) -> text_lines (line ++ file) (split_lines line file).
Proof.
  induction file as [|c file IH]; intros line Hn H; cbn [split_lines] in *.
  - rewrite app_nil_r. destruct line as [|x line]; [constructor|]. inversion H. apply tl_last; [exact Hn|discriminate|assumption].
  - destruct (N.eqb_spec c 10) as [->|Hc].
    + inversion H as [|? ? H1 H2]. subst. apply tl_more; [exact Hn|rewrite app_length in H1; cbn in H1; lia|apply (IH []); [intros []|exact H2]].
    + replace (line ++ c :: file) with ((line ++ [c]) ++ file) by (rewrite <- app_assoc; reflexivity). apply IH; [|exact H]. intros K. apply in_app_or in K. destruct K as [K|[K|[]]]; [contradiction|congruence].
Qed.
Definition short_lines (file : bytes) : bool := forallb (fun l => (N.of_nat (length l) <=? 4095)) (split_lines [] file).
Lemma short_text file : short_lines file = true -> text_lines file (split_lines [] file).
Proof. intros H. apply (split_text file []); [intros []|]. unfold short_lines in H. rewrite forallb_forall in H. apply Forall_forall. intros l Hl. specialize (H l Hl). apply N.leb_le in H. lia. Qed.

Fixpoint body_items (cg : graminfo) (lines : list bytes) : option (list fxitem * list bytes) :=
  match lines with
  | [] => None
  | s :: lines' =>
      if list_eq_dec N.eq_dec s [125] then Some ([], lines')
      else if hd 0 s =? 46 then match map_gram (tl s) cg with None => None | Some cg => body_items cg lines' end
           else match map_line s cg, body_items cg lines' with Some fx, Some (its, r) => Some (fx :: its, r) | _, _ => None end
  end.
Lemma body_items_says lines : forall cg its rest, Forall inked_line lines -> body_items cg lines = Some (its, rest) -> exists body, lines = body ++ [125] :: rest /\ body_says cg body its.
Proof.
  induction lines as [|s lines IH]; intros cg its rest Hi; cbn [body_items]; [discriminate|]. inversion Hi as [|? ? Hs Hl]. subst. destruct (list_eq_dec N.eq_dec s [125]) as [->|Hne].
  - intros H. injection H as <- <-. exists []. split; [reflexivity|constructor].
  - destruct (N.eqb_spec (hd 0 s) 46) as [Hd|Hd].
    + destruct s as [|c s]; [discriminate|]. cbn [hd tl] in *. subst c. destruct (map_gram s cg) as [cg'|] eqn:Eg; [|discriminate]. intros H. destruct (IH _ _ _ Hl H) as (body & -> & Hb). exists ((46 :: s) :: body).
      split; [reflexivity|]. apply bs_gram with cg'; [apply map_gram_says, Eg|exact Hb].
    + destruct (map_line s cg) as [fx|] eqn:Em; [|discriminate]. destruct (body_items cg lines) as [[its' r]|] eqn:Eb; [|discriminate]. intros H. injection H as <- <-. destruct (IH _ _ _ Hl Eb) as (body & -> & Hb). exists (s :: body).
      split; [reflexivity|]. apply bs_element; [exact Hne|exact Hd|apply map_line_total; assumption|exact Hb].
Qed.
Section Parse.
  Context (fs : bytes -> option bytes) (conv : N -> N).
  Fixpoint parse_lines (sub : bytes -> option (list definition)) (steps : nat) (name : bytes) (lines : list bytes) : option (list definition) :=
    match steps, lines with
    | S steps', s :: lines' =>
        match first_command include_commands s with
        | Some h => if nonempty (trim h) then match sub (open_name name (trim h)), parse_lines sub steps' name lines' with Some a, Some b => Some (a ++ b) | _, _ => None end else None
        | None =>
            match first_command table_commands s, lines' with
            | Some h, brace :: lines'' =>
                if nonempty (trim h) then
                  if list_eq_dec N.eq_dec brace [123] then
                    match body_items (GramInfo 0 3) lines'' with
                    | Some (x :: its, rest) => match parse_lines sub steps' name rest with Some b => Some (Definition_ (names_in (trim h)) (x :: its) :: b) | None => None end
                    | _ => None
                    end
                  else None
                else None
            | _, _ => None
            end
        end
    | _, [] => Some []
    | O, _ :: _ => None
    end.
  Fixpoint parse_file (depth : nat) (name : bytes) : option (list definition) :=
    match depth with
    | O => None
    | S depth' => match fs name with
                  | None => None
                  | Some file => if short_lines file then let lines := source_lines conv file in parse_lines (parse_file depth') (length lines) name lines else None
                  end
    end.
  Lemma parse_says : conv_white conv -> forall depth name ds, parse_file depth name = Some ds -> file_defines fs conv depth name ds.
  Proof.
    intros Hc. induction depth as [|depth IHd]; intros name ds; cbn [parse_file]; [discriminate|]. destruct (fs name) as [file|] eqn:Ef; [|discriminate]. destruct (short_lines file) eqn:Es; [|discriminate]. cbv zeta. intros H.
    econstructor; [exact Ef|eapply source_total, short_text, Es|]. pose proof (source_inked conv file Hc) as Hi. revert H Hi. generalize (source_lines conv file) as ss. intros ss. generalize (length ss) as steps. intros steps. revert ss ds. clear Ef Es.
    induction steps as [|steps IH]; intros ss ds H Hi.
    - destruct ss; [|discriminate]. injection H as <-. constructor.
    - destruct ss as [|s ss]; [injection H as <-; constructor|]. cbn [parse_lines] in H. inversion Hi as [|? ? Hs Hl]. subst. destruct (first_command include_commands s) as [h|] eqn:Ei.
      + destruct (nonempty (trim h)) eqn:En; [|discriminate]. destruct (parse_file depth (open_name name (trim h))) as [a|] eqn:E1; [|discriminate]. destruct (parse_lines (parse_file depth) steps name ss) as [b|] eqn:E2; [|discriminate]. apply some_inj in H. subst ds.
        apply ld_include with (trim h) (open_name name (trim h)); [|apply beside_total|apply IHd, E1|apply IH; assumption]. destruct (trim_named h En) as (sp & sp' & E & K1 & K2 & K3 & K4). exists sp, sp'. split; [rewrite <- E; apply include_commanded, Ei|auto].
      + destruct (first_command table_commands s) as [h|] eqn:Et; [|discriminate]. destruct ss as [|brace ss]; [discriminate|]. destruct (nonempty (trim h)) eqn:En; [|discriminate]. destruct (list_eq_dec N.eq_dec brace [123]) as [->|]; [|discriminate].
        destruct (body_items (GramInfo 0 3) ss) as [[[|x its] rest]|] eqn:Eb; [discriminate| |discriminate]. destruct (parse_lines (parse_file depth) steps name rest) as [b|] eqn:Er; [|discriminate]. apply some_inj in H. subst ds.
        inversion Hl as [|? ? _ Hl']. subst. destruct (body_items_says _ _ _ _ Hl' Eb) as (body & -> & Hb). apply ld_table; [|exact Hb|discriminate|apply IH; [exact Er|apply Forall_app in Hl'; destruct Hl' as [_ K]; inversion K; assumption]].
        exists h. split; [apply table_commanded, Et|]. split; [intros Hw; unfold trim in En; rewrite trim_all in En by (apply white_space, Hw); discriminate|]. destruct (names_total (length h) h (le_n _)) as [ns Hns]. rewrite (split_names_in _ _ Hns). exact Hns.
  Qed.
End Parse.

(** ** Tables: flex/tfv/common.tf, flex/tfv/1a.tf (shortened), flex/mw/middln2.tf (shortened) *)
Definition nl : bytes := [10].
Definition lines_of (l : list string) : bytes := flat_map (fun s => cyr s ++ nl) l.
Definition common_tf : bytes := Eval vm_compute in lines_of [
  ""; ".таблица ""1"""; "{"; "  ся,   вф"; "}"; ""; ".таблица ""2"""; "{"; "  сь,   вф"; "}"; "";
  ".таблица ""3"""; "{"; ".число Е"; "  .род м"; "    '',,,""1"""; "  .род ж"; "    а,,,""2"""; "  .род с"; "    о,,,""2"""; "  .род"; ".число М"; "    и,,,""2"""; "}"]%string.
Definition verbs_tf : bytes := Eval vm_compute in lines_of [
  ".включить common.tf"; "//***"; ".тип нсв 1aФ, нсв 1a            // делать, терять"; "{"; ".инфинитив"; "    ть,,,""1""   // дела-ть, теря-ть";
  ".время П        // прошедшее время"; "    л,,""3""              // дела-л (-,-а,-о,-и)"; "  .деепр"; "    в                   // дела-в"; "    вши,,,""2""           // дела-вши(сь)"; "}"]%string.
Definition nouns_tf : bytes := Eval vm_compute in lines_of [
  ".тип с 2a-"; "// Пример: горе"; "{"; "  .число Е"; "    е, И                // гор-е"; "    я, Р                // гор-я"; "    ю, Д                // гор-ю";
  "    е, В                // гор-е"; "    ем, Т               // гор-ем"; "    е, П                // о гор-е"; "}"; "";
  ".тип с 2c-"; "{"; "  .число Е"; "    ю, Д"; "    ем, Т"; "    е, И"; "    е, В"; "    е, П"; "    е, В"; "    я, Р"; "}"]%string.
Definition all_tf : bytes := Eval vm_compute in lines_of [".включить flex/verbs.tf"; ".включить flex/nouns.tf"]%string.
Definition demo_files (name : bytes) : option bytes :=
  lookup name [(text "tables/all.tf", all_tf); (text "tables/flex/verbs.tf", verbs_tf); (text "tables/flex/common.tf", common_tf); (text "tables/flex/nouns.tf", nouns_tf)].
Definition same (c : N) : N := c.
Lemma same_white : conv_white same. Proof. intros c. reflexivity. Qed.
Definition demo_defs : list definition := Eval vm_compute in match parse_file demo_files same 3 (text "tables/all.tf") with Some ds => ds | None => [] end.
Lemma demo_parsed : parse_file demo_files same 3 (text "tables/all.tf") = Some demo_defs.
Proof. vm_compute. reflexivity. Qed.
Lemma demo_defines : file_defines demo_files same 3 (text "tables/all.tf") demo_defs.
Proof. apply parse_says; [exact same_white|exact demo_parsed]. Qed.
(** deciding the hypotheses *)
Definition all_names (ds : list definition) : list bytes := flat_map d_names ds.
Lemma defined_name ds name : In name (all_names ds) -> exists lines, defined ds name lines.
Proof.
  induction ds as [|d ds IH]; cbn [all_names flat_map]; intros H; [destruct H|]. destruct (in_dec (list_eq_dec N.eq_dec) name (d_names d)) as [Hi|Hn].
  - exists (d_lines d), [], d, ds. repeat split; auto.
  - apply in_app_or in H. destruct H as [H|H]; [contradiction|]. destruct (IH H) as (lines & a & d' & b & -> & K1 & K2 & K3). exists lines, (d :: a), d', b. repeat split; auto.
Qed.
Definition links_check (ds : list definition) : bool :=
  forallb (fun d => forallb (fun it => (N.land (fx_flags it) 0xc0 =? 0) || (if in_dec (list_eq_dec N.eq_dec) (fx_next it) (all_names ds) then true else false)) (d_lines d)) ds.
Lemma links_checked ds : links_check ds = true -> links_defined ds.
Proof.
  intros H d it Hd Hi Hl. unfold links_check in H. rewrite forallb_forall in H. specialize (H d Hd). rewrite forallb_forall in H. specialize (H it Hi). apply orb_true_iff in H. destruct H as [H|H].
  - apply N.eqb_eq in H. contradiction.
  - apply defined_name. destruct (in_dec (list_eq_dec N.eq_dec) (fx_next it) (all_names ds)); [assumption|discriminate].
Qed.
Definition format_check (ds : list definition) : bool :=
  forallb (fun d => forallb (fun it => forallb (fun c => c <? 256) (fx_tail it) && Nat.ltb (length (fx_tail it)) 128) (d_lines d) && Nat.ltb (length (d_lines d)) 256) ds.
Lemma format_checked ds : format_check ds = true -> Forall fits_format ds.
Proof.
  intros H. unfold format_check in H. rewrite forallb_forall in H. apply Forall_forall. intros d Hd. specialize (H d Hd). apply andb_true_iff in H. destruct H as [H1 H2]. apply Nat.ltb_lt in H2. split.
  - rewrite forallb_forall in H1. apply Forall_forall. intros it Hi. specialize (H1 it Hi). apply andb_true_iff in H1. destruct H1 as [K1 K2]. apply Nat.ltb_lt in K2. split; [|exact K2].
    rewrite forallb_forall in K1. apply Forall_forall. intros c Hc. specialize (K1 c Hc). apply N.ltb_lt in K1. exact K1.
  - intros l Hn Hi. eapply Nat.le_lt_trans; [|exact H2]. apply NoDup_incl_length; assumption.
Qed.
Lemma demo_links : links_defined demo_defs. Proof. apply links_checked. vm_compute. reflexivity. Qed.
Lemma demo_format : Forall fits_format demo_defs. Proof. apply format_checked. vm_compute. reflexivity. Qed.
Lemma demo_size : whole_size demo_defs <= 0x20000. Proof. vm_compute. discriminate. Qed.
