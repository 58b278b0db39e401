(** * MakeichDemo: a decision procedure for the specification of alternations, and alternations taken from /repo/lang-rus/tables/mix. *)
From Coq Require Import String.
From Verif Require Import Base Serial WordTree TreeSpec Stems StemSpec SerialProofs DictProofs GramMap RusRuntime LevelSpec RusSpec Compile CompileSpec CompileProofs Api EngCompile EngCompileSpec EngCompileProofs EngCompileProofs4 Utf8 RusText Tfc TfcSpec TfcProofs TfcProofs2 TfcProofs3 TfcProofs4 TfcProofs5 TfcProofs6 TfcDemo Makeich MakeichSpec MakeichProofs MakeichProofs4.
Local Open Scope N_scope.
Local Open Scope list_scope.
Notation length := List.length.

Fixpoint strings_from (fuel : nat) (s : bytes) : list bytes :=
  match fuel, s with S fuel', _ :: _ => let '(r, s) := load s in fragment_text r :: strings_from fuel' s | _, _ => [] end.
Lemma strings_read fuel : forall s fs, fields s fs -> (length (kept fs) <= fuel)%nat -> strings_from fuel (skip_space s) = map unquoted (kept fs).
Proof.
  induction fuel as [|fuel IH]; intros s fs H Hf.
  - cbn [strings_from]. destruct (kept fs); [reflexivity|cbn in Hf; lia].
  - cbn [strings_from]. destruct (skip_space s) as [|c t] eqn:Es.
    + apply (proj1 (fields_empty _ _ H)) in Es. subst fs. reflexivity.
    + rewrite <- Es. destruct (load_fields _ _ H) as (s' & E & H'). rewrite E.
      assert (Hne : fs <> [[]]) by (intros E0; apply (proj2 (fields_empty _ _ H)) in E0; congruence).
      assert (Ek : kept fs = nth 0 fs [] :: kept (rest_fields fs)).
      { pose proof (fields_nonempty _ _ H). unfold rest_fields. destruct fs as [|f [|g fs]]; [congruence| |].
        - cbn [tl nth]. destruct f; [exfalso; apply Hne; reflexivity|reflexivity].
        - cbn [tl nth]. apply kept_more. }
      rewrite Ek in *. cbn [map length] in *. rewrite (IH s' _ H' (le_S_n _ _ Hf)). reflexivity.
Qed.
Definition parse_mix (s : bytes) : option mixline :=
  match mix_line s with Some (c, _) => Some (MixLine c (tl (strings_from (length s) s))) | None => None end.
Lemma mix_line_strings s fs x inter : fields s fs -> mix_line (skip_space s) = Some (x, inter) -> mix_says s (MixLine x (map unquoted (tl (kept fs)))).
Proof.
  intros Hf H. rewrite (mix_line_fields _ _ Hf) in H. destruct (nonempty (nth 0 fs []) && nonempty (nth 1 fs []) && nonempty (nth 2 fs [])) eqn:E; [|discriminate]. apply some_inj in H. injection H as <- <-.
  apply andb_true_iff in E. destruct E as [E E2]. apply andb_true_iff in E. destruct E as [E0 E1]. apply nonempty_iff in E0, E1, E2.
  destruct fs as [|a [|b [|c fs]]]; cbn [nth] in *; try congruence. destruct (kept_cases (a :: b :: c :: fs)) as [[Hl Ek]|Ek]; [discriminate| |].
  - rewrite Ek. exists (a :: b :: c :: fs), b, c, fs. repeat match goal with |- _ /\ _ => split end; cbn [ml_cond ml_strings]; auto.
  - destruct (kept (a :: b :: c :: fs)) as [|a' [|b' [|c' l]]] eqn:K; cbn [app] in Ek; [discriminate|injection Ek; intros; congruence|injection Ek; intros; congruence|]. injection Ek as <- <- <- E.
    exists (a :: b :: c :: fs), b, c, l. repeat match goal with |- _ /\ _ => split end; cbn [ml_cond ml_strings tl]; auto. right. rewrite E. reflexivity.
Qed.
Lemma parse_mix_says s x : inked_line s -> parse_mix s = Some x -> mix_says s x.
Proof.
  intros Hs H. unfold parse_mix in H. destruct (mix_line s) as [[c i]|] eqn:El; [|discriminate]. apply some_inj in H. subst x. destruct (fields_total (length s) s) as [fs Hfs]; [reflexivity|right; exact Hs|].
  assert (Es : skip_space s = s) by (destruct Hs as (k & t & -> & Hc); apply skip_inked, Hc). rewrite <- Es in El. pose proof (strings_read (length s) s fs Hfs) as K. rewrite Es in K. rewrite K by (rewrite <- Es at 1; etransitivity; [apply (kept_length _ _ Hfs)|rewrite Es; reflexivity]).
  pose proof (mix_line_strings _ _ _ _ Hfs El) as M. replace (tl (map unquoted (kept fs))) with (map unquoted (tl (kept fs))) by (destruct (kept fs); reflexivity). exact M.
Qed.
Fixpoint mix_items (lines : list bytes) : option (list mixline * list bytes) :=
  match lines with
  | [] => None
  | s :: lines' => if list_eq_dec N.eq_dec s [125] then Some ([], lines') else match parse_mix s, mix_items lines' with Some x, Some (xs, r) => Some (x :: xs, r) | _, _ => None end
  end.
Lemma mix_items_says lines : forall xs rest, Forall inked_line lines -> mix_items lines = Some (xs, rest) -> exists body, lines = body ++ [125] :: rest /\ Forall (fun s => s <> [125]) body /\ Forall2 mix_says body xs.
Proof.
  induction lines as [|s lines IH]; intros xs rest Hi; cbn [mix_items]; [discriminate|]. inversion Hi as [|? ? Hs Hl]. subst. destruct (list_eq_dec N.eq_dec s [125]) as [->|Hne].
  - intros H. injection H as <- <-. exists []. repeat split; constructor.
  - destruct (parse_mix s) as [x|] eqn:Em; [|discriminate]. destruct (mix_items lines) as [[xs' r]|] eqn:Eb; [|discriminate]. intros H. injection H as <- <-. destruct (IH _ _ Hl eq_refl) as (body & -> & Hb & Hx). exists (s :: body).
    split; [reflexivity|]. split; [constructor; assumption|]. constructor; [apply parse_mix_says; assumption|exact Hx].
Qed.
Section Parse.
  Context (fs : bytes -> option bytes) (conv : N -> N).
  Fixpoint mparse_lines (sub : bytes -> option (list mixdef)) (steps : nat) (name : bytes) (lines : list bytes) : option (list mixdef) :=
    match steps, lines with
    | S steps', s :: lines' =>
        match first_command include_commands s with
        | Some h => if nonempty (trim h) then match sub (open_name name (trim h)), mparse_lines sub steps' name lines' with Some a, Some b => Some (a ++ b) | _, _ => None end else None
        | None =>
            match first_command mix_commands s, lines' with
            | Some h, brace :: lines'' =>
                if nonempty (trim h) then
                  if list_eq_dec N.eq_dec brace [123] then
                    match mix_items lines'' with
                    | Some (its, rest) => match mparse_lines sub steps' name rest with Some b => Some (MixDef (names_in (trim h)) its :: b) | None => None end
                    | _ => None
                    end
                  else None
                else None
            | _, _ => None
            end
        end
    | _, [] => Some []
    | O, _ :: _ => None
    end.
  Fixpoint mparse_file (depth : nat) (name : bytes) : option (list mixdef) :=
    match depth with
    | O => None
    | S depth' => match fs name with
                  | None => None
                  | Some file => if short_lines file then let lines := source_lines conv file in mparse_lines (mparse_file depth') (length lines) name lines else None
                  end
    end.
  Lemma mparse_says : conv_white conv -> forall depth name ds, mparse_file depth name = Some ds -> mixes_defined fs conv depth name ds.
  Proof.
    intros Hc. induction depth as [|depth IHd]; intros name ds; cbn [mparse_file]; [discriminate|]. destruct (fs name) as [file|] eqn:Ef; [|discriminate]. destruct (short_lines file) eqn:Es; [|discriminate]. cbv zeta. intros H.
    econstructor; [exact Ef|eapply source_total, short_text, Es|]. pose proof (source_inked conv file Hc) as Hi. revert H Hi. generalize (source_lines conv file) as ss. intros ss. generalize (length ss) as steps. intros steps. revert ss ds. clear Ef Es.
    induction steps as [|steps IH]; intros ss ds H Hi.
    - destruct ss; [|discriminate]. injection H as <-. constructor.
    - destruct ss as [|s ss]; [injection H as <-; constructor|]. cbn [mparse_lines] in H. inversion Hi as [|? ? Hs Hl]. subst. destruct (first_command include_commands s) as [h|] eqn:Ei.
      + destruct (nonempty (trim h)) eqn:En; [|discriminate]. destruct (mparse_file depth (open_name name (trim h))) as [a|] eqn:E1; [|discriminate]. destruct (mparse_lines (mparse_file depth) steps name ss) as [b|] eqn:E2; [|discriminate]. apply some_inj in H. subst ds.
        apply mll_include with (trim h) (open_name name (trim h)); [|apply beside_total|apply IHd, E1|apply IH; assumption]. destruct (trim_named h En) as (sp & sp' & E & K1 & K2 & K3 & K4). exists sp, sp'. split; [rewrite <- E; apply include_commanded, Ei|auto].
      + destruct (first_command mix_commands s) as [h|] eqn:Et; [|discriminate]. destruct ss as [|brace ss]; [discriminate|]. destruct (nonempty (trim h)) eqn:En; [|discriminate]. destruct (list_eq_dec N.eq_dec brace [123]) as [->|]; [|discriminate].
        destruct (mix_items ss) as [[its rest]|] eqn:Eb; [|discriminate]. destruct (mparse_lines (mparse_file depth) steps name rest) as [b|] eqn:Er; [|discriminate]. apply some_inj in H. subst ds.
        inversion Hl as [|? ? _ Hl']. subst. destruct (mix_items_says _ _ _ Hl' Eb) as (body & -> & Hb & Hx). apply mll_table; [|exact Hb|exact Hx|apply IH; [exact Er|apply Forall_app in Hl'; destruct Hl' as [_ K]; inversion K; assumption]].
        exists h. split; [apply mix_commanded, Et|]. split; [intros Hw; unfold trim in En; rewrite trim_all in En by (apply white_space, Hw); discriminate|]. destruct (names_total (length h) h (le_n _)) as [ns Hns]. rewrite (split_names_in _ _ Hns). exact Hns.
  Qed.
End Parse.

(** ** Alternations: mix/adjes.mx and mix/verbs.mx (shortened; the inclusion is added) *)
Definition main_mix : bytes := Eval vm_compute in lines_of [
  ".включить adj.mix"; ".таблица нсв 5b, нсв 5c // глаголы"; "{"; "  о т, ч, ч"; "  о д ж"; "}"]%string.
Definition adj_mix : bytes := Eval vm_compute in lines_of [
  ".таблица п 3*a/c'E6"; "{"; "  о ьк ек ''"; "}"; ""; ".таблица п 3*a/c, п 3*a/c'"; "{"; "  о дк док ж"; "  о к ок ч"; "  * д т,"; "}"]%string.
Definition mix_files (n : bytes) : option bytes := lookup n [(text "mix/all.mix", main_mix); (text "mix/adj.mix", adj_mix)].
Definition demo_mixdefs : list mixdef := Eval vm_compute in match mparse_file mix_files same 2 (text "mix/all.mix") with Some ds => ds | None => [] end.
Lemma demo_mixes : mixes_defined mix_files same 2 (text "mix/all.mix") demo_mixdefs.
Proof. apply mparse_says; [exact same_white|]. vm_compute. reflexivity. Qed.
