(** * LemmToolProofs4: the command line of lemmatize. *)
From Coq Require Import String.
From Verif Require Import Base Codepage CodepageSpec Api ApiSpec PropApiLemmas PyApi PyProofs5 Dump LemmTool.
Local Open Scope N_scope.
Local Open Scope list_scope.
Notation length := List.length.

Lemma colon_at name cp : ~ In 58 name -> at_colon (name ++ 58 :: cp) = (name, 58 :: cp).
Proof.
  induction name as [|c name IH]; intros H; [reflexivity|]. cbn [app at_colon]. destruct (N.eqb_spec c 58) as [->|_]; [exfalso; apply H; left; reflexivity|].
  rewrite IH by (intros K; apply H; right; exact K). reflexivity.
Qed.
Lemma colon_none name : ~ In 58 name -> at_colon name = (name, text ":utf-8").
Proof.
  induction name as [|c name IH]; intros H; [reflexivity|]. cbn [at_colon]. destruct (N.eqb_spec c 58) as [->|_]; [exfalso; apply H; left; reflexivity|].
  rewrite IH by (intros K; apply H; right; exact K). reflexivity.
Qed.
Lemma main_utf8_name : names MbUtf8 (text "utf-8").
Proof. destruct (get_api_found MORPH_MAGIC (text "utf-8") (text "utf-8" ++ [0]) eq_refl) as [(i & Hi & E)|(_ & E)].
  - split; [vm_compute; intuition discriminate|exists []; reflexivity].
  - vm_compute in E. injection E as <-. exact Hi.
  - vm_compute in E. discriminate.
Qed.

Lemma main_page magic load run lib find name cp word rest :
  magic = MORPH_MAGIC \/ magic = FUZZY_MAGIC -> load lib = Some find -> find name = Some (rus_get_api magic) -> ~ In 58 name -> ~ In 0 cp ->
  (exists i, names i cp /\ tool_main magic load run (lib :: (name ++ 58 :: cp) :: word :: rest) = (let! t := run i word in Ok (Printed t))) \/
  (forall i, ~ names i cp) /\ tool_main magic load run (lib :: (name ++ 58 :: cp) :: word :: rest) = Ok No_codepage.
Proof.
  intros Hm H1 H2 H3 H4. unfold tool_main. rewrite H1, (colon_at name cp H3), H2. assert (Hl : length magic = 15%nat) by (destruct Hm as [->| ->]; reflexivity).
  destruct (get_api_found magic cp (cp ++ [0]) Hl) as [(i & Hi & E)|(Hno & E)].
  - split; [exact H4|exists []; reflexivity].
  - left. exists i. split; [exact Hi|]. change (magic ++ (58 :: cp) ++ [0]) with (magic ++ text ":" ++ (cp ++ [0])). rewrite E. reflexivity.
  - right. split; [exact Hno|]. change (magic ++ (58 :: cp) ++ [0]) with (magic ++ text ":" ++ (cp ++ [0])). rewrite E. reflexivity.
Qed.
Lemma main_default magic load run lib find name word rest :
  magic = MORPH_MAGIC \/ magic = FUZZY_MAGIC -> load lib = Some find -> find name = Some (rus_get_api magic) -> ~ In 58 name ->
  tool_main magic load run (lib :: name :: word :: rest) = (let! t := run MbUtf8 word in Ok (Printed t)).
Proof.
  intros Hm H1 H2 H3. unfold tool_main. rewrite H1, (colon_none name H3), H2.
  replace (rus_get_api magic (Some (magic ++ text ":utf-8" ++ [0])) true) with (Ok (0%Z, Points MbUtf8)) by (destruct Hm as [->| ->]; vm_compute; reflexivity). reflexivity.
Qed.
Lemma main_english magic load run lib find name cp word rest :
  magic = MORPH_MAGIC \/ magic = FUZZY_MAGIC -> load lib = Some find -> find name = Some (eng_get_api magic) -> ~ In 58 name -> ~ In 0 cp -> ~ names WcInstance cp ->
  tool_main magic load run (lib :: (name ++ 58 :: cp) :: word :: rest) = (let! t := run Mb1251 word in Ok (Printed t)) /\
  tool_main magic load run (lib :: name :: word :: rest) = (let! t := run Mb1251 word in Ok (Printed t)).
Proof.
  intros Hm H1 H2 H3 H4 H5. unfold tool_main. rewrite H1, (colon_at name cp H3), (colon_none name H3), H2. assert (Hl : length magic = 15%nat) by (destruct Hm as [->| ->]; reflexivity). split.
  - destruct (eng_get_api_found magic cp (cp ++ [0]) Hl) as [(K & _)|(_ & E)].
    + split; [exact H4|exists []; reflexivity].
    + contradiction.
    + change (magic ++ (58 :: cp) ++ [0]) with (magic ++ text ":" ++ (cp ++ [0])). rewrite E. reflexivity.
  - replace (eng_get_api magic (Some (magic ++ text ":utf-8" ++ [0])) true) with (Ok (0%Z, Points Mb1251)) by (destruct Hm as [->| ->]; vm_compute; reflexivity). reflexivity.
Qed.
Lemma main_errors magic load run lib fn name cp word rest :
  tool_main magic load run [] = Ok Usage /\ tool_main magic load run [lib] = Ok Usage /\ tool_main magic load run [lib; fn] = Ok Usage /\
  (load lib = None -> tool_main magic load run (lib :: fn :: word :: rest) = Ok No_library) /\
  (forall find, load lib = Some find -> find name = None -> ~ In 58 name ->
     tool_main magic load run (lib :: name :: word :: rest) = Ok No_function /\ tool_main magic load run (lib :: (name ++ 58 :: cp) :: word :: rest) = Ok No_function).
Proof.
  split; [reflexivity|]. split; [reflexivity|]. split; [reflexivity|]. split.
  - intros H. unfold tool_main. rewrite H. reflexivity.
  - intros find H1 H2 H3. unfold tool_main. rewrite H1, (colon_at name cp H3), (colon_none name H3), H2. split; reflexivity.
Qed.
Lemma main_guesser load run lib find name cp word rest :
  load lib = Some find -> find name = Some (rus_get_api FUZZY_MAGIC) -> ~ In 58 name ->
  tool_main MORPH_MAGIC load run (lib :: (name ++ 58 :: cp) :: word :: rest) = Ok No_codepage /\ tool_main MORPH_MAGIC load run (lib :: name :: word :: rest) = Ok No_codepage.
Proof.
  intros H1 H2 H3. unfold tool_main. rewrite H1, (colon_at name cp H3), (colon_none name H3), H2. split.
  - change (MORPH_MAGIC ++ (58 :: cp) ++ [0]) with (MORPH_MAGIC ++ text ":" ++ (cp ++ [0])).
    destruct (fun Hl => get_api_bad FUZZY_MAGIC (MORPH_MAGIC ++ text ":" ++ (cp ++ [0])) eq_refl Hl) as [].
    + assert (E : length (MORPH_MAGIC ++ text ":") = 16%nat) by (vm_compute; reflexivity). rewrite app_assoc, app_length. rewrite E. lia.
    + intros r K. vm_compute in K. discriminate.
    + reflexivity.
  - replace (rus_get_api FUZZY_MAGIC (Some (MORPH_MAGIC ++ text ":utf-8" ++ [0])) true) with (Ok (EINVAL, Untouched)) by (vm_compute; reflexivity). reflexivity.
Qed.
