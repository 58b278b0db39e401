(** * Properties C01-C08, C10, C11, C37: storage formats, dictionary trees, stem lists.  STATEMENTS ONLY. *)
From Coq Require Import Permutation.
From Verif Require Import Base Serial SerialProofs WordTree TreeSpec WordTreeProofs FlatScan FlatScanProofs FlatStack
  FlatStackProofs Stems StemSpec StemsProofs LidsProofs TrackProofs DictProofs PropTreesLemmas.
Local Open Scope N_scope.

(** ** C01 *)
Theorem C01_integers_read_back : forall n rest, n < 2 ^ 32 -> getserial (putserial n ++ rest) = Ok (n, rest).
Proof. exact getserial_putserial. Qed.
Print Assumptions C01_integers_read_back.

Theorem C01_words_read_back : forall n rest, n < 2 ^ 16 -> getword16 (putword16 n ++ rest) = Ok (n, rest).
Proof. exact getword16_put. Qed.
Print Assumptions C01_words_read_back.

Example C01_case : 4294967295 < 2 ^ 32 /\ putserial 4294967295 = [255; 255; 255; 255; 15].
Proof. split; reflexivity. Qed.

(** ** C02 *)
Theorem C02_keys_injective : forall a b, a < 2 ^ 32 -> b < 2 ^ 32 -> lexkeylen a = lexkeylen b -> a = b.
Proof. exact lexkeylen_inj. Qed.
Print Assumptions C02_keys_injective.

(** Missing for the full claim: ids from 2^24 up, where it is false (next theorem). *)
Theorem C02_compiler_key_agrees_partial : forall id, id < 2 ^ 24 -> lexkeybuf id = lexkeylen id.
Proof. exact lexkey_agree. Qed.
Print Assumptions C02_compiler_key_agrees_partial.

Theorem C02_compiler_key_agrees_refuted :
  exists a b, a < 2 ^ 32 /\ b < 2 ^ 32 /\ a <> b /\ lexkeybuf a = lexkeybuf b /\ lexkeybuf a <> lexkeylen a.
Proof. exact lexkeybuf_collision. Qed.
Print Assumptions C02_compiler_key_agrees_refuted.

Example C02_case : 70000 < 2 ^ 24 /\ lexkeybuf 70000 = [1; 17; 112].
Proof. split; reflexivity. Qed.

(** ** C03: a history of insertions [(key, update)] applied to the empty tree *)
Theorem C03_tree_is_map : forall (A : Type) (dflt : A) (ops : list (bytes * (A -> A))),
  Forall (fun op => is_bytes (fst op)) ops ->
  let t := fold_left (fun t op => insert dflt (fst op) (snd op) t) ops wempty in
  ordered t /\
  forall key, lookup key t =
    fold_left (fun v op => if list_eq_dec N.eq_dec (fst op) key
                           then Some (snd op (match v with Some a => a | None => dflt end)) else v) ops None.
Proof. exact @insert_history. Qed.
Print Assumptions C03_tree_is_map.

Example C03_case :
  let ops := [([98; 97], fun x => 1 :: x); ([98], fun x => 2 :: x); ([98; 97], fun x => 3 :: x); ([99], fun x => 4 :: x)] in
  let t := fold_left (fun t op => insert [] (fst op) (snd op) t) ops wempty in
  lookup [98; 97] t = Some [3; 1] /\ lookup [98] t = Some [2] /\ lookup [97] t = None /\ map fst (nested t) = [99; 98].
Proof. repeat split; reflexivity. Qed.

(** ** C04: [Search] never finds a non-empty key *)
Theorem C04_search_refuted :
  (forall (A : Type) (t : wtree A) c key, search (c :: key) t = Ok None \/ search (c :: key) t = Ub) /\
  (exists (t : wtree N) key, lookup key t = Some 7 /\ search key t = Ok None) /\
  (exists (t : wtree N) key, lookup key t = None /\ search key t = Ub).
Proof. exact search_broken. Qed.
Print Assumptions C04_search_refuted.

(** ** C05 *)
Theorem C05_announced_length : forall (A : Type) w (ser : A -> bytes) (len : A -> N),
  (forall a, N.of_nat (length (ser a)) = len a) ->
  forall t, N.of_nat (length (serialize w ser len t)) = getbuflen w len t.
Proof. exact @serialize_len. Qed.
Print Assumptions C05_announced_length.

(** skipping a child by its stored length lands on the bytes after it *)
Theorem C05_skip_child : forall (A : Type) w (ser : A -> bytes) (len : A -> N),
  (forall a, N.of_nat (length (ser a)) = len a) ->
  forall c t after, getbuflen w len t < 2 ^ 32 ->
  getchild (c :: putserial (getbuflen w len t) ++ serialize w ser len t ++ after) =
  Ok (c, serialize w ser len t ++ after, after).
Proof. exact @skip_child. Qed.
Print Assumptions C05_skip_child.

(** the same for the dictionary's own payload, a list of stem records *)
Theorem C05_stem_tree_length : forall t, all_lists_ok t ->
  N.of_nat (length (stemtree_bytes t)) = getbuflen C8 stems_len t.
Proof. exact tree_len. Qed.
Print Assumptions C05_stem_tree_length.

Example C05_case :
  serialize C8 putserial seriallen (WNode [(98, WNode [] (Some 300)); (97, WNode [] None)] (Some 5))
  = [130; 98; 3; 128; 172; 2; 97; 1; 0; 5].
Proof. reflexivity. Qed.

(** ** C06: [scan_tree] over the dump of [t] placed anywhere in memory calls the handler exactly on the stored prefixes *)
Theorem C06_scan_visits_prefixes : forall (A St : Type) w (ser : A -> bytes) (len : A -> N),
  (forall a, N.of_nat (length (ser a)) = len a) ->
  forall (doitem : St -> bytes -> frag -> res (St * Z)) (item : St -> A * frag -> res (St * Z)) slots t key tail rest s,
  dumpable w len t -> nonzero t -> (length key < slots)%nat -> N.of_nat (length key) < 2 ^ 64 ->
  (forall k a, lookup k t = Some a -> forall s junk fr, doitem s (ser a ++ junk) fr = item s (a, fr)) ->
  scan_tree w doitem slots (serialize w ser len t ++ rest) (Frag (key ++ tail) (N.of_nat (length key))) s =
  until_nonzero (fun s ar => item s (fst ar, Frag (snd ar ++ tail) (N.of_nat (length (snd ar)))))
                (prefix_hits t key) s.
Proof. exact @scan_tree_prefixes. Qed.
Print Assumptions C06_scan_visits_prefixes.

(** and the loop with its explicit stack of [slots] frames computes the same, always stopping *)
Theorem C06_explicit_stack : forall (St : Type) w (doitem : St -> bytes -> frag -> res (St * Z)) slots thedic src s,
  exists k, forall k', (k <= k')%nat ->
    scan_machine w doitem slots k' thedic src s = Some (scan_tree w doitem slots thedic src s).
Proof. exact @machine_is_scan. Qed.
Print Assumptions C06_explicit_stack.

Example C06_case :
  let t := insert 0 [97; 98] (fun _ => 2) (insert 0 [97] (fun _ => 1) (insert 0 [99] (fun _ => 3) wempty)) in
  dumpable C8 seriallen t /\ nonzero t /\ prefix_hits t [97; 98; 100] = [(2, [100]); (1, [98; 100])].
Proof. exact scan_case. Qed.

(** ** C07: [index] files offsets under ids in order; the last one filed for an id is found, whatever follows the key *)
Theorem C07_id_lookup_partial : forall (index : list (N * N)) id junk rest,
  Forall (fun io => fst io < 2 ^ 24 /\ snd io < 2 ^ 32) index -> id < 2 ^ 32 ->
  let lids := fold_left (fun t io => insert 0 (lexkeybuf (fst io)) (fun _ => snd io) t) index wempty in
  getbuflen C16 seriallen lids < 2 ^ 32 ->
  (length (lexkeylen id ++ junk) = 16)%nat ->
  match fold_left (fun v io => if fst io =? id then Some (snd io) else v) index None with
  | Some off => exists p p', find_lid (lidstree_bytes lids ++ rest) junk id = Ok (Some p) /\ getserial p = Ok (off, p')
  | None => find_lid (lidstree_bytes lids ++ rest) junk id = Ok None
  end.
Proof. exact index_lookup. Qed.
Print Assumptions C07_id_lookup_partial.

Example C07_case :
  let index := [(1, 10); (256, 20); (1, 30); (65536, 40)] in
  Forall (fun io => fst io < 2 ^ 24 /\ snd io < 2 ^ 32) index /\
  (let lids := fold_left (fun t io => insert 0 (lexkeybuf (fst io)) (fun _ => snd io) t) index wempty in
   getbuflen C16 seriallen lids < 2 ^ 32 /\
   find_lid (lidstree_bytes lids) (repeat 0 15) 1 = Ok (Some (putserial 30))).
Proof. exact index_case. Qed.

(** without the bound on ids the claim is false: two ids share a compiled key *)
Theorem C07_id_lookup_refuted :
  exists index id junk, id < 2 ^ 32 /\ Forall (fun io => fst io < 2 ^ 32 /\ snd io < 2 ^ 32) index /\
  (length (lexkeylen id ++ junk) = 16)%nat /\ In (id, 10) index /\
  find_lid (lidstree_bytes (fold_left (fun t io => insert 0 (lexkeybuf (fst io)) (fun _ => snd io) t) index wempty)) junk id
  = Ok None.
Proof. exact index_lookup_wide. Qed.
Print Assumptions C07_id_lookup_refuted.

(** ** C08: walking to a record's position delivers its stem and that record, once *)
Theorem C08_track_to_record : forall (St : Type) (output : St -> N -> N -> frag -> frag -> res (St * Z))
    (out : St -> N -> N -> bytes -> bytes -> res (St * Z)),
  (forall s lid cl tr e after,
     output s lid cl (Frag tr (N.of_nat (length tr))) (post_frag e after) = out s lid cl tr (stpost e)) ->
  forall t key e off rest s,
  dumpable C8 stems_len t -> all_lists_ok t -> within 48 t ->
  rec_at t 0 key e off ->
  get_track C8 (fun s p tr => select_view output (length (stemtree_bytes t ++ rest) - N.to_nat off) s p tr)
            49 (Some (length (stemtree_bytes t ++ rest) - N.to_nat off)%nat) (stemtree_bytes t ++ rest) [] s =
  out s (nlexid e) (oclass e) key (stpost e).
Proof. exact @track_to_record. Qed.
Print Assumptions C08_track_to_record.

(** [rec_at] is the position where the bytes of the record are, and every stored record has one *)
Theorem C08_positions : forall t, ordered t -> all_lists_ok t ->
  (forall key e, has_record t key e -> exists off, rec_at t 0 key e off) /\
  (forall key e off, rec_at t 0 key e off -> has_record t key e /\
     exists pre post, stemtree_bytes t = pre ++ entry_ser e ++ post /\ N.of_nat (length pre) = off) /\
  (forall e off, In (e, off) (all_recs t) <-> exists key, rec_at t 0 key e off).
Proof. exact positions. Qed.
Print Assumptions C08_positions.

Example C08_case :
  let e := Entry 224 255 1000 12 [45; 242; 238] in
  let t := dict_reader [([227; 228; 229], Entry 0 0 1 2 []); ([227; 228; 229], e)] wempty in
  all_lists_ok t /\ within 48 t /\ rec_at t 0 [227; 228; 229] e 11.
Proof. exact track_case. Qed.

(** ** C10 *)
Theorem C10_reported_stems_fit : forall (St : Type) (output : St -> N -> N -> frag -> frag -> res (St * Z))
    (out : St -> N -> N -> frag -> bytes -> res (St * Z)),
  (forall s lid cl fr e after, output s lid cl fr (post_frag e after) = out s lid cl fr (stpost e)) ->
  forall rest tail l junk s, stems_ok l ->
  exists found : list (entry * bytes),
    (forall e infl, In (e, infl) found -> In e l /\ splits rest e infl /\ admits e infl) /\
    sublist (map fst found) l /\
    lookup_list output s (stems_ser l ++ junk) (Frag (rest ++ tail) (N.of_nat (length rest))) =
    until_nonzero (fun s ei => out s (nlexid (fst ei)) (oclass (fst ei))
                                   (Frag (rest ++ tail) (N.of_nat (length (snd ei)))) (stpost (fst ei))) found s.
Proof. exact @list_sound. Qed.
Print Assumptions C10_reported_stems_fit.

(** ** C11: proved unless the postfix takes the whole rest of the word and starts with a letter above the bound *)
Theorem C11_no_stem_skipped_partial : forall (St : Type) (output : St -> N -> N -> frag -> frag -> res (St * Z))
    (out : St -> N -> N -> frag -> bytes -> res (St * Z)),
  (forall s lid cl fr e after, output s lid cl fr (post_frag e after) = out s lid cl fr (stpost e)) ->
  forall rest tail l junk s, stems_ok l -> max_descending l ->
  exists found : list (entry * bytes),
    (forall e infl, In e l -> splits rest e infl -> admits e infl -> reachable e infl -> In (e, infl) found) /\
    (forall e infl, In (e, infl) found -> In e l /\ splits rest e infl /\ admits e infl) /\
    sublist (map fst found) l /\
    lookup_list output s (stems_ser l ++ junk) (Frag (rest ++ tail) (N.of_nat (length rest))) =
    until_nonzero (fun s ei => out s (nlexid (fst ei)) (oclass (fst ei))
                                   (Frag (rest ++ tail) (N.of_nat (length (snd ei)))) (stpost (fst ei))) found s.
Proof. exact @list_complete. Qed.
Print Assumptions C11_no_stem_skipped_partial.

(** a stem list as the compiler sorts it, and a word rest equal to a stored postfix, that is not reported *)
Theorem C11_no_stem_skipped_refuted :
  exists e1 e2 rest, stems_ok (insert_entry e2 [e1]) /\ max_descending (insert_entry e2 [e1]) /\
    splits rest e2 [] /\ admits e2 [] /\
    lookup_list (fun (s : list N) lid _ _ _ => Ok (s ++ [lid], 0%Z)) [] (stems_ser (insert_entry e2 [e1]))
                (Frag rest (N.of_nat (length rest))) = Ok ([], 0%Z).
Proof. exact list_incomplete. Qed.
Print Assumptions C11_no_stem_skipped_refuted.

Example C10_C11_case :
  let l := insert_entry (Entry 224 243 7 3 []) [Entry 224 255 8 4 [241; 255]] in
  stems_ok l /\ max_descending l /\ splits [224; 241; 255] (Entry 224 255 8 4 [241; 255]) [224] /\
  lookup_list (fun (s : list N) lid _ _ _ => Ok (s ++ [lid], 0%Z)) [] (stems_ser l) (Frag [224; 241; 255] 3) = Ok ([8; 7], 0%Z).
Proof. exact list_case. Qed.

(** ** C37 *)
Theorem C37_lists_sorted : forall items,
  Forall (fun ke => is_bytes (fst ke) /\ nlexid (snd ke) < 2 ^ 31) items ->
  let t := dict_reader items wempty in
  ordered t /\
  (forall key, (forall ke, In ke items -> fst ke <> key) -> lookup key t = None) /\
  (forall key l, lookup key t = Some l ->
     in_order l /\ max_descending l /\
     Permutation l (map snd (filter (fun ke => if list_eq_dec N.eq_dec (fst ke) key then true else false) items))) /\
  (forall ke, In ke items -> has_record t (fst ke) (snd ke)).
Proof. exact dict_sorted. Qed.
Print Assumptions C37_lists_sorted.

Example C37_case :
  lookup [224] (dict_reader [([224], Entry 1 5 9 0 []); ([225], Entry 0 0 1 0 []); ([224], Entry 1 7 3 0 []);
                             ([224], Entry 0 5 4 0 [])] wempty)
  = Some [Entry 1 7 3 0 []; Entry 0 5 4 0 []; Entry 1 5 9 0 []].
Proof. reflexivity. Qed.
