(** * Properties C56-C59, C83-C85: storing and loading *)
From Coq Require Import Lia Ascii.
From Verif Require Import Spec.Records Spec.Trees Model.Saving Proofs.StorageProofs Proofs.SavingProofs Proofs.TreeProofs.
Open Scope list_scope.
Open Scope nat_scope.

(** C56: the files hold the states sent, dump by dump.  Holds as long as no array is
    changed between being sent and the dump; see below for what happens else. *)
Theorem C56_files_hold_what_was_sent_partial : forall A n (h : @heap A) es,
  in_protocol false es -> width n h es -> left_alone [] es ->
  exists s, npy_run (npy_start h) es = Ok s /\ n_files s = numbered (sent_groups h [] es).
Proof. intros A n h es P W L. exact (npy_run_spec n es h [] [] 0 false P ltac:(discriminate) W L). Qed.
Print Assumptions C56_files_hold_what_was_sent_partial.
(** When one array object is sent over and over, all rows of a file are alike. *)
Theorem C56_same_array_refuted : forall A r (h : @heap A) es s, npy_run (npy_start h) es = Ok s -> same_array r es ->
  forall i rows, In (i, rows) (n_files s) -> forall x y, In x rows -> In y rows -> x = y.
Proof. intros A r h es s E S. exact (npy_same_array r es (npy_start h) s E S ltac:(intros ? []) ltac:(intros ? ? [])). Qed.
Print Assumptions C56_same_array_refuted.
(** So what is loaded is not what was sent. *)
Theorem C56_sent_states_lost_refuted : exists (h : @heap nat) es s, in_protocol false es /\ width 1 h es /\
  npy_run (npy_start h) es = Ok s /\ n_files s <> numbered (sent_groups h [] es).
Proof.
  exists (fun _ => [0]), [SendData 0; SendDump false; Change 0 [1]; SendData 0; SendDump true]. eexists.
  split; [cbn; tauto|]. split.
  - split; [reflexivity|]. intros r x [I | [I | [I | [I | [I | []]]]]]; try discriminate. injection I as _ <-. reflexivity.
  - split; [reflexivity|]. cbn. discriminate.
Qed.
Print Assumptions C56_sent_states_lost_refuted.
(** Arrays of different lengths cannot be saved together. *)
Theorem C56_other_length_refused : forall A (h : @heap A) r q, length (h r) <> length (h q) ->
  npy_run (npy_start h) [SendData r; SendDump false; SendData q; SendDump true] = Err ValueError.
Proof.
  intros A h r q N. cbn. destruct (Nat.eqb_spec (length (h q)) (length (h r))) as [E|E]; [congruence|reflexivity].
Qed.
Print Assumptions C56_other_length_refused.
(** Two arrays sent, one changed after its dump. *)
Example C56_case : let es := [SendData 0; SendDump false; SendData 1; SendDump true; Change 0 [7]; SendData 0; SendDump true] in
  let h := fun r => [r] in
  in_protocol false es /\ width 1 h es /\ left_alone [] es /\ sent_groups h [] es = [[[0]; [1]]; [[7]]].
Proof.
  cbv zeta. split; [cbn; tauto|]. split; [|split; [cbn; intuition congruence|reflexivity]]. split; [reflexivity|].
  intros r x [I | [I | [I | [I | [I | [I | [I | []]]]]]]]; try discriminate. injection I as _ <-. reflexivity.
Qed.

(** C57: whatever else is in the directory and in whatever order it is listed.  Holds
    for base names without digits if no other file's name starts with the base name
    and ends with .npy. *)
Theorem C57_index_order_partial : forall C basename (contents : list C) files, without_digits basename ->
  Permutation (filter (fun f => startswith (fst f) basename && endswith (fst f) ".npy")%bool files)
              (map (fun '(i, c) => (npy_name basename i, c)) (numbered contents)) ->
  load_npy files basename = Ok contents.
Proof. intros C. exact load_npy_spec. Qed.
Print Assumptions C57_index_order_partial.
(** What was saved is loaded. *)
Theorem C57_round_trip_partial : forall A n (h : @heap A) es basename others files s, without_digits basename ->
  in_protocol false es -> width n h es -> left_alone [] es -> sent_groups h [] es <> [] ->
  npy_run (npy_start h) es = Ok s ->
  (forall f, In f others -> (startswith (fst f) basename && endswith (fst f) ".npy")%bool = false) ->
  Permutation files (map (fun '(i, c) => (npy_name basename i, c)) (n_files s) ++ others) ->
  load_npy_concatenated files basename = Ok (concat (sent_groups h [] es)).
Proof.
  intros A n h es basename others files s D P W L N E O F.
  destruct (C56_files_hold_what_was_sent_partial A n h es P W L) as (s' & E' & F'). rewrite E in E'. injection E' as <-.
  unfold load_npy_concatenated. rewrite (load_npy_spec basename (sent_groups h [] es)); auto.
  - cbn [rbind]. destruct (sent_groups h [] es); [easy|reflexivity].
  - rewrite F' in F. set (saved := map _ _) in F |- *.
    assert (G : filter (fun f => matches basename (fst f)) (saved ++ others) = saved).
    { rewrite filter_app. replace (filter _ others) with (@nil (string * list (list A))).
      - rewrite app_nil_r. unfold saved. clear. induction (numbered (sent_groups h [] es)) as [|[i c] l IH]; [reflexivity|].
        cbn [map filter fst]. unfold matches at 1. rewrite npy_name_matches. now f_equal.
      - symmetry. clear -O. induction others as [|f others IH]; [reflexivity|]. cbn. unfold matches at 1.
        rewrite (O f (or_introl eq_refl)). apply IH. intros; apply O; now right. }
    rewrite <- G. clear -F. induction F; cbn.
    + reflexivity.
    + destruct (matches basename (fst x)); [now constructor|assumption].
    + destruct (matches basename (fst y)), (matches basename (fst x)); try reflexivity. constructor.
    + now transitivity (filter (fun f => matches basename (fst f)) l').
Qed.
Print Assumptions C57_round_trip_partial.
(** A base name with a digit [d]: loading raises ValueError as soon as there is a
    file number [d]. *)
Theorem C57_digits_refuted : forall C basename d (c : ascii), d < 10 -> str_nat d = String c EmptyString -> has_char c basename = true ->
  forall (before after : list (string * C)) x, (forall f, In f before -> (startswith (fst f) basename && endswith (fst f) ".npy")%bool = false) ->
  load_npy (before ++ (npy_name basename d, x) :: after) basename = Err ValueError.
Proof.
  intros C basename d c D E H before after x B. unfold load_npy.
  replace (find_npy_files _ basename) with (@Err (list (Z * C)) ValueError); [reflexivity|]. symmetry.
  induction before as [|[f y] before IH].
  - cbn [app find_npy_files]. rewrite npy_name_matches, index_of_name_fails; [reflexivity|exact D|]. eauto.
  - cbn [app find_npy_files]. pose proof (B _ (or_introl eq_refl)) as X. cbn [fst] in X. rewrite X. apply IH. intros; apply B; now right.
Qed.
Print Assumptions C57_digits_refuted.
(** Files of another base name that begins with this one are loaded too: those of
    "agents2" end up among those of "agents", number 0 as number 20. *)
Theorem C57_other_base_names_refuted : forall C (x y : C),
  load_npy [(npy_name "agents" 0, x); (npy_name "agents2" 0, y)] "agents" = Ok [x; y].
Proof. reflexivity. Qed.
Print Assumptions C57_other_base_names_refuted.
(** Twelve files listed in lexicographic order. *)
Example C57_case : without_digits "agents" /\
  load_npy [("agents_0.npy", 0); ("agents_1.npy", 1); ("agents_10.npy", 10); ("agents_11.npy", 11); ("agents_2.npy", 2);
            ("agents_3.npy", 3); ("data.csv", 99); ("agents_4.npy", 4); ("agents_5.npy", 5); ("agents_6.npy", 6); ("agents_7.npy", 7);
            ("agents_8.npy", 8); ("agents_9.npy", 9)]%string "agents" = Ok (seq 0 12).
Proof.
  split; [|reflexivity]. intros c H. destruct (has_char c "agents") eqn:E; [|reflexivity]. exfalso. cbn in H, E.
  rewrite !Bool.orb_true_iff in *. rewrite !Ascii.eqb_eq in *. intuition (subst; discriminate).
Qed.
Example C57_digits_case : str_nat 3 = String "3" EmptyString /\ has_char "3" "run3" = true /\
  load_npy [(npy_name "run3" 3, 0)] "run3" = Err ValueError.
Proof. repeat split. Qed.

(** C58: whatever the file held before stays; then come the names of the first row and
    the values of every row up to the last dump. *)
Theorem C58_header_and_rows : forall K D (es : list (csv_event K D)) before, csv_in_protocol false es ->
  exists s, csv_run (csv_start before) es = Ok s /\
    c_file s = before ++
      (match dumped_rows [] es with [] => [] | first :: _ => [Names (map fst first)] end)
      ++ map (fun row => Values (map snd row)) (dumped_rows [] es).
Proof. exact @csv_spec. Qed.
Print Assumptions C58_header_and_rows.
Example C58_case : csv_in_protocol false [SendRow [(0, 5)]; SendCsvDump true; SendRow [(0, 6)]; SendCsvDump false; SendRow [(0, 7)]; SendCsvDump true; SendRow [(0, 8)]; SendCsvDump false] /\
  dumped_rows [] [SendRow [(0, 5)]; SendCsvDump true; SendRow [(0, 6)]; SendCsvDump false; SendRow [(0, 7)]; SendCsvDump true; SendRow [(0, 8)]; SendCsvDump false]
  = [[(0, 5)]; [(0, 6)]; [(0, 7)]].
Proof. split; [cbn; repeat split|reflexivity]. Qed.

(** C85: every line of values has its values under the names of the header.  Holds if all
    rows have the same keys in the same order. *)
Theorem C85_values_under_names_partial : forall K D (es : list (csv_event K D)) keys, csv_in_protocol false es ->
  (forall d, In (SendRow d) es -> map fst d = keys) -> dumped_rows [] es <> [] ->
  exists s lines, csv_run (csv_start []) es = Ok s /\ c_file s = Names keys :: map (@Values K D) lines /\
    Forall2 (fun line row => combine keys line = row) lines (dumped_rows [] es).
Proof.
  intros K D es keys P H N. destruct (csv_spec es [] P) as (s & E & F). exists s, (map (map snd) (dumped_rows [] es)).
  split; [exact E|].
  assert (R : forall row, In row (dumped_rows [] es) -> map fst row = keys) by (intros; apply H; now apply dumped_sent).
  split.
  - rewrite F. destruct (dumped_rows [] es) as [|first rest]; [easy|]. cbn [app map]. rewrite R by now left. now rewrite map_map.
  - clear -R. induction (dumped_rows [] es) as [|row rest IH]; constructor.
    + rewrite <- (R row) by now left. clear. induction row as [|[k d] row IH]; cbn; [reflexivity|]. now f_equal.
    + apply IH. intros; apply R; now right.
Qed.
Print Assumptions C85_values_under_names_partial.
(** A row sent later with other keys: the values stand under the wrong names. *)
Theorem C85_other_keys_refuted : exists (es : list (csv_event string nat)) s, csv_in_protocol false es /\
  csv_run (csv_start []) es = Ok s /\ c_file s = [Names ["a"; "c"]%string; Values [1; 3]; Values [1; 2; 3]] /\
  In (SendRow [("a", 1); ("b", 2); ("c", 3)]%string) es.
Proof.
  exists [SendRow [("a", 1); ("c", 3)]%string; SendCsvDump false; SendRow [("a", 1); ("b", 2); ("c", 3)]%string; SendCsvDump true].
  eexists. split; [cbn; tauto|]. split; [reflexivity|]. split; [reflexivity|]. cbn; auto.
Qed.
Print Assumptions C85_other_keys_refuted.
Example C85_case : csv_in_protocol false [SendRow [(0, 5); (1, 6)]; SendCsvDump false; SendRow [(0, 7); (1, 8)]; SendCsvDump true] /\
  dumped_rows [] [SendRow [(0, 5); (1, 6)]; SendCsvDump false; SendRow [(0, 7); (1, 8)]; SendCsvDump true] <> [].
Proof. split; [cbn; tauto|discriminate]. Qed.

(** C59: [shape] undoes [mapping].  Holds for None and lists of geometries. *)
Theorem C59_round_trip_partial : forall G M (mapping : G -> M) (shape : M -> G) (is_empty : G -> bool),
  (forall g, shape (mapping g) = g) -> forall geometries,
  (forall k v, In (k, v) geometries -> v = VNone \/ exists l, v = VList l) ->
  exists file, save_geometry_json mapping is_empty [] geometries = Ok file /\ load_geometry_json shape file = Ok geometries.
Proof. intros. now apply json_roundtrip. Qed.
Print Assumptions C59_round_trip_partial.
(** With a single geometry, such as the domain of a field, loading raises. *)
Theorem C59_single_geometry_refuted : forall G M (mapping : G -> M) (shape : M -> G) is_empty geometries file k g,
  save_geometry_json mapping is_empty [] geometries = Ok file -> In (k, VGeom g) geometries ->
  load_geometry_json shape file = Err AttributeError.
Proof. intros. now apply (json_single_fails mapping shape is_empty geometries file k g). Qed.
Print Assumptions C59_single_geometry_refuted.
(** Saving to a file twice: loading raises. *)
Theorem C59_saved_twice_refuted : forall G M (mapping : G -> M) (shape : M -> G) is_empty file geometries geometries' file' file'',
  save_geometry_json mapping is_empty file geometries = Ok file' ->
  save_geometry_json mapping is_empty file' geometries' = Ok file'' ->
  load_geometry_json shape file'' = Err ValueError.
Proof. intros. now apply (json_second_save mapping shape is_empty file geometries geometries' file'). Qed.
Print Assumptions C59_saved_twice_refuted.
(** A multipart geometry comes back as a list. *)
Theorem C59_multipart_refuted : forall G M (mapping : G -> M) (shape : M -> G) (is_empty : G -> bool), (forall g, shape (mapping g) = g) ->
  forall k parts, exists file, save_geometry_json mapping is_empty [] [(k, VMulti parts)] = Ok file /\
    load_geometry_json shape file = Ok [(k, VList parts)].
Proof.
  intros G M mapping shape is_empty S k parts. eexists. split; [reflexivity|]. cbn. rewrite map_map.
  now rewrite (map_ext _ (fun g => g) S), map_id.
Qed.
Print Assumptions C59_multipart_refuted.
(** The first value that is an empty geometry or a dictionary with entries is refused. *)
Theorem C59_refused : forall G M (mapping : G -> M) (is_empty : G -> bool) file before k v after,
  (forall j w, In (j, w) before -> w = VNone \/ exists l, w = VList l) ->
  (forall g, v = VGeom g -> is_empty g = true -> save_geometry_json mapping is_empty file (before ++ (k, v) :: after) = Err TypeError) /\
  (forall e l, v = VDict (e :: l) -> save_geometry_json mapping is_empty file (before ++ (k, v) :: after) = Err AttributeError).
Proof.
  intros G M mapping is_empty file before k v after H.
  assert (X : forall e, geometry_mapping mapping is_empty v = Err e -> map_values (geometry_mapping mapping is_empty) (before ++ (k, v) :: after) = Err e).
  { intros e E. induction before as [|[j w] before IH]; cbn; [now rewrite E|].
    destruct (H j w (or_introl eq_refl)) as [-> | [l ->]]; cbn; rewrite IH by (intros; apply (H j0); now right); reflexivity. }
  split.
  - intros g -> Z. unfold save_geometry_json. rewrite (X TypeError); [reflexivity|]. cbn. now rewrite Z.
  - intros e l ->. unfold save_geometry_json. now rewrite (X AttributeError).
Qed.
Print Assumptions C59_refused.
Example C59_case : exists file,
  save_geometry_json (fun g : nat => [g]) (fun _ => false) [] [("domain", VNone); ("targets", VList [1; 2])]%string = Ok file /\
  load_geometry_json (fun m => nth 0 m 0) file = Ok [("domain", VNone); ("targets", VList [1; 2])]%string /\
  exists file', save_geometry_json (fun g : nat => [g]) (fun _ => false) [] [("domain", VGeom 4); ("targets", VList [1; 2])]%string = Ok file' /\
  load_geometry_json (fun m => nth 0 m 0) file' = Err AttributeError.
Proof. eexists. split; [reflexivity|]. split; [reflexivity|]. eexists. split; reflexivity. Qed.

(** C83: an update is the state of the agents, the data and whether it saves.  The data
    file holds the data of every update up to the last one that saved. *)
Theorem C83_data_file : forall A K D w x0 (us : list (list A * dict K D * bool)), (forall x d save, In (x, d, save) us -> length x = w) ->
  exists n c, saver_run (saver_start x0) us = Ok (n, c) /\
    let rows := concat (save_groups [] (map (fun '(_, d, save) => (d, save)) us)) in
    c_file c = (match rows with [] => [] | first :: _ => [Names (map fst first)] end) ++ map (fun row => Values (map snd row)) rows.
Proof.
  intros A K D w x0 us W. destruct (saver_spec w x0 us W) as (n & c & E & _ & F). exists n, c. split; [exact E|].
  unfold row_of in F. exact F.
Qed.
Print Assumptions C83_data_file.
(** Every save makes one array file, the next in order, with one row for every update
    since the last save; all of them are the state of the update that saved. *)
Theorem C83_array_files_partial : forall A K D w x0 (us : list (list A * dict K D * bool)), (forall x d save, In (x, d, save) us -> length x = w) ->
  exists n c, saver_run (saver_start x0) us = Ok (n, c) /\
    n_files n = numbered (map (fun group => repeat (last group []) (length group)) (save_groups [] (map (fun '(x, _, save) => (x, save)) us))).
Proof.
  intros A K D w x0 us W. destruct (saver_spec w x0 us W) as (n & c & E & F & _). exists n, c. split; [exact E|].
  unfold state_of, last_for_all in F. exact F.
Qed.
Print Assumptions C83_array_files_partial.
(** Saving at every update stores every state. *)
Theorem C83_save_every_update_partial : forall A K D w x0 (us : list (list A * dict K D * bool)), (forall x d save, In (x, d, save) us -> length x = w /\ save = true) ->
  exists n c, saver_run (saver_start x0) us = Ok (n, c) /\ n_files n = numbered (map (fun '(x, _, _) => [x]) us).
Proof.
  intros A K D w x0 us W. destruct (saver_spec w x0 us) as (n & c & E & F & _); [intros; now apply (W x d save)|].
  exists n, c. split; [exact E|]. rewrite F, every_update.
  - rewrite !map_map. f_equal. apply map_ext. now intros [[x d] save].
  - intros x save I. apply in_map_iff in I as ([[y d] save'] & J & I). injection J as -> ->. now apply (W x d save).
Qed.
Print Assumptions C83_save_every_update_partial.
(** If agents move between two updates that are saved together, the states are lost. *)
Theorem C83_states_lost_refuted : forall A K D w x0 (us : list (list A * dict K D * bool)) n c group x y, (forall x d save, In (x, d, save) us -> length x = w) ->
  saver_run (saver_start x0) us = Ok (n, c) ->
  In group (save_groups [] (map (fun '(x, _, save) => (x, save)) us)) -> In x group -> In y group -> x <> y ->
  n_files n <> numbered (save_groups [] (map (fun '(x, _, save) => (x, save)) us)).
Proof.
  intros A K D w x0 us n c group x y W E G X Y N F. destruct (saver_spec w x0 us W) as (n' & c' & E' & F' & _).
  rewrite E in E'. injection E' as <- <-. rewrite F' in F. apply numbered_inj in F. unfold state_of in F.
  apply N. apply (last_for_all_id group); auto. now apply (map_id_in _ _ F).
Qed.
Print Assumptions C83_states_lost_refuted.
Example C83_case : match saver_run (saver_start [0]) [([1], [("t", 1)], false); ([2], [("t", 2)], true); ([3], [("t", 3)], true)]%string with
  | Ok (n, c) => n_files n = [(0, [[2]; [2]]); (1, [[3]])] /\ c_file c = [Names ["t"%string]; Values [1]; Values [2]; Values [3]]
  | Err _ => False
  end.
Proof. vm_compute. split; reflexivity. Qed.

(** C84: [i] is the logic of the simulation, the top of its tree, as in all shipped
    simulations; [m] the new node. *)
Theorem C84_saves_after_all_others : forall f i m, reachable f -> i < size f -> par f i = None -> name f i = "Reset"%string ->
  m < size f -> m <> i -> par f m = None -> kids f m = [] ->
  exists g L, add_to_simulation_logic f i m = (g, None) /\ whole_order f i L /\ whole_order g i (L ++ [m]).
Proof. exact add_to_logic_last. Qed.
Print Assumptions C84_saves_after_all_others.
Definition saver_tree : tree_state :=
  fst (call (fst (call (fst (call (fst (call no_nodes (NewNode "Reset"))) (NewNode "Integrator"))) (LShift 0 [1]))) (NewNode "SaveSimulationData")).
Example C84_case : reachable saver_tree /\ par saver_tree 0 = None /\ name saver_tree 0 = "Reset"%string /\ par saver_tree 2 = None /\
  exists g, add_to_simulation_logic saver_tree 0 2 = (g, None) /\ postorder g (root g 0) = [1; 0; 2].
Proof.
  split; [|repeat split; now eexists].
  repeat (apply reach_call; [|cbn; auto]); try apply reach_start.
  split; [lia|]. intros o [<- | []]; lia.
Qed.
