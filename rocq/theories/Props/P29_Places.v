(** * Property C123: runs do not mix their results *)
From Coq Require Import Lia.
From Verif Require Import Spec.Places Model.SavePaths Proofs.StorageProofs Proofs.SavingProofs Proofs.PlaceProofs.
From Coq Require Import Ascii.
Open Scope list_scope.
Open Scope nat_scope.

(** ** C123 *)
(** The name of the directory tells the name and the moment, whatever the name is. *)
Theorem C123_directories_differ : forall name name' t t', real_moment t -> real_moment t' ->
  name_with_timestamp name t = name_with_timestamp name' t' -> name = name' /\ t = t'.
Proof. exact names_differ. Qed.
Print Assumptions C123_directories_differ.

(** Simulations, each with the directory it gets by default; no two with the same name at
    the same microsecond. *)
Section Runs.
  Context {A : Type}.
  Variables (cwd base name : nat -> string) (time : nat -> moment).
  Notation dir j := (full_path (cwd j) (base j) (name_with_timestamp (name j) (time j))).
  Hypothesis Names_fit : forall j, real_moment (time j) /\ no_slash (name j) /\ no_braces (dir j).
  Variables (l : list (nat * action A)) (k : nat).
  Hypothesis Differ : forall j, j <> k -> (name j, time j) <> (name k, time k).
  Hypothesis Default : forall j d m x, In (j, Create d m x) l -> d = dir j.

  (** Whatever they do, in whatever order, and whoever fails: the files in the directory of
      one are those it would have written with nobody else around. *)
  Theorem C123_as_if_alone : forall (dk : disk A) f, no_slash f ->
    fst (act_all dk (fun _ => Idle) l) (file_of (dir k) f) = fst (act_all dk (fun _ => Idle) (map (pair k) (own k l))) (file_of (dir k) f).
  Proof.
    intros dk f F.
    assert (P : forall j, proper (dir j)) by (intros j; apply full_path_proper; [apply name_no_slash; apply Names_fit|apply name_nonempty]).
    refine (proj1 (act_all_own (fun j => dir j) _ k _ l dk dk (fun _ => Idle) (fun _ => Idle) Default _ _ _ eq_refl) f F).
    - intros j. split; [apply P|apply Names_fit].
    - intros j N E. apply (Differ j N). apply full_path_inj in E; try (apply name_no_slash; apply Names_fit).
      apply names_differ in E as [-> ->]; try apply Names_fit. reflexivity.
    - discriminate.
    - discriminate.
    - intros g G. reflexivity.
  Qed.
  (** So a simulation that saves (C83) finds in its new directory its metadata, its data up to
      the last save, and one array for every save, numbered from zero. *)
  Theorem C123_runs_do_not_mix : forall (dk : disk A) m x us w, (forall f, dk (file_of (dir k) f) = Absent) ->
    own k l = Create (dir k) m x :: map Update us -> (forall x d save, In (x, d, save) us -> length x = w) ->
    let dk' := fst (act_all dk (fun _ => Idle) l) in
    let rows := concat (save_groups [] (map (fun '(_, d, save) => (d, save)) us)) in
    let groups := save_groups [] (map (fun '(x, _, save) => (x, save)) us) in
    dk' (file_of (dir k) "metadata.csv") = Table [Names (map fst m); Values (map snd m)] /\
    table_at dk' (file_of (dir k) "data.csv") = (match rows with [] => [] | first :: _ => [Names (map fst first)] end) ++ map (fun row => Values (map snd row)) rows /\
    forall i, dk' (array_file (dir k) i) = match nth_error groups i with Some group => Array (repeat (last group []) (length group)) | None => Absent end.
  Proof.
    intros dk m x us w Ab O W dk' rows groups.
    assert (P : proper (dir k)) by (apply full_path_proper; [apply name_no_slash; apply Names_fit|apply name_nonempty]).
    destruct (saver_spec w x us W) as (n & c & E & Fn & Fc).
    destruct (stored_all (dir k) P (proj2 (proj2 (Names_fit k))) k m x us dk (fun _ => Idle) n c Ab eq_refl E) as (M & T & Ar).
    rewrite <- O in M, T, Ar. unfold dk'. split; [|split].
    - rewrite C123_as_if_alone by reflexivity. exact M.
    - unfold table_at in *. rewrite C123_as_if_alone by reflexivity. rewrite T, Fc. unfold row_of. reflexivity.
    - intros i. unfold array_file. rewrite C123_as_if_alone by apply array_no_slash. fold (array_file (dir k) i). rewrite Ar, Fn. unfold numbered. rewrite numbered_snd, nth_error_map.
      unfold groups, state_of. destruct (nth_error _ i); reflexivity.
  Qed.
End Runs.
Print Assumptions C123_as_if_alone.
Print Assumptions C123_runs_do_not_mix.
(** The metadata a simulation starts with are its name and the moment it was made, and the
    new directory begins with them. *)
Theorem C123_metadata : forall A (dk : disk A) cwd base name t x, real_moment t -> no_slash name ->
  let d := full_path cwd base (name_with_timestamp name t) in
  no_braces d -> (forall f, dk (file_of d f) = Absent) ->
  fst (act_all dk (fun _ => Idle) [(0, Create d (new_metadata name t) x)]) (file_of d "metadata.csv") =
    Table [Names ["name"; "timestamp"]; Values [name; str_moment t]]%string.
Proof.
  intros A dk cwd base name t x T S d B Ab.
  assert (P : proper d) by (apply full_path_proper; [now apply name_no_slash|apply name_nonempty]).
  destruct (saver_spec 0 x (@nil (list A * dict string string * bool)) (fun _ _ _ H => match H with end)) as (n & c & E & _ & _).
  exact (proj1 (stored_all d P B 0 (new_metadata name t) x [] dk (fun _ => Idle) n c Ab eq_refl E)).
Qed.
Print Assumptions C123_metadata.

(** Two simulations saved to one directory, be it given explicitly: the second one replaces
    the arrays of the first and appends to its table, names included. *)
Theorem C123_same_directory_refuted : forall A d m m' (x y x' y' : list A) r r', proper d -> no_braces d ->
  let dk := fst (act_all (fun _ => Absent) (fun _ => Idle) [(0, Create d m x'); (1, Create d m' y'); (0, Update (x, r, true)); (1, Update (y, r', true))]) in
  dk (array_file d 0) = Array [y] /\ dk (array_file d 1) = Absent /\
  table_at dk (file_of d "data.csv") = [Names (map fst r); Values (map snd r); Names (map fst r'); Values (map snd r')].
Proof.
  intros A d m m' x y x' y' r r' P B dk.
  assert (C : forall (dk : disk A) m x, exists c, create dk d m x = Ok (put dk (file_of d "metadata.csv") c, Saver d (npy_start (fun _ => x)) (csv_start []))).
  { intros dk0 m0 x0. unfold create. rewrite (csv_file d "metadata") by (auto; reflexivity). eexists. reflexivity. }
  assert (U : forall (dk : disk A) x' x r, exists sv, update_on dk (Saver d (npy_start (fun _ => x')) (csv_start [])) (x, r, true) =
    Ok (put (put dk (array_file d 0) (Array [x])) (file_of d "data.csv") (Table (table_at dk (file_of d "data.csv") ++ [Names (map fst r); Values (map snd r)])), sv)).
  { intros dk0 x0 x1 r0. unfold update_on. cbn [sv_directory sv_npy sv_csv]. rewrite (csv_file d "data") by (auto; reflexivity). eexists.
    cbn [npy_start npy_run npy_step n_expects_dump n_index n_heap n_buffer n_files rbind app]. rewrite array_path by assumption.
    cbn [npy_start npy_run npy_step n_expects_dump n_index n_heap n_buffer n_files rbind app vstack map write Nat.eqb forallb csv_start on_disk csv_run csv_step c_expects_dump c_header c_file c_buffer].
    do 3 f_equal. change ("data" ++ ".csv")%string with "data.csv"%string. do 2 f_equal. unfold table_at, put. rewrite data_array. reflexivity. }
  unfold dk. clear dk. remember (act_all _ _ _) as final eqn:E. cbn [act_all] in E. unfold act at 1 in E. destruct (C (fun _ => Absent) m x') as [c1 Q1]. rewrite Q1 in E. unfold act at 1 in E. cbn [set_status Nat.eqb] in E.
  match type of E with context [create ?dk d m' y'] => destruct (C dk m' y') as [c2 Q2] end. rewrite Q2 in E. unfold act at 1 in E. cbn [set_status Nat.eqb] in E.
  match type of E with context [update_on ?dk (Saver d (npy_start (fun _ => x')) _) _] => destruct (U dk x' x r) as [sv1 Q3] end. rewrite Q3 in E. unfold act in E. cbn [set_status Nat.eqb] in E.
  match type of E with context [update_on ?dk (Saver d (npy_start (fun _ => y')) _) _] => destruct (U dk y' y r') as [sv2 Q4] end. rewrite Q4 in E. subst final. cbn [fst].
  assert (N : String.eqb (file_of d "data.csv") (file_of d "metadata.csv") = false) by (apply files_differ; [reflexivity|reflexivity|discriminate]).
  unfold table_at, put. repeat first [rewrite array_data|rewrite data_array|rewrite String.eqb_refl|rewrite array_meta|rewrite (array_array d 1 0) by discriminate|rewrite N].
  split; [reflexivity|]. split; reflexivity.
Qed.
Print Assumptions C123_same_directory_refuted.
(** A directory that starts with a slash is taken as it is, the base directory is ignored. *)
Theorem C123_base_ignored_refuted : forall cwd base directory, startswith directory "/" = true -> full_path cwd base directory = directory.
Proof. intros cwd base directory H. unfold full_path, path_join. now rewrite H. Qed.
Print Assumptions C123_base_ignored_refuted.
(** Paths without empty parts, "." and ".." stay as they are; two slashes in front stay two,
    three and more become one. *)
Theorem C123_clean_paths : forall p ps, (forall q, In q (p :: ps) -> clean_part q) ->
  let path := String.concat "/" (p :: ps) in
  normpath path = path /\ normpath ("/" ++ path) = ("/" ++ path)%string /\ normpath ("//" ++ path) = ("//" ++ path)%string /\
  forall k, normpath ("///" ++ slashes k ++ path) = ("/" ++ path)%string.
Proof. exact clean_normpath. Qed.
Print Assumptions C123_clean_paths.
(** With a brace anywhere in the directory no array arrives in its file. *)
Theorem C123_braces_refuted : forall d i, proper d -> ~ no_braces d -> npy_path d "agents" i <> Ok (array_file d i).
Proof. exact braces_break. Qed.
Print Assumptions C123_braces_refuted.

(** The name of a directory; the same second with and without microseconds; a path with
    dots; a brace. *)
Definition noon : moment := Moment 2017 5 9 12 0 7 0.
Definition after_noon : moment := Moment 2017 5 9 12 0 7 42.
Example C123_names : name_with_timestamp "Outdoor" noon = "Outdoor_2017-05-09_12:00:07+00:00"%string /\
  name_with_timestamp "Outdoor" after_noon = "Outdoor_2017-05-09_12:00:07.000042+00:00"%string /\
  full_path "/home/me/work" "../results/." "Outdoor_2017" = "/home/me/results/Outdoor_2017"%string /\
  npy_path "/tmp/{a}" "agents" 3 = Err KeyError /\ npy_path "/tmp/{{a}}" "agents" 3 = Ok "/tmp/{a}/agents_3.npy"%string.
Proof. repeat split; vm_compute; reflexivity. Qed.
(** Two simulations of one name that started within one second save in turns. *)
Example C123_case :
  let dir j := full_path "/home/me" "." (name_with_timestamp "Outdoor" (if j =? 0 then noon else Moment 2017 5 9 12 0 7 (S j))) in
  let l := [(0, Create (dir 0) (new_metadata "Outdoor" noon) [5]); (7, Create (dir 7) [] [6]); (0, Update ([1], [("t", "1")], true)); (7, Update ([2], [], true)); (0, Update ([3], [("t", "2")], true))]%string in
  let dk := fst (act_all (fun _ => Absent) (fun _ => Idle) l) in
  dk (array_file (dir 0) 0) = Array [[1]] /\ dk (array_file (dir 0) 1) = Array [[3]] /\ dk (array_file (dir 7) 0) = Array [[2]] /\ dk (array_file (dir 7) 1) = Absent /\
  dk (file_of (dir 0) "metadata.csv") = Table [Names ["name"; "timestamp"]; Values ["Outdoor"; "2017-05-09 12:00:07+00:00"]]%string.
Proof. intros dir l dk. repeat split; vm_compute; reflexivity. Qed.
