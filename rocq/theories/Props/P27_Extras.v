(** * Properties C118 to C121: files put together, options of run, potentials, csv text *)
From Coq Require Import Permutation Lra Lia String Ascii.
From Verif Require Import Model.Base Model.Extras Model.PowerLaw Model.Storage Model.CommandLine Model.CsvText Model.Geom2D.
From Verif Require Import Proofs.VecLemmas Spec.Records Spec.Tools Spec.Collide Proofs.StorageProofs Proofs.ExtraProofs Proofs.CsvProofs Proofs.ToolProofs.
Import StringSyntax.
Open Scope list_scope.

(** ** C118 *)
Theorem C118_concatenates_partial : forall A basename (contents : list (list (list A))) files, without_digits basename -> contents <> [] ->
  Permutation (filter (fun f => startswith (fst f) basename && endswith (fst f) ".npy")%bool files)
              (map (fun '(i, c) => (npy_name basename i, c)) (numbered contents)) ->
  exists files', concat_npy files (Some basename) = Ok files' /\
    In ((basename ++ ".npy")%string, List.concat contents) files' /\
    forall f, fst f <> (basename ++ ".npy")%string -> (In f files' <-> In f files).
Proof.
  intros A b contents files D N P. cbn [concat_npy]. unfold load_npy_concatenated. rewrite (load_npy_spec b contents files D P). cbn [rbind]. destruct contents as [|c cs]; [easy|].
  eexists. split; [reflexivity|]. split; [apply write_in|]. intros f. apply write_others.
Qed.
Print Assumptions C118_concatenates_partial.
(** After that nothing can be loaded under this base name any more: not by
    [load_npy], not by a second call. *)
Theorem C118_again_refuted : forall A basename (files files' listing : list (string * list (list A))),
  concat_npy files (Some basename) = Ok files' -> Permutation listing files' ->
  load_npy listing basename = Err ValueError /\ concat_npy listing (Some basename) = Err ValueError.
Proof.
  intros A b files files' listing E P. cbn [concat_npy] in E. destruct (load_npy_concatenated files b) as [arr|e]; [|discriminate]. cbn [rbind] in E. injection E as <-.
  assert (F : find_npy_files listing b = Err ValueError). { eapply find_fails. eapply Permutation_in; [symmetry; exact P|]. apply write_in. }
  assert (L : load_npy listing b = Err ValueError) by (unfold load_npy; now rewrite F). split; [exact L|]. cbn [concat_npy]. unfold load_npy_concatenated. now rewrite L.
Qed.
Print Assumptions C118_again_refuted.
(** A base name under which nothing is saved is refused, and so is the command without
    a base name; nothing is written then. *)
Theorem C118_nothing_there : forall A basename (files : list (string * list (list A))),
  (forall f, In f files -> startswith (fst f) basename = true -> endswith (fst f) ".npy" = true -> False) ->
  load_npy files basename = Ok [] /\ concat_npy files (Some basename) = Err ValueError.
Proof.
  intros A b files N. assert (F : find_npy_files files b = Ok []).
  { induction files as [|[n c] files IH]; [reflexivity|]. cbn [find_npy_files].
    assert (X : (startswith n b && endswith n ".npy")%bool = false).
    { apply not_true_is_false. intros X. apply andb_prop in X as [X Y]. exact (N (n, c) (or_introl eq_refl) X Y). }
    rewrite X. apply IH. intros f I. apply N. now right. }
  assert (L : load_npy files b = Ok []) by (unfold load_npy; now rewrite F).
  split; [exact L|]. cbn [concat_npy]. unfold load_npy_concatenated. now rewrite L.
Qed.
Print Assumptions C118_nothing_there.
(** Without a base name, which the command does not ask for, it fails; how depends on whether
    there is a file at all. *)
Theorem C118_no_basename : forall A (files : list (string * list (list A))),
  concat_npy files None = Err (match files with [] => ValueError | _ :: _ => TypeError end).
Proof. intros A [|f files]; reflexivity. Qed.
Print Assumptions C118_no_basename.
Example C118_case : let files := [("agents_1.npy", [[2]]); ("agents_0.npy", [[1]]); ("data.csv", [])]%string in
  without_digits "agents" /\
  Permutation (filter (fun f => startswith (fst f) "agents" && endswith (fst f) ".npy")%bool files) (map (fun '(i, c) => (npy_name "agents" i, c)) (numbered [[[1]]; [[2]]])) /\
  concat_npy files (Some "agents"%string) = Ok (files ++ [("agents.npy"%string, [[1]; [2]])]).
Proof.
  cbv zeta. split; [|split; [|reflexivity]].
  - intros c H. destruct (has_char c "agents") eqn:E; [|reflexivity]. exfalso. cbn in H, E. rewrite !Bool.orb_true_iff in *. rewrite !Ascii.eqb_eq in *. intuition (subst; discriminate).
  - cbn. apply perm_swap.
Qed.

(** ** C119 *)
Lemma group_args s lvl num names : lvl <> None \/ num <> None \/ names <> [] -> run_group s lvl num names =
  match choice loglevels (match lvl with Some t => LName t | None => LNumber 20 end) with
  | Err e => ([], Err e)
  | Ok _ => match names with
      | [] => ([], Err (OtherError 3))
      | _ => if forallb (fun n => match CommandLine.get n (c_list s) with Some _ => true | None => false end) names then call_all s names else ([], Err (OtherError 3))
      end
  end.
Proof. intros H. unfold run_group. destruct lvl, num, names; try reflexivity. destruct H as [H|[H|H]]; now destruct H. Qed.
Lemma known_level lvl : (forall t, lvl = Some t -> In t ["CRITICAL"; "FATAL"; "ERROR"; "WARNING"; "WARN"; "INFO"; "DEBUG"; "NOTSET"]%string) ->
  exists v, choice loglevels (match lvl with Some t => LName t | None => LNumber 20 end) = Ok v.
Proof.
  intros L. destruct lvl as [t|]; [|eexists; reflexivity]. specialize (L t eq_refl). exists (LName t). unfold choice. assert (X : existsb (level_eqb (LName t)) loglevels = true); [|now rewrite X].
  apply existsb_exists. exists (LName t). split; [|cbn; apply String.eqb_refl]. unfold loglevels. apply in_or_app. right. now apply in_map.
Qed.
Theorem C119_once_each_partial : forall fs lvl num names cs, names <> [] ->
  (forall t, lvl = Some t -> In t ["CRITICAL"; "FATAL"; "ERROR"; "WARNING"; "WARN"; "INFO"; "DEBUG"; "NOTSET"]%string) ->
  Forall2 (fun n c => script fs n = Ok c) names cs ->
  script_run fs lvl num names = (cs, Ok tt).
Proof.
  intros fs lvl num names cs N L F. unfold script_run. assert (S : exists s, simulation_commands fs = Ok s /\ Forall2 (fun n c => call_command s n = Ok c) names cs).
  { unfold script in F. destruct (simulation_commands fs) as [s|e]; [exists s; split; auto|]. inversion F; subst; [easy|discriminate]. }
  destruct S as (s & -> & F'). clear F. rewrite group_args by auto.
  destruct (known_level lvl L) as [v ->]. destruct names as [|n0 names0]; [easy|]. set (names := n0 :: names0) in *.
  assert (K : forallb (fun n => match CommandLine.get n (c_list s) with Some _ => true | None => false end) names = true).
  { apply forallb_forall. intros n I. clear - F' I. induction F' as [|a b l l' H F IH]; [easy|]. destruct I as [-> | I]; [|now apply IH]. unfold call_command in H. destruct (CommandLine.get n (c_list s)); [reflexivity|discriminate]. }
  rewrite K. clear - F'. induction F' as [|a b l l' H F IH]; [reflexivity|]. cbn [call_all]. now rewrite H, IH.
Qed.
Print Assumptions C119_once_each_partial.
(** An unknown name among the others: nothing is run; if nothing else is wrong, it is a usage
    error ([OtherError 3]). *)
Theorem C119_unknown_name : forall fs lvl num names n, Forall one_each fs -> In n names -> (forall c, ~ means fs n c) ->
  fst (script_run fs lvl num names) = [] /\ (exists e, snd (script_run fs lvl num names) = Err e) /\
  (forall s, simulation_commands fs = Ok s -> (forall t, lvl = Some t -> In t ["CRITICAL"; "FATAL"; "ERROR"; "WARNING"; "WARN"; "INFO"; "DEBUG"; "NOTSET"]%string) ->
   snd (script_run fs lvl num names) = Err (OtherError 3)).
Proof.
  intros fs lvl num names n O I U. unfold script_run. destruct (simulation_commands fs) as [s|e] eqn:S; [|split; [reflexivity|split; [eexists; reflexivity|discriminate]]].
  assert (G : CommandLine.get n (c_list s) = None).
  { destruct (CommandLine.get n (c_list s)) eqn:G; [|reflexivity]. exfalso. destruct (proj1 (commands_listed fs O s S n)) as [c M]; [|now apply (U c)]. clear - G. induction (c_list s) as [|[k v] m IH]; [discriminate|]. cbn in G |- *. destruct (String.eqb n k) eqn:E; [left; symmetry; now apply String.eqb_eq|right; auto]. }
  assert (NE : names <> []) by (intros ->; destruct I).
  assert (K : forallb (fun n => match CommandLine.get n (c_list s) with Some _ => true | None => false end) names = false).
  { apply not_true_is_false. intros H. rewrite forallb_forall in H. specialize (H n I). now rewrite G in H. }
  rewrite group_args by auto. pose proof (known_level lvl) as KL. destruct names as [|n0 names0]; [easy|]. rewrite K.
  destruct (choice _ _) as [v|e]; [split; [reflexivity|split; [eexists; reflexivity|reflexivity]]|]. split; [reflexivity|]. split; [eexists; reflexivity|].
  intros s' _ L. destruct (KL L) as [v [=]].
Qed.
Print Assumptions C119_unknown_name.
Definition hall := Cls 1 true [].
Definition halls := [File ".py" (Ok [("Hallway"%string, Subclass hall)])].
(** [--num 3] does not run the simulation three times. *)
Theorem C119_num_refuted : exists fs n c, script fs n = Ok c /\ forall num, script_run fs None num [n] = ([c], Ok tt).
Proof.
  exists halls, "Hallway"%string, hall. split; [reflexivity|]. intros num. apply C119_once_each_partial; [easy|easy|]. repeat constructor.
Qed.
Print Assumptions C119_num_refuted.
(** Levels given by number, or misspelled, raise TypeError instead of a usage error; so
    does [run --help]. *)
Theorem C119_level_refuted : forall fs s t num names, simulation_commands fs = Ok s ->
  ~ In t ["CRITICAL"; "FATAL"; "ERROR"; "WARNING"; "WARN"; "INFO"; "DEBUG"; "NOTSET"]%string ->
  script_run fs (Some t) num names = ([], Err TypeError).
Proof.
  intros fs s t num names S N. unfold script_run. rewrite S. rewrite group_args by (left; discriminate). unfold choice. assert (X : existsb (level_eqb (LName t)) loglevels = false).
  { apply not_true_is_false. intros H. apply existsb_exists in H. destruct H as (v & I & E). unfold loglevels in I. apply in_app_or in I. destruct I as [I|I]; apply in_map_iff in I; destruct I as (w & <- & I); cbn in E; [discriminate|]. apply String.eqb_eq in E. subst. contradiction. }
  now rewrite X.
Qed.
Print Assumptions C119_level_refuted.
Theorem C119_help_refuted : run_help = Err TypeError.
Proof. reflexivity. Qed.
Print Assumptions C119_help_refuted.
(** Without any name nothing is run: options alone are a usage error, and without options the
    help is to be shown, which raises. *)
Theorem C119_no_names : forall fs s lvl num, simulation_commands fs = Ok s ->
  (forall t, lvl = Some t -> In t ["CRITICAL"; "FATAL"; "ERROR"; "WARNING"; "WARN"; "INFO"; "DEBUG"; "NOTSET"]%string) ->
  fst (script_run fs lvl num []) = [] /\ snd (script_run fs lvl num []) = Err (match lvl, num with None, None => TypeError | _, _ => OtherError 3 end).
Proof.
  intros fs s lvl num S L. unfold script_run. rewrite S. destruct lvl as [t|], num as [n|]; try (rewrite group_args by (left; discriminate)); try (rewrite group_args by (right; left; discriminate));
    try (destruct (known_level _ L) as [v ->]; split; reflexivity). split; reflexivity.
Qed.
Print Assumptions C119_no_names.
(** Were the levels all names, an unknown one would be a usage error. *)
Theorem C119_named_levels : forall names v, ~ In v names -> choice (map LName names) (LName v) = Err (OtherError 3).
Proof.
  intros names v N. unfold choice. assert (X : existsb (level_eqb (LName v)) (map LName names) = false).
  { apply not_true_is_false. intros H. apply existsb_exists in H as (w & I & E). apply in_map_iff in I as (u & <- & I). cbn in E. apply String.eqb_eq in E. subst. contradiction. }
  rewrite X. assert (J : joinable (map LName names) = true) by (unfold joinable; apply forallb_forall; intros x I; apply in_map_iff in I as (u & <- & _); reflexivity). now rewrite J.
Qed.
Print Assumptions C119_named_levels.
Example C119_case : script halls "Hallway" = Ok hall /\ ~ In "20"%string ["CRITICAL"; "FATAL"; "ERROR"; "WARNING"; "WARN"; "INFO"; "DEBUG"; "NOTSET"]%string /\
  script_run halls (Some "DEBUG"%string) (Some 1%nat) ["Hallway"; "Hallway"]%string = ([hall; hall], Ok tt).
Proof. split; [reflexivity|]. split; [cbn; intuition discriminate|reflexivity]. Qed.

(** ** C120 *)
Open Scope R_scope.
Theorem C120_magnitude_is_slope : forall k tau tau_0 m, 0 < tau -> magnitude tau tau_0 = Ok m ->
  exists E : R -> R, (forall t, 0 < t -> potential k t tau_0 = Ok (E t)) /\ derivable_pt_lim E tau (- (k * m)) /\ E tau = interaction_energy 1 k tau_0 tau.
Proof.
  intros k tau tau_0 m T M. unfold magnitude in M. destruct (Reqb tau_0 0) eqn:Z; [discriminate|]. injection M as <-. assert (N : tau_0 <> 0) by (intros ->; rewrite (proj2 (Reqb_true 0 0) eq_refl) in Z; discriminate).
  exists (fun t => k / (t * t) * exp (- t / tau_0)). split; [|split].
  - intros t P. unfold potential. rewrite Z. assert (X : Reqb t 0 = false) by (apply Reqb_false; lra). now rewrite X.
  - now apply potential_deriv.
  - unfold interaction_energy. rewrite Rmult_1_l. f_equal. f_equal. ring.
Qed.
Print Assumptions C120_magnitude_is_slope.
(** Without time to the collision, or without a scale of time, there is no energy. *)
Theorem C120_no_energy : forall k tau tau_0, potential k 0 tau_0 = Err ZeroDivisionError /\ potential k tau 0 = Err ZeroDivisionError /\
  magnitude tau 0 = Err ZeroDivisionError.
Proof.
  intros k tau tau_0. unfold potential, magnitude. rewrite (proj2 (Reqb_true 0 0) eq_refl). rewrite orb_true_r. repeat split.
Qed.
Print Assumptions C120_no_energy.
Theorem C120_bounding_box : forall points, points <> [] -> (forall p, In p points -> (2 <= List.length p)%nat) ->
  exists xmin xmax ymin ymax, bounding_box points = Ok [(xmin, xmax); (ymin, ymax)] /\
    (forall p, In p points -> xmin <= nth 0 p 0 <= xmax /\ ymin <= nth 1 p 0 <= ymax) /\
    (exists p, In p points /\ nth 0 p 0 = xmin) /\ (exists p, In p points /\ nth 0 p 0 = xmax) /\
    (exists p, In p points /\ nth 1 p 0 = ymin) /\ (exists p, In p points /\ nth 1 p 0 = ymax).
Proof.
  intros [|p points] N W; [easy|]. unfold bounding_box, Extras.column. cbn [map minimum maximum rbind].
  set (xs := map (fun q => nth 0 q 0) points). set (ys := map (fun q => nth 1 q 0) points).
  destruct (fold_min xs (nth 0 p 0)) as [A1 A2]. destruct (fold_max xs (nth 0 p 0)) as [B1 B2]. destruct (fold_min ys (nth 1 p 0)) as [C1 C2]. destruct (fold_max ys (nth 1 p 0)) as [D1 D2].
  do 4 eexists. split; [reflexivity|].
  assert (X : forall q, In q (p :: points) -> In (nth 0 q 0) (nth 0 p 0 :: xs)) by (intros q [-> | I]; [now left|right; unfold xs; now apply (in_map (fun q => nth 0 q 0))]).
  assert (Y : forall q, In q (p :: points) -> In (nth 1 q 0) (nth 1 p 0 :: ys)) by (intros q [-> | I]; [now left|right; unfold ys; now apply (in_map (fun q => nth 1 q 0))]).
  assert (X' : forall x, In x (nth 0 p 0 :: xs) -> exists q, In q (p :: points) /\ nth 0 q 0 = x) by (intros x [<- | I]; [exists p; split; [now left|reflexivity]|unfold xs in I; apply in_map_iff in I; destruct I as (q & <- & I); exists q; split; [now right|reflexivity]]).
  assert (Y' : forall x, In x (nth 1 p 0 :: ys) -> exists q, In q (p :: points) /\ nth 1 q 0 = x) by (intros x [<- | I]; [exists p; split; [now left|reflexivity]|unfold ys in I; apply in_map_iff in I; destruct I as (q & <- & I); exists q; split; [now right|reflexivity]]).
  split; [|repeat split; auto]. intros q I. specialize (X q I). specialize (Y q I). repeat split; auto.
Qed.
Print Assumptions C120_bounding_box.
(** No points have no box. *)
Theorem C120_no_points : bounding_box [] = Err ValueError.
Proof. reflexivity. Qed.
Print Assumptions C120_no_points.
(** Documented: one pair for each dimension of the points. *)
Theorem C120_three_dimensions_refuted : forall points l, bounding_box points = Ok l -> List.length l = 2%nat.
Proof.
  intros points l E. unfold bounding_box in E. destruct (minimum (Extras.column 0 points)); [|discriminate]. cbn [rbind] in E. destruct (maximum (Extras.column 0 points)); [|discriminate]. cbn [rbind] in E.
  destruct (minimum (Extras.column 1 points)); [|discriminate]. cbn [rbind] in E. destruct (maximum (Extras.column 1 points)); [|discriminate]. cbn [rbind] in E. now injection E as <-.
Qed.
Print Assumptions C120_three_dimensions_refuted.
Theorem C120_rectangle_area : forall xmin xmax ymin ymax, xmin <= xmax -> ymin <= ymax ->
  polygon_area (rectangle_corners xmin xmax ymin ymax) = (xmax - xmin) * (ymax - ymin).
Proof.
  intros a b c d H1 H2. unfold polygon_area, rectangle_corners. cbn. match goal with |- context [Rabs ?e] => replace e with (- (2 * ((b - a) * (d - c)))) by ring end.
  rewrite Rabs_Ropp, Rabs_pos_eq by nra. lra.
Qed.
Print Assumptions C120_rectangle_area.
Example C120_case : bounding_box [[1; 5; 7]; [3; 2; 9]] = Ok [(1, 3); (2, 5)] /\ magnitude 1 3 = Ok ((2 / 1 + 1 / 3) * exp (- 1 / 3) / (1 * 1)).
Proof.
  split.
  - unfold bounding_box, Extras.column. cbn. unfold Rmin, Rmax. repeat match goal with |- context [Rle_dec ?a ?b] => destruct (Rle_dec a b); try lra end. reflexivity.
  - unfold magnitude. assert (X : Reqb 3 0 = false) by (apply Reqb_false; lra). now rewrite X.
Qed.
Open Scope list_scope.

(** ** C121 *)
Theorem C121_written_rows_are_read : forall rows, read_csv (write_rows rows) = Some rows.
Proof. exact read_back. Qed.
Print Assumptions C121_written_rows_are_read.
(** Fields without commas, quotes and line breaks stand in the file as they are, with
    commas between them and CR LF at the end. *)
Theorem C121_plain_fields : forall f g rest, (forall x c, In x (f :: g :: rest) -> In c x -> ~ In c [","; """"; ascii_of_nat 10; ascii_of_nat 13]%char) ->
  write_row (f :: g :: rest) = f ++ fold_right (fun x t => ","%char :: x ++ t) [] (g :: rest) ++ [ascii_of_nat 13; ascii_of_nat 10].
Proof.
  assert (W : forall x, (forall c, In c x -> ~ In c [","; """"; ascii_of_nat 10; ascii_of_nat 13]%char) -> write_field x = x).
  { intros x H. unfold write_field. replace (existsb needs_quotes x) with false; [reflexivity|]. symmetry. apply not_true_is_false. intros E. apply existsb_exists in E. destruct E as (c & I & E).
    apply (H c I). unfold needs_quotes, line_break in E. rewrite !orb_true_iff, !Ascii.eqb_eq in E. unfold comma, quote, LF, CR in E. destruct E as [[-> | ->] | [-> | ->]]; [now left|right; now left|right; right; now left|right; right; right; now left]. }
  intros f g rest H. unfold write_row. assert (J : forall l f, (forall x c, In x (f :: l) -> In c x -> ~ In c [","; """"; ascii_of_nat 10; ascii_of_nat 13]%char) ->
    join_fields (f :: l) = f ++ fold_right (fun x t => ","%char :: x ++ t) [] l).
  { clear - W. induction l as [|g l IH]; intros f H.
    - cbn. rewrite W by (intros c; apply H; now left). now rewrite app_nil_r.
    - change (join_fields (f :: g :: l)) with (write_field f ++ comma :: join_fields (g :: l)). rewrite IH by (intros x c I; apply H; now right).
      rewrite W by (intros c; apply H; now left). reflexivity. }
  rewrite app_assoc, <- J by exact H. destruct f; reflexivity.
Qed.
Print Assumptions C121_plain_fields.
(** With C58: the reader of the file finds the names of the first row, then the values of
    every row up to the last dump. *)
Theorem C121_file_is_read : forall K D (show_key : K -> text) (show_value : D -> text) (es : list (csv_event K D)), csv_in_protocol false es ->
  exists s, csv_run (csv_start []) es = Ok s /\
    read_csv (file_text show_key show_value (c_file s)) =
    Some ((match dumped_rows [] es with [] => [] | first :: _ => [map show_key (map fst first)] end)
          ++ map (fun row => map show_value (map snd row)) (dumped_rows [] es)).
Proof.
  intros K D sk sv es P. destruct (csv_spec es [] P) as (s & E & F). exists s. split; [exact E|]. rewrite F, file_rows, read_back. f_equal. cbn [app]. rewrite map_app. f_equal; [destruct (dumped_rows [] es); reflexivity|]. now rewrite map_map.
Qed.
Print Assumptions C121_file_is_read.
(** A name with a comma, a value with a quote and a line break, an empty value. *)
Example C121_case : read_csv (write_rows [[[comma]; [quote; LF]]; [[]]; []; [[]; []]]) = Some [[[comma]; [quote; LF]]; [[]]; []; [[]; []]] /\
  write_row [[comma]; [quote]] = [quote; comma; quote; comma; quote; quote; quote; quote; CR; LF].
Proof. split; reflexivity. Qed.
