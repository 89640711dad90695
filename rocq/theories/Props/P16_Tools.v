(** * Properties C63, C64, C65, C67, C90, C91, C92: tools around the simulation *)
From Coq Require Import Lra Lia.
From Verif Require Import Model.Quantities Model.CommandLine Model.WorkDir Model.Aspect Model.AgentObject.
From Verif Require Import Spec.Densities Spec.Tools Spec.Traits Proofs.VecLemmas Proofs.DensityProofs Proofs.ToolProofs Proofs.TraitProofs Proofs.AgentObjectProofs.
Open Scope list_scope.

(** ** C63 *)
(** The commands are those of the classes in the .py files, the last one for a name
    that occurs twice. *)
Theorem C63_commands_listed : forall fs s, Forall one_each fs -> simulation_commands fs = Ok s ->
  forall n, In n (map fst (c_list s)) <-> exists c, means fs n c.
Proof. intros fs s O E. now apply commands_listed. Qed.
Print Assumptions C63_commands_listed.
(** Run as a script with one class that has no traits of its own, the command of the
    class runs it. Missing: several classes, and options; both are refuted below. *)
Theorem C63_single_partial : forall fs n c, Forall one_each fs -> importable fs ->
  means fs n c -> (forall m d, means fs m d -> d = c) -> no_own_traits c -> script fs n = Ok c.
Proof. intros fs n c O. now apply script_single. Qed.
Print Assumptions C63_single_partial.
(** With several classes all commands without options run the same class. *)
Theorem C63_last_class_refuted : forall fs s, Forall one_each fs -> simulation_commands fs = Ok s -> (exists n c, means fs n c) ->
  exists d m, means fs m d /\ forall n c, means fs n c -> no_own_traits c -> script fs n = Ok d.
Proof. intros fs s O. now apply script_last. Qed.
Print Assumptions C63_last_class_refuted.
(** The command of a class that has options fails. *)
Theorem C63_options_refuted : forall fs s n c nm t, Forall one_each fs -> simulation_commands fs = Ok s ->
  means fs n c -> own_trait c nm t -> script fs n = Err TypeError.
Proof. intros fs s n c nm t O. now apply script_options. Qed.
Print Assumptions C63_options_refuted.
(** One trait that has no option makes all commands fail. *)
Theorem C63_bad_trait_refuted : forall fs n c nm t e, Forall one_each fs -> importable fs ->
  means fs n c -> own_trait c nm t -> trait_to_option nm (ATrait t) = Err e -> forall m, exists e', script fs m = Err e'.
Proof. intros fs n c nm t e O Im M T B m. eapply script_bad_trait; eauto. Qed.
Print Assumptions C63_bad_trait_refuted.
(** The installed command has no simulation commands. *)
Theorem C63_installed_refuted : forall fs n c, means fs n c -> forall d, installed fs n <> Ok d.
Proof. intros fs n c _ d. discriminate. Qed.
Print Assumptions C63_installed_refuted.

Definition hallway := Cls 1 true [("attributes"%string, APlain)].
Definition rooms := Cls 2 true [("attributes"%string, APlain)].
Definition sized := Cls 3 true [("width"%string, ATrait TFloat)].
Definition fields_ := Cls 4 true [("field"%string, ATrait TOther)].
Definition module_of (l : list (string * object)) := File ".py" (Ok l).
Definition readme := File ".md" (Err (OtherError 9)).
Example C63_single_ex :
  let fs := [readme; module_of [("MultiAgentSimulation"%string, BaseClass); ("Hallway"%string, Subclass hallway)]] in
  Forall one_each fs /\ importable fs /\ means fs "Hallway" hallway /\ (forall m d, means fs m d -> d = hallway) /\ no_own_traits hallway.
Proof.
  cbn zeta. set (f := module_of _).
  assert (D : forall n c, defines f n c <-> n = "Hallway"%string /\ c = hallway).
  { intros n c. unfold defines, f, module_of; cbn. split.
    - intros (_ & v & [= <-] & [H|[H|[]]]); [discriminate|]. now injection H as <- <-.
    - intros [-> ->]. split; auto. eexists; split; [reflexivity|]. right; now left. }
  split. { repeat constructor; intros v [= <-]. cbn. repeat constructor; cbn; intuition discriminate. }
  split. { intros g [<-|[<-|[]]]; [discriminate|eauto]. eexists; reflexivity. }
  split. { apply (MLast [readme]). now apply D. }
  split.
  - intros m d H. inversion H as [fs' f' ? ? H1 E'|fs' f' ? ? H1 H2 E']; subst.
    + change [readme; f] with ([readme] ++ [f]) in E'. apply app_inj_tail in E' as [-> ->]. now apply D in H1.
    + change [readme; f] with ([readme] ++ [f]) in E'. apply app_inj_tail in E' as [-> ->].
      inversion H2 as [fs' f' ? ? H3 E'|fs' f' ? ? H3 H4 E']; subst; change [readme] with ([] ++ [readme]) in E'; apply app_inj_tail in E' as [-> ->].
      * destruct H3 as [H3 _]. discriminate.
      * inversion H4 as [fs' f' ? ? H5 E'|fs' f' ? ? H5 H6 E']; destruct fs'; discriminate.
  - intros n t [_ [H|[]]]. discriminate.
Qed.
(** Two classes: the first command runs the second class. *)
Example C63_last_ex : script [module_of [("Hallway"%string, Subclass hallway); ("Rooms"%string, Subclass rooms)]] "Hallway" = Ok rooms.
Proof. reflexivity. Qed.
Example C63_options_ex : script [module_of [("Sized"%string, Subclass sized)]] "Sized" = Err TypeError /\
  exists s, simulation_commands [module_of [("Sized"%string, Subclass sized)]] = Ok s /\ c_list s = [("Sized"%string, [("--width"%string, Plain PyFloat)])].
Proof. split; [reflexivity|]. eexists; split; reflexivity. Qed.
Example C63_bad_trait_ex : script [module_of [("Hallway"%string, Subclass hallway); ("Fields"%string, Subclass fields_)]] "Hallway" = Err InvalidValue.
Proof. reflexivity. Qed.

(** ** C90 *)
(** An agent object accepts a row of the array when all values are within their bounds, and
    refuses all others with a TraitError. *)
Theorem C90_accepts_exactly : forall zs k row o, (exists o', from_array zs k [row] o = Ok o') <-> acceptable k row.
Proof. exact from_array_iff. Qed.
Print Assumptions C90_accepts_exactly.
Theorem C90_refusal : forall zs k row o, ~ acceptable k row -> from_array zs k [row] o = Err TraitError.
Proof.
  intros zs k row o N. destruct (from_array zs k [row] o) as [o'|e] eqn:E.
  - exfalso. apply N, (from_array_iff zs k row o). eauto.
  - f_equal. eapply from_array_error; eauto.
Qed.
Print Assumptions C90_refusal.
Open Scope R_scope.
Example C90_ex : acceptable Circular (set_target_direction (V (3/5) (4/5)) (set_radius (1/4) default_row)) /\
  ~ acceptable Circular (set_target_direction (V (1/2) (1/2)) (set_radius (1/4) default_row)).
Proof.
  split.
  - unfold acceptable. split; [|split; [|split; [|split]]].
    + rewrite !Forall_cons_iff. cbn. repeat split; try lra. constructor.
    + cbn. lia.
    + cbn. lia.
    + right. cbn [set_target_direction a_target_direction vx vy]. unfold nearly. cbn.
      replace (3/5 * (3/5) + 4/5 * (4/5)) with (1 * 1) by lra. rewrite sqrt_square by lra.
      rewrite Rminus_diag_eq, Rabs_R0, Rabs_R1 by reflexivity. lra.
    + exact I.
  - intros (_ & _ & _ & H & _). cbn in H. set (s := sqrt (1/2 * (1/2) + 1/2 * (1/2))) in H.
    assert (S1 : s * s = 1/2) by (unfold s; rewrite sqrt_sqrt; lra). assert (S0 : 0 <= s) by apply sqrt_pos.
    destruct H as [H|H]; unfold nearly in H.
    + rewrite Rminus_0_r, Rabs_R0, (Rabs_pos_eq s S0) in H. nra.
    + rewrite Rabs_R1 in H. pose proof (Rle_abs (- (s - 1))) as A. rewrite Rabs_Ropp in A. nra.
Qed.

(** ** C91 *)
(** The array type of a class has one column for every trait of the class and its bases that
    is not excluded, named and typed after the trait, in the order of the classes; it exists
    when all traits have a column type and no name occurs twice. *)
Theorem C91_columns : forall mro ea ec r, class_to_struct_dtype mro ea ec = Ok r <->
  Forall2 (fun e f => column (fst e) (snd e) f) (class_traits mro ea ec) r /\ NoDup (map fst (class_traits mro ea ec)).
Proof. exact struct_dtype_iff. Qed.
Print Assumptions C91_columns.
Theorem C91_traits : forall mro ea ec n t, In (n, t) (class_traits mro ea ec) <->
  exists c, In c mro /\ excluded ec c = false /\ own_trait c n t /\ excluded ea n = false.
Proof. exact class_traits_iff. Qed.
Print Assumptions C91_traits.
Lemma nodup_app_r {A} (l m : list A) : NoDup (l ++ m) -> NoDup m.
Proof. induction l as [|a l IH]; cbn; auto. intros H. inversion H; auto. Qed.
(** A class that gives a trait of its base a new default has no array type. *)
Theorem C91_override_refuted : forall mro ea ec c1 c2 n t1 t2 r pre mid post,
  mro = pre ++ c1 :: mid ++ c2 :: post -> excluded ec c1 = false -> excluded ec c2 = false -> excluded ea n = false ->
  own_trait c1 n t1 -> own_trait c2 n t2 -> class_to_struct_dtype mro ea ec <> Ok r.
Proof.
  intros mro ea ec c1 c2 n t1 t2 r pre mid post -> X1 X2 X3 T1 T2 E. apply struct_dtype_iff in E as [_ E].
  unfold class_traits in E. rewrite flat_map_app, map_app in E. apply nodup_app_r in E. cbn [flat_map] in E. rewrite X1 in E.
  rewrite flat_map_app in E. cbn [flat_map] in E. rewrite X2, !map_app in E.
  assert (I1 : In n (map fst (class_own_traits c1 ea))) by (apply in_map_iff; exists (n, t1); split; auto; apply own_traits_iff; auto).
  assert (I2 : In n (map fst (class_own_traits c2 ea))) by (apply in_map_iff; exists (n, t2); split; auto; apply own_traits_iff; auto).
  revert I1 E. generalize (map fst (class_own_traits c1 ea)) as l. intros l I1 E.
  induction l as [|a l IH]; [contradiction|]. cbn in E. inversion E as [|? ? N E']; subst. destruct I1 as [->|I1]; [|auto].
  apply N. rewrite !in_app_iff. auto.
Qed.
Print Assumptions C91_override_refuted.
(** It is a ValueError when every trait has a column. *)
Theorem C91_named_twice : forall mro ea ec cols, Forall2 (fun e f => column (fst e) (snd e) f) (class_traits mro ea ec) cols ->
  ~ NoDup (map fst (class_traits mro ea ec)) -> class_to_struct_dtype mro ea ec = Err ValueError.
Proof.
  intros mro ea ec cols F D. unfold class_to_struct_dtype.
  assert (E : all_ok (fun e => trait_to_dtype (fst e) (ATrait (snd e))) (class_traits mro ea ec) = Ok cols).
  { apply all_ok_iff. eapply forall2_impl; [|exact F]. intros x y Q. now apply dtype_column. }
  destruct (all_ok _ _) as [l|e] eqn:E' in |- *; [|congruence]. cbn.
  assert (l = cols) by congruence. subst l. unfold np_dtype. destruct (repeated cols) eqn:X; [reflexivity|].
  exfalso. apply D. rewrite <- (columns_names _ _ F). now apply repeated_iff.
Qed.
Print Assumptions C91_named_twice.
Definition mixin := Cls 10 true [("radius"%string, ATrait TFloat); ("_private"%string, ATrait TOther); ("helper"%string, APlain)].
Definition own_agent := Cls 11 true [("position"%string, ATrait (TArray 0 [2%nat])); ("active"%string, ATrait TBool)].
Definition private (n : string) : bool := String.prefix "_" n.
Example C91_ex : class_to_struct_dtype [own_agent; mixin] (Some private) None =
  Ok [("position"%string, Given 0, Some [2%nat]); ("active"%string, Bool_, None); ("radius"%string, Float64, None)].
Proof. reflexivity. Qed.
Example C91_override_ex : class_to_struct_dtype [Cls 12 true [("radius"%string, ATrait TFloat)]; mixin] (Some private) None = Err ValueError.
Proof. reflexivity. Qed.

(** ** C92 *)
(** The option made of a trait has its name and its type. *)
Theorem C92_option : forall n t o, trait_to_option n (ATrait t) = Ok o -> fst o = ("--" ++ n)%string /\ option_type t (snd o).
Proof. exact option_type_iff. Qed.
Print Assumptions C92_option.
(** Every trait that has an option type gets it, except tuples with a text. *)
Theorem C92_supported_partial : forall n t o, option_type t o -> (forall ts, t = TTuple ts -> ~ In TUnicode ts) ->
  trait_to_option n (ATrait t) = Ok (("--" ++ n)%string, o).
Proof. exact option_exists. Qed.
Print Assumptions C92_supported_partial.
Theorem C92_tuple_text_refuted : forall n ts, (forall t, In t ts -> exists p, simple_type t p) -> In TUnicode ts ->
  trait_to_option n (ATrait (TTuple ts)) = Err TypeError.
Proof. exact tuple_text_fails. Qed.
Print Assumptions C92_tuple_text_refuted.
Example C92_ex : trait_to_option "size" (ATrait (TTuple [TInt None None; TFloat])) = Ok ("--size"%string, Several [PyInt; PyFloat]) /\
  option_type (TTuple [TInt None None; TUnicode]) (Several [PyInt; PyStr]).
Proof. split; [reflexivity|repeat constructor]. Qed.

(** ** C65 *)
(** For a figure with positive sizes, any data and a margin that is not negative: the
    ranges contain the data, are at least as wide as the data with margins on both sides, and
    the units per pixel have the ratio [aspect]. *)
Theorem C65_ranges : forall pw ph x y aspect margin, 0 < pw -> 0 < ph -> 0 < aspect -> 0 <= margin -> x <> [] -> y <> [] ->
  exists xa xb ya yb, set_aspect pw ph x y aspect margin = Ok ((xa, xb), (ya, yb)) /\
    (forall v, In v x -> xa <= v <= xb) /\ (forall v, In v y -> ya <= v <= yb) /\
    xa < xb /\ ya < yb /\ ((xb - xa) / pw) / ((yb - ya) / ph) = aspect /\
    (forall v w, In v x -> In w x -> (v - w) * (1 + 2 * margin) <= xb - xa) /\
    (forall v w, In v y -> In w y -> (v - w) * (1 + 2 * margin) <= yb - ya).
Proof. exact set_aspect_ok. Qed.
Print Assumptions C65_ranges.
(** Without points there is no range: numpy refuses the minimum of nothing. *)
Theorem C65_no_points : forall pw ph x y aspect margin, x = [] \/ y = [] -> set_aspect pw ph x y aspect margin = Err ValueError.
Proof. intros pw ph x y aspect margin [-> | ->]; [reflexivity|]. unfold set_aspect. destruct x; reflexivity. Qed.
Print Assumptions C65_no_points.
Example C65_ex : set_aspect 600 300 [0; 10] [0; 1] 1 0 = Ok ((0, 10), (1/2 - 5/2, 1/2 + 5/2)).
Proof.
  unfold set_aspect, rmin, rmax. cbn [fold_left]. rewrite !Rmin_left, !Rmax_right by lra. cbn [rbind]. do 4 rdec. cbn [rbind].
  f_equal. f_equal; f_equal; field.
Qed.

(** ** C67 *)
(** When the directory at the start still exists after the body, it is the working directory
    again, and the exception that comes out is that of the body (or of changing to
    [directory]); nothing else is changed. The body is any program, also one that uses
    [remember_cwd] itself, changes the directory, or fails. *)
Theorem C67_restored : forall path St name (resolve : path -> name -> path) directory body (s s' : place path St) e,
  exists_ _ _ s (cwd _ _ s) = true -> remember_cwd path St name resolve directory body s = (s', e) ->
  let target := resolve (cwd _ _ s) directory in
  let inner := if exists_ _ _ s target then body (Place _ _ target (exists_ _ _ s) (other _ _ s)) else (s, Some (OtherError 2)) in
  exists_ _ _ s' (cwd _ _ s) = true ->
  cwd _ _ s' = cwd _ _ s /\ e = snd inner /\ exists_ _ _ s' = exists_ _ _ (fst inner) /\ other _ _ s' = other _ _ (fst inner).
Proof.
  intros path St name resolve directory body s s' e X H target inner Y.
  apply remember_inv in H as (H1 & H2 & H3); auto. fold target inner in H1, H2, H3. rewrite H1 in Y. rewrite Y in H3. tauto.
Qed.
Print Assumptions C67_restored.
(** When the body removed the directory, the error of going back hides that of the body. *)
Theorem C67_removed_refuted : forall path St name (resolve : path -> name -> path) directory body (s s' : place path St) e,
  exists_ _ _ s (cwd _ _ s) = true -> remember_cwd path St name resolve directory body s = (s', e) ->
  exists_ _ _ s' (cwd _ _ s) = false ->
  e = Some (OtherError 2) /\
  cwd _ _ s' = cwd _ _ (fst (body (Place _ _ (resolve (cwd _ _ s) directory) (exists_ _ _ s) (other _ _ s)))).
Proof.
  intros path St name resolve directory body s s' e X H Y.
  apply remember_inv in H as (H1 & H2 & H3); auto. cbn zeta in *. rewrite H1 in Y. rewrite Y in H3.
  destruct (exists_ _ _ s (resolve _ _)) eqn:Z; [tauto|]. cbn in Y. congruence.
Qed.
Print Assumptions C67_removed_refuted.
(** From a directory that is gone nothing is done. *)
Theorem C67_nowhere : forall path St name (resolve : path -> name -> path) directory body (s : place path St),
  exists_ _ _ s (cwd _ _ s) = false -> remember_cwd path St name resolve directory body s = (s, Some (OtherError 2)).
Proof. intros path St name resolve directory body s X. unfold remember_cwd, getcwd. now rewrite X. Qed.
Print Assumptions C67_nowhere.
(** Directories are numbers; the body moves elsewhere and fails. *)
Example C67_ex : remember_cwd nat unit nat (fun _ n => n) 2%nat (fun s => (Place _ _ 7%nat (exists_ _ _ s) tt, Some ValueError))
  (Place _ _ 1%nat (fun _ => true) tt) = (Place _ _ 1%nat (fun _ => true) tt, Some ValueError).
Proof. reflexivity. Qed.
Example C67_removed_ex : exists s', remember_cwd nat unit nat (fun _ n => n) 2%nat (fun s => (Place _ _ (cwd _ _ s) (fun d => negb (Nat.eqb d 1)) tt, Some ValueError))
  (Place _ _ 1%nat (fun _ => true) tt) = (s', Some (OtherError 2)) /\ cwd _ _ s' = 2%nat.
Proof. eexists; split; reflexivity. Qed.

(** ** C64 *)
(** [density_voronoi_1]: whenever it returns, the densities times the area of a cell add up
    to the number of agents. [regions] are the Voronoi cells of the agents. *)
Theorem C64_voronoi_1_total : forall points c regions d, Forall (tiled c) regions -> length regions = length points ->
  density_voronoi_1 points c regions = Ok d -> grid_total d * (c * c) = INR (length points).
Proof. intros points c regions d T L E. rewrite <- L. eapply voronoi_1_total; eauto. Qed.
Print Assumptions C64_voronoi_1_total.
(** Every entry is the sum of the shares of the Voronoi cells in this cell of the grid. It
    returns when coordinates are not negative and the lowest row is not below the
    leftmost column. *)
Theorem C64_voronoi_1_entries_partial : forall points c regions x0 x1 y0 y1 i0 i1 j0 j1,
  (3 <= length points)%nat -> 0 < c -> is_box points x0 x1 y0 y1 -> 0 <= x0 -> 0 <= y0 ->
  square_of c x0 i0 -> square_of c x1 i1 -> square_of c y0 j0 -> square_of c y1 j1 ->
  Forall (fun v => tiled c v /\ in_box x0 x1 y0 y1 v) regions -> Forall (tight c) regions -> (i0 <= j0)%Z ->
  exists d, density_voronoi_1 points c regions = Ok d /\ d_rows d = (i1 - i0 + 1)%Z /\
    forall i j, d_at d (i - i0) (j - j0) * (c * c) = total regions (fun v => v_common v i j / v_area v).
Proof.
  intros points c regions x0 x1 y0 y1 i0 i1 j0 j1 N Hc B X Y I0 I1 J0 J1 T Ti L.
  destruct (voronoi_1_returns points c regions x0 x1 y0 y1 i0 i1 j0 j1) as (d & E & R); auto. exists d. split; auto. split; auto.
  apply (voronoi_1_at points c regions x0 x1 y0 y1 i0 i1 j0 j1); auto.
Qed.
Print Assumptions C64_voronoi_1_entries_partial.
(** Otherwise it raises, when a Voronoi cell reaches the top row. *)
Theorem C64_voronoi_1_raises_refuted : forall points c regions x0 x1 y0 y1 i0 i1 j0 j1 v,
  (3 <= length points)%nat -> 0 < c -> is_box points x0 x1 y0 y1 -> 0 <= x0 -> 0 <= y0 ->
  square_of c x0 i0 -> square_of c x1 i1 -> square_of c y0 j0 -> square_of c y1 j1 ->
  Forall (fun v => tiled c v /\ in_box x0 x1 y0 y1 v) regions -> (j0 < i0)%Z -> In v regions -> square_of c (v_maxy v) j1 ->
  forall d, density_voronoi_1 points c regions <> Ok d.
Proof. intros. eapply voronoi_1_raises; eauto. Qed.
Print Assumptions C64_voronoi_1_raises_refuted.
(** A Voronoi cell without area raises too. *)
Theorem C64_flat_cell : forall points c cells v rest x0 x1 y0 y1 i0 i1 j0 j1,
  (3 <= length points)%nat -> 0 < c -> is_box points x0 x1 y0 y1 -> 0 <= x0 -> 0 <= y0 ->
  square_of c x0 i0 -> square_of c x1 i1 -> square_of c y0 j0 -> square_of c y1 j1 ->
  Forall (fun v => tiled c v /\ in_box x0 x1 y0 y1 v) cells -> (i0 <= j0)%Z ->
  v_area v = 0 -> 0 <= v_minx v <= v_maxx v -> 0 <= v_miny v <= v_maxy v ->
  density_voronoi_1 points c (cells ++ v :: rest) = Err ZeroDivisionError.
Proof.
  intros points c cells v rest x0 x1 y0 y1 i0 i1 j0 j1 N Hc B X Y I0 I1 J0 J1 T L A AX AY.
  destruct (voronoi_1_returns points c cells x0 x1 y0 y1 i0 i1 j0 j1) as (d & E & _); auto.
  rewrite (voronoi_1_eq points c cells x0 x1 y0 y1 i0 i1 j0 j1) in E by auto. rewrite (voronoi_1_eq points c (cells ++ v :: rest) x0 x1 y0 y1 i0 i1 j0 j1) by auto.
  destruct (zeros _ _) as [z|e]; [|discriminate]. cbn [rbind] in *. clear - E A AX AY Hc. revert z E. induction cells as [|w cells IH]; intros z E.
  - cbn [app each]. rewrite flat_region by auto. reflexivity.
  - cbn [app each] in *. destruct (add_region c i0 j0 z w) as [z'|e]; cbn [rbind] in *; [|discriminate]. apply IH. exact E.
Qed.
Print Assumptions C64_flat_cell.
(** [density_voronoi_2]: when scipy numbers the Voronoi cells in the order of the agents, every
    entry is the number of agents standing in the cell over the sum of the areas of their
    Voronoi cells. *)
Theorem C64_voronoi_2_partial : forall points c cells x0 x1 y0 y1 i0 i1 j0 j1,
  0 < c -> is_box points x0 x1 y0 y1 -> 0 <= x0 -> 0 <= y0 ->
  square_of c x0 i0 -> square_of c x1 i1 -> square_of c y0 j0 -> square_of c y1 j1 -> length cells = length points ->
  exists d, density_voronoi_2 points c cells (seq 0 (length points)) = Ok d /\ d_rows d = (i1 - i0 + 1)%Z /\ d_cols d = (j1 - j0 + 1)%Z /\
    forall i j l, standing c points i j l -> 0 < total l (fun k => polygon_area (nth k cells [])) ->
      d_at d (i - i0) (j - j0) = INR (length l) / total l (fun k => polygon_area (nth k cells [])).
Proof.
  intros points c cells x0 x1 y0 y1 i0 i1 j0 j1 Hc B X Y I0 I1 J0 J1 L.
  destruct (core_2_at points c (map polygon_area cells) (seq 0 (length points)) x0 x1 y0 y1 i0 i1 j0 j1) as (d & E & R1 & C1 & A); auto.
  { now rewrite seq_length. } { intros r Hr. apply in_seq in Hr. rewrite map_length. lia. }
  exists d. repeat (split; [auto|]). intros i j l Hl Hs.
  assert (Q : total l (fun k => polygon_area (nth k cells [])) = total l (fun k => nth (nth k (seq 0 (length points)) 0%nat) (map polygon_area cells) 0)).
  { apply total_ext. intros k Hk. apply Hl in Hk as (p & Ep & _). assert (Lk : (k < length points)%nat) by (apply nth_error_Some; congruence).
    rewrite seq_nth by auto. cbn. rewrite (nth_indep _ 0 (polygon_area [])) by (rewrite map_length; lia). now rewrite map_nth. }
  destruct (A i j l Hl) as [A1 _]. rewrite Q in *. now apply A1.
Qed.
Print Assumptions C64_voronoi_2_partial.
(** In general the area belongs to another agent: an agent alone in its cell gets the area
    at scipy's number of its Voronoi cell. *)
Theorem C64_voronoi_2_area_refuted : forall points c cells region x0 x1 y0 y1 i0 i1 j0 j1 k i j,
  0 < c -> is_box points x0 x1 y0 y1 -> 0 <= x0 -> 0 <= y0 ->
  square_of c x0 i0 -> square_of c x1 i1 -> square_of c y0 j0 -> square_of c y1 j1 ->
  length region = length points -> (forall r, In r region -> (r < length cells)%nat) -> standing c points i j [k] ->
  let own := polygon_area (nth k cells []) in
  let used := polygon_area (nth (nth k region 0%nat) cells []) in
  0 < own -> 0 < used -> own <> used ->
  exists d, density_voronoi_2 points c cells region = Ok d /\ d_at d (i - i0) (j - j0) <> 1 / own.
Proof.
  intros points c cells region x0 x1 y0 y1 i0 i1 j0 j1 k i j Hc B X Y I0 I1 J0 J1 L Hr St own used Po Pu Ne.
  destruct (core_2_at points c (map polygon_area cells) region x0 x1 y0 y1 i0 i1 j0 j1) as (d & E & _ & _ & A); auto.
  { intros r H. rewrite map_length. auto. }
  exists d. split; auto. destruct (A i j [k] St) as [A1 _]. cbn [total length INR] in A1.
  assert (Lk : (k < length points)%nat). { destruct St as [_ St]. destruct (proj1 (St k) (or_introl eq_refl)) as (p & Ep & _). apply nth_error_Some. congruence. }
  rewrite (nth_indep _ 0 (polygon_area [])), map_nth in A1 by (rewrite map_length; apply Hr, nth_In; lia). fold used in A1.
  rewrite Rplus_0_r in A1. rewrite (A1 Pu). intros H. apply Ne. apply (f_equal Rinv) in H. unfold Rdiv in H. rewrite !Rmult_1_l, !Rinv_inv in H. auto.
Qed.
Print Assumptions C64_voronoi_2_area_refuted.
(** Agents on different sides of the axes are counted in one cell. *)
Theorem C64_negative_refuted : forall points c area region, 0 < c -> points <> [] ->
  (forall p, In p points -> - c < vx p < c /\ - c < vy p < c) ->
  length region = length points -> (forall r, In r region -> (r < length area)%nat) ->
  exists d, core_2 points c area region = Ok d /\ d_rows d = 1%Z /\ d_cols d = 1%Z.
Proof. exact core_2_merges. Qed.
Print Assumptions C64_negative_refuted.
(** [density_classical] never returns. *)
Theorem C64_classical_refuted : forall points c d, density_classical points c <> Ok d.
Proof. exact classical_raises. Qed.
Print Assumptions C64_classical_refuted.
Theorem C64_raised : forall c, density_classical [] c = Err ValueError /\ (forall p points, density_classical (p :: points) c = Err TypeError) /\
  (c <> 0 -> forall cells regions, density_voronoi_2 [] c cells regions = Err ValueError).
Proof.
  intros c. split; [reflexivity|]. split; [reflexivity|]. intros N cells regions. unfold density_voronoi_2, core_2. destruct (Reqb c 0) eqn:E; [apply Reqb_true in E; contradiction|reflexivity].
Qed.
Print Assumptions C64_raised.

(** Four agents in the corners of a square that starts at [(x, 0)]. *)
Definition corner (x : R) : list vec := [V x 0; V (x + 1) 0; V x 1; V (x + 1) 1].
Definition quarter (x a b : R) : vregion :=
  VRegion (x + a) b (x + a + 1/2) (b + 1/2) (1/4) (fun i j => if (Z.eqb i (Int_part x) && Z.eqb j 0)%bool then 1/4 else 0).
Definition quarters (x : R) : list vregion := [quarter x 0 0; quarter x (1/2) 0; quarter x 0 (1/2); quarter x (1/2) (1/2)].
Lemma square_1 x n : IZR n <= x < IZR n + 1 -> square_of 1 x n.
Proof. unfold square_of. rewrite !Rmult_1_r. auto. Qed.
Lemma square_1_inv x n m : square_of 1 x n -> IZR m <= x < IZR m + 1 -> n = m.
Proof.
  unfold square_of. rewrite !Rmult_1_r. intros H1 H2. apply Z.le_antisymm; apply Z.lt_succ_r, lt_IZR; rewrite succ_IZR; lra.
Qed.
Lemma corner_box (n : Z) : is_box (corner (IZR n)) (IZR n) (IZR n + 1) 0 1.
Proof.
  split; [|split; [|split; [|split]]].
  - intros p [<-|[<-|[<-|[<-|[]]]]]; cbn; lra.
  - exists (V (IZR n) 0). split; [now left|reflexivity].
  - exists (V (IZR n + 1) 0). split; [right; now left|reflexivity].
  - exists (V (IZR n) 0). split; [now left|reflexivity].
  - exists (V (IZR n) 1). split; [right; right; now left|reflexivity].
Qed.
Lemma quarter_ok (n : Z) a b : (0 <= n)%Z -> (a = 0 \/ a = 1/2) -> (b = 0 \/ b = 1/2) ->
  (tiled 1 (quarter (IZR n) a b) /\ in_box (IZR n) (IZR n + 1) 0 1 (quarter (IZR n) a b)) /\ tight 1 (quarter (IZR n) a b).
Proof.
  intros Hn Ha Hb. assert (N0 : 0 <= IZR n) by (now apply IZR_le). unfold quarter.
  assert (En : Int_part (IZR n) = n) by (apply Int_part_unique; lra). rewrite En.
  assert (K : forall a x i0 i1, (a = 0 \/ a = 1/2) -> (0 <= x)%Z -> square_of 1 (IZR x + a) i0 -> square_of 1 (IZR x + a + 1/2) i1 -> i0 = x /\ (i1 = x \/ i1 = (x + 1)%Z)).
  { clear. intros a x i0 i1 Ha Hx H0 H1. split; [apply (square_1_inv _ _ _ H0); destruct Ha; subst; lra|].
    destruct Ha as [-> | ->]; [left|right]; apply (square_1_inv _ _ _ H1); rewrite ?plus_IZR; lra. }
  assert (Zb : IZR 0 + b = b) by lra. assert (Zb' : IZR 0 + b + 1/2 = b + 1/2) by lra.
  split; [split|].
  - unfold tiled. cbn. split; [lra|]. split; [destruct Ha, Hb; subst; lra|]. split; [destruct Ha, Hb; subst; lra|].
    intros i0 i1 j0 j1 H1 H2 H3 H4. destruct (K a n i0 i1 Ha Hn H1 H2) as [-> E1].
    rewrite <- Zb in H3. rewrite <- Zb' in H4. destruct (K b 0%Z j0 j1 Hb ltac:(lia) H3 H4) as [-> E2].
    assert (F1 : from_to n n = [n]). { unfold from_to. replace (Z.to_nat (n + 1 - n)) with 1%nat by lia. cbn. f_equal. lia. }
    assert (F2 : from_to n (n + 1) = [n; (n + 1)%Z]). { unfold from_to. replace (Z.to_nat (n + 1 + 1 - n)) with 2%nat by lia. cbn [seq map]. rewrite Z.add_0_r. reflexivity. }
    assert (Q1 : (n + 1 =? n)%Z = false) by (apply Z.eqb_neq; lia).
    destruct E1 as [-> | ->], E2 as [-> | ->]; rewrite ?F1, ?F2;
      change (from_to 0 0) with [0%Z]; change (from_to 0 (0 + 1)) with [0%Z; 1%Z]; cbn [total]; rewrite ?Z.eqb_refl, ?Q1; cbn [andb Z.eqb]; lra.
  - unfold in_box. cbn. destruct Ha, Hb; subst; lra.
  - unfold tight. cbn. intros i j i0 i1 j0 j1 H1 H2 H3 H4 Q. destruct (K a n i0 i1 Ha Hn H1 H2) as [-> E1].
    rewrite <- Zb in H3. rewrite <- Zb' in H4. destruct (K b 0%Z j0 j1 Hb ltac:(lia) H3 H4) as [-> E2].
    destruct (Z.eqb_spec i n), (Z.eqb_spec j 0); cbn; auto. exfalso. apply Q. lia.
Qed.
Example C64_entries_ex : exists d, density_voronoi_1 (corner 0) 1 (quarters 0) = Ok d /\ d_at d 0 0 = 4 /\ grid_total d = 4.
Proof.
  assert (Q : forall v, In v (quarters 0) -> (tiled 1 v /\ in_box 0 (0 + 1) 0 1 v) /\ tight 1 v).
  { intros v [<-|[<-|[<-|[<-|[]]]]]; apply (quarter_ok 0); auto; lia. }
  destruct (C64_voronoi_1_entries_partial (corner 0) 1 (quarters 0) 0 (0 + 1) 0 1 0 1 0 1) as (d & E & _ & A); try lra; try lia; try (apply square_1; lra).
  - cbn. lia.
  - apply (corner_box 0).
  - apply Forall_forall. intros v Hv. now apply Q.
  - apply Forall_forall. intros v Hv. now apply Q.
  - exists d. split; auto. split.
    + specialize (A 0%Z 0%Z). cbn [Z.sub Z.opp Z.add] in A. rewrite !Rmult_1_r in A. rewrite A. cbn.
      rewrite (Int_part_unique 0 0) by lra. cbn. lra.
    + assert (G : grid_total d * (1 * 1) = INR (length (corner 0))).
      { apply C64_voronoi_1_total with (quarters 0); auto. apply Forall_forall. intros v Hv. now apply Q. }
      cbn in G. lra.
Qed.
(** One step to the right, and it raises. *)
Example C64_raises_ex : forall d, density_voronoi_1 (corner 1) 1 (quarters 1) <> Ok d.
Proof.
  assert (Q : forall v, In v (quarters 1) -> (tiled 1 v /\ in_box 1 (1 + 1) 0 1 v) /\ tight 1 v).
  { intros v [<-|[<-|[<-|[<-|[]]]]]; apply (quarter_ok 1); auto; lia. }
  apply (C64_voronoi_1_raises_refuted (corner 1) 1 (quarters 1) 1 (1 + 1) 0 1 1 2 0 1 (quarter 1 0 (1/2))); try lra; try lia; try (apply square_1; lra).
  - cbn. lia.
  - apply (corner_box 1).
  - apply Forall_forall. intros v Hv. now apply Q.
  - right. right. now left.
  - apply square_1. cbn. lra.
Qed.
(** Agent 0 of four agents alone in its cell; the first two Voronoi cells, of different
    size, are numbered the other way round. *)
Example C64_area_ex : standing 1 (corner 0) 0 0 [0%nat].
Proof.
  split; [repeat constructor; auto|]. intros k. split.
  - intros [<-|[]]. exists (V 0 0). split; [reflexivity|]. split; apply square_1; cbn; lra.
  - intros (p & E & H1 & H2). unfold square_of in H1, H2. destruct k as [|[|[|[|k]]]]; [now left| | | |].
    + injection E as <-. cbn in H1. lra.
    + injection E as <-. cbn in H2. lra.
    + injection E as <-. cbn in H1. lra.
    + destruct k; discriminate.
Qed.
