(** * Properties C35-C37, C66, C73, C74: grids, direction maps, navigation, orientation *)
From Coq Require Import Lra Lia.
From Verif Require Import Proofs.SteeringProofs.
Open Scope R_scope.

(** C35 *)
Theorem C35_indices : forall m p, 0 < m_step m -> m_minx m <= vx p <= m_maxx m -> m_miny m <= vy p <= m_maxy m ->
  exists i j, indicer m p = (Z.of_nat j, Z.of_nat i) /\ (i < m_rows m)%nat /\ (j < m_cols m)%nat /\ in_cell (m_step m) (m_node m i j) p.
Proof. exact indicer_inside. Qed.
Print Assumptions C35_indices.
(** The grid begins at the corner and includes the end points. *)
Theorem C35_extent : forall m, 0 < m_step m -> m_minx m <= m_maxx m -> m_miny m <= m_maxy m ->
  (0 < m_cols m)%nat /\ (0 < m_rows m)%nat /\ m_node m 0 0 = V (m_minx m) (m_miny m) /\
  m_maxx m <= vx (m_node m (m_rows m - 1) (m_cols m - 1)) < m_maxx m + m_step m /\
  m_maxy m <= vy (m_node m (m_rows m - 1) (m_cols m - 1)) < m_maxy m + m_step m.
Proof. exact grid_extent. Qed.
Print Assumptions C35_extent.
(** Exactly the points less than a step outside the grid also get an index of it. *)
Theorem C35_steps : forall step minx miny maxx maxy,
  (step = 0 -> meshgrid step minx miny maxx maxy = Err ZeroDivisionError) /\
  (step <> 0 -> exists m, meshgrid step minx miny maxx maxy = Ok m /\ m_step m = step /\
     m_minx m = minx /\ m_miny m = miny /\ m_maxx m = maxx /\ m_maxy m = maxy).
Proof.
  intros step minx miny maxx maxy. unfold meshgrid. split; intros H.
  - destruct (Reqb step 0) eqn:E; [reflexivity|apply Reqb_false in E; contradiction].
  - destruct (Reqb step 0) eqn:E; [apply Reqb_true in E; contradiction|]. eexists. repeat split.
Qed.
Print Assumptions C35_steps.
Theorem C35_outside : forall m p c w, 0 < m_step m -> (0 < m_rows m)%nat -> (0 < m_cols m)%nat -> indicer m p = (c, w) ->
  (is_inside w c (m_rows m) (m_cols m) = true <->
   m_minx m - m_step m < vx p < m_minx m + INR (m_cols m) * m_step m /\ m_miny m - m_step m < vy p < m_miny m + INR (m_rows m) * m_step m).
Proof. exact indicer_range. Qed.
Print Assumptions C35_outside.
Theorem C35_getdefault : forall indices dm defaults,
  (length indices <> length defaults -> getdefault indices dm defaults = Err AssertionError) /\
  (length indices = length defaults -> exists out, getdefault indices dm defaults = Ok out /\ length out = length defaults /\
    forall k i j d, nth_error indices k = Some (i, j) -> nth_error defaults k = Some d ->
      ((0 <= i < Z.of_nat (rows dm))%Z /\ (0 <= j < Z.of_nat (cols dm))%Z -> nth_error out k = Some (at_ dm (Z.to_nat i) (Z.to_nat j))) /\
      (~ ((0 <= i < Z.of_nat (rows dm))%Z /\ (0 <= j < Z.of_nat (cols dm))%Z) -> nth_error out k = Some (Some d))).
Proof. exact getdefault_spec. Qed.
Print Assumptions C35_getdefault.
Example C35_case : let m := Mesh (1/2) 0 0 3 2 in
  exists i j, indicer m (V (11/4) (2/5)) = (Z.of_nat j, Z.of_nat i) /\ (i < m_rows m)%nat /\ (j < m_cols m)%nat /\ in_cell (1/2) (m_node m i j) (V (11/4) (2/5)).
Proof. intros m. apply (C35_indices m (V (11/4) (2/5))); cbn; lra. Qed.

(** C36 *)
Theorem C36_direction_map : forall dmap,
  ((rows dmap < 2)%nat \/ (cols dmap < 2)%nat -> direction_map dmap = Err ValueError) /\
  ((2 <= rows dmap)%nat -> (2 <= cols dmap)%nat -> exists g, direction_map dmap = Ok g /\ rows g = rows dmap /\ cols g = cols dmap /\
    forall i j, (i < rows dmap)%nat -> (j < cols dmap)%nat -> normalised (slopes dmap i j) (at_ g i j)).
Proof. exact direction_map_spec. Qed.
Print Assumptions C36_direction_map.
(** For a map that rises [a] per column and [b] per row the direction is that of [(a, b)]. *)
Theorem C36_plane : forall n m a b c, (2 <= n)%nat -> (2 <= m)%nat ->
  exists g, direction_map (Grid n m (fun i j => a * INR j + b * INR i + c)) = Ok g /\
    forall i j, (i < n)%nat -> (j < m)%nat -> normalised (V a b) (at_ g i j).
Proof. exact direction_map_plane. Qed.
Print Assumptions C36_plane.
Example C36_case : exists g u, direction_map (Grid 2 3 (fun i j => 3 * INR j + 4 * INR i + 0)) = Ok g /\ at_ g 1 2 = Some u /\ vx u * 4 = vy u * 3 /\ 0 < vx u.
Proof.
  destruct (C36_plane 2 3 3 4 0 ltac:(lia) ltac:(lia)) as (g & E & H). specialize (H 1 2 ltac:(lia) ltac:(lia))%nat.
  destruct (at_ g 1 2) as [u|] eqn:F; cbn in H; [|injection H; intros; lra]. destruct H as [_ (k & Hk & ->)]. exists g. eexists. split; [exact E|].
  split; [exact F|]. cbn. lra.
Qed.

(** C37: [d] is the distance from the obstacles. *)
Theorem C37_obstacle_handling : forall dmap dobs dtgt radius strength i j,
  let d := - at_ dmap i j in let out := at_ (obstacle_handling dmap dobs dtgt radius strength) i j in
  rows (obstacle_handling dmap dobs dtgt radius strength) = rows dmap /\ cols (obstacle_handling dmap dobs dtgt radius strength) = cols dmap /\
  (~ (0 < d < radius) -> match at_ dtgt i j with
     | None => out = None
     | Some t => normalised t out /\ (is_unit t -> out = Some t)
     end) /\
  (0 < d < radius -> 0 < strength -> forall o t, at_ dobs i j = Some o -> at_ dtgt i j = Some t ->
     normalised (repelled (Rpower strength (d / radius)) o t) out) /\
  (0 < d < radius -> strength = 0 -> forall o t, at_ dobs i j = Some o -> at_ dtgt i j = Some t -> normalised t out) /\
  (0 < d < radius -> at_ dobs i j = None \/ at_ dtgt i j = None -> out = None).
Proof. exact obstacle_handling_spec. Qed.
Print Assumptions C37_obstacle_handling.
(** The weight lies between [strength] and one and falls with the distance. *)
Theorem C37_weight : forall strength radius d d', 0 < strength < 1 -> 0 < d < radius -> d < d' ->
  strength < Rpower strength (d / radius) < 1 /\ Rpower strength (d' / radius) < Rpower strength (d / radius).
Proof. intros s r d d' S D L. split; [now apply weight_range|apply weight_decreasing; auto; lra]. Qed.
Print Assumptions C37_weight.
(** Heading straight at the obstacle where the weight is one half: no direction. *)
Example C37_case : at_ (obstacle_handling (Grid 1 1 (fun _ _ => - (1/2))) (Grid 1 1 (fun _ _ => Some (V 1 0))) (Grid 1 1 (fun _ _ => Some (V 1 0))) 1 (1/4)) 0 0 = None.
Proof.
  set (dm := Grid 1 1 (fun _ _ => - (1/2))). set (o := Grid 1 1 (fun _ _ => Some (V 1 0))).
  destruct (C37_obstacle_handling dm o o 1 (1/4) 0 0) as (_ & _ & _ & H & _). cbn zeta in H. specialize (H ltac:(cbn; lra) ltac:(lra) (V 1 0) (V 1 0) eq_refl eq_refl).
  replace (- at_ dm 0 0 / 1) with (/ 2) in H by (cbn; lra). rewrite Rpower_sqrt in H by lra. replace (1/4) with ((1/2) * (1/2)) in H at 1 by lra. rewrite sqrt_square in H by lra.
  destruct (at_ (obstacle_handling dm o o 1 (1/4)) 0 0) as [u|]; auto. exfalso. destruct H as [U (k & Hk & E)]. unfold repelled in E. cbn in E.
  replace (k * ((1 - 1 / 2) * 1 - 1 / 2 * 1)) with 0 in E by lra. replace (k * ((1 - 1 / 2) * 0 - 1 / 2 * 0)) with 0 in E by lra.
  subst u. unfold is_unit, elen, edist in U. cbn in U. replace (_ + _) with 0 in U by lra. rewrite sqrt_0 in U. lra.
Qed.

(** C66 *)
Theorem C66_orientation : forall k agents,
  length (orientation_node k agents) = length agents /\
  forall i a, nth_error agents i = Some a ->
    exists a', nth_error (orientation_node k agents) i = Some a' /\
    match k with
    | Circular => a' = a
    | ThreeCircle => exists phi, a' = set_target_orientation phi a /\ - PI < phi <= PI /\
        (a_target_direction a <> V 0 0 -> a_target_direction a = V (elen (a_target_direction a) * cos phi) (elen (a_target_direction a) * sin phi))
    end.
Proof. exact orientation_node_spec. Qed.
Print Assumptions C66_orientation.
(** An agent without a direction is turned towards the x axis. *)
Theorem C66_zero_direction_refuted : exists a a', a_target_direction a = V 0 0 /\ orientation_node ThreeCircle [a] = [a'] /\
  a_target_orientation a = 1 /\ a_target_orientation a' = 0.
Proof.
  exists (set_target_orientation 1 default_row). eexists. split; [reflexivity|]. split; [reflexivity|]. split; [reflexivity|].
  unfold orient_row. cbn. unfold angle, arctan2. cbn. rdec. lra || reflexivity.
Qed.
Print Assumptions C66_zero_direction_refuted.
Example C66_case : exists a', orientation_node ThreeCircle [set_target_direction (V 0 2) default_row] = [a'] /\ a_target_orientation a' = angle (V 0 2).
Proof. eexists. split; reflexivity. Qed.

(** C73: [maps t] is the navigation of target [t]. *)
Theorem C73_navigation : forall nav n (maps : Z -> mesh * grid (option vec)) agents, (forall t, (0 <= t < Z.of_nat n)%Z -> nav t = Ok (maps t)) ->
  exists out, navigation_node nav n agents = Ok out /\ length out = length agents /\
    forall k a, nth_error agents k = Some a ->
      let m := fst (maps (a_target a)) in let dm := snd (maps (a_target a)) in
      let '(c, w) := indicer m (a_position a) in
      if (Z.leb 0 (a_target a) && Z.ltb (a_target a) (Z.of_nat n) && is_inside w c (rows dm) (cols dm))%bool
      then nth_error out k = Some (option_map (fun d => set_target_direction d a) (at_ dm (Z.to_nat w) (Z.to_nat c)))
      else nth_error out k = Some (Some a).
Proof. exact navigation_node_ok. Qed.
Print Assumptions C73_navigation.
(** Agents heading for different targets, one of them outside the grid. *)
Example C73_case : let maps (t : Z) := (Mesh 1 0 0 1 1, Grid 2 2 (fun _ _ => Some (if Z.eqb t 0 then V 1 0 else V 0 1))) in
  let a0 := set_target 0%Z (set_position (V (1/2) (1/2)) default_row) in
  let a1 := set_target 1%Z (set_position (V (1/2) (1/2)) default_row) in
  exists out, navigation_node (fun t => Ok (maps t)) 2 [a0; a1; default_row] = Ok out /\
    nth_error out 0 = Some (Some (set_target_direction (V 1 0) a0)) /\ nth_error out 1 = Some (Some (set_target_direction (V 0 1) a1)) /\
    nth_error out 2 = Some (Some default_row).
Proof.
  intros maps a0 a1. destruct (C73_navigation (fun t => Ok (maps t)) 2 maps [a0; a1; default_row]) as (out & E & _ & H); [auto|].
  exists out. split; auto. assert (T : trunc ((1/2 - 0) / 1) = 0%Z).
  { rewrite trunc_nonneg by lra. apply Int_part_unique. lra. }
  pose proof (H 0%nat a0 eq_refl) as H0. pose proof (H 1%nat a1 eq_refl) as H1. pose proof (H 2%nat default_row eq_refl) as H2.
  unfold indicer in *. cbn [fst snd maps m_minx m_miny m_step a_position vx vy a0 a1 set_target set_position a_target] in H0, H1. cbn in H0, H1. rewrite T in H0, H1. cbn in H0, H1, H2. auto.
Qed.

(** C74 *)
Theorem C74_continuous_partial : forall dmap dobs radius strength i j d,
  let at_cell := ((0 <= i < Z.of_nat (rows dmap))%Z /\ (0 <= j < Z.of_nat (cols dmap))%Z) in
  let x := - at_ dmap (Z.to_nat i) (Z.to_nat j) in
  (~ (at_cell /\ 0 < x < radius) -> handle_continuous dmap dobs radius strength (i, j) d = Some d) /\
  (at_cell -> 0 < x < radius -> 0 < strength -> forall o, at_ dobs (Z.to_nat i) (Z.to_nat j) = Some o -> vx d = vy d ->
     let b := repelled (Rpower strength (x / radius)) o d in b <> V 0 0 ->
     normalised b (handle_continuous dmap dobs radius strength (i, j) d)).
Proof.
  intros. split; [apply (continuous_spec dmap dobs radius strength i j d)|]. intros C X S o O E. now apply continuous_diagonal.
Qed.
Print Assumptions C74_continuous_partial.
Theorem C74_wrong_component_refuted : exists dmap dobs radius strength i j d o,
  ((0 <= i < Z.of_nat (rows dmap))%Z /\ (0 <= j < Z.of_nat (cols dmap))%Z) /\ 0 < - at_ dmap (Z.to_nat i) (Z.to_nat j) < radius /\ 0 < strength < 1 /\
  at_ dobs (Z.to_nat i) (Z.to_nat j) = Some o /\ is_unit o /\ is_unit d /\
  ~ normalised (repelled (Rpower strength (- at_ dmap (Z.to_nat i) (Z.to_nat j) / radius)) o d) (handle_continuous dmap dobs radius strength (i, j) d).
Proof. exact continuous_wrong. Qed.
Print Assumptions C74_wrong_component_refuted.
