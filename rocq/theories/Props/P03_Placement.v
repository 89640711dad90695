(** * Properties C12, C15-C17: overlap tests and placement of agents *)
From Coq Require Import Lra Lia.
From Verif Require Import Proofs.Witness2.
Open Scope R_scope.

(** C12 *)
Theorem C12_overlapping_circles : forall agents x r,
  overlapping_circles agents x r = true <->
  exists a, In a agents /\ bodies_overlap (body Circular a) [(x, r)].
Proof. exact overlapping_circles_iff. Qed.
Print Assumptions C12_overlapping_circles.
Theorem C12_overlapping_three_circles : forall agents x r,
  overlapping_three_circles agents x r = true <->
  exists a, In a agents /\
    bodies_overlap (body ThreeCircle a) [(t_0 x, t_0 r); (t_1 x, t_1 r); (t_2 x, t_2 r)].
Proof. exact overlapping_three_circles_iff. Qed.
Print Assumptions C12_overlapping_three_circles.
Theorem C12_overlapping_circle_line : forall agents obstacles,
  Forall (fun o => p0 o <> p1 o) obstacles ->
  (overlapping_circle_line agents obstacles = true <->
   exists a, In a agents /\ exists o, In o obstacles /\ body_hits_wall (body Circular a) (p0 o) (p1 o)).
Proof. exact overlapping_circle_line_iff. Qed.
Print Assumptions C12_overlapping_circle_line.
Theorem C12_overlapping_three_circle_line : forall agents obstacles,
  Forall (fun o => p0 o <> p1 o) obstacles ->
  (overlapping_three_circle_line agents obstacles = true <->
   exists a, In a agents /\ exists o, In o obstacles /\ body_hits_wall (body ThreeCircle a) (p0 o) (p1 o)).
Proof. exact overlapping_three_circle_line_iff. Qed.
Print Assumptions C12_overlapping_three_circle_line.
(** Walls of length zero are never reported (their distance is NaN). *)
Theorem C12_zero_length_walls_unseen : forall agents obstacles,
  Forall (fun o => p0 o = p1 o) obstacles ->
  overlapping_circle_line agents obstacles = false /\ overlapping_three_circle_line agents obstacles = false.
Proof. exact zero_length_unreported. Qed.
Print Assumptions C12_zero_length_walls_unseen.
Example C12_ex : overlapping_circles [set_radius 1 zero_row] (V 1 0) 1 = true /\
  overlapping_circles [set_radius 1 zero_row] (V 2 0) 1 = false.
Proof.
  split.
  - apply C12_overlapping_circles. eexists. split; [now left|].
    do 2 eexists. split; [now left|]. split; [now left|].
    unfold gap; cbn. rewrite (edist_eq _ _ 1); cbn; lra.
  - apply not_true_iff_false. rewrite C12_overlapping_circles.
    intros (a & [<-|[]] & c & d & [<-|[]] & [<-|[]] & H). unfold gap in H; cbn in H.
    rewrite (edist_eq _ _ 2) in H; cbn; lra.
Qed.

(** C15: any history of calls on a fresh [Agents] object of circular agents. *)
Theorem C15_circular_agents_apart : forall cell st0 cs i j a b,
  agents_new Circular cell = Ok st0 ->
  let st := place_all st0 cs in
  i <> j -> (i < ag_index st)%nat -> (j < ag_index st)%nat ->
  nth_error (ag_array st) i = Some a -> nth_error (ag_array st) j = Some b ->
  a_radius a + a_radius b <= cell ->
  ~ bodies_overlap (body Circular a) (body Circular b).
Proof. exact circular_apart. Qed.
Print Assumptions C15_circular_agents_apart.
(** ... and the walls passed in the call that placed the agent (any agent type). *)
Theorem C15_agents_clear_of_walls : forall k cell st0 cs g gen os i a o,
  agents_new k cell = Ok st0 ->
  let st := place_all st0 cs in
  let st' := state_of (add_non_overlapping_group st g gen (Some os)) in
  (ag_index st <= i < ag_index st')%nat -> nth_error (ag_array st') i = Some a ->
  (forall o, In o os -> p0 o <> p1 o) -> In o os ->
  ~ body_hits_wall (body k a) (p0 o) (p1 o).
Proof. exact call_walls. Qed.
Print Assumptions C15_agents_clear_of_walls.
(** The documented cell size, "a little over the maximum of agent radii", is
    not enough. *)
Theorem C15_documented_cell_size_insufficient : exists cell st0 cs a b,
  agents_new Circular cell = Ok st0 /\
  let st := place_all st0 cs in
  ag_index st = 2%nat /\ ag_array st = [a; b] /\ a_radius a < cell /\ a_radius b < cell /\
  bodies_overlap (body Circular a) (body Circular b).
Proof. exact doc_cell_insufficient. Qed.
Print Assumptions C15_documented_cell_size_insufficient.
(** Two touching agents placed with the default cell size meet the hypotheses. *)
Example C15_ex :
  let g := Group Circular 2 [w_member (1/4); w_member (1/4)] in
  exists cell st0, agents_new Circular cell = Ok st0 /\
  let st := place_all st0 [Call g (w_gen2 (V 0 0) (V (1/2) 0)) None] in
  ag_index st = 2%nat /\
  ag_array st = [set_position (V 0 0) (set_radius (1/4) default_row);
                 set_position (V (1/2) 0) (set_radius (1/4) default_row)] /\
  1/4 + 1/4 <= cell.
Proof. exact two_placed. Qed.

(** C16.  Full statement: every placed three-circle agent has its shoulders in
    place, and no two placed agents overlap.  It fails, because the shoulders
    are computed for the first position tried and kept. *)
Theorem C16_stale_shoulders_refuted : exists st0 g gen,
  agents_new ThreeCircle (6/10) = Ok st0 /\
  (forall m, In m (g_members g) -> m_ls m = None /\ m_rs m = None) /\
  let st := place_all st0 [Call g gen None] in
  exists a b, ag_index st = 2%nat /\ ag_array st = [a; b] /\
    Rmax (a_r_t a) (a_r_ts a + a_r_s a) + Rmax (a_r_t b) (a_r_ts b + a_r_s b) <= 6/10 /\
    ~ shoulders_in_place b /\ bodies_overlap (body ThreeCircle a) (body ThreeCircle b).
Proof. exact stale_shoulders. Qed.
Print Assumptions C16_stale_shoulders_refuted.
(** What holds: agents whose shoulders are in place do not overlap ... *)
Theorem C16_three_circle_agents_apart_partial : forall cell st0 cs i j a b,
  agents_new ThreeCircle cell = Ok st0 ->
  let st := place_all st0 cs in
  i <> j -> (i < ag_index st)%nat -> (j < ag_index st)%nat ->
  nth_error (ag_array st) i = Some a -> nth_error (ag_array st) j = Some b ->
  0 <= a_r_ts a -> 0 <= a_r_ts b -> shoulders_in_place a -> shoulders_in_place b ->
  Rmax (a_r_t a) (a_r_ts a + a_r_s a) + Rmax (a_r_t b) (a_r_ts b + a_r_s b) <= cell ->
  ~ bodies_overlap (body ThreeCircle a) (body ThreeCircle b).
Proof. exact three_apart. Qed.
Print Assumptions C16_three_circle_agents_apart_partial.
(** ... and fresh members placed by a call that rejected no draw have their
    shoulders in place. *)
Theorem C16_first_try_in_place_partial : forall k cell st0 cs g gen obstacles i a,
  agents_new k cell = Ok st0 ->
  let st := place_all st0 cs in
  let r := add_non_overlapping_group st g gen obstacles in
  let st' := state_of r in
  k = ThreeCircle -> Forall (fun m => m_ls m = None /\ m_rs m = None) (g_members g) ->
  snd r = (ag_index st' - ag_index st)%nat ->
  (ag_index st <= i < ag_index st')%nat -> nth_error (ag_array st') i = Some a ->
  shoulders_in_place a.
Proof. exact call_first_try. Qed.
Print Assumptions C16_first_try_in_place_partial.

(** C17 *)
Theorem C17_placement_frame : forall k cell st0 cs g gen obstacles,
  agents_new k cell = Ok st0 ->
  let st := place_all st0 cs in
  let r := add_non_overlapping_group st g gen obstacles in
  let st' := state_of r in
  g_kind g = k ->
  fst (fst (fst r)) <> OutOfFuel /\
  (snd r <= 11 * g_size g)%nat /\
  length (ag_array st') = (length (ag_array st) + g_size g)%nat /\
  (ag_index st <= ag_index st' <= ag_index st + g_size g)%nat /\
  (forall i, (i < ag_index st)%nat -> nth_error (ag_array st') i = nth_error (ag_array st) i) /\
  (forall i, (ag_index st' <= i < length (ag_array st'))%nat -> nth_error (ag_array st') i = Some zero_row) /\
  (forall t, (t < ag_index st' - ag_index st)%nat ->
     exists m a, nth_error (g_members g) t = Some m /\
       nth_error (ag_array st') (ag_index st + t) = Some a /\ placed_from k gen m a) /\
  (fst (fst (fst r)) = Returns ->
     ag_index st' = (ag_index st + g_size g)%nat \/
     snd r = (10 * g_size g + (ag_index st' - ag_index st))%nat).
Proof. exact call_frame. Qed.
Print Assumptions C17_placement_frame.
(** The rows that no agent was placed in are zero in every column. *)
Definition all_zero (a : agent) : Prop :=
  a_active a = false /\ a_target_reached a = false /\ a_target a = 0%Z /\ a_is_leader a = false /\
  a_is_follower a = false /\ a_index_leader a = 0%Z /\ a_familiar_exit a = 0%Z /\ a_radius a = 0 /\
  a_r_t a = 0 /\ a_r_s a = 0 /\ a_r_ts a = 0 /\ a_mass a = 0 /\ a_inertia_rot a = 0 /\
  a_target_velocity a = 0 /\ a_target_angular_velocity a = 0 /\ a_position a = V 0 0 /\
  a_velocity a = V 0 0 /\ a_target_direction a = V 0 0 /\ a_force a = V 0 0 /\ a_force_prev a = V 0 0 /\
  a_tau_adj a = 0 /\ a_k_soc a = 0 /\ a_tau_0 a = 0 /\ a_mu a = 0 /\ a_kappa a = 0 /\ a_damping a = 0 /\
  a_std_rand_force a = 0 /\ a_orientation a = 0 /\ a_angular_velocity a = 0 /\ a_target_orientation a = 0 /\
  a_torque a = 0 /\ a_torque_prev a = 0 /\ a_tau_rot a = 0 /\ a_std_rand_torque a = 0 /\
  a_position_ls a = V 0 0 /\ a_position_rs a = V 0 0.
Theorem C17_free_rows : forall k cell st0 cs i a, agents_new k cell = Ok st0 ->
  let st := place_all st0 cs in
  (ag_index st <= i)%nat -> nth_error (ag_array st) i = Some a -> all_zero a.
Proof.
  intros k cell st0 cs i a N st L E. destruct (wf_new _ _ _ N) as (W & _ & _). assert (W' : wf cell st) by now apply wf_all.
  rewrite (wf_rest _ _ W') in E by (split; [exact L|apply nth_error_Some; congruence]). injection E as <-. repeat split.
Qed.
Print Assumptions C17_free_rows.
Theorem C17_wrong_agent_type : forall st g gen obstacles, ag_kind st <> g_kind g ->
  add_non_overlapping_group st g gen obstacles = (Raises CrowdDynamicsException, st, g_members g, 0%nat).
Proof. exact add_group_mismatch. Qed.
Print Assumptions C17_wrong_agent_type.
