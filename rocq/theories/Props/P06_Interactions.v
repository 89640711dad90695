(** * Properties C28-C31, C71: interactions between agents and with obstacles *)
From Coq Require Import Lra Lia Permutation.
From Verif Require Import Proofs.Witness6.
Open Scope R_scope.

(** C28: only the forces and torques of agents in the list change. *)
Theorem C28_only_forces_of_listed_agents : forall k pairs agents agents', agent_agent k pairs agents = Ok agents' ->
  length agents' = length agents /\
  forall m a, nth_error agents m = Some a ->
    exists f t, nth_error agents' m = Some (set_torque t (set_force f a)) /\
      (k = Circular -> t = a_torque a) /\
      ((forall i j, In (i, j) pairs -> m <> i /\ m <> j) -> nth_error agents' m = Some a).
Proof. exact agent_agent_local. Qed.
Print Assumptions C28_only_forces_of_listed_agents.
(** Pairs 3 m or more apart can be dropped from the list. *)
Theorem C28_far_pairs_do_not_interact : forall k agents i j ai aj l1 l2,
  nth_error agents i = Some ai -> nth_error agents j = Some aj ->
  (forall c d, In c (body k ai) -> In d (body k aj) -> 3 <= gap c d) ->
  agent_agent k (l1 ++ (i, j) :: l2) agents = agent_agent k (l1 ++ l2) agents.
Proof. exact far_pairs_dropped. Qed.
Print Assumptions C28_far_pairs_do_not_interact.
Theorem C28_order_irrelevant : forall k agents pairs pairs', Permutation pairs pairs' -> in_range agents pairs ->
  agent_agent k pairs agents = agent_agent k pairs' agents.
Proof. exact order_irrelevant. Qed.
Print Assumptions C28_order_irrelevant.
(** Superposition: the change is the sum of the changes each pair makes alone. *)
Theorem C28_superposition : forall k pairs agents agents', agent_agent k pairs agents = Ok agents' ->
  exists parts : list (list agent),
    Forall2 (fun p l => agent_agent k [p] agents = Ok l) pairs parts /\
    forall m a a', nth_error agents m = Some a -> nth_error agents' m = Some a' ->
      exists bs, Forall2 (fun l b => nth_error l m = Some b) parts bs /\
        a_force a' = vadd (a_force a) (vsum (map (fun b => vsub (a_force b) (a_force a)) bs)) /\
        a_torque a' = a_torque a + rsum (map (fun b => a_torque b - a_torque a) bs).
Proof. exact agent_agent_sum. Qed.
Print Assumptions C28_superposition.
(** What one pair adds: the social forces, and the contact force when they touch,
    with the coefficients of the agent it acts on. *)
Theorem C28_pair_of_circular_agents : forall ai aj fi fj, force_social_circular ai aj = Ok (fi, fj) ->
  let h := gap (a_position ai, a_radius ai) (a_position aj, a_radius aj) in
  let v := vsub (a_velocity ai) (a_velocity aj) in
  h < 3 -> exists n, direction_from_to (a_position aj) (a_position ai) n /\
    agent_agent Circular [(0, 1)]%nat [ai; aj] =
      Ok [set_force (vadd (a_force ai) (vadd fi (touching_force h n v ai))) ai;
          set_force (vadd (a_force aj) (vsub fj (touching_force h n v aj))) aj].
Proof. exact pair_value_circular. Qed.
Print Assumptions C28_pair_of_circular_agents.
Theorem C28_pair_of_three_circle_agents : forall ai aj fi fj, force_social_three_circle ai aj = Ok (fi, fj) ->
  let v := vsub (a_velocity ai) (a_velocity aj) in
  (exists c d, In c (body ThreeCircle ai) /\ In d (body ThreeCircle aj) /\ gap c d < 3) ->
  exists i j n, (i < 3)%nat /\ (j < 3)%nat /\
    let c := (tget (xs_of ai) i, tget (rs_of ai) i) in
    let d := (tget (xs_of aj) j, tget (rs_of aj) j) in
    let h := gap c d in
    (forall c' d', In c' (body ThreeCircle ai) -> In d' (body ThreeCircle aj) -> h <= gap c' d') /\
    direction_from_to (fst d) (fst c) n /\
    let Fi := vadd fi (touching_force h n v ai) in
    let Fj := vsub fj (touching_force h n v aj) in
    agent_agent ThreeCircle [(0, 1)]%nat [ai; aj] =
      Ok [set_torque (a_torque ai + outer (vsub (vadd (fst c) (vscale (snd c) n)) (a_position ai)) Fi)
            (set_force (vadd (a_force ai) Fi) ai);
          set_torque (a_torque aj + outer (vsub (vsub (tget (xs_of ai) j) (vscale (snd d) n)) (a_position aj)) Fj)
            (set_force (vadd (a_force aj) Fj) aj)].
Proof. exact pair_value_three_circle. Qed.
Print Assumptions C28_pair_of_three_circle_agents.
Example C28_case : exists agents', agent_agent Circular [(0, 1)]%nat [pi; pj] = Ok agents' /\ agents' <> [pi; pj].
Proof.
  assert (G : gap (a_position pi, a_radius pi) (a_position pj, a_radius pj) < 3) by (rewrite pgap; lra).
  destruct (C28_pair_of_circular_agents pi pj _ _ pforce G) as (n & _ & E).
  cbv zeta in E. rewrite pgap in E. unfold touching_force in E. destruct (Rlt_dec (3/2) 0) as [|_]; [lra|].
  eexists. split; [exact E|]. intros H. apply (f_equal (fun l => nth_error (map a_force l) 0)) in H.
  cbn [map nth_error] in H. rewrite af_sf in H. apply (f_equal (fun o => match o with Some v => vx v | None => 0 end)) in H.
  cbn in H. pose proof pmag_bounds. lra.
Qed.

(** C29 *)
Theorem C29_total_force_unchanged : forall k pairs agents agents',
  (forall a b, In a agents -> In b agents -> same_coefficients a b) ->
  (forall a, In a agents -> 0 <= a_radius a) ->
  agent_agent k pairs agents = Ok agents' ->
  vsum (map a_force agents') = vsum (map a_force agents).
Proof. exact momentum_conserved. Qed.
Print Assumptions C29_total_force_unchanged.
Example C29_case : (forall a b, In a [pi; pj] -> In b [pi; pj] -> same_coefficients a b) /\
  (forall a, In a [pi; pj] -> 0 <= a_radius a).
Proof.
  split; [intros a b [<-|[<-|[]]] [<-|[<-|[]]]; repeat split|].
  intros a [<-|[<-|[]]]; cbn; lra.
Qed.

(** C30 *)
Theorem C30_equals_all_pairs : forall agents pairs cell_size rmax,
  good_enumeration (map a_position agents) cell_size pairs -> 3 + 2 * rmax <= cell_size ->
  (forall a, In a agents -> 0 <= a_radius a <= rmax) ->
  agent_agent Circular pairs agents = agent_agent Circular (all_pairs (length agents)) agents.
Proof. exact cell_list_complete. Qed.
Print Assumptions C30_equals_all_pairs.
(** The node of the simulation with its default settings. *)
Theorem C30_default_settings : forall enum agents,
  (forall c, good_enumeration (map a_position agents) c (enum (map a_position agents) c)) ->
  (forall a, In a agents -> 0 <= a_radius a <= 3/10) ->
  aa_node_update enum aa_node_default Circular agents = agent_agent Circular (all_pairs (length agents)) agents.
Proof. exact default_node_complete. Qed.
Print Assumptions C30_default_settings.
(** Either kind of agent: processing pairs that were not enumerated adds nothing. *)
Theorem C30_nothing_missed : forall enum k agents others,
  (forall c, good_enumeration (map a_position agents) c (enum (map a_position agents) c)) ->
  (forall a, In a agents -> body_within k a (3/10)) ->
  let pairs := enum (map a_position agents) (18/5) in
  (forall i j, In (i, j) others -> (i < length agents)%nat /\ (j < length agents)%nat /\ i <> j /\
     ~ In (i, j) pairs /\ ~ In (j, i) pairs) ->
  aa_node_update enum aa_node_default k agents = agent_agent k (pairs ++ others) agents.
Proof. exact default_node_nothing_missed. Qed.
Print Assumptions C30_nothing_missed.
Example C30_case : (forall c, good_enumeration (map a_position [pi; pj]) c [(0, 1)]%nat) /\
  (forall a, In a [pi; pj] -> 0 <= a_radius a <= 3/10).
Proof. split; [intros c; apply enum_two|]. intros a [<-|[<-|[]]]; cbn; lra. Qed.

(** C31 *)
Theorem C31_pushed_only_by_walls_it_hits : forall k agents obs, Forall2 (fun a b =>
    (exists f t, b = set_torque t (set_force f a) /\ (k = Circular -> t = a_torque a)) /\
    ((forall o, In o obs -> p0 o <> p1 o -> ~ body_hits_wall (body k a) (p0 o) (p1 o)) -> b = a)) agents (agent_obstacle k agents obs).
Proof. exact agent_obstacle_rows. Qed.
Print Assumptions C31_pushed_only_by_walls_it_hits.
(** The push of one wall, in terms of the part of the body deepest in the wall. *)
Theorem C31_push_of_one_wall : forall k a o, p0 o <> p1 o -> body_hits_wall (body k a) (p0 o) (p1 o) ->
  exists c q n f, In c (body k a) /\ on_segment (p0 o) (p1 o) q /\ direction_from_to q (fst c) n /\
    segment_distance (p0 o) (p1 o) (fst c) (edist (fst c) q) /\ edist (fst c) q < snd c /\
    (forall c' e, In c' (body k a) -> segment_distance (p0 o) (p1 o) (fst c') e -> edist (fst c) q - snd c <= e - snd c') /\
    f = force_contact (edist (fst c) q - snd c) n (a_velocity a) (rotate270 n) (a_mu a) (a_kappa a) (a_damping a) /\
    agent_obstacle k [a] [o] = [set_torque (a_torque a + match k with Circular => 0
      | ThreeCircle => outer (vsub (vsub (fst c) (vscale (snd c) n)) (a_position a)) f end) (set_force (vadd (a_force a) f) a)].
Proof. exact obstacle_hit. Qed.
Print Assumptions C31_push_of_one_wall.
Theorem C31_walls_add_up : forall k a obs, exists bs b, agent_obstacle k [a] obs = [b] /\
  Forall2 (fun o b => agent_obstacle k [a] [o] = [b]) obs bs /\
  a_force b = vadd (a_force a) (vsum (map (fun b => vsub (a_force b) (a_force a)) bs)) /\
  a_torque b = a_torque a + rsum (map (fun b => a_torque b - a_torque a) bs).
Proof. exact obstacle_sum. Qed.
Print Assumptions C31_walls_add_up.
Theorem C31_order_irrelevant : forall k agents obs obs', Permutation obs obs' ->
  agent_obstacle k agents obs = agent_obstacle k agents obs'.
Proof. exact obstacle_order. Qed.
Print Assumptions C31_order_irrelevant.
Theorem C31_no_walls : forall k agents, agent_obstacle k agents [] = agents.
Proof. exact obstacle_none. Qed.
Print Assumptions C31_no_walls.
Example C31_case : body_hits_wall (body Circular pj) (V (1/8) (-1)) (V (1/8) 1).
Proof.
  exists (V 0 0, 1/4), (V (1/8) 0). split; [now left|]. split.
  - exists (1/2). split; [lra|]. unfold along; cbn. f_equal; lra.
  - cbn. unfold edist. cbn. replace (_ + _) with (1/8 * (1/8)) by lra. rewrite sqrt_square; lra.
Qed.

(** C71: [sight_soc] and [f_soc_max] have no effect.  With a sight of 1 m and a cap
    of 1 N agents 1.5 m apart get 40 N. *)
Theorem C71_settings_ignored_refuted : exists agents',
  aa_node_update (fun _ _ => [(0, 1)]%nat) (AANode 1 (3/10) 1 None) Circular [pi; pj] = Ok agents' /\
  (1 < gap (a_position pi, a_radius pi) (a_position pj, a_radius pj)) /\
  exists b, nth_error agents' 0 = Some b /\ 40 <= elen (a_force b).
Proof. exact traits_ignored. Qed.
Print Assumptions C71_settings_ignored_refuted.
Theorem C71_longer_sight_has_no_effect : forall enum agents n,
  (forall c, good_enumeration (map a_position agents) c (enum (map a_position agents) c)) ->
  (forall a, In a agents -> 0 <= a_radius a <= nd_max_agent_radius n) -> nd_cell_size n = None -> 3 <= nd_sight_soc n ->
  aa_node_update enum n Circular agents =
  aa_node_update enum (AANode 3 (nd_max_agent_radius n) (nd_f_soc_max n) None) Circular agents.
Proof. exact sight_no_effect. Qed.
Print Assumptions C71_longer_sight_has_no_effect.
(** Nodes that differ in the cap do the same to all agents. *)
Theorem C71_cap_has_no_effect : forall enum k agents sight size cell cap cap',
  aa_node_update enum (AANode sight size cap cell) k agents = aa_node_update enum (AANode sight size cap' cell) k agents.
Proof. reflexivity. Qed.
Print Assumptions C71_cap_has_no_effect.
