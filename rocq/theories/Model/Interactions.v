(** * crowddynamics/core/interactions.py

    The pairs enumerated by the external package [cell_lists]
    ([iter_nearest_neighbors]) are a parameter of the model. *)
From Verif Require Export Model.Motion Model.PowerLaw.
Open Scope R_scope.

(** interactions.py:45 *)
Definition SIGTH_SOC : R := 3.

(** [agents[i]['force'][:] += f] and [agents[i]['torque'] += t]. *)
Definition add_force (f : vec) (a : agent) : agent := set_force (vadd (a_force a) f) a.
Definition add_torque (t : R) (a : agent) : agent := set_torque (a_torque a + t) a.
(** Update of one row; [i] in range in every use. *)
Definition modify (i : nat) (f : agent -> agent) (agents : list agent) : list agent :=
  match nth_error agents i with
  | Some a => upd agents i (f a)
  | None => agents
  end.

(** interactions.py:61-67 and 92-98: the contact part. *)
Definition with_contact (h : R) (n : vec) (ai aj : agent) (fs : vec * vec) : vec * vec :=
  if Rltb h 0 then
    let t := rotate270 n in
    let v := vsub (a_velocity ai) (a_velocity aj) in
    (vadd (fst fs) (force_contact h n v t (a_mu ai) (a_kappa ai) (a_damping ai)),
     vsub (snd fs) (force_contact h n v t (a_mu aj) (a_kappa aj) (a_damping aj)))
  else fs.

(** interactions.py:53-67: the forces of [interaction_agent_agent_circular];
    [None] when the agents are out of sight. *)
Definition pair_forces_circular (ai aj : agent) : res (option (vec * vec)) :=
  let '(h, n) := distance_circles (a_position ai) (a_radius ai) (a_position aj) (a_radius aj) in
  if Rltb h SIGTH_SOC then
    do fs <- force_social_circular ai aj;
    Ok (Some (with_contact h n ai aj fs))
  else Ok None.
(** interactions.py:53-70 [interaction_agent_agent_circular]; an index out of
    range is an error. *)
Definition interaction_agent_agent_circular (i j : nat) (agents : list agent) : res (list agent) :=
  match nth_error agents i, nth_error agents j with
  | Some ai, Some aj =>
      do fs <- pair_forces_circular ai aj;
      match fs with
      | None => Ok agents
      | Some (fi, fj) => Ok (modify j (add_force fj) (modify i (add_force fi) agents))
      end
  | _, _ => Err IndexError
  end.

(** interactions.py:75-98: forces and lever arms of [interaction_agent_agent_three_circle]. *)
Definition pair_forces_three_circle (ai aj : agent) : res (option (vec * vec * vec * vec)) :=
  let '(h, n, r_moment_i, r_moment_j) :=
    distance_three_circles (xs_of ai) (rs_of ai) (xs_of aj) (rs_of aj) in
  match h with
  | None => Ok None
  | Some h =>
      if Rltb h SIGTH_SOC then
        do fs <- force_social_three_circle ai aj;
        let '(fi, fj) := with_contact h n ai aj fs in
        Ok (Some (fi, fj, r_moment_i, r_moment_j))
      else Ok None
  end.
(** interactions.py:75-104 [interaction_agent_agent_three_circle]. *)
Definition interaction_agent_agent_three_circle (i j : nat) (agents : list agent) : res (list agent) :=
  match nth_error agents i, nth_error agents j with
  | Some ai, Some aj =>
      do fs <- pair_forces_three_circle ai aj;
      match fs with
      | None => Ok agents
      | Some (fi, fj, mi, mj) =>
          Ok (modify j (add_torque (cross mj fj)) (modify i (add_torque (cross mi fi))
             (modify j (add_force fj) (modify i (add_force fi) agents))))
      end
  | _, _ => Err IndexError
  end.

(** interactions.py:150-166: loop over the enumerated pairs; the array after an
    exception is not modelled. *)
Fixpoint over_pairs (f : nat -> nat -> list agent -> res (list agent)) (pairs : list (nat * nat))
    (agents : list agent) : res (list agent) :=
  match pairs with
  | [] => Ok agents
  | (i, j) :: pairs' => do agents' <- f i j agents; over_pairs f pairs' agents'
  end.
Definition agent_agent (k : kind) (pairs : list (nat * nat)) (agents : list agent) : res (list agent) :=
  match k with
  | Circular => over_pairs interaction_agent_agent_circular pairs agents
  | ThreeCircle => over_pairs interaction_agent_agent_three_circle pairs agents
  end.
(** interactions.py:191-205 [agent_agent_block_list]: [enum positions cell_size] is
    what [add_to_cells], [neighboring_cells] and [iter_nearest_neighbors] produce. *)
Definition agent_agent_block_list (enum : list vec -> R -> list (nat * nat)) (k : kind) (agents : list agent)
    (cell_size : R) : res (list agent) :=
  agent_agent k (enum (map a_position agents) cell_size) agents.

(** interactions.py:110-120 [interaction_agent_circular_obstacle], one row;
    a NaN distance compares false. *)
Definition obstacle_circular (a : agent) (o : obstacle) : agent :=
  match distance_circle_line (a_position a) (a_radius a) (p0 o) (p1 o) with
  | None => a
  | Some (h, n) =>
      if Rltb h 0 then
        let t := rotate270 n in
        add_force (force_contact h n (a_velocity a) t (a_mu a) (a_kappa a) (a_damping a)) a
      else a
  end.
(** interactions.py:126-141 [interaction_agent_three_circle_obstacle]. *)
Definition obstacle_three_circle (a : agent) (o : obstacle) : agent :=
  match distance_three_circle_line (xs_of a) (rs_of a) (p0 o) (p1 o) with
  | None => a
  | Some (h, n, r_moment) =>
      if Rltb h 0 then
        let t := rotate270 n in
        let force := force_contact h n (a_velocity a) t (a_mu a) (a_kappa a) (a_damping a) in
        add_torque (cross r_moment force) (add_force force a)
      else a
  end.
(** interactions.py:172-186, 208-214 [agent_obstacle]. *)
Definition agent_obstacle (k : kind) (agents : list agent) (obstacles : list obstacle) : list agent :=
  match k with
  | Circular => map (fun a => fold_left obstacle_circular obstacles a) agents
  | ThreeCircle => map (fun a => fold_left obstacle_three_circle obstacles a) agents
  end.

(** simulation/logic.py:90-113 [AgentAgentInteractions]: the traits and [update].
    [nd_cell_size] is [None] until a cell size is assigned; then the default of
    lines 108-110 applies. *)
Record aa_node : Type := AANode {
  nd_sight_soc : R; nd_max_agent_radius : R; nd_f_soc_max : R; nd_cell_size : option R }.
Definition node_cell_size (n : aa_node) : R :=
  match nd_cell_size n with Some c => c | None => nd_sight_soc n + 2 * nd_max_agent_radius n end.
Definition aa_node_default : aa_node := AANode 3 (3/10) 2000 None.
Definition aa_node_update (enum : list vec -> R -> list (nat * nat)) (n : aa_node) (k : kind) (agents : list agent) : res (list agent) :=
  agent_agent_block_list enum k agents (node_cell_size n).
