(** * The same scene in another coordinate system *)
From Verif Require Export Spec.Loads Spec.Pairs.
Open Scope R_scope.

(** A change of coordinates: mirrored if [f_flip] is -1, turned by an angle with this cosine
    and sine, moved by [f_shift]. *)
Record frame : Type := Frame { f_cos : R; f_sin : R; f_flip : R; f_shift : vec }.
Definition proper (F : frame) : Prop := f_cos F ^ 2 + f_sin F ^ 2 = 1 /\ (f_flip F = 1 \/ f_flip F = -1).
(** A direction, and a place, in the new coordinates. *)
Definition vect (F : frame) (v : vec) : vec :=
  V (f_cos F * vx v - f_sin F * (f_flip F * vy v)) (f_sin F * vx v + f_cos F * (f_flip F * vy v)).
Definition point (F : frame) (p : vec) : vec := V (vx (f_shift F) + vx (vect F p)) (vy (f_shift F) + vy (vect F p)).
(** The axes keep their directions. *)
Definition only_moved (F : frame) : Prop := f_cos F = 1 /\ f_sin F = 0 /\ f_flip F = 1.

(** [b] is the row [a] in the new coordinates.  Three circle agents: no mirror image, and
    either the axes keep their directions, or the agents do not aim at an orientation. *)
Record seen (k : kind) (F : frame) (a b : agent) : Prop := Seen {
  sn_active : a_active b = a_active a;
  sn_target_reached : a_target_reached b = a_target_reached a;
  sn_target : a_target b = a_target a;
  sn_is_leader : a_is_leader b = a_is_leader a;
  sn_is_follower : a_is_follower b = a_is_follower a;
  sn_index_leader : a_index_leader b = a_index_leader a;
  sn_familiar_exit : a_familiar_exit b = a_familiar_exit a;
  sn_radius : a_radius b = a_radius a;
  sn_r_t : a_r_t b = a_r_t a;
  sn_r_s : a_r_s b = a_r_s a;
  sn_r_ts : a_r_ts b = a_r_ts a;
  sn_mass : a_mass b = a_mass a;
  sn_inertia_rot : a_inertia_rot b = a_inertia_rot a;
  sn_target_velocity : a_target_velocity b = a_target_velocity a;
  sn_target_angular_velocity : a_target_angular_velocity b = a_target_angular_velocity a;
  sn_position : a_position b = point F (a_position a);
  sn_velocity : a_velocity b = vect F (a_velocity a);
  sn_target_direction : a_target_direction b = vect F (a_target_direction a);
  sn_force : a_force b = vect F (a_force a);
  sn_force_prev : a_force_prev b = vect F (a_force_prev a);
  sn_tau_adj : a_tau_adj b = a_tau_adj a;
  sn_k_soc : a_k_soc b = a_k_soc a;
  sn_tau_0 : a_tau_0 b = a_tau_0 a;
  sn_mu : a_mu b = a_mu a;
  sn_kappa : a_kappa b = a_kappa a;
  sn_damping : a_damping b = a_damping a;
  sn_std_rand_force : a_std_rand_force b = a_std_rand_force a;
  sn_std_rand_torque : a_std_rand_torque b = a_std_rand_torque a;
  sn_tau_rot : a_tau_rot b = a_tau_rot a;
  sn_angular_velocity : a_angular_velocity b = a_angular_velocity a;
  sn_torque : a_torque b = a_torque a;
  sn_torque_prev : a_torque_prev b = a_torque_prev a;
  sn_body : k = ThreeCircle -> f_flip F = 1 /\
    a_position_ls b = point F (a_position_ls a) /\ a_position_rs b = point F (a_position_rs a) /\
    V (cos (a_orientation b)) (sin (a_orientation b)) = vect F (V (cos (a_orientation a)) (sin (a_orientation a))) /\
    (only_moved F \/ a_target_angular_velocity a = 0) /\
    (only_moved F -> a_orientation b = a_orientation a /\ a_target_orientation b = a_target_orientation a) }.

Definition sim_seen (k : kind) (F : frame) (s s' : sim) : Prop :=
  Forall2 (seen k F) (s_agents s) (s_agents s') /\
  s_dt s' = s_dt s /\ s_time s' = s_time s /\ s_inactive s' = s_inactive s /\ s_draws s' = s_draws s.

(** What a navigation map answers at a place: nothing outside the grid. *)
Definition answer (md : mesh * grid (option vec)) (p : vec) : option (option vec) :=
  let '(m, dir) := md in let '(c, w) := indicer m p in
  if is_inside w c (rows dir) (cols dir) then Some (at_ dir (Z.to_nat w) (Z.to_nat c)) else None.
Definition res_seen {A} (P : A -> A -> Prop) (r r' : res A) : Prop :=
  match r, r' with Ok x, Ok y => P x y | Err x, Err y => x = y | _, _ => False end.

(** [e'] is the surroundings [e] in the new coordinates. *)
Record env_seen (F : frame) (e e' : env) : Prop := EnvSeen {
  es_kind : e_kind e' = e_kind e;
  es_obstacles : e_obstacles e' = map (fun o => Obs (point F (p0 o)) (point F (p1 o))) (e_obstacles e);
  es_targets : e_targets e' = map (map (point F)) (e_targets e);
  es_targets_ok : ~ In [] (e_targets e);
  es_nav : forall step radius strength t, res_seen (fun md md' => forall p, answer md' (point F p) = option_map (option_map (vect F)) (answer md p))
             (e_nav e step radius strength t) (e_nav e' step radius strength t);
  es_argsort : e_argsort e' = e_argsort e;
  es_inside : forall p, e_inside e' (point F p) = e_inside e p;
  es_draws : forall n i, let '(phi, z, zt) := e_draws e n i in let '(phi', z', zt') := e_draws e' n i in
     V (cos phi') (sin phi') = vect F (V (cos phi) (sin phi)) /\ z' = z /\ zt' = zt }.

(** The cell lists give the same pairs in both. *)
Definition same_pairs (F : frame) (e e' : env) : Prop := forall ps c, e_enum e' (map (point F) ps) c = e_enum e ps c.

(** The same state, the same number of updates, and the same exception or none. *)
Definition outcome_seen (k : kind) (F : frame) (r r' : (sim * nat) * option exn) : Prop :=
  sim_seen k F (fst (fst r)) (fst (fst r')) /\ snd (fst r') = snd (fst r) /\ snd r' = snd r.
(** The cells are as wide as the range of the forces between agents; no herding. *)
Definition cells_fit (rmax : R) (n : node) : Prop :=
  match n with AgentAgentInteractions t => 3 + 2 * rmax <= node_cell_size t | LeaderFollowerWithHerding _ _ => False | _ => True end.
Definition radii_below (rmax : R) (l : list agent) : Prop := forall a, In a l -> 0 <= a_radius a <= rmax.
