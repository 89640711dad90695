(** * How fast agents can get, and walls they do not pass *)
From Verif Require Export Spec.Straight Spec.Written Spec.Overlap.
Open Scope R_scope.

(** Agent [j] is within the social sight of agent [i]: less than 3 m lie between their
    bodies. *)
Definition in_sight (k : kind) (agents : list agent) (i j : nat) : Prop :=
  j <> i /\ exists a b c d, nth_error agents i = Some a /\ nth_error agents j = Some b /\
    In c (body k a) /\ In d (body k b) /\ gap c d < 3.
(** At most [n] others are. *)
Definition company (k : kind) (agents : list agent) (i n : nat) : Prop :=
  forall js, NoDup js -> (forall j, In j js -> in_sight k agents i j) -> (length js <= n)%nat.

(** Nobody overlaps agent [i], and no wall does. *)
Definition touches_nobody (k : kind) (agents : list agent) (i : nat) : Prop :=
  forall a j b, nth_error agents i = Some a -> nth_error agents j = Some b -> j <> i ->
  ~ bodies_overlap (body k a) (body k b).
Definition touches_no_wall (k : kind) (walls : list obstacle) (agents : list agent) (i : nat) : Prop :=
  forall a o, nth_error agents i = Some a -> In o walls -> p0 o <> p1 o -> ~ body_hits_wall (body k a) (p0 o) (p1 o).

(** Navigation maps hold directions, vectors of length at most 1. *)
Definition maps_of_directions (e : env) : Prop :=
  forall step radius strength t m dir, e_nav e step radius strength t = Ok (m, dir) ->
  forall i j d, (i < rows dir)%nat -> (j < cols dir)%nat -> at_ dir i j = Some d -> elen d <= 1.

(** Able to walk: nothing is pending, what is divided by is positive, the time to adjust is at
    least one time step, the wanted velocity is not negative. *)
Definition walker (k : kind) (a : agent) : Prop := fit k a /\ 0 <= a_target_velocity a /\ 0 <= a_radius a.

(** The greatest acceleration, apart from the friction, an agent with [n] others in sight can
    get without being touched: its own drive, the random force, the avoidance of others, which
    is limited to 2000 N each. *)
Definition push_limit (a : agent) (n : nat) : R :=
  a_target_velocity a / a_tau_adj a + 3 * a_std_rand_force a + INR n * 2000 / a_mass a.
(** A speed it does not exceed, and how far it can come in one step of 1/100 s. *)
Definition speed_limit (a : agent) (n : nat) : R :=
  let h := 1/100 / a_tau_adj a in
  elen (a_velocity a) + 2 * (1/100) * push_limit a n + a_tau_adj a * push_limit a n * ((1 + h / 2) / (1 - h / 2)).
Definition stride_limit (a : agent) (n : nat) : R :=
  1/100 * speed_limit a n + (1/100)^2 / 2 * (push_limit a n + speed_limit a n / a_tau_adj a).

(** The segment from [x] to [y] meets the wall [o]. *)
Definition crosses (o : obstacle) (x y : vec) : Prop := exists q, on_segment x y q /\ on_segment (p0 o) (p1 o) q.

(** The body stays within [rho] of the position, however it turns. *)
Definition sized (k : kind) (rho : R) (a : agent) : Prop :=
  match k with
  | Circular => a_radius a <= rho
  | ThreeCircle => shoulders_in_place a /\ 0 <= a_r_ts a /\ a_r_t a <= rho /\ a_r_ts a + a_r_s a <= rho
  end.
(** Everybody is at least [d] from everybody else and at least [w] from every wall. *)
Definition scattered (agents : list agent) (walls : list obstacle) (d w : R) : Prop :=
  (forall i j a b, i <> j -> nth_error agents i = Some a -> nth_error agents j = Some b -> d <= edist (a_position a) (a_position b)) /\
  (forall a o q, In a agents -> In o walls -> on_segment (p0 o) (p1 o) q -> w <= edist (a_position a) q).

(** Everybody heads in a direction, or nowhere, and has a radius. *)
Definition headed (agents : list agent) : Prop := forall a, In a agents -> elen (a_target_direction a) <= 1 /\ 0 <= a_radius a.
(** Agent [i] is touched neither by anybody nor by a wall and has at most [n] others in
    sight. *)
Definition undisturbed (e : env) (i n : nat) (s : sim) : Prop :=
  touches_nobody (e_kind e) (s_agents s) i /\ touches_no_wall (e_kind e) (e_obstacles e) (s_agents s) i /\ company (e_kind e) (s_agents s) i n.
(** What a simulation is given: cell lists that find everybody near, draws from their ranges,
    maps of directions. *)
Definition fair_world (e : env) : Prop :=
  (forall ps c, good_enumeration ps c (e_enum e ps c)) /\ fair_draws (e_draws e) /\ maps_of_directions e.
(** The radius of the circle around the position itself. *)
Definition torso (k : kind) (a : agent) : R := match k with Circular => a_radius a | ThreeCircle => a_r_t a end.
