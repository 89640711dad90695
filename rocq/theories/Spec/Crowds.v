(** * What the agents of an example simulation are like at the start *)
From Verif Require Export Model.ExampleSims Spec.Plane Spec.Bodies Spec.Placed.
Open Scope R_scope.

(** Every member of every group got a place. *)
Definition complete (st : agents_obj) : Prop := ag_index st = length (ag_array st).

(** An adult of conf/body_types.cfg. *)
Definition adult (a : agent) : Prop :=
  22/100 <= a_radius a <= 29/100 /\ 655/10 <= a_mass a <= 815/10 /\ 95/100 <= a_target_velocity a <= 155/100 /\
  a_r_t a = 5882/10000 * a_radius a /\ a_r_s a = 3725/10000 * a_radius a /\ a_r_ts a = 6275/10000 * a_radius a /\
  0 < a_inertia_rot a.

(** The constants of the equations of motion are the defaults of the traits: agents.py:92-95,
    223-257, 283-292. *)
Definition defaults (k : kind) (a : agent) : Prop :=
  a_tau_adj a = 1/2 /\ a_k_soc a = 3/2 /\ a_tau_0 a = 3 /\ a_mu a = 120000 /\ a_kappa a = 40000 /\ a_damping a = 500 /\
  a_std_rand_force a = 1/10 /\ a_target_angular_velocity a = 0 /\
  (k = ThreeCircle -> a_tau_rot a = 1/5 /\ a_std_rand_torque a = 1/10 /\ a_torque a = 0 /\ a_torque_prev a = 0).
(** Row [a] is an agent of the attributes [d], everything else being at its default. *)
Definition made (k : kind) (d : attributes) (a : agent) : Prop :=
  a_active a = true /\ a_target_reached a = false /\ a_index_leader a = (-1)%Z /\
  a_target a = at_target d /\ a_is_leader a = at_is_leader d /\ a_is_follower a = at_is_follower d /\
  a_familiar_exit a = at_familiar_exit d /\ a_velocity a = at_velocity d /\ a_target_direction a = at_target_direction d /\
  a_force a = vzero /\ a_force_prev a = vzero /\ defaults k a /\
  (k = ThreeCircle -> a_orientation a = at_orientation d /\ a_target_orientation a = at_orientation d /\ a_angular_velocity a = 0) /\
  adult a.

(** Standing still, or walking where one looks. *)
Definition stands (k : kind) (a : agent) : Prop :=
  a_velocity a = V 0 0 /\ a_target_direction a = V 0 0 /\
  (k = ThreeCircle -> - PI <= a_orientation a <= PI /\ a_angular_velocity a = 0).
Definition walks (k : kind) (phi : R) (a : agent) : Prop :=
  a_velocity a = V (cos phi) (sin phi) /\ a_target_direction a = V (cos phi) (sin phi) /\
  (k = ThreeCircle -> a_orientation a = phi /\ a_target_orientation a = phi /\ a_angular_velocity a = 0).
Definition walks_somewhere (k : kind) (a : agent) : Prop := exists phi, - PI <= phi <= PI /\ walks k phi a.

(** Nobody's leader and nobody's follower; leaders; followers. *)
Definition independent (a : agent) : Prop := a_is_leader a = false /\ a_is_follower a = false.
Definition leads (a : agent) : Prop := a_is_leader a = true /\ a_is_follower a = false.
Definition follows (a : agent) : Prop := a_is_leader a = false /\ a_is_follower a = true.
Definition has_target (n : Z) (a : agent) : Prop := (0 <= a_target a < n)%Z.
Definition no_target (a : agent) : Prop := a_target a = (-1)%Z.
Definition knows_exit (n : Z) (a : agent) : Prop := (0 <= a_familiar_exit a < n)%Z.
(** Active, of adult size, with the default constants and no pending force. *)
Definition ready (k : kind) (a : agent) : Prop :=
  a_active a = true /\ a_target_reached a = false /\ a_index_leader a = (-1)%Z /\
  a_force a = V 0 0 /\ a_force_prev a = V 0 0 /\ defaults k a /\ adult a.

(** The raw draws are what numpy and scipy draw. *)
Definition fair_bodies (bodies : nat -> nat -> nat -> R) : Prop := forall g i n, -3 <= bodies g i n <= 3.
Definition fair_rolls (rolled : nat -> nat -> rolls) : Prop := forall g n, 0 <= r_angle (rolled g n) < 1.
(** Only points a generator drew are taken. *)
Definition drawn_from (gen : nat -> option vec) (a : agent) : Prop := exists n, gen n = Some (a_position a).

(** [n] rows; those in use satisfy [P], the others are switched off. *)
Definition starts_with (st : agents_obj) (n : Z) (P : agent -> Prop) : Prop :=
  length (ag_array st) = Z.to_nat n /\ (ag_index st <= length (ag_array st))%nat /\
  Forall P (firstn (ag_index st) (ag_array st)) /\
  Forall (fun a => a_active a = false) (skipn (ag_index st) (ag_array st)).
(** First [n] agents with [P], then [m] with [Q]. *)
Definition starts_with_two (st : agents_obj) (n m : Z) (P Q : agent -> Prop) : Prop :=
  starts_with st (n + m) (fun a => P a \/ Q a) /\
  (complete st -> exists l1 l2, ag_array st = l1 ++ l2 /\ length l1 = Z.to_nat n /\ length l2 = Z.to_nat m /\
     Forall P l1 /\ Forall Q l2).
(** A generator that never ends. *)
Definition endless (gen : nat -> option vec) : Prop := forall n, gen n <> None.
Definition no_exit (a : agent) : Prop := a_familiar_exit a = (-1)%Z.
(** Draws of a generator (or of two) that leave room for two agents of any size. *)
Definition far_apart (g : nat -> option vec) : Prop :=
  forall n m p q, (n < m)%nat -> g n = Some p -> g m = Some q -> 58/100 <= edist p q.
Definition far_from (g h : nat -> option vec) : Prop :=
  forall n m p q, g n = Some p -> h m = Some q -> 58/100 <= edist p q.
Definition away_from_walls (walls : list obstacle) (g : nat -> option vec) : Prop :=
  forall n p o q, g n = Some p -> In o walls ->
    p0 o <> p1 o /\ (on_segment (p0 o) (p1 o) q -> 29/100 <= edist p q).

(** Some example simulation was started with the agents [st]; with or without regard to the
    walls of its field. *)
Section Started.
  Variables (k : kind) (rolled : nat -> nat -> rolls) (bodies : nat -> nat -> nat -> R) (targets : Z)
            (spawn : nat -> nat -> nat -> option vec) (walls : list obstacle) (st : agents_obj).
  Inductive started_with_walls : Prop :=
  | By_four_exits size : four_exits_crowd k rolled bodies targets spawn walls size = Ok st -> started_with_walls
  | By_rounding nl nh : rounding_crowd k rolled bodies targets spawn walls nl nh = Ok st -> started_with_walls
  | By_avoid_obstacle nl nh : avoid_crowd k rolled bodies targets spawn walls nl nh = Ok st -> started_with_walls
  | By_four_herding nl nh : four_herding_crowd k rolled bodies targets spawn walls nl nh = Ok st -> started_with_walls
  | By_four_fixed nl nh : four_fixed_crowd k rolled bodies targets spawn walls nl nh = Ok st -> started_with_walls.
  Inductive started_without_walls : Prop :=
  | By_outdoor size : outdoor_crowd k rolled bodies spawn size = Ok st -> started_without_walls
  | By_hallway size : hallway_crowd k bodies spawn size = Ok st -> started_without_walls
  | By_room size : room_crowd k bodies spawn size = Ok st -> started_without_walls
  | By_outdoor_herding nl nh w h x y : outdoor_herding_crowd k rolled bodies spawn nl nh w h x y = Ok st -> started_without_walls
  | By_closed nl nh : closed_crowd k rolled bodies spawn nl nh = Ok st -> started_without_walls.
  Definition started : Prop := started_with_walls \/ started_without_walls.
End Started.
