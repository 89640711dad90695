(** * Model of the crowds of the example simulations

    crowddynamics/examples/simulations.py, crowddynamics/examples/collective_motion.py:
    the functions [attributes] and [_default_agents].

    The positions come from generators (see [Model/Field.v] for [sample_spawn]), the walls are
    the array [geom_to_linear_obstacles] makes of the obstacles of the field
    ([Model/Geometry.v]). *)
From Verif Require Export Model.Placement Model.AgentObject.
Open Scope R_scope.

(** [np.random.randint(lo, hi)]; [d] is the raw draw. *)
Definition randint (lo hi d : Z) : res Z :=
  if (lo <? hi)%Z then Ok (lo + d mod (hi - lo))%Z else Err ValueError.
(** [np.random.uniform(lo, hi)]; [u] is the raw draw, from [0, 1). *)
Definition uniform_draw (lo hi u : R) : R := lo + (hi - lo) * u.

(** Raw draws of one call of [attributes]. *)
Record rolls : Type := Rolls { r_angle : R; r_target : Z; r_exit : Z }.

(** The dictionary [attributes] returns. [body_type] is 'adult', the only value of the trait;
    [angular_velocity] is 0 and [target_orientation] the orientation in all examples. *)
Record attributes : Type := Attributes {
  at_target : Z; at_is_leader : bool; at_is_follower : bool; at_orientation : R;
  at_velocity : vec; at_target_direction : vec; at_familiar_exit : Z }.

(** Circular agents have no orientation: traitlets drops the argument. *)
Definition attributed (k : kind) (d : attributes) : agent :=
  let a := set_familiar_exit (at_familiar_exit d)
    (set_target_direction (at_target_direction d) (set_velocity (at_velocity d)
    (set_is_follower (at_is_follower d) (set_is_leader (at_is_leader d) (set_target (at_target d) default_row))))) in
  match k with
  | Circular => a
  | ThreeCircle => set_target_orientation (at_orientation d) (set_angular_velocity 0 (set_orientation (at_orientation d) a))
  end.
(** [agent_type( **attributes)]; [zs] are the draws for the body. *)
Definition new_agent (k : kind) (zs : nat -> R) (d : attributes) : res member :=
  match assign_body_type zs shipped_config "adult"%string body0 with
  | (Some e, _) => Err e
  | (None, b) =>
      if rest_valid k (attributed k d) then Ok (Member (obj_row (AObj b (attributed k d))) None None)
      else Err TraitError
  end.
Fixpoint new_agents (k : kind) (zs : nat -> nat -> R) (ds : list (res attributes)) : res (list member) :=
  match ds with
  | [] => Ok []
  | d :: ds' =>
      do d <- d;
      do m <- new_agent k (zs O) d;
      do ms <- new_agents k (fun n => zs (S n)) ds';
      Ok (m :: ms)
  end.

(** One [AgentGroup(size, agent_type, attributes)] and its
    [add_non_overlapping_group(group, position_gen, obstacles)]. *)
Record plan : Type := Plan {
  pl_size : Z; pl_attributes : nat -> res attributes; pl_bodies : nat -> nat -> R;
  pl_positions : nat -> option vec; pl_walls : option (list obstacle) }.
(** Simplification: exceptions in the agents that the first two notifications build and the
    third one replaces ([Model/Body.v], [group_new]) are left out. *)
Definition plan_group (k : kind) (p : plan) : res group :=
  match group_new (pl_size p) (Callable (pl_attributes p) 0) with
  | (Some e, _) => Err e
  | (None, g) =>
      do ms <- new_agents k (pl_bodies p) (gr_members g);
      Ok (Group k (Z.to_nat (pl_size p)) ms)
  end.
(** All groups, one after the other; exceptions end the function. *)
Fixpoint populate (st : agents_obj) (ps : list plan) : res agents_obj :=
  match ps with
  | [] => Ok st
  | p :: ps' =>
      do g <- plan_group (ag_kind st) p;
      match add_non_overlapping_group st g (pl_positions p) (pl_walls p) with
      | (Raises e, _, _, _) => Err e
      | (_, st', _, _) => populate st' ps'
      end
  end.
(** [Agents(agent_type=self.agent_type)] with the default cell size 0.6. *)
Definition crowd (k : kind) (ps : list plan) : res agents_obj :=
  do st <- agents_new k (6/10);
  populate st ps.
(** [Int(min=lo, max=hi)]. *)
Definition int_trait (lo : Z) (hi : option Z) (n : Z) : res Z :=
  if (n <? lo)%Z then Err TraitError
  else match hi with
       | Some m => if (m <? n)%Z then Err TraitError else Ok n
       | None => Ok n
       end.

Section Examples.
  Variable k : kind.
  (** Draws of the calls of [attributes] and of the bodies, per group. *)
  Variable rolled : nat -> nat -> rolls.
  Variable bodies : nat -> nat -> nat -> R.
  (** [len(self.field.targets)]. *)
  Variable targets : Z.
  (** The draws of the generator [self.field.sample_spawn(i)] made for a group:
      [spawn group i n]. *)
  Variable spawn : nat -> nat -> nat -> option vec.
  (** [geom_to_linear_obstacles(self.field.obstacles)]. *)
  Variable walls : list obstacle.

  (** Somebody who walks where they look. *)
  Definition walking (target : Z) (leader follower : bool) (orientation : R) : attributes :=
    Attributes target leader follower orientation (unit_vector orientation) (unit_vector orientation) (-1).
  (** Somebody who stands. *)
  Definition standing (target : Z) (leader follower : bool) (orientation : R) (familiar : Z) : attributes :=
    Attributes target leader follower orientation vzero vzero familiar.
  Definition any_angle (d : rolls) : R := uniform_draw (- PI) PI (r_angle d).

  (** *** examples/simulations.py *)
  (** simulations.py:36-45, 60-71 [Outdoor]. *)
  Definition outdoor_crowd (size : Z) : res agents_obj :=
    do size <- int_trait 1 None size;
    crowd k [Plan size (fun n => Ok (walking (-1) false false (any_angle (rolled 0 n)))) (bodies 0) (spawn 0 0) None].
  (** simulations.py:103-121, 146-163 [Hallway]. *)
  Definition hallway_crowd (size : Z) : res agents_obj :=
    do size <- int_trait 2 None size;
    crowd k [Plan (size / 2) (fun n => Ok (walking 1 false false 0)) (bodies 0) (spawn 0 0) None;
             Plan (size / 2) (fun n => Ok (walking 0 false false PI)) (bodies 1) (spawn 1 1) None].
  (** simulations.py:189-199, 225-236 [RoomWithOneExit]. *)
  Definition room_crowd (size : Z) : res agents_obj :=
    do size <- int_trait 1 None size;
    crowd k [Plan size (fun n => Ok (walking 0 false false 0)) (bodies 0) (spawn 0 0) None].
  (** simulations.py:254-268, 287-300 [FourExitsRandomPlacing]. *)
  Definition four_exits_crowd (size : Z) : res agents_obj :=
    do size <- int_trait 0 None size;
    crowd k [Plan size (fun n =>
               do t <- randint 0 targets (r_target (rolled 0 n));
               do x <- randint 0 targets (r_exit (rolled 0 n));
               Ok (standing t false false (any_angle (rolled 0 n)) x)) (bodies 0) (spawn 0 0) (Some walls)].

  (** *** examples/collective_motion.py *)
  (** collective_motion.py:47-63: [attributes(is_leader)] of [Outdoor]. *)
  Definition outdoor_attributes (leader : bool) (d : rolls) : attributes :=
    walking (-1) leader (negb leader) (if leader then 0 else any_angle d).
  (** collective_motion.py:80-101 [Outdoor]; the leader stands at a given place. *)
  Definition outdoor_herding_crowd (size_leaders size_herding : Z) (width height horizontal vertical : R) : res agents_obj :=
    do nl <- int_trait 0 (Some 1%Z) size_leaders;
    do nh <- int_trait 0 None size_herding;
    crowd k [Plan nl (fun n => Ok (outdoor_attributes true (rolled 0 n))) (bodies 0)
               (fun _ => Some (V (horizontal * width) (vertical * height))) None;
             Plan nh (fun n => Ok (outdoor_attributes false (rolled 1 n))) (bodies 1) (spawn 1 0) None].
  (** collective_motion.py:126-142, 211-227: [attributes(has_target, is_follower)] of
      [Rounding] and [AvoidObstacle]. *)
  Definition herding_attributes (has_target follower : bool) (d : rolls) : res attributes :=
    do t <- randint 0 targets (r_target d);
    Ok (standing (if has_target then t else (-1)%Z) (negb follower) follower (any_angle d) (-1)).
  (** collective_motion.py:161-180 [Rounding]. *)
  Definition rounding_crowd (size_leaders size_herding : Z) : res agents_obj :=
    do nl <- int_trait 0 None size_leaders;
    do nh <- int_trait 0 None size_herding;
    crowd k [Plan nl (fun n => herding_attributes true false (rolled 0 n)) (bodies 0) (spawn 0 0) (Some walls);
             Plan nh (fun n => herding_attributes false true (rolled 1 n)) (bodies 1) (spawn 1 0) (Some walls)].
  (** collective_motion.py:249-268 [AvoidObstacle]. *)
  Definition avoid_crowd (size_leaders size_herding : Z) : res agents_obj :=
    do nl <- int_trait 0 None size_leaders;
    do nh <- int_trait 0 None size_herding;
    crowd k [Plan nl (fun n => herding_attributes true false (rolled 0 n)) (bodies 0) (spawn 0 0) (Some walls);
             Plan nh (fun n => herding_attributes false true (rolled 1 n)) (bodies 1) (spawn 1 1) (Some walls)].
  (** collective_motion.py:294-307, 325-344 [ClosedRoom]. *)
  Definition closed_attributes (leader : bool) (d : rolls) : attributes :=
    walking (-1) leader (negb leader) (any_angle d).
  Definition closed_crowd (size_leaders size_herding : Z) : res agents_obj :=
    do nl <- int_trait 0 None size_leaders;
    do nh <- int_trait 0 None size_herding;
    crowd k [Plan nl (fun n => Ok (closed_attributes true (rolled 0 n))) (bodies 0) (spawn 0 0) None;
             Plan nh (fun n => Ok (closed_attributes false (rolled 1 n))) (bodies 1) (spawn 1 0) None].
  (** collective_motion.py:406-423 [attributes] of [FourExitsRandomPlacing]. *)
  Definition four_attributes (has_target follower : bool) (d : rolls) : res attributes :=
    do t <- randint 0 targets (r_target d);
    do x <- randint 0 targets (r_exit d);
    Ok (standing (if has_target then t else (-1)%Z) (negb follower) follower (any_angle d) x).
  (** collective_motion.py:442-461 [FourExitsRandomPlacing]. *)
  Definition four_herding_crowd (size_leaders size_herding : Z) : res agents_obj :=
    do nl <- int_trait 0 None size_leaders;
    do nh <- int_trait 0 None size_herding;
    crowd k [Plan nl (fun n => four_attributes true false (rolled 0 n)) (bodies 0) (spawn 0 0) (Some walls);
             Plan nh (fun n => four_attributes false true (rolled 1 n)) (bodies 1) (spawn 1 0) (Some walls)].
  (** collective_motion.py:483-498, 517-550 [FourExitsFixedPlacing]; spawn [i + 1] is the
      [i]-th rectangle of lines 523-526. *)
  Definition fixed_attributes (target : Z) (follower : bool) (d : rolls) : res attributes :=
    do x <- randint 0 targets (r_exit d);
    Ok (standing target (negb follower) follower (any_angle d) x).
  Definition four_fixed_crowd (size_leaders size_herding : Z) : res agents_obj :=
    do nl <- int_trait 4 (Some 4%Z) size_leaders;
    do nh <- int_trait 0 None size_herding;
    crowd k (map (fun i => Plan 1 (fun n => fixed_attributes (Z.of_nat i) false (rolled i n)) (bodies i) (spawn i (S i)) (Some walls))
                 (seq 0 (Z.to_nat nl)) ++
             [Plan nh (fun n => fixed_attributes (-1) true (rolled (Z.to_nat nl) n)) (bodies (Z.to_nat nl)) (spawn (Z.to_nat nl) 0) (Some walls)]).
End Examples.
(** Parameters of the fields that the examples hand over: collective_motion.py:199-208,
    244-247 [AvoidObstacle] (its field is fields.py:122-150). *)
From Verif Require Import Model.ExampleFields.
Definition avoid_simulation_field (is_valid is_empty is_polygon : shape -> bool) (width height exit_width ratio_obs : R) : res (field shape) :=
  do width <- float_trait 0 None width;
  do height <- float_trait 0 None height;
  do exit_width <- float_trait 0 (Some 10) exit_width;
  do ratio_obs <- float_trait 0 (Some 1) ratio_obs;
  avoid_obstacle is_valid is_empty is_polygon width height exit_width ratio_obs.
