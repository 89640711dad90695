(** * Some of the agents of a scene, or all of them in another order *)
From Coq Require Import Arith Permutation.
From Verif Require Export Spec.Frames.
Open Scope R_scope.

(** [part] is made of the rows number [sel] of [all], each taken once. *)
Definition picked (sel : list nat) (all part : list agent) : Prop :=
  NoDup sel /\ Forall2 (fun i a => nth_error all i = Some a) sel part.
(** The same simulation with these agents only.  The count of changes of [active] is that
    of all agents, so it is only compared when none is left out. *)
Definition part_of (sel : list nat) (whole part : sim) : Prop :=
  picked sel (s_agents whole) (s_agents part) /\
  s_dt part = s_dt whole /\ s_time part = s_time whole /\ s_draws part = s_draws whole /\
  (length (s_agents part) = length (s_agents whole) -> s_inactive part = s_inactive whole).
(** The same surroundings, and the same random draws for every agent. *)
Record same_world (sel : list nat) (whole part : env) : Prop := SameWorld {
  sw_kind : e_kind part = e_kind whole;
  sw_obstacles : e_obstacles part = e_obstacles whole;
  sw_targets : e_targets part = e_targets whole;
  sw_nav : forall step radius strength t, e_nav part step radius strength t = e_nav whole step radius strength t;
  sw_inside : forall p, e_inside part p = e_inside whole p;
  sw_draws : forall n m i, nth_error sel m = Some i -> e_draws part n m = e_draws whole n i }.

(** Everybody chosen is at least three metres from everybody left out, skin to skin. *)
Definition apart (k : kind) (sel : list nat) (all : list agent) : Prop :=
  forall i j a b, In i sel -> ~ In j sel -> nth_error all i = Some a -> nth_error all j = Some b ->
  forall c d, In c (body k a) -> In d (body k b) -> 3 <= gap c d.

(** Nodes that treat the agents one by one or in pairs; the time step does not depend on
    the agents, or [every] agent is there. *)
Definition independent (every : Prop) (n : node) : Prop :=
  match n with
  | Integrator dt_min dt_max => dt_min = dt_max \/ every
  | LeaderFollower _ | LeaderFollowerWithHerding _ _ => False
  | _ => True
  end.
(** No node moves the agents before the forces between them are computed. *)
Definition forces_first (l : list node) : Prop :=
  exists l1 l2, l = l1 ++ l2 /\ (forall n, In n l1 -> match n with Integrator _ _ => False | _ => True end) /\
                (forall n, In n l2 -> match n with AgentAgentInteractions _ => False | _ => True end).

(** The cell lists of both: among the chosen agents, the same pairs in the same
    orientation, in any order. *)
Definition chosen (sel : list nat) (p : nat * nat) : bool :=
  (existsb (Nat.eqb (fst p)) sel && existsb (Nat.eqb (snd p)) sel)%bool.
Definition same_pairs_of (sel : list nat) (whole part : env) : Prop := forall ps qs c,
  Forall2 (fun i q => nth_error ps i = Some q) sel qs ->
  (forall i j, In (i, j) (e_enum whole ps c) -> (i < length ps)%nat /\ (j < length ps)%nat) /\
  (forall i j, In (i, j) (e_enum part qs c) -> (i < length qs)%nat /\ (j < length qs)%nat) /\
  Permutation (filter (chosen sel) (e_enum whole ps c))
    (map (fun p => (nth (fst p) sel 0%nat, nth (snd p) sel 0%nat)) (e_enum part qs c)).
