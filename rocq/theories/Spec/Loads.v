(** * Which node contributed which force *)
From Verif Require Export Model.Simulation Spec.Runs Spec.Written.
Open Scope R_scope.

(** The nodes of a list run one after the other, none raising; the log holds every
    node together with the state in which it started. *)
Inductive runs (e : env) : list node -> sim -> list (node * sim) -> sim -> Prop :=
| runs_none s : runs e [] s [] s
| runs_next n l s s1 log s' : run_node e n s = Ok s1 -> runs e l s1 log s' -> runs e (n :: l) s ((n, s) :: log) s'.

(** The same state with all forces and torques cleared. *)
Definition unloaded (s : sim) : sim := with_agents s (map (fun a => set_torque 0 (set_force vzero a)) (s_agents s)).
(** Run alone, without any force accumulated so far, [n] gives agent [i] this force and
    this torque. *)
Definition contributes (e : env) (i : nat) (n : node) (s : sim) (force : vec) (torque : R) : Prop :=
  exists s' a, run_node e n (unloaded s) = Ok s' /\ nth_error (s_agents s') i = Some a /\ a_force a = force /\ a_torque a = torque.

(** No force and, for agents that have one, no torque is left over. *)
Definition at_rest_loads (k : kind) (s : sim) : Prop :=
  forall a, In a (s_agents s) -> a_force a = V 0 0 /\ (k = ThreeCircle -> a_torque a = 0).

(** Nodes other than Reset and Integrator. *)
Definition plain (n : node) : Prop := match n with Reset | Integrator _ _ => False | _ => True end.

(** [n] completed updates lead from one state to another; [dts] are the values of
    [data['dt']] after each of them. *)
Inductive updates (e : env) (x : expr node) : sim * nat -> list R -> sim * nat -> Prop :=
| updates_none s : updates e x s [] s
| updates_next s s1 dts s' : simulation_update e x s = (s1, None) -> updates e x s1 dts s' -> updates e x s (s_dt (fst s1) :: dts) s'.

(** The number of agents marked as not active. *)
Definition outside_count (s : sim) : nat := length (filter (fun a => negb (a_active a)) (s_agents s)).
