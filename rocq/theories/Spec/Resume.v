(** * Going on from a stored state, and walls drawn in another way *)
From Coq Require Import Permutation.
From Verif Require Export Spec.Loads Spec.Runs Spec.Plane.
Open Scope R_scope.

(** The same surroundings, whose random numbers are those that come after the first [n] updates
    of Fluctuation. *)
Definition later (n : nat) (e : env) : env :=
  Env (e_kind e) (e_obstacles e) (e_targets e) (e_nav e) (e_enum e) (e_argsort e) (e_inside e) (fun k => e_draws e (n + k)).

(** [t] goes on where [s] was: same agents, and the clock and the counter of [s] are ahead by
    [time] and [count]. *)
Definition ahead (time : R) (count draws : nat) (s t : sim) : Prop :=
  s_agents t = s_agents s /\ s_time s = time + s_time t /\ s_inactive s = (count + s_inactive t)%nat /\ s_draws s = (draws + s_draws t)%nat.

(** The same walls: in another order, and some with their end points exchanged. *)
Definition either_way (o o' : obstacle) : Prop := o' = o \/ (p0 o' = p1 o /\ p1 o' = p0 o).
Definition same_walls (l l' : list obstacle) : Prop := exists m, Permutation l m /\ Forall2 either_way m l'.
Definition with_walls (l : list obstacle) (e : env) : env :=
  Env (e_kind e) l (e_targets e) (e_nav e) (e_enum e) (e_argsort e) (e_inside e) (e_draws e).

(** [m] lies on the wall [o], between its ends; the two pieces the wall falls into there. *)
Definition inner_point (o : obstacle) (m : vec) : Prop :=
  exists t, 0 < t < 1 /\ m = V (vx (p0 o) + t * (vx (p1 o) - vx (p0 o))) (vy (p0 o) + t * (vy (p1 o) - vy (p0 o))).
Definition cut (o : obstacle) (m : vec) : list obstacle := [Obs (p0 o) m; Obs m (p1 o)].
(** Somebody is no nearer to [m] than their own radius. *)
Definition clear_of (m : vec) (a : agent) : Prop := a_radius a <= edist (a_position a) m.
(** [n] completed updates lead from one state to another. *)
Definition after (e : env) (x : expr node) (n : nat) (s s' : sim * nat) : Prop := steps (fun _ _ => false) (simulation_update e x) 0 n s s'.
