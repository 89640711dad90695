(** * Somebody who adjusts their velocity, in float64

    As in [Model/Floats.v] every operation rounds to the nearest double, without overflow.
    One coordinate, no random force, nobody and nothing near, steps of the same length
    (dt_min = dt_max, the default). *)
From Coq Require Import Reals ZArith List.
From Flocq Require Import Core.
From Verif Require Import Model.Floats Model.FloatSteps.
Open Scope R_scope.

(** motion/adjusting.py:16-50 [force_adjust], one coordinate. *)
Definition f_force_adjust (mass tau_adj v0 e0 v : R) : R :=
  rnd (rnd (mass / tau_adj) * rnd (rnd (v0 * e0) - v)).
(** One update: logic.py:59-64 [Reset] left a force of zero, adjusting.py:95-106
    [force_adjust_agents] adds to it, integrator.py:167-176 [translational_verlet] moves
    and keeps the force for the next update. *)
Record walk : Type := Walk { w_x : R; w_v : R; w_force_prev : R }.
Definition f_walk_step (mass tau_adj v0 e0 dt : R) (s : walk) : walk :=
  let force := rnd (0 + f_force_adjust mass tau_adj v0 e0 (w_v s)) in
  let '(x, v) := f_verlet (w_x s) (w_v s) (w_force_prev s) force mass dt in
  Walk x v force.
Fixpoint f_walk (mass tau_adj v0 e0 dt : R) (s : walk) (n : nat) : walk :=
  match n with
  | O => s
  | S n => f_walk_step mass tau_adj v0 e0 dt (f_walk mass tau_adj v0 e0 dt s n)
  end.
