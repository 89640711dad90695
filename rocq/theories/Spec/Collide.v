(** * Circles in uniform relative motion, and forces derived from an energy *)
From Verif Require Export Spec.Plane.
Open Scope R_scope.

(** Relative position after [s] seconds. *)
Definition moved (x v : vec) (s : R) : vec := V (vx x + s * vx v) (vy x + s * vy v).

(** Two circles with radii summing to [r], relative position [x] and relative
    velocity [v], touch for the first time after [tau] seconds. *)
Definition first_contact (x v : vec) (r tau : R) : Prop :=
  0 < tau /\ elen (moved x v tau) = r /\ forall s, 0 <= s < tau -> r < elen (moved x v s).

(** They are apart now and will overlap at some later time. *)
Definition on_collision_course (x v : vec) (r : R) : Prop :=
  r < elen x /\ exists s, 0 < s /\ elen (moved x v s) < r.

(** Interaction energy of an agent: m k / tau^2 exp (- tau / tau_0). *)
Definition interaction_energy (m k tau_0 tau : R) : R := m * (k / tau ^ 2 * exp (- tau / tau_0)).

(** [T] gives the first contact time when the relative position is displaced by
    [s] along [u], for all small [s]. *)
Definition contact_time_along (x u v : vec) (r : R) (T : R -> R) : Prop :=
  exists eps, 0 < eps /\ forall s, Rabs s < eps -> first_contact (moved x u s) v r (T s).

(** Turns that lead from [phi] to [phi_0], and the shortest of them. *)
Definition turn (phi phi_0 delta : R) : Prop := exists k : Z, phi + delta = phi_0 + 2 * PI * IZR k.
Definition shortest_turn (phi phi_0 delta : R) : Prop :=
  turn phi phi_0 delta /\ forall d, turn phi phi_0 d -> Rabs delta <= Rabs d.

(** The circles overlap at some time, past, present or future. *)
Definition paths_cross (x v : vec) (r : R) : Prop := exists s, elen (moved x v s) < r.
