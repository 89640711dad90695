(** * Overlap tests, time steps, moves and grid indices in float64

    As in [Model/Floats.v] every operation rounds to the nearest double.  An exponent has
    no upper bound here: where a float overflows, the theorems assume that it does not. *)
From Coq Require Import Reals ZArith List.
From Flocq Require Import Core.
From Verif Require Import Model.Floats.
Import ListNotations.
Open Scope R_scope.

Section Hypot.
  Variable hypot : R -> R -> R.
  (** core/distance.py:19-47 [distance_circles]. *)
  Definition f_distance_circles (x0 : R * R) (r0 : R) (x1 : R * R) (r1 : R) : R * (R * R) :=
    let x := (rnd (fst x0 - fst x1), rnd (snd x0 - snd x1)) in
    let d := hypot (fst x) (snd x) in
    let r_tot := rnd (r0 + r1) in
    let h := rnd (d - r_tot) in
    (h, if Req_bool d 0 then (0, 0) else (rnd (fst x / d), rnd (snd x / d))).
  (** simulation/agents.py:491-506 [overlapping_circles]; an agent is its position and
      radius. *)
  Fixpoint f_overlapping_circles (agents : list ((R * R) * R)) (x : R * R) (r : R) : bool :=
    match agents with
    | [] => false
    | a :: rest =>
        if Rlt_bool (fst (f_distance_circles (fst a) (snd a) x r)) 0 then true
        else f_overlapping_circles rest x r
    end.

  (** core/integrator.py:80-84, the loop for the greatest speed. *)
  Fixpoint f_v_max (vs : list (R * R)) (m : R) : R :=
    match vs with
    | [] => m
    | v :: rest =>
        let l := hypot (fst v) (snd v) in
        f_v_max rest (if Rlt_bool m l then l else m)
    end.
  (** The double written [1.1]. *)
  Definition f_1_1 : R := 4953959590107546 / 4503599627370496.
  (** core/integrator.py:32-97 [adaptive_timestep]; [tmax] is [np.max] of the target
      velocities, exact. *)
  Definition f_adaptive_timestep (vs : list (R * R)) (tmax dt_min dt_max : R) : R :=
    let v_max := f_v_max vs 0 in
    if Req_bool v_max 0 then dt_max
    else
      let dx_max := rnd (rnd (f_1_1 * tmax) * dt_max) in
      let dt := rnd (dx_max / v_max) in
      if Rlt_bool dt_max dt then dt_max
      else if Rlt_bool dt dt_min then dt_min
      else dt.
End Hypot.

(** core/integrator.py:103-109 [translational_euler], one coordinate: position and velocity
    after the step.  [dt ** 2] is one rounded product. *)
Definition f_euler (x v force mass dt : R) : R * R :=
  let acceleration := rnd (force / mass) in
  (rnd (x + rnd (rnd (v * dt) + rnd (rnd (acceleration / 2) * rnd (dt * dt)))),
   rnd (v + rnd (acceleration * dt))).
(** core/integrator.py:167-176 [translational_verlet], one coordinate. *)
Definition f_verlet (x v force_prev force mass dt : R) : R * R :=
  let old := rnd (force_prev / mass) in
  let new := rnd (force / mass) in
  let v' := rnd (v + rnd (rnd (rnd (old + new) / 2) * dt)) in
  (rnd (x + rnd (rnd (v' * dt) + rnd (rnd (new / 2) * rnd (dt * dt)))), v').
(** [n] steps of the same length without any force. *)
Fixpoint f_coast (x v mass dt : R) (n : nat) : R * R :=
  match n with
  | O => (x, v)
  | S n => let p := f_coast x v mass dt n in f_euler (fst p) (snd p) 0 mass dt
  end.

(** core/steering/quickest_path.py:36-37 [np.arange(minx, maxx + step, step=step)]: the
    number of its elements, [ceil((stop - start) / step)] as numpy computes it. *)
Definition f_grid_length (step minx maxx : R) : Z :=
  Zceil (rnd (rnd (rnd (maxx + step) - minx) / step)).
(** core/steering/quickest_path.py:41-44 [indicer], one coordinate: [astype(np.int64)]
    truncates. *)
Definition f_grid_index (step minx x : R) : Z := Ztrunc (rnd (rnd (x - minx) / step)).
