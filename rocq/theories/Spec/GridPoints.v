(** * Points of a grid and lines that pass clear of ends *)
From Coq Require Import Reals ZArith.
From Verif Require Import Model.Base.
Open Scope R_scope.

(** A multiple of [2^g], at most [n] times: the coordinates of a plan that is drawn on a grid
    of width [2^g]. *)
Definition on_grid (g n : Z) (c : R) : Prop := exists k, (Z.abs k <= n)%Z /\ c = IZR k * powerRZ 2 g.
Definition grid_point (g n : Z) (v : vec) : Prop := on_grid g n (vx v) /\ on_grid g n (vy v).
(** The place with parameter [t] on a line (0 and 1 are its ends) is not within [eps] of an end. *)
Definition clear_of (eps t : R) : Prop := t <= - eps \/ eps <= t <= 1 - eps \/ 1 + eps <= t.
