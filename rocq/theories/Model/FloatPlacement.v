(** * The overlap tests of placement in float64 *)
From Coq Require Import Reals ZArith List.
From Flocq Require Import Core.
From Verif Require Import Model.Floats Model.FloatSteps Model.Distance Model.Agent Model.Interactions.
From Verif Require Export Model.FloatBodies.
Import ListNotations.
Open Scope R_scope.

Section Placement.
  Variable hypot : R -> R -> R.
  (** distance.py:93-100: body of the nested loops of [distance_three_circles]. *)
  Definition f_scan33_step (x0 : tri vec) (r0 : tri R) (x1 : tri vec) (r1 : tri R) (s : scan33) (ij : nat * nat) : scan33 :=
    let '(h_min, normal, i_min, j_min) := s in
    let '(i, j) := ij in
    let '(h, (nx, ny)) := f_distance_circles hypot (vx (tget x0 i), vy (tget x0 i)) (tget r0 i)
                                                   (vx (tget x1 j), vy (tget x1 j)) (tget r1 j) in
    let better := match h_min with Some m => Rlt_bool h m | None => true end in
    if better then (Some h, V nx ny, i, j) else s.
  (** distance.py:50-105 [distance_three_circles]; line 103 as written ([x0[j_min]]). *)
  Definition f_distance_three_circles (x0 : tri vec) (r0 : tri R) (x1 : tri vec) (r1 : tri R) : option R * vec * vec * vec :=
    let '(h_min, normal, i_min, j_min) := fold_left (f_scan33_step x0 r0 x1 r1) idx33 (None, vzero, 0%nat, 0%nat) in
    let r_moment0 := f_vsub (f_vadd (tget x0 i_min) (f_scale (tget r0 i_min) normal)) (t_0 x0) in
    let r_moment1 := f_vsub (f_vsub (tget x0 j_min) (f_scale (tget r1 j_min) normal)) (t_0 x1) in
    (h_min, normal, r_moment0, r_moment1).
  (** [h < 0]; NaN is not. *)
  Definition f_neg_opt (h : option R) : bool := match h with Some h => Rlt_bool h 0 | None => false end.
  (** agents.py:509-533 [overlapping_three_circles]. *)
  Definition f_overlapping_three_circles (agents : list agent) (x : tri vec) (r : tri R) : bool :=
    existsb (fun a => let '(h, _, _, _) := f_distance_three_circles (xs_of a) (rs_of a) x r in f_neg_opt h) agents.
  (** agents.py:536-546 [overlapping_circle_line]. *)
  Definition f_overlapping_circle_line (agents : list agent) (obstacles : list obstacle) : bool :=
    existsb (fun a => existsb (fun o =>
      Rlt_bool (fst (f_distance_circle_line hypot (a_position a) (a_radius a) (p0 o) (p1 o))) 0) obstacles) agents.
  (** agents.py:549-562 [overlapping_three_circle_line]. *)
  Definition f_overlapping_three_circle_line (agents : list agent) (obstacles : list obstacle) : bool :=
    existsb (fun a => existsb (fun o =>
      f_neg_opt (option_map (fun p => fst (fst p))
        (f_distance_three_circle_line hypot (xs_of a) (rs_of a) (p0 o) (p1 o)))) obstacles) agents.
End Placement.
