(** * crowddynamics/core/geom2D.py, core/sensory_region.py, core/structures.py *)
From Verif Require Export Model.Vector2D.
Open Scope R_scope.

(** [vertices[i]] for an index in range; the default is never observed, see
    the theorem on [polygon_area]. *)
Definition vat (l : list vec) (i : nat) : vec := nth i l vzero.

(** geom2D.py:27-28: loop body accumulated over [range(1, n-1)]. *)
Definition shoelace_loop (vs : list vec) (n : nat) : R :=
  fold_left (fun area i => area + vx (vat vs i) * (vy (vat vs (i + 1)) - vy (vat vs (i - 1))))
            (seq 1 (n - 2)) 0.

(** geom2D.py:4-33 [polygon_area]. *)
Definition polygon_area (vs : list vec) : R :=
  let n := List.length vs in
  if (n <? 3)%nat then 0
  else
    let area := shoelace_loop vs n in
    let area := area + vx (vat vs (n - 1)) * (vy (vat vs 0) - vy (vat vs (n - 2))) in
    let area := area + vx (vat vs 0) * (vy (vat vs 1) - vy (vat vs (n - 1))) in
    (1 / 2) * Rabs area.

(** geom2D.py:36-59 [line_intersect]. *)
Definition line_intersect (x0 x1 y0 y1 : vec) : bool :=
  let u := vsub x1 x0 in
  let v := vsub y1 y0 in
  let b := vsub y0 x0 in
  let d := vx u * vy v - vy u * vx v in
  if Reqb d 0 then false
  else
    let t0 := vx b * vy v - vy b * vx v in
    let t1 := vx b * vy u - vy b * vx u in
    (Rleb 0 (t0 / d) && Rleb (t0 / d) 1) && (Rleb 0 (t1 / d) && Rleb (t1 / d) 1).

(** core/structures.py:6-9 [obstacle_type_linear]: a record with end points
    [p0] and [p1]. *)
Record obstacle : Type := Obs { p0 : vec; p1 : vec }.

(** sensory_region.py:9-16 [is_obstacle_between_points]. *)
Fixpoint is_obstacle_between_points (a b : vec) (obstacles : list obstacle) : bool :=
  match obstacles with
  | [] => false
  | o :: rest =>
      if line_intersect a b (p0 o) (p1 o) then true
      else is_obstacle_between_points a b rest
  end.
