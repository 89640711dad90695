(** * Lines of sight and areas in float64

    As in [Model/Floats.v] every operation rounds to the nearest double.  An exponent has
    no upper bound here: where a float overflows, the theorems assume that it does not. *)
From Coq Require Import Reals ZArith List.
From Flocq Require Import Core.
From Verif Require Import Model.Floats Model.Geom2D.
Import ListNotations.
Open Scope R_scope.

(** core/geom2D.py:4-33 [polygon_area]. *)
Definition f_shoelace_loop (vs : list vec) (n : nat) : R :=
  fold_left (fun area i => rnd (area + rnd (vx (vat vs i) * rnd (vy (vat vs (i + 1)) - vy (vat vs (i - 1))))))
            (seq 1 (n - 2)) 0.
Definition f_polygon_area (vs : list vec) : R :=
  let n := List.length vs in
  if (n <? 3)%nat then 0
  else
    let area := f_shoelace_loop vs n in
    let area := rnd (area + rnd (vx (vat vs (n - 1)) * rnd (vy (vat vs 0) - vy (vat vs (n - 2))))) in
    let area := rnd (area + rnd (vx (vat vs 0) * rnd (vy (vat vs 1) - vy (vat vs (n - 1))))) in
    rnd (1 / 2 * Rabs area).

(** core/geom2D.py:36-59 [line_intersect]. *)
Definition f_vsub (a b : vec) : vec := V (rnd (vx a - vx b)) (rnd (vy a - vy b)).
Definition f_cross (a b : vec) : R := rnd (rnd (vx a * vy b) - rnd (vy a * vx b)).
Definition f_within (t d : R) : bool := (Rle_bool 0 (rnd (t / d)) && Rle_bool (rnd (t / d)) 1)%bool.
Definition f_line_intersect (x0 x1 y0 y1 : vec) : bool :=
  let u := f_vsub x1 x0 in
  let v := f_vsub y1 y0 in
  let b := f_vsub y0 x0 in
  let d := f_cross u v in
  if Req_bool d 0 then false
  else
    let t0 := f_cross b v in
    let t1 := f_cross b u in
    (f_within t0 d && f_within t1 d)%bool.

(** core/sensory_region.py:9-16 [is_obstacle_between_points]. *)
Fixpoint f_is_obstacle_between_points (a b : vec) (obstacles : list obstacle) : bool :=
  match obstacles with
  | [] => false
  | o :: rest =>
      if f_line_intersect a b (p0 o) (p1 o) then true
      else f_is_obstacle_between_points a b rest
  end.
