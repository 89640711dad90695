(** * Sampling a polygon in double precision *)
From Coq Require Import Reals ZArith List.
From Verif Require Export Model.Base Model.Vector2D Model.Floats Model.FloatGeom Model.Sampling.
From Flocq Require Import Core.
Import ListNotations.
Open Scope R_scope.

(** core/sampling.py:57-76 [triangle_area_cumsum], each operation rounded. *)
Definition f_triangle_area (t : triangle) : R := let '(a, b, c) := t in f_polygon_area [a; b; c].
Fixpoint f_area_cumsum (area : R) (mesh : list triangle) : list R :=
  match mesh with
  | [] => []
  | t :: rest => let area := rnd (area + f_triangle_area t) in area :: f_area_cumsum area rest
  end.
(** core/sampling.py:145 [weights /= weights[-1]]; as [normalized] of Model/Sampling.v. *)
Definition f_normalized (w : list R) (last : R) : list (option R) :=
  map (fun x => if Req_bool last 0 then None else Some (rnd (x / last))) w.
(** core/sampling.py:143-151. *)
Definition f_pick_triangle (mesh : list triangle) (x : R) : res triangle :=
  let w := f_area_cumsum 0 mesh in
  match rev w with
  | [] => Err IndexError
  | last :: _ =>
      match nth_error mesh (searchsorted (f_normalized w last) x) with
      | Some t => Ok t
      | None => Err IndexError
      end
  end.
(** core/sampling.py:79-113 [random_sample_triangle], one coordinate; [np.sqrt] rounds
    correctly, as IEEE 754 requires. *)
Definition f_sample_coordinate (r1 r2 a b c : R) : R :=
  let s := rnd (sqrt r1) in
  rnd (rnd (rnd (rnd (1 - s) * a) + rnd (rnd (s * rnd (1 - r2)) * b)) + rnd (rnd (r2 * s) * c)).
Definition f_random_sample_triangle (r1 r2 : R) (a b c : vec) : vec :=
  V (f_sample_coordinate r1 r2 (vx a) (vx b) (vx c)) (f_sample_coordinate r1 r2 (vy a) (vy b) (vy c)).
(** core/sampling.py:116-152 [polygon_sample], one value. *)
Definition f_polygon_sample (vertices : list vec) (simplices : list (nat * nat * nat)) (x r1 r2 : R) : res vec :=
  do mesh <- mesh_of vertices simplices;
  do t <- f_pick_triangle mesh x;
  let '(a, b, c) := t in Ok (f_random_sample_triangle r1 r2 a b c).
