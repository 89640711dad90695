(** * Signed area of a closed polygon, from the vertex list *)
From Verif Require Export Spec.Plane.
Open Scope R_scope.

(** Sum of [outer a b] over the consecutive pairs [a, b] of a path. *)
Fixpoint path_sum (l : list vec) : R :=
  match l with
  | a :: ((b :: _) as t) => outer a b + path_sum t
  | _ => 0
  end.

(** Twice the signed area: go round and return to the first vertex. *)
Definition signed2 (vs : list vec) : R :=
  match vs with
  | [] => 0
  | v :: _ => path_sum (vs ++ [v])
  end.

(** The area enclosed, by the shoelace formula. *)
Definition shoelace_area (vs : list vec) : R := Rabs (signed2 vs) / 2.

(** Moving every vertex by [t]. *)
Definition translate (t : vec) (vs : list vec) : list vec :=
  map (fun v => V (vx v + vx t) (vy v + vy t)) vs.
(** Scaling every vertex by [k]. *)
Definition dilate (k : R) (vs : list vec) : list vec :=
  map (fun v => V (k * vx v) (k * vy v)) vs.
