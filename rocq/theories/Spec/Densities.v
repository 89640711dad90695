(** * What the density grids should hold *)
From Verif Require Import Model.Quantities.
Open Scope R_scope.

(** Sum of [f] over a list. *)
Fixpoint total {A} (l : list A) (f : A -> R) : R :=
  match l with [] => 0 | x :: l => f x + total l f end.
(** The integers from [lo] to [hi], both included. *)
Definition from_to (lo hi : Z) : list Z := map (fun k => (lo + Z.of_nat k)%Z) (seq 0 (Z.to_nat (hi + 1 - lo))).
(** The number of the cell of width [c] that holds a coordinate: [n * c <= x < (n + 1) * c]. *)
Definition square_of (c x : R) (n : Z) : Prop := IZR n * c <= x < (IZR n + 1) * c.
(** Sum of all entries of a grid. *)
Definition grid_total (d : density) : R :=
  total (from_to 0 (d_rows d - 1)) (fun i => total (from_to 0 (d_cols d - 1)) (fun j => d_at d i j)).

(** The common areas of a Voronoi cell with the grid cells from the one of its lower left to
    the one of its upper right corner add up to its area. *)
Definition tiled (c : R) (v : vregion) : Prop :=
  0 < v_area v /\ 0 <= v_minx v <= v_maxx v /\ 0 <= v_miny v <= v_maxy v /\
  forall i0 i1 j0 j1, square_of c (v_minx v) i0 -> square_of c (v_maxx v) i1 ->
    square_of c (v_miny v) j0 -> square_of c (v_maxy v) j1 ->
    total (from_to i0 i1) (fun i => total (from_to j0 j1) (fun j => v_common v i j)) = v_area v.
(** No common area with the other grid cells. *)
Definition tight (c : R) (v : vregion) : Prop :=
  forall i j i0 i1 j0 j1, square_of c (v_minx v) i0 -> square_of c (v_maxx v) i1 ->
    square_of c (v_miny v) j0 -> square_of c (v_maxy v) j1 ->
    ~ (i0 <= i <= i1 /\ j0 <= j <= j1)%Z -> v_common v i j = 0.

(** Least and largest coordinates of the points. *)
Definition is_box (points : list vec) (xmin xmax ymin ymax : R) : Prop :=
  (forall p, In p points -> xmin <= vx p <= xmax /\ ymin <= vy p <= ymax) /\
  (exists p, In p points /\ vx p = xmin) /\ (exists p, In p points /\ vx p = xmax) /\
  (exists p, In p points /\ vy p = ymin) /\ (exists p, In p points /\ vy p = ymax).
Definition in_box (xmin xmax ymin ymax : R) (v : vregion) : Prop :=
  xmin <= v_minx v /\ v_maxx v <= xmax /\ ymin <= v_miny v /\ v_maxy v <= ymax.

(** The agents in a cell, as numbers of points. *)
Definition in_cell (c : R) (p : vec) (i j : Z) : Prop := square_of c (vx p) i /\ square_of c (vy p) j.
(** [l] lists the numbers of the agents that stand in the cell [(i, j)], each once. *)
Definition standing (c : R) (points : list vec) (i j : Z) (l : list nat) : Prop :=
  NoDup l /\ forall k, In k l <-> exists p, nth_error points k = Some p /\ in_cell c p i j.
