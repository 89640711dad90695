(** * Functions of the library that no simulation calls *)
From Verif Require Import Model.Base.
Open Scope R_scope.

(** core/motion/power_law.py:55-80 [potential]; numba raises when a divisor is zero. *)
Definition potential (k tau tau_0 : R) : res R :=
  if Reqb tau 0 || Reqb tau_0 0 then Err ZeroDivisionError
  else Ok (k / (tau * tau) * exp (- tau / tau_0)).

(** [x.min()] and [x.max()] of a column; of no numbers they raise ValueError. *)
Definition minimum (l : list R) : res R := match l with [] => Err ValueError | x :: l => Ok (fold_left Rmin l x) end.
Definition maximum (l : list R) : res R := match l with [] => Err ValueError | x :: l => Ok (fold_left Rmax l x) end.
(** [points[:, i]], all rows having that many entries. *)
Definition column (i : nat) (points : list (list R)) : list R := map (fun p => nth i p 0) points.
(** core/quantities.py:37-53 [bounding_box] of an array of two dimensions: the number of
    dimensions of the array, two, stands for the number of columns. With one column only
    the code reads outside the array, which is not modelled. *)
Definition bounding_box (points : list (list R)) : res (list (R * R)) :=
  let row i := do lo <- minimum (column i points); do hi <- maximum (column i points); Ok (lo, hi) in
  do x <- row 0%nat; do y <- row 1%nat; Ok [x; y].

(** core/quantities.py:56-60 [rectangle]: corners of the polygon. *)
Definition rectangle_corners (xmin xmax ymin ymax : R) : list vec :=
  [V xmin ymin; V xmin ymax; V xmax ymax; V xmax ymin].
