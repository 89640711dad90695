(** * Regular grids, slopes and blends *)
From Verif Require Export Model.Steering Spec.Plane.
Open Scope R_scope.

(** [p] is in the cell whose lower left corner is the node [q]. *)
Definition in_cell (step : R) (q p : vec) : Prop :=
  vx q <= vx p < vx q + step /\ vy q <= vy p < vy q + step.
(** Difference quotient between the neighbours of entry [i] that exist among [n]. *)
Definition slope (n : nat) (f : nat -> R) (i : nat) : R :=
  let lo := pred i in
  let hi := Nat.min (S i) (pred n) in
  (f hi - f lo) / INR (hi - lo).
(** The two slopes of a grid at the entry in row [i] and column [j], as (x, y). *)
Definition slopes (g : grid R) (i j : nat) : vec :=
  V (slope (cols g) (fun j => at_ g i j) j) (slope (rows g) (fun i => at_ g i j) i).
(** [u] is [d] scaled to length one; nothing when [d] is zero. *)
Definition normalised (d : vec) (u : option vec) : Prop :=
  match u with
  | None => d = V 0 0
  | Some u => is_unit u /\ same_direction d u
  end.
(** Weight [p] away from [o], weight [1 - p] along [t]. *)
Definition repelled (p : R) (o t : vec) : vec :=
  V ((1 - p) * vx t - p * vx o) ((1 - p) * vy t - p * vy o).
