(** * What a guiding map over a grid should be *)
From Verif Require Export Model.Maps Spec.Grids Spec.Shapes Spec.Plane.
Open Scope R_scope.

Definition within {A} (g : grid A) (i j : nat) : Prop := (i < rows g)%nat /\ (j < cols g)%nat.
Definition known (g : grid (option R)) (i j : nat) : Prop := exists x, at_ g i j = Some x.
(** The last one of [n] places that is at most one after [i]. *)
Definition next (n i : nat) : nat := Nat.min (S i) (pred n).
(** The distances before and after the node are known, along both axes. *)
Definition known_around (g : grid (option R)) (i j : nat) : Prop :=
  known g (pred i) j /\ known g (next (rows g) i) j /\ known g i (pred j) /\ known g i (next (cols g) j).
(** The distances have a slope at the node; it is [d]. *)
Definition sloped (g : grid (option R)) (i j : nat) (d : vec) : Prop :=
  known_around g i j /\ d = slopes (data g) i j /\ d <> V 0 0.
Definition flat (g : grid (option R)) (i j : nat) : Prop := forall d, ~ sloped g i j d.
(** Neighbours on the grid. *)
Definition adjacent (i j a b : nat) : Prop :=
  (i = a /\ (S j = b \/ j = S b)) \/ (j = b /\ (S i = a \/ i = S a)).
(** A node with a slope beside one without. *)
Definition rim (g : grid (option R)) (a b : nat) : Prop :=
  within g a b /\ ~ flat g a b /\ exists i j, within g i j /\ adjacent a b i j /\ flat g i j.
(** [u] is the unit vector along the slope at the node. *)
Definition uphill (g : grid (option R)) (i j : nat) (u : option vec) : Prop :=
  exists d w, sloped g i j d /\ u = Some w /\ is_unit w /\ same_direction d w.
(** The node [(a, b)] is as near to the node [(i, j)] as any other of the kind [P]. *)
Definition nearest_of (m : mesh) (P : nat -> nat -> Prop) (i j a b : nat) : Prop :=
  P a b /\ forall a' b', P a' b' -> edist (m_node m i j) (m_node m a b) <= edist (m_node m i j) (m_node m a' b').
(** A search that finds a nearest one of the given points. *)
Definition finds_nearest (nearest : list vec -> vec -> nat) : Prop :=
  forall ps q, ps <> [] -> exists p, nth_error ps (nearest ps q) = Some p /\ forall p', In p' ps -> edist q p <= edist q p'.
(** The solver answers with a grid of the same shape. *)
Definition keeps_shape (solver : R -> grid R -> grid bool -> res (grid (option R))) : Prop :=
  forall dx c k d, solver dx c k = Ok d -> rows d = rows c /\ cols d = cols c.
