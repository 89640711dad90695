(** * Plane geometry used to state the properties

    Nothing here refers to the functions of the model; only the record [vec]
    of coordinate pairs is shared. *)
From Verif Require Export Model.Base.
Open Scope R_scope.

(** Euclidean distance and length. *)
Definition edist (a b : vec) : R :=
  sqrt ((vx a - vx b) * (vx a - vx b) + (vy a - vy b) * (vy a - vy b)).
Definition elen (a : vec) : R := edist a vzero.

(** Inner product and signed area of the parallelogram. *)
Definition inner (a b : vec) : R := vx a * vx b + vy a * vy b.
Definition outer (a b : vec) : R := vx a * vy b - vy a * vx b.

Definition is_unit (a : vec) : Prop := elen a = 1.
Definition perpendicular (a b : vec) : Prop := inner a b = 0.

(** [b] is a non-negative multiple of [a] or the other way round: they point
    the same way. *)
Definition same_direction (a b : vec) : Prop :=
  exists k, 0 < k /\ b = V (k * vx a) (k * vy a).

(** Linear dependence of two vectors. *)
Definition parallel (a b : vec) : Prop :=
  exists s t, (s <> 0 \/ t <> 0) /\ s * vx a = t * vx b /\ s * vy a = t * vy b.

(** Point at parameter [t] of the line through [a] and [b]; closed segment. *)
Definition along (a b : vec) (t : R) : vec :=
  V (vx a + t * (vx b - vx a)) (vy a + t * (vy b - vy a)).
Definition on_segment (a b p : vec) : Prop :=
  exists t, 0 <= t <= 1 /\ p = along a b t.

(** Discs. *)
Definition in_open_disc (c : vec) (r : R) (p : vec) : Prop := edist p c < r.
Definition open_discs_meet (c0 : vec) (r0 : R) (c1 : vec) (r1 : R) : Prop :=
  exists p, in_open_disc c0 r0 p /\ in_open_disc c1 r1 p.

(** [m] is the least element of the set described by [P]. *)
Definition is_least (P : R -> Prop) (m : R) : Prop :=
  P m /\ forall x, P x -> m <= x.

(** Distance from a point to a closed segment. *)
Definition segment_distance (a b x : vec) (d : R) : Prop :=
  is_least (fun e => exists p, on_segment a b p /\ e = edist x p) d.

(** Triangle: convex combinations of three points. *)
Definition in_triangle (a b c p : vec) : Prop :=
  exists s t u, 0 <= s /\ 0 <= t /\ 0 <= u /\ s + t + u = 1 /\
    p = V (s * vx a + t * vx b + u * vx c) (s * vy a + t * vy b + u * vy c).
