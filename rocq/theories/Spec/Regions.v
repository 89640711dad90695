(** * Regions of the plane and what shapely's operations mean for them *)
From Verif Require Export Spec.Plane Spec.Chance.
Open Scope R_scope.

(** Convex hull of a set of points: the least convex set that contains it. *)
Definition hull_of (S : vec -> Prop) (p : vec) : Prop :=
  forall C, convex_set C -> (forall v, S v -> C v) -> C p.

Section Shapes.
  Variable G : Type.
  (** The points of a geometry (with its boundary). *)
  Variable region : G -> vec -> Prop.

  (** [a | b] has the points of both. *)
  Definition joins (join : G -> G -> G) : Prop :=
    forall a b p, region (join a b) p <-> region a p \/ region b p.
  Definition is_nothing (nothing : G) : Prop := forall p, ~ region nothing p.
  Definition tells_empty (is_empty : G -> bool) : Prop :=
    forall g, is_empty g = true <-> forall p, ~ region g p.
  (** [g.convex_hull]. *)
  Definition hulls (hull : G -> G) : Prop :=
    forall g p, region (hull g) p <-> hull_of (region g) p.
  (** [a - b] has only points of [a], and none in the inside of [b]; the points nearer than
      [r] to [g] are in the inside of [g.buffer(r)]. *)
  Definition differs (inside : G -> vec -> Prop) (difference : G -> G -> G) : Prop :=
    forall a b p, region (difference a b) p -> region a p /\ ~ inside b p.
  Definition buffers (inside : G -> vec -> Prop) (buffer : G -> R -> G) (g : G) (r : R) : Prop :=
    forall p q, region g p -> edist p q < r -> inside (buffer g r) q.
  (** The vertices of the boundary of a convex hull are points of the geometry. *)
  Definition corners (hull : G -> G) (ring : G -> res (list vec)) : Prop :=
    forall g vs v, ring (hull g) = Ok vs -> In v vs -> region g v.
End Shapes.

(** A triangulation: at least one triangle, and only corners that exist. *)
Definition triangulation (vs : list vec) (mesh : list (nat * nat * nat)) : Prop :=
  mesh <> [] /\
  forall i j k, In (i, j, k) mesh -> (i < length vs /\ j < length vs /\ k < length vs)%nat.
