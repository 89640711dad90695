(** * Voronoi diagrams *)
From Verif Require Export Model.Voronoi Spec.Plane Spec.Sight.
Open Scope R_scope.

(** [x] is at least as close to [p] as to any other point. *)
Definition nearest_to (points : list vec) (p x : vec) : Prop := forall q, In q points -> edist x p <= edist x q.
(** All points lie on one side of the line through [a] and [b], and not all on the line. *)
Definition turn (a b q : vec) : R := (vx b - vx a) * (vy q - vy a) - (vy b - vy a) * (vx q - vx a).
Definition hull_edge (points : list vec) (a b : vec) : Prop :=
  a <> b /\ ((forall q, In q points -> 0 <= turn a b q) \/ (forall q, In q points -> turn a b q <= 0)) /\
  exists q, In q points /\ turn a b q <> 0.
(** Vertex number [v] of the diagram is at [x]. *)
Definition vertex (vertices : list vec) (v : Z) (x : vec) : Prop := (0 <= v)%Z /\ nth_error vertices (Z.to_nat v) = Some x.
(** The points [p] and [q] share the ridge with the vertex numbers [v] and [w]. *)
Definition ridge (d : diagram) (p q : nat) (v w : Z) : Prop :=
  exists i, (nth_error (d_ridge_points d) i = Some (p, q) \/ nth_error (d_ridge_points d) i = Some (q, p)) /\
  (nth_error (d_ridge_vertices d) i = Some (v, w) \/ nth_error (d_ridge_vertices d) i = Some (w, v)).
(** The region of point number [k]. *)
Definition region_of (d : diagram) (k : nat) (vs : list Z) : Prop :=
  exists r, nth_error (d_point_region d) k = Some r /\ (0 <= r)%Z /\ nth_error (d_regions d) (Z.to_nat r) = Some vs.

(** What scipy is required to return. *)
Record is_voronoi (d : diagram) : Prop := IsVoronoi {
  iv_ridges : length (d_ridge_points d) = length (d_ridge_vertices d);
  iv_regions : length (d_point_region d) = length (d_points d);
  iv_region : forall k, (k < length (d_points d))%nat -> exists vs, region_of d k vs;
  (** vertices of a region are nearest to its point *)
  iv_corner : forall k p vs v, nth_error (d_points d) k = Some p -> region_of d k vs -> In v vs -> (0 <= v)%Z ->
    exists x, vertex (d_vertices d) v x /\ nearest_to (d_points d) p x;
  (** an unbounded region has an unbounded ridge *)
  iv_unbounded : forall k vs v, region_of d k vs -> In v vs -> (v < 0)%Z -> exists q v w, ridge d k q v w /\ (v < 0)%Z;
  iv_ridge : forall k q v w, ridge d k q v w -> exists a b, nth_error (d_points d) k = Some a /\ nth_error (d_points d) q = Some b /\ k <> q;
  (** an unbounded ridge starts at a vertex nearest to its two points, which are next to each
      other on the hull *)
  iv_open_ridge : forall k q v w a b, ridge d k q v w -> (v < 0)%Z -> nth_error (d_points d) k = Some a -> nth_error (d_points d) q = Some b ->
    exists x, vertex (d_vertices d) w x /\ nearest_to (d_points d) a x /\ nearest_to (d_points d) b x /\ hull_edge (d_points d) a b }.
(** What [np.argsort] is required to return. *)
Definition sorts (argsort : list R -> list nat) : Prop := forall l, is_argsort Rle l (argsort l).

(** Mixtures of points. *)
Inductive mixture : list vec -> vec -> Prop :=
| mixture_one x l : In x l -> mixture l x
| mixture_two l x y t : mixture l x -> mixture l y -> 0 <= t <= 1 ->
    mixture l (V ((1 - t) * vx x + t * vx y) ((1 - t) * vy x + t * vy y)).

(** The point [y] put in place of the open end of the ridge between [a] and [b] that starts at
    [x]: as far as [radius], across the line from [a] to [b], away from all points. *)
Definition opened (points : list vec) (radius : R) (a b x y : vec) : Prop :=
  edist x y = radius /\ (vx y - vx x) * (vx b - vx a) + (vy y - vy x) * (vy b - vy a) = 0 /\
  (forall q, In q points -> (vx y - vx x) * (vx q - vx a) + (vy y - vy x) * (vy q - vy a) <= 0) /\
  (0 < radius -> exists q, In q points /\ (vx y - vx x) * (vx q - vx a) + (vy y - vy x) * (vy q - vy a) < 0).
(** Corners in the order of their angles, seen from their mean. *)
Definition counterclockwise (xs : list vec) : Prop :=
  forall i j x y, (i < j)%nat -> nth_error xs i = Some x -> nth_error xs j = Some y ->
    angle (vsub x (mean xs)) <= angle (vsub y (mean xs)).

(** What becomes of the region [old] of the point number [k] at [p]. *)
Record finished (d : diagram) (radius : R) (vertices : list vec) (k : nat) (p : vec) (old region : list Z) : Prop := Finished {
  fin_corners : forall v, In v region -> exists x, vertex vertices v x /\ nearest_to (d_points d) p x;
  fin_bounded : (forall v, In v old -> (0 <= v)%Z) -> region = old;
  fin_kept : forall v, In v old -> (0 <= v)%Z -> In v region;
  fin_opened : forall q v w b, ridge d k q v w -> (v < 0)%Z -> (exists u, In u old /\ (u < 0)%Z) -> nth_error (d_points d) q = Some b ->
    exists x u y, vertex (d_vertices d) w x /\ In u region /\ vertex vertices u y /\ opened (d_points d) radius p b x y;
  fin_new : forall u, In u region -> In u old \/ exists q v w b x y, ridge d k q v w /\ (v < 0)%Z /\ nth_error (d_points d) q = Some b /\
    vertex (d_vertices d) w x /\ vertex vertices u y /\ opened (d_points d) radius p b x y;
  fin_order : (exists u, In u old /\ (u < 0)%Z) -> forall xs, Forall2 (vertex vertices) region xs -> counterclockwise xs }.
