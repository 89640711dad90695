(** * Points, ways and exits of the example fields *)
From Verif Require Export Spec.Plane Spec.Polygon Spec.Regions Model.ExampleFields.
From Coq Require Import Ranalysis.
Open Scope R_scope.

(** The points of a broken line. *)
Fixpoint on_line (vs : list vec) (p : vec) : Prop :=
  match vs with
  | a :: ((b :: _) as rest) => on_segment a b p \/ on_line rest p
  | _ => False
  end.

(** The points of a geometry. All polygons of the example fields are convex, so a polygon is
    the convex hull of its corners; [a - b] keeps its boundary. *)
Fixpoint region (s : shape) (p : vec) : Prop :=
  match s with
  | SNothing => False
  | SLine vs => on_line vs p
  | SPoly ring => hull_of (fun v => In v ring) p
  | SJoin a b => region a p \/ region b p
  | SMinus a b => forall eps, 0 < eps -> exists q, edist p q < eps /\ region a q /\ ~ region b q
  | SHull a => hull_of (region a) p
  | SDisc c r => edist p c <= r
  end.

(** Shapes shapely takes for valid: no line is a single point, polygons are rectangles and
    not flat. *)
Fixpoint sound (s : shape) : Prop :=
  match s with
  | SNothing => True
  | SLine vs => exists a b, In a vs /\ In b vs /\ a <> b
  | SPoly ring => exists x0 x1 y0 y1, x0 <> x1 /\ y0 <> y1 /\
      (ring = [V x0 y0; V x1 y0; V x1 y1; V x0 y1] \/ ring = [V x0 y0; V x0 y1; V x1 y1; V x1 y0])
  | SJoin a b => sound a /\ sound b
  | SMinus a b => sound a /\ sound b
  | SHull a => sound a
  | SDisc _ r => 0 < r
  end.

(** What is used of shapely's predicates. The hull of three points that are not on one line
    is a polygon, so is every [Polygon(...)]. *)
Record predicates (is_valid is_empty is_polygon : shape -> bool) : Prop := Predicates {
  sound_valid : forall s, sound s -> is_valid s = true;
  flat_invalid : forall a b c d, shoelace_area [a; b; c; d] = 0 -> is_valid (SPoly [a; b; c; d]) = false;
  filled : forall s p, region s p -> is_empty s = false;
  polygons : forall ring, is_polygon (SPoly ring) = true;
  hull_polygon : forall s a b c, region s a -> region s b -> region s c ->
    outer (V (vx b - vx a) (vy b - vy a)) (V (vx c - vx a) (vy c - vy a)) <> 0 -> is_polygon (SHull s) = true }.

Section Fields.
  Variable f : field shape.
  Definition in_domain (p : vec) : Prop := exists d, f_domain f = Some d /\ region d p.
  Definition on_obstacle (p : vec) : Prop := exists o, f_obstacles f = Some o /\ region o p.
  Definition on_target (p : vec) : Prop := exists t, In t (f_targets f) /\ region t p.
  Definition in_spawn (p : vec) : Prop := exists s, In s (f_spawns f) /\ region s p.

  (** A way: a point that moves continuously. *)
  Definition way (g : R -> vec) : Prop :=
    continuity (fun t => vx (g t)) /\ continuity (fun t => vy (g t)).

  (** Who leaves the domain meets an obstacle or passes a target. *)
  Definition left_through_targets_only : Prop :=
    forall g, way g -> in_domain (g 0) -> ~ in_domain (g 1) ->
      exists t, 0 <= t <= 1 /\ (on_obstacle (g t) \/ on_target (g t)).

  (** The domain contains all other shapes. *)
  Definition contains_all : Prop :=
    forall p, on_obstacle p \/ on_target p \/ in_spawn p -> in_domain p.

  (** Walking straight from point to point without touching obstacles. *)
  Inductive walk : vec -> vec -> Prop :=
  | Stay p : ~ on_obstacle p -> walk p p
  | Go p q r : (forall x, on_segment p q x -> ~ on_obstacle x) -> walk q r -> walk p r.

  (** Every point of every target that is not on an obstacle can be reached from every point
      of a spawn that is not on an obstacle. *)
  Definition targets_reachable : Prop :=
    forall p q, in_spawn p -> ~ on_obstacle p -> on_target q -> ~ on_obstacle q -> walk p q.

  (** Targets are open: obstacles touch them in single points at most (the points of [ends]). *)
  Definition targets_open (ends : list vec) : Prop :=
    forall p, on_target p -> on_obstacle p -> In p ends.
End Fields.
