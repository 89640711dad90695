(** * Outlines and pictures of geometries *)
From Verif Require Export Model.Steering Model.Geometry Spec.Plane.
Open Scope R_scope.

(** A geometry all the way down, without empty polygons. *)
Inductive proper : geom -> Prop :=
| proper_point p : proper (Point p)
| proper_line l : proper (LineString l)
| proper_polygon v e h : proper (Polygon (v :: e) h)
| proper_multi l : (forall g, In g l -> proper g) -> proper (Multipart l).
(** No polygon in it has a hole. *)
Inductive without_holes : geom -> Prop :=
| wh_point p : without_holes (Point p)
| wh_line l : without_holes (LineString l)
| wh_polygon e : without_holes (Polygon e [])
| wh_multi l : (forall g, In g l -> without_holes g) -> without_holes (Multipart l).

(** All the lines a geometry is drawn with: line strings, exteriors and holes. *)
Fixpoint all_lines (g : geom) : list (list vec) :=
  match g with
  | LineString l => [l]
  | Polygon e h => e :: h
  | Multipart parts => flat_map all_lines parts
  | _ => []
  end.
(** The same without the holes. *)
Fixpoint outer_lines (g : geom) : list (list vec) :=
  match g with
  | LineString l => [l]
  | Polygon e h => [e]
  | Multipart parts => flat_map outer_lines parts
  | _ => []
  end.

(** [pairs] are the consecutive pairs of [l]: entry [i] joins the coordinates [i]
    and [i + 1], and there are no other entries. *)
Definition consecutive (l : list vec) (pairs : list (vec * vec)) : Prop :=
  forall i a b, nth_error pairs i = Some (a, b) <-> nth_error l i = Some a /\ nth_error l (S i) = Some b.
(** [pairs] run through the lines one after another. *)
Definition traces (lines : list (list vec)) (pairs : list (vec * vec)) : Prop :=
  exists groups, pairs = concat groups /\ Forall2 consecutive lines groups.

(** Cells, as (x, y), that the rasterisers give for a geometry apart from holes. *)
Section Ink.
  Variables (line : Z * Z -> Z * Z -> list (Z * Z)) (fill perimeter : list (Z * Z) -> list (Z * Z)).
  Variable indicer : vec -> Z * Z.
  Inductive ink : geom -> Z * Z -> Prop :=
  | ink_line l i a b c : nth_error l i = Some a -> nth_error l (S i) = Some b ->
      In c (line (indicer a) (indicer b)) -> ink (LineString l) c
  | ink_fill e h c : In c (fill (map indicer e)) -> ink (Polygon e h) c
  | ink_edge e h c : In c (perimeter (map indicer e)) -> ink (Polygon e h) c
  | ink_part l g c : In g l -> ink g c -> ink (Multipart l) c.
End Ink.

(** The cell [(x, y)] is in the grid, and is the entry in row [i], column [j]. *)
Definition in_grid {A} (g : grid A) (c : Z * Z) : Prop :=
  (0 <= fst c < Z.of_nat (cols g))%Z /\ (0 <= snd c < Z.of_nat (rows g))%Z.
Definition cell_of (i j : nat) : Z * Z := (Z.of_nat j, Z.of_nat i).
