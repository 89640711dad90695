(** * What plots show, names of files *)
From Coq Require Import Ascii String.
From Verif Require Export Model.Plot Spec.Plane Spec.Trees.
Open Scope R_scope. Open Scope string_scope. Open Scope list_scope.

(** The points, lines and polygons a geometry is made of, in order. *)
Fixpoint simple_parts (g : geom) : list geom :=
  match g with Multipart parts => flat_map simple_parts parts | _ => [g] end.
(** The glyph that shows a part. *)
Inductive drawn (kw : kwargs) : geom -> glyph -> Prop :=
| drawn_point p : drawn kw (Point p) (GCircle [vx p] [vy p] kw)
| drawn_line coords : coords <> [] -> drawn kw (LineString coords) (GLine (map vx coords) (map vy coords) kw)
| drawn_polygon exterior interiors : exterior <> [] -> drawn kw (Polygon exterior interiors) (GPatch (map vx exterior) (map vy exterior) kw).
Definition drawable (g : geom) : Prop := forall part, In part (simple_parts g) -> exists glyph, drawn [] part glyph.
(** All parts of all geometries, each with the style of its geometry. *)
Definition parts_of (l : list (kwargs * geom)) : list (kwargs * geom) := flat_map (fun '(kw, g) => map (pair kw) (simple_parts g)) l.
Definition drawn_with (p : kwargs * geom) (g : glyph) : Prop := drawn (fst p) (snd p) g.

(** The points of the plane an image lies on. *)
Definition on_image (g : glyph) (p : vec) : Prop :=
  match g with GImage _ x y dw dh _ => x <= vx p <= x + dw /\ y <= vy p <= y + dh | _ => False end.
Definition in_bounds (m : mesh) (p : vec) : Prop := m_minx m <= vx p <= m_maxx m /\ m_miny m <= vy p <= m_maxy m.

(** The arrow at the grid node [i], [j] with the direction [d]: from the node, along the
    direction, nine tenths of the way to the next arrow if the direction is a unit vector; the
    tip points along the direction. *)
Definition arrow (m : mesh) (freq i j : nat) (d : option vec) (x0 y0 : R) (x1 y1 angle : option R) : Prop :=
  x0 = m_minx m + INR j * m_step m /\ y0 = m_miny m + INR i * m_step m /\
  match d with
  | None => x1 = None /\ y1 = None /\ angle = None
  | Some d => x1 = Some (x0 + 9/10 * INR freq * m_step m * vx d) /\ y1 = Some (y0 + 9/10 * INR freq * m_step m * vy d) /\
      exists a, angle = Some a /\ (d <> vzero -> elen d * cos (a + PI / 2) = vx d /\ elen d * sin (a + PI / 2) = vy d)
  end.

(** [ext] is the extension of the last component of the path [p]: it starts at the last dot,
    and not all characters before it are dots. *)
Definition has_extension (p base ext : text) : Prop :=
  p = base ++ ext /\ exists dir stem e, base = dir ++ stem /\ ext = "."%char :: e /\
  (dir = [] \/ exists d, dir = d ++ ["/"%char]) /\ ~ In "/"%char stem /\ (exists c, In c stem /\ c <> "."%char) /\
  ~ In "."%char e /\ ~ In "/"%char e.
(** The last component of a path. *)
Definition last_component (p name : text) : Prop := ~ In "/"%char name /\ (p = name \/ exists dir, p = dir ++ "/"%char :: name).

(** What [add_field] shows, in order, with the styles. *)
Definition field_items (f : field geom) : list (kwargs * geom) :=
  [([("alpha", "0.05")], as_geom (f_domain f))] ++
  map (pair [("alpha", "0.5"); ("line_width", "0"); ("color", "green")]) (f_spawns f) ++
  map (pair [("alpha", "0.5"); ("line_dash", "dashed"); ("color", "olive")]) (f_targets f) ++
  [([("alpha", "0.8")], as_geom (f_obstacles f))].
(** The same for [plot_field], which also numbers the spawns and targets. *)
Definition plot_items (f : field geom) : list (kwargs * geom) :=
  [([("legend", "domain"); ("alpha", "0.05")], as_geom (f_domain f))] ++
  map (fun '(i, s) => ([("legend", numbered "spawn_" i); ("alpha", "0.5"); ("line_width", "0"); ("color", "green")], s)) (combine (seq 0 (List.length (f_spawns f))) (f_spawns f)) ++
  map (fun '(i, t) => ([("legend", numbered "target_" i); ("alpha", "0.8"); ("line_width", "3.0"); ("line_dash", "dashed"); ("color", "olive")], t)) (combine (seq 0 (List.length (f_targets f))) (f_targets f)) ++
  [([("legend", "obstacles"); ("line_width", "3.0"); ("alpha", "0.8")], as_geom (f_obstacles f))].
