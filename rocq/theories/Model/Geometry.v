(** * Model of crowddynamics/core/geometry.py

    Shapely geometries are represented by their coordinates. Line strings include
    linear rings. A polygon with an empty exterior is shapely's empty polygon, whose
    [exterior] is None. Three dimensional coordinates are not modelled. *)
From Verif Require Import Model.Base Model.Geom2D Model.Steering.
Open Scope R_scope.

(** Shapely's geometry types as far as geometry.py tells them apart; [NoGeometry]
    is any other object. *)
Inductive geom : Type :=
| Point (p : vec)
| LineString (coords : list vec)
| Polygon (exterior : list vec) (interiors : list (list vec))
| Multipart (parts : list geom)
| NoGeometry.

(** [zip(coords[:-1], coords[1:])], geometry.py:90 and 92. *)
Definition zip_pairs (coords : list vec) : list (vec * vec) :=
  combine (removelast coords) (tl coords).

(** geometry.py:63-96 [geom_to_linesegment], as the list of its values. The lazy
    evaluation of the parts is not modelled: an exception of a part is raised by
    the call. *)
Fixpoint geom_to_linesegment (g : geom) : res (list (vec * vec)) :=
  match g with
  | Point _ => Ok []
  | LineString coords => Ok (zip_pairs coords)
  | Polygon [] _ => Err AttributeError
  | Polygon exterior _ => Ok (zip_pairs exterior)
  | Multipart parts =>
      (fix all (l : list geom) : res (list (vec * vec)) :=
         match l with
         | [] => Ok []
         | g :: rest => do a <- geom_to_linesegment g; do b <- all rest; Ok (a ++ b)
         end) parts
  | NoGeometry => Err TypeError
  end.

(** geometry.py:99-102 [geom_to_linear_obstacles]; [None] is Python's None. *)
Definition geom_to_linear_obstacles (g : option geom) : res (list obstacle) :=
  do segments <- match g with None => Ok [] | Some g => geom_to_linesegment g end;
  Ok (map (fun '(a, b) => Obs a b) segments).

(** A row of [geom_to_array]: two numbers, the first of which may be NaN. *)
Definition row : Type := (option R * R)%type.
(** geometry.py:24-28 [GeomTypes]. *)
Definition flag_point : R := 0.
Definition flag_linestring : R := 1.
Definition flag_hole : R := 2.
Definition flag_shell : R := 3.
Definition flag_row (f : R) : list row := [(None, f)].
Definition coord_rows (l : list vec) : list row := map (fun p => (Some (vx p), vy p)) l.

(** geometry.py:31-47 [_geom_to_array]: the yielded arrays. The [return] of line 45
    in a generator ends it without a value. The empty polygon yields a zero
    dimensional array, which [np.concatenate] rejects with ValueError. *)
Definition geom_arrays (g : geom) : res (list (list row)) :=
  match g with
  | Point p => Ok [flag_row flag_point; coord_rows [p]]
  | LineString coords => Ok [flag_row flag_linestring; coord_rows coords]
  | Polygon exterior interiors =>
      match exterior with
      | [] => Err ValueError
      | _ => Ok (flat_map (fun i => [flag_row flag_hole; coord_rows i]) interiors ++
                 [flag_row flag_shell; coord_rows exterior])
      end
  | Multipart parts => Ok []
  | NoGeometry => Err TypeError
  end.
(** geometry.py:50-60 [geom_to_array]; [np.concatenate] of no arrays raises. *)
Definition geom_to_array (g : geom) : res (list row) :=
  do arrays <- geom_arrays g;
  match arrays with [] => Err ValueError | _ => Ok (concat arrays) end.

(** numpy's reading of an index along an axis of [n] entries: negative ones count
    from the end, others out of range raise. *)
Definition axis_index (n : nat) (i : Z) : option nat :=
  if (Z.leb 0 i && Z.ltb i (Z.of_nat n))%bool then Some (Z.to_nat i)
  else if (Z.leb (- Z.of_nat n) i && Z.ltb i 0)%bool then Some (Z.to_nat (i + Z.of_nat n))
  else None.

Section Draw.
  Context {A : Type}.
  (** [skimage.draw.line], [polygon] and [polygon_perimeter]: lists of (x, y). *)
  Variables (line : Z * Z -> Z * Z -> list (Z * Z)) (fill perimeter : list (Z * Z) -> list (Z * Z)).
  Variable indicer : vec -> Z * Z.
  (** The value written, and zero. *)
  Variables (value zero : A).

  (** [grid[i, j] = v] for one cell. *)
  Definition put_cell (i j : nat) (v : A) (g : grid A) : grid A :=
    Grid (rows g) (cols g) (fun a b => if (Nat.eqb a i && Nat.eqb b j)%bool then v else at_ g a b).
  (** [grid[y, x] = v] for index arrays [x], [y]. *)
  Fixpoint put_cells (cells : list (Z * Z)) (v : A) (g : grid A) : res (grid A) :=
    match cells with
    | [] => Ok g
    | (x, y) :: rest =>
        match axis_index (rows g) y, axis_index (cols g) x with
        | Some i, Some j => put_cells rest v (put_cell i j v g)
        | _, _ => Err IndexError
        end
    end.

  (** geometry.py:113-116: the loop over the segments of a line string. *)
  Fixpoint draw_lines (segments : list (vec * vec)) (g : grid A) : res (grid A) :=
    match segments with
    | [] => Ok g
    | (a, b) :: rest => do g <- put_cells (line (indicer a) (indicer b)) value g; draw_lines rest g
    end.
  (** geometry.py:123-125: the loop over the holes. *)
  Fixpoint draw_holes (interiors : list (list vec)) (g : grid A) : res (grid A) :=
    match interiors with
    | [] => Ok g
    | i :: rest => do g <- put_cells (fill (map indicer i)) zero g; draw_holes rest g
    end.
  (** geometry.py:105-130 [draw_geom]. The grid after an exception is not modelled. *)
  Fixpoint draw_geom (s : geom) (g : grid A) : res (grid A) :=
    match s with
    | Point _ => Ok g
    | LineString coords => draw_lines (zip_pairs coords) g
    | Polygon [] _ => Err TypeError
    | Polygon exterior interiors =>
        let i := map indicer exterior in
        do g <- put_cells (fill i) value g;
        do g <- put_cells (perimeter i) value g;
        draw_holes interiors g
    | Multipart parts =>
        (fix all (l : list geom) (g : grid A) : res (grid A) :=
           match l with
           | [] => Ok g
           | s :: rest => do g <- draw_geom s g; all rest g
           end) parts g
    | NoGeometry => Err TypeError
    end.
End Draw.

(** geometry.py:133-135 [union]: [functools.reduce] of shapely's [|], given as [join];
    [reduce] of an empty sequence raises TypeError. *)
Definition union {G : Type} (join : G -> G -> G) (geoms : list G) : res G :=
  match geoms with
  | [] => Err TypeError
  | g :: rest => Ok (fold_left join rest g)
  end.
