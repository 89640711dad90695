(** * Model of crowddynamics/core/quantities.py

    Scipy's Voronoi diagram, its completion [voronoi_finite_polygons_2d] and shapely's
    intersections are inputs. *)
From Verif Require Export Model.Base Model.Steering Model.Geom2D.
Open Scope R_scope.

(** Least and largest value of an array; numpy raises ValueError on an empty one. *)
Definition rmin (l : list R) : res R :=
  match l with [] => Err ValueError | x :: l => Ok (fold_left Rmin l x) end.
Definition rmax (l : list R) : res R :=
  match l with [] => Err ValueError | x :: l => Ok (fold_left Rmax l x) end.
Definition zmin (l : list Z) : res Z :=
  match l with [] => Err ValueError | x :: l => Ok (fold_left Z.min l x) end.
Definition zmax (l : list Z) : res Z :=
  match l with [] => Err ValueError | x :: l => Ok (fold_left Z.max l x) end.

(** An array of shape [(d_rows, d_cols)]. *)
Record density : Type := Density { d_rows : Z; d_cols : Z; d_at : Z -> Z -> R }.
(** [np.zeros(shape)]; negative dimensions raise. *)
Definition zeros (n m : Z) : res density :=
  if (Z.ltb n 0 || Z.ltb m 0)%bool then Err ValueError else Ok (Density n m (fun _ _ => 0)).
(** Index of one axis; negative indices count from the end. *)
Definition np_index (n i : Z) : res Z :=
  if (Z.leb (- n) i && Z.ltb i n)%bool then Ok (if Z.ltb i 0 then (i + n)%Z else i) else Err IndexError.
(** [d[i, j] += x] *)
Definition add_at (d : density) (i j : Z) (x : R) : res density :=
  do i <- np_index (d_rows d) i;
  do j <- np_index (d_cols d) j;
  Ok (Density (d_rows d) (d_cols d) (fun a b => if (Z.eqb a i && Z.eqb b j)%bool then d_at d a b + x else d_at d a b)).
(** Python's [range(lo, hi)]. *)
Definition zrange (lo hi : Z) : list Z := map (fun k => (lo + Z.of_nat k)%Z) (seq 0 (Z.to_nat (hi - lo))).
(** A for loop whose body may raise. *)
Fixpoint each {A S} (l : list A) (body : S -> A -> res S) (s : S) : res S :=
  match l with
  | [] => Ok s
  | x :: l => do s <- body s x; each l body s
  end.
(** [d / c ** 2] *)
Definition per_area (d : density) (c : R) : density :=
  Density (d_rows d) (d_cols d) (fun i j => d_at d i j / (c * c)).

(** A dimension passed to [np.zeros]: an integer, or a float. Numpy 1.12 refuses floats. *)
Inductive dimension : Type := DInt (z : Z) | DFloat (x : R).
Definition zeros_of (n m : dimension) : res density :=
  match n, m with
  | DInt n, DInt m => zeros n m
  | _, _ => Err TypeError
  end.
(** quantities.py:10-34 [density_classical]; [np.floor] gives floats. *)
Definition density_classical (points : list vec) (cell_size : R) : res density :=
  let x := map (fun p => IZR (floordiv (vx p) cell_size)) points in
  let y := map (fun p => IZR (floordiv (vy p) cell_size)) points in
  do x_min <- rmin x;
  do y_min <- rmin y;
  do x_max <- rmax x;
  do y_max <- rmax y;
  do count <- zeros_of (DFloat (x_max - x_min)) (DFloat (y_max - y_min));
  (* floats are no indices either *)
  do count <- each (combine x y) (fun c _ => Err IndexError) count;
  Ok (per_area count cell_size).

(** One Voronoi cell cut to the observation area: its bounds, its area, and its common area
    with the cell [(i, j)] of the grid. *)
Record vregion : Type := VRegion {
  v_minx : R; v_miny : R; v_maxx : R; v_maxy : R; v_area : R; v_common : Z -> Z -> R }.

(** quantities.py:217-229, the loop over one Voronoi cell. Division of a float by zero
    raises. *)
Definition add_cell (cell_size : R) (imin jmin : Z) (v : vregion) (i : Z) (d : density) (j : Z) : res density :=
  if Reqb (v_area v) 0 then Err ZeroDivisionError
  else add_at d (i - imin) (j - jmin) (v_common v i j / v_area v).
Definition add_row (cell_size : R) (imin jmin : Z) (v : vregion) (d : density) (i : Z) : res density :=
  each (zrange (trunc (v_miny v / cell_size)) (trunc (v_maxy v / cell_size) + 1)) (add_cell cell_size imin jmin v i) d.
Definition add_region (cell_size : R) (imin jmin : Z) (d : density) (v : vregion) : res density :=
  each (zrange (trunc (v_minx v / cell_size)) (trunc (v_maxx v / cell_size) + 1)) (add_row cell_size imin jmin v) d.
(** quantities.py:148-231 [density_voronoi_1], with the Voronoi cells given. The number of
    columns in line 214 is [jmax - imin + 1]. *)
Definition density_voronoi_1 (points : list vec) (cell_size : R) (regions : list vregion) : res density :=
  if (Nat.leb 3 (length points) && Rltb 0 cell_size)%bool then
    do xmin <- rmin (map vx points);
    do xmax <- rmax (map vx points);
    do ymin <- rmin (map vy points);
    do ymax <- rmax (map vy points);
    let imin := trunc (xmin / cell_size) in
    let imax := trunc (xmax / cell_size) in
    let jmin := trunc (ymin / cell_size) in
    let jmax := trunc (ymax / cell_size) in
    do d <- zeros (imax - imin + 1) (jmax - imin + 1);
    do d <- each regions (add_region cell_size imin jmin) d;
    Ok (per_area d cell_size)
  else Err AssertionError.

(** quantities.py:291-294: the loop over the points of [_core_2]. Reading [area] outside of
    its length is not checked by numba; it is an error here. *)
Definition count_point (area : list R) (x_min y_min : Z) (s : density * density) (e : (Z * Z) * nat) : res (density * density) :=
  let '((i, j), r) := e in
  do d <- add_at (fst s) (i - x_min) (j - y_min) 1;
  match nth_error area r with
  | None => Err IndexError
  | Some a => do t <- add_at (snd s) (i - x_min) (j - y_min) a; Ok (d, t)
  end.
(** quantities.py:269-303 [_core_2]. A cell size of zero gives infinities whose conversion to
    integers means nothing; it is an error here. *)
Definition core_2 (points : list vec) (cell_size : R) (area : list R) (point_region : list nat) : res density :=
  if Reqb cell_size 0 then Err (OtherError 0)
  else
    let x := map (fun p => trunc (vx p / cell_size)) points in
    let y := map (fun p => trunc (vy p / cell_size)) points in
    do x_min <- zmin x;
    do y_min <- zmin y;
    do x_max <- zmax x;
    do y_max <- zmax y;
    do z <- zeros (x_max - x_min + 1) (y_max - y_min + 1);
    do s <- each (combine (combine x y) point_region) (count_point area x_min y_min) (z, z);
    Ok (Density (d_rows (fst s)) (d_cols (fst s)) (fun i j =>
      let a := d_at (snd s) i j in if Rltb 0 a then d_at (fst s) i j / a else d_at (fst s) i j)).
(** quantities.py:234-266 [density_voronoi_2]: [cells] are the corners of the (completed)
    Voronoi cells in the order of the points, [point_region] is scipy's number of the cell of
    every point. *)
Definition density_voronoi_2 (points : list vec) (cell_size : R) (cells : list (list vec)) (point_region : list nat) : res density :=
  core_2 points cell_size (map polygon_area cells) point_region.
