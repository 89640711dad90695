(** * core/steering/quickest_path.py (distance maps, shortest paths), obstacle_handling.py
      [direction_map_obstacles], navigation.py [static_potential]

    Parameters: the rasterisers of skimage.draw, the fast marching solver [skfmm.distance],
    shapely's [buffer] and [intersection], the bounds of a polygon, and the nearest
    neighbour search of scipy.  A masked array is a grid of options: [None] is a masked
    entry.  numpy 1.12 masks the quotient [v / l] wherever [v] or [l] is masked or the
    quotient is not a number. *)
From Verif Require Export Model.Steering Model.Geometry Model.Field.
Open Scope R_scope.

(** Cells of an array in the order of boolean indexing (row by row). *)
Definition cells (n m : nat) : list (nat * nat) := list_prod (seq 0 n) (seq 0 m).
(** The data of a masked array of distances: [skfmm] writes 0 below the mask. *)
Definition data (g : grid (option R)) : grid R :=
  Grid (rows g) (cols g) (fun i j => match at_ g i j with Some x => x | None => 0 end).
Definition is_masked {A} (g : grid (option A)) (c : nat * nat) : bool :=
  match at_ g (fst c) (snd c) with Some _ => false | None => true end.
Definition any_masked {A} (g : grid (option A)) : bool := existsb (is_masked g) (cells (rows g) (cols g)).

(** [numpy.gradient] of a masked array along one axis of [n] entries: masked where one of
    the entries subtracted is. *)
Definition minus (a b : option R) : option R :=
  match a, b with Some x, Some y => Some (x - y) | _, _ => None end.
Definition masked_gradient1 (n : nat) (f : nat -> option R) (i : nat) : option R :=
  if Nat.eqb i 0 then minus (f 1%nat) (f 0%nat)
  else if Nat.eqb i (n - 1) then minus (f i) (f (i - 1)%nat)
  else option_map (fun x => x / 2) (minus (f (i + 1)%nat) (f (i - 1)%nat)).

(** quickest_path.py:144-165 [direction_map] on what the solver returns. *)
Definition masked_direction_map (dmap : grid (option R)) : res (grid (option vec)) :=
  if (Nat.ltb (rows dmap) 2 || Nat.ltb (cols dmap) 2)%bool then Err ValueError
  else Ok (Grid (rows dmap) (cols dmap) (fun i j =>
    match masked_gradient1 (rows dmap) (fun i => at_ dmap i j) i,
          masked_gradient1 (cols dmap) (fun j => at_ dmap i j) j with
    | Some u, Some v => unit_or_nan (V v u)
    | _, _ => None
    end)).

(** [find_boundaries(mask, mode='outer')] of skimage for a boolean mask: the cells that
    are not masked and have a masked cell above, below, left or right of them. *)
Definition beside (n m : nat) (c : nat * nat) : list (nat * nat) :=
  let '(i, j) := c in
  (if Nat.ltb (S i) n then [(S i, j)] else []) ++ (match i with O => [] | S i' => [(i', j)] end) ++
  (if Nat.ltb (S j) m then [(i, S j)] else []) ++ (match j with O => [] | S j' => [(i, j')] end).
Definition outer_boundary (g : grid (option vec)) : list (nat * nat) :=
  filter (fun c => (negb (is_masked g c) && existsb (is_masked g) (beside (rows g) (cols g) c))%bool)
    (cells (rows g) (cols g)).

Section Maps.
  Variables (line : Z * Z -> Z * Z -> list (Z * Z)) (fill perimeter : list (Z * Z) -> list (Z * Z)).
  (** [skfmm.distance(phi, dx)] for the data and the mask of [phi]. *)
  Variable solver : R -> grid R -> grid bool -> res (grid (option R)).
  Variables (buffer : geom -> R -> geom) (intersection : geom -> geom -> geom).
  Variable bounds : geom -> R * R * R * R.
  (** Position in the list of the point [NearestNDInterpolator] picks for a query. *)
  Variable nearest : list vec -> vec -> nat.

  (** quickest_path.py:54-117 [distance_map]. *)
  Definition distance_map (m : mesh) (targets : geom) (obstacles : option geom) : res (grid (option R)) :=
    let contour := Grid (m_rows m) (m_cols m) (fun _ _ => -1) in
    let mask := Grid (m_rows m) (m_cols m) (fun _ _ => false) in
    do contour <- draw_geom line fill perimeter (indicer m) 1 0 targets contour;
    do mask <- match obstacles with
               | Some o => draw_geom line fill perimeter (indicer m) true false o mask
               | None => Ok mask
               end;
    solver (m_step m) contour mask.

  (** quickest_path.py:170-181 [fill_missing]; a query without any points raises.  The
      two interpolators find the same point. *)
  Definition fill_missing (m : mesh) (mask : nat -> nat -> bool) (dir : grid (option vec)) : res (grid (option vec)) :=
    let swapped c := let p := m_node m (fst c) (snd c) in V (vy p) (vx p) in
    let boundaries := outer_boundary dir in
    let pick c := nth_error boundaries (nearest (map swapped boundaries) (swapped c)) in
    let missing := filter (fun c => mask (fst c) (snd c)) (cells (rows dir) (cols dir)) in
    if forallb (fun c => match pick c with Some _ => true | None => false end) missing then
      Ok (Grid (rows dir) (cols dir) (fun i j =>
        if mask i j then match pick (i, j) with Some (a, b) => at_ dir a b | None => None end
        else at_ dir i j))
    else Err IndexError.

  (** quickest_path.py:184-197 [shortest_path] after the obstacles are known not to be
      None.  Where nothing is masked the solver returns an ordinary array, which has no
      attribute [mask]. *)
  Definition path_maps (m : mesh) (domain targets obstacles : geom) (radius : R) : res (grid (option vec) * grid R) :=
    do dmap <- distance_map m targets (Some (intersection (buffer obstacles radius) domain));
    do dir <- masked_direction_map dmap;
    do mask <- draw_geom line fill perimeter (indicer m) true false obstacles (Grid (m_rows m) (m_cols m) (fun _ _ => false));
    if any_masked dmap then
      do dir <- fill_missing m (fun i j => xorb (at_ mask i j) (is_masked dir (i, j))) dir;
      Ok (dir, data dmap)
    else Err AttributeError.

  (** obstacle_handling.py:104-110 [direction_map_obstacles]. *)
  Definition obstacle_maps (m : mesh) (obstacles : geom) : res (grid (option vec) * grid R) :=
    do dmap <- distance_map m obstacles None;
    do dir <- masked_direction_map dmap;
    Ok (dir, data dmap).

  (** navigation.py:25-56 [static_potential]; None has no [buffer]. *)
  Definition static_potential (domain targets : geom) (obstacles : option geom) (step radius strength : R)
      : res (mesh * grid R * grid (option vec)) :=
    do m <- (let '(minx, miny, maxx, maxy) := bounds domain in meshgrid step minx miny maxx maxy);
    match obstacles with
    | None => Err AttributeError
    | Some o =>
        do t <- path_maps m domain targets o radius;
        do b <- obstacle_maps m o;
        Ok (m, snd t, obstacle_handling (snd b) (fst b) (fst t) radius strength)
    end.

  (** The solvers behind the queries of a field: simulation/field.py:138-164 calls
      [shortest_path] and [direction_map_obstacles]; [intersection] with None and
      [draw_geom] of None raise. *)
  Definition field_path (m : mesh) (domain : option geom) (targets obstacles : geom) (radius : R) : res (grid (option vec) * grid R) :=
    match domain with
    | Some d => path_maps m d targets obstacles radius
    | None => Err AttributeError
    end.
  Definition field_obstacles (m : mesh) (obstacles : option geom) : res (grid (option vec) * grid R) :=
    match obstacles with
    | Some o => obstacle_maps m o
    | None => Err TypeError
    end.
End Maps.
