(** * core/steering/quickest_path.py (grids and direction maps), obstacle_handling.py,
      navigation.py, orientation.py, and the nodes Navigation and Orientation

    Not modelled: drawing of geometries, the fast marching solver and the
    interpolation of missing values; distance maps are inputs.  Masked arrays are
    represented by their data. *)
From Verif Require Export Model.Agent.
Open Scope R_scope.

(** A numpy array of shape [(rows, cols)]; entries outside the shape mean nothing. *)
Record grid (A : Type) : Type := Grid { rows : nat; cols : nat; at_ : nat -> nat -> A }.
Arguments Grid {A}. Arguments rows {A}. Arguments cols {A}. Arguments at_ {A}.

(** Smallest integer not below [x], and truncation towards zero ([astype(np.int64)]). *)
Definition ceil (x : R) : Z := (- Int_part (- x))%Z.
Definition trunc (x : R) : Z := if Rltb x 0 then (- Int_part (- x))%Z else Int_part x.

(** Length of [np.arange(start, stop, step=step)] for [step <> 0]; a negative length
    is an empty array. *)
Definition arange_length (start stop step : R) : nat := Z.to_nat (ceil ((stop - start) / step)).

(** quickest_path.py:12-16 [MeshGrid]. *)
Record mesh : Type := Mesh { m_step : R; m_minx : R; m_miny : R; m_maxx : R; m_maxy : R }.
(** quickest_path.py:22-50 [meshgrid]; a step of zero raises in arange. *)
Definition meshgrid (step minx miny maxx maxy : R) : res mesh :=
  if Reqb step 0 then Err ZeroDivisionError else Ok (Mesh step minx miny maxx maxy).
(** quickest_path.py:37-40: [shape] is (number of y values, number of x values). *)
Definition m_cols (m : mesh) : nat := arange_length (m_minx m) (m_maxx m + m_step m) (m_step m).
Definition m_rows (m : mesh) : nat := arange_length (m_miny m) (m_maxy m + m_step m) (m_step m).
(** [values]: coordinates of the grid node in row [i] and column [j]. *)
Definition m_node (m : mesh) (i j : nat) : vec := V (m_minx m + INR j * m_step m) (m_miny m + INR i * m_step m).
(** quickest_path.py:42-45 [indicer]: (column, row). *)
Definition indicer (m : mesh) (p : vec) : Z * Z :=
  (trunc ((vx p - m_minx m) / m_step m), trunc ((vy p - m_miny m) / m_step m)).

(** numpy.gradient along one axis of [n] entries: central differences inside, one-sided
    at both ends. *)
Definition gradient1 (n : nat) (f : nat -> R) (i : nat) : R :=
  if Nat.eqb i 0 then f 1%nat - f 0%nat
  else if Nat.eqb i (n - 1) then f i - f (i - 1)%nat
  else (f (i + 1)%nat - f (i - 1)%nat) / 2.

(** [u / l, v / l] cell by cell; [None] is (NaN, NaN). *)
Definition unit_or_nan (d : vec) : option vec :=
  let l := vlength d in if Reqb l 0 then None else Some (vdiv d l).

(** quickest_path.py:145-166 [direction_map]; numpy.gradient raises on fewer than two
    rows or columns. *)
Definition direction_map (dmap : grid R) : res (grid (option vec)) :=
  if (Nat.ltb (rows dmap) 2 || Nat.ltb (cols dmap) 2)%bool then Err ValueError
  else Ok (Grid (rows dmap) (cols dmap) (fun i j =>
    let u := gradient1 (rows dmap) (fun i => at_ dmap i j) i in
    let v := gradient1 (cols dmap) (fun j => at_ dmap i j) j in
    unit_or_nan (V v u))).

(** [strength ** e] for [0 < e < 1]; a negative base gives NaN. *)
Definition power (strength e : R) : option R :=
  if Rltb strength 0 then None else if Reqb strength 0 then Some 0 else Some (exp (e * ln strength)).

(** obstacle_handling.py:66-72: weighted average away from the obstacle. *)
Definition blend (p : R) (d_obs d_target : vec) : vec :=
  V (- p * vx d_obs + (1 - p) * vx d_target) (- p * vy d_obs + (1 - p) * vy d_target).
(** obstacle_handling.py:13-76 [obstacle_handling], one cell; NaN spreads through the
    arithmetic.  [np.hypot(...)] of zero gives 0/0 = NaN in the array division. *)
Definition handle_cell (radius strength d : R) (d_obs d_target : option vec) : option vec :=
  let x := - d in
  if (Rltb 0 x && Rltb x radius)%bool then
    match power strength (x / radius), d_obs, d_target with
    | Some p, Some o, Some t => unit_or_nan (blend p o t)
    | _, _, _ => None
    end
  else match d_target with Some t => unit_or_nan t | None => None end.
Definition obstacle_handling (dmap_obs : grid R) (dir_map_obs dir_map_targets : grid (option vec)) (radius strength : R)
    : grid (option vec) :=
  Grid (rows dmap_obs) (cols dmap_obs) (fun i j =>
    handle_cell radius strength (at_ dmap_obs i j) (at_ dir_map_obs i j) (at_ dir_map_targets i j)).

(** obstacle_handling.py:79-104 [obstacle_handling_continuous], one entry: line 89 reads
    the second component twice.  The read of line 90 happens before the bounds check of
    line 92; its value is not used outside the bounds. *)
Definition handle_continuous (dmap_obs : grid R) (dir_map_obs : grid (option vec)) (radius strength : R)
    (index : Z * Z) (d : vec) : option vec :=
  let '(i, j) := index in
  let u2 := vy d in
  let v2 := vy d in
  if (Z.leb 0 i && Z.ltb i (Z.of_nat (rows dmap_obs)) && (Z.leb 0 j && Z.ltb j (Z.of_nat (cols dmap_obs))))%bool then
    let x := - at_ dmap_obs (Z.to_nat i) (Z.to_nat j) in
    if (Rltb 0 x && Rltb x radius)%bool then
      match power strength (x / radius), at_ dir_map_obs (Z.to_nat i) (Z.to_nat j) with
      | Some p, Some o => Some (normalize (blend p o (V u2 v2)))
      | _, _ => None
      end
    else Some d
  else Some d.

(** navigation.py:62-67 [is_inside], for two indices. *)
Definition is_inside (i j : Z) (n m : nat) : bool :=
  (Z.leb 0 i && Z.ltb i (Z.of_nat n) && (Z.leb 0 j && Z.ltb j (Z.of_nat m)))%bool.
(** navigation.py:70-81 [getdefault]. *)
Definition getdefault (indices : list (Z * Z)) (dir_map : grid (option vec)) (defaults : list vec) : res (list (option vec)) :=
  if Nat.eqb (length indices) (length defaults) then
    Ok (map (fun '((i, j), d) =>
          if is_inside i j (rows dir_map) (cols dir_map) then at_ dir_map (Z.to_nat i) (Z.to_nat j) else Some d)
        (combine indices defaults))
  else Err AssertionError.

(** simulation/logic.py:148-165 [Navigation.update]: one target.  A row whose direction
    becomes NaN is [None].  [np.fliplr] swaps column and row. *)
Definition masked (t : Z) (r : list (option agent)) : list agent :=
  flat_map (fun r => match r with Some a => if Z.eqb (a_target a) t then [a] else [] | None => [] end) r.
(** [agents['target_direction'][has_target] = new_direction]: the values in order. *)
Fixpoint scatter (t : Z) (r : list (option agent)) (ds : list (option vec)) : list (option agent) :=
  match r with
  | [] => []
  | Some a :: r' =>
      if Z.eqb (a_target a) t then
        match ds with
        | [] => r
        | d :: ds' => match d with Some d => Some (set_target_direction d a) | None => None end :: scatter t r' ds'
        end
      else Some a :: scatter t r' ds
  | None :: r' => None :: scatter t r' ds
  end.
Definition navigate_target (nav : Z -> res (mesh * grid (option vec))) (t : Z) (r : list (option agent)) : res (list (option agent)) :=
  match r with
  | [] => Ok []   (* [has_target.size] is the number of agents *)
  | _ =>
      do md <- nav t;
      let '(m, dir) := md in
      let sel := masked t r in
      do ds <- getdefault (map (fun a => let '(c, w) := indicer m (a_position a) in (w, c)) sel) dir (map a_target_direction sel);
      Ok (scatter t r ds)
  end.
(** [nav t] is [field.navigation_to_target(t, step, radius, strength)]. *)
Fixpoint navigate_all (nav : Z -> res (mesh * grid (option vec))) (ts : list Z) (r : list (option agent)) : res (list (option agent)) :=
  match ts with
  | [] => Ok r
  | t :: ts' => do r' <- navigate_target nav t r; navigate_all nav ts' r'
  end.
Definition navigation_node (nav : Z -> res (mesh * grid (option vec))) (targets : nat) (agents : list agent) : res (list (option agent)) :=
  navigate_all nav (map Z.of_nat (seq 0 targets)) (map Some agents).

(** orientation.py:19-23 [orient_towards_target_direction]. *)
Definition orient_row (a : agent) : agent := set_target_orientation (angle (a_target_direction a)) a.
Definition orient_towards_target_direction (agents : list agent) : list agent := map orient_row agents.
(** simulation/logic.py:260-263 [Orientation.update]. *)
Definition orientation_node (k : kind) (agents : list agent) : list agent :=
  if is_model k ThreeCircle then orient_towards_target_direction agents else agents.
