(** * Model of [voronoi_finite_polygons_2d] in crowddynamics/core/quantities.py

    The diagram comes from [scipy.spatial.Voronoi]; [np.argsort] is a parameter. *)
From Verif Require Export Model.Quantities.
Open Scope R_scope.

(** The attributes of scipy's diagram that are read. Region and vertex numbers may be -1. *)
Record diagram : Type := Diagram {
  d_points : list vec;
  d_vertices : list vec;
  d_ridge_points : list (nat * nat);
  d_ridge_vertices : list (Z * Z);
  d_regions : list (list Z);
  d_point_region : list Z }.

(** Indexing of lists and of the first axis of arrays; negative indices count from the end. *)
Definition item {A} (l : list A) (i : Z) : res A :=
  do i <- np_index (Z.of_nat (length l)) i;
  match nth_error l (Z.to_nat i) with Some x => Ok x | None => Err IndexError end.
(** [mean(axis=0)]; the mean of nothing is NaN, see [finish_region] *)
Definition mean (l : list vec) : vec := vdiv (vsum l) (INR (length l)).
(** [np.sign] *)
Definition sign (x : R) : R := if Rltb 0 x then 1 else if Rltb x 0 then -1 else 0.

(** quantities.py:95-99: the entry of [all_ridges] for the point [p]. The model looks the
    ridges up where the program fills a dictionary first; both keep the order of the diagram,
    and a point without entry has the empty list here. *)
Definition ridges_of (d : diagram) (p : nat) : list (nat * Z * Z) :=
  flat_map (fun r => let '((p1, p2), (v1, v2)) := r in
    (if Nat.eqb p1 p then [(p2, v1, v2)] else []) ++ (if Nat.eqb p2 p then [(p1, v1, v2)] else []))
    (combine (d_ridge_points d) (d_ridge_vertices d)).

(** quantities.py:114-133, one ridge of the point [p1]: the vertex numbers of the region and
    all vertices so far. Where the points [p1] and [p2] coincide [t] is NaN in the program;
    the theorems are about diagrams in which they do not. *)
Definition finish_ridge (d : diagram) (center : vec) (radius : R) (p1 : nat) (s : list Z * list vec) (r : nat * Z * Z) : res (list Z * list vec) :=
  let '(p2, v1, v2) := r in
  let '(v1, v2) := if Z.ltb v2 0 then (v2, v1) else (v1, v2) in
  if Z.leb 0 v1 then Ok s
  else
    do b <- item (d_points d) (Z.of_nat p2);
    do a <- item (d_points d) (Z.of_nat p1);
    let t := vsub b a in
    let t := vdiv t (vlength t) in
    let n := V (- vy t) (vx t) in
    let midpoint := mean [a; b] in
    let direction := vscale (sign (dot (vsub midpoint center) n)) n in
    do v <- item (d_vertices d) v2;
    Ok (fst s ++ [Z.of_nat (length (snd s))], snd s ++ [vadd v (vscale radius direction)]).

Fixpoint rmap {A B} (f : A -> res B) (l : list A) : res (list B) :=
  match l with
  | [] => Ok []
  | x :: l => do y <- f x; do l <- rmap f l; Ok (y :: l)
  end.
(** quantities.py:102-143: the loop over the points. Slicing the empty array of line 136
    raises. *)
Definition finish_region (argsort : list R -> list nat) (d : diagram) (center : vec) (radius : R)
    (s : list (list Z) * list vec) (e : nat * Z) : res (list (list Z) * list vec) :=
  let '(p1, region) := e in
  do vertices <- item (d_regions d) region;
  if forallb (Z.leb 0) vertices then Ok (fst s ++ [vertices], snd s)
  else
    match ridges_of d p1 with
    | [] => Err KeyError
    | ridges =>
        do r <- each ridges (finish_ridge d center radius p1) (filter (Z.leb 0) vertices, snd s);
        do vs <- rmap (item (snd r)) (fst r);
        match vs with
        | [] => Err IndexError
        | _ =>
            let c := mean vs in
            let angles := map (fun v => angle (vsub v c)) vs in
            do region <- rmap (fun i => item (fst r) (Z.of_nat i)) (argsort angles);
            Ok (fst s ++ [region], snd r)
        end
    end.
(** quantities.py:63-145 [voronoi_finite_polygons_2d] for two dimensional points. *)
Definition voronoi_finite_polygons_2d (argsort : list R -> list nat) (d : diagram) (radius : option R) : res (list (list Z) * list vec) :=
  let center := mean (d_points d) in
  do radius <- match radius with
    | Some r => Ok r
    | None => let coordinates := flat_map (fun p => [vx p; vy p]) (d_points d) in
              do hi <- rmax coordinates; do lo <- rmin coordinates; Ok ((hi - lo) * 2)
    end;
  each (combine (seq 0 (length (d_point_region d))) (d_point_region d)) (finish_region argsort d center radius) ([], d_vertices d).

(** quantities.py:256-266 [density_voronoi_2] from the diagram of the points on. Numba does
    not check [point_region]; see [count_point] of Model/Quantities.v for numbers outside of
    the list of areas. Negative numbers, which scipy gives to points that it leaves out, are
    errors here. *)
Definition density_of_diagram (argsort : list R -> list nat) (d : diagram) (cell_size : R) : res density :=
  do r <- voronoi_finite_polygons_2d argsort d None;
  do cells <- rmap (rmap (item (snd r))) (fst r);
  do regions <- rmap (fun i => if Z.ltb i 0 then Err IndexError else Ok (Z.to_nat i)) (d_point_region d);
  density_voronoi_2 (d_points d) cell_size cells regions.
