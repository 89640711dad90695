(** * Model of crowddynamics/core/sampling.py *)
From Verif Require Import Model.Base Model.Vector2D Model.Geom2D.
Open Scope R_scope.

(** sampling.py:10-17 [linestring_length_cumsum]: entry [i] is the distance
    between vertices [i] and [i + 1] ([np.hypot]). *)
Definition linestring_length_cumsum (vertices : list vec) : list R :=
  map (fun i => let diff := vsub (nth i vertices vzero) (nth (i + 1) vertices vzero) in
                sqrt (vx diff * vx diff + vy diff * vy diff))
      (seq 0 (length vertices - 1)).

(** sampling.py:20-31 [random_sample_line]; [x] is the draw from [0, 1). *)
Definition random_sample_line (x : R) (p0 p1 : vec) : vec :=
  vadd (vscale x (vsub p1 p0)) p0.

(** [weights /= weights[-1]], sampling.py:49 and 145, on numpy arrays: dividing by
    zero gives inf or nan, both written [None] here, because [searchsorted]
    treats them alike (they are not smaller than any number). *)
Definition normalized (w : list R) (last : R) : list (option R) :=
  map (fun x => if Reqb last 0 then None else Some (x / last)) w.

(** numpy's [searchsorted] (side left) for one key: [npy_binsearch]. The array
    need not be sorted. [fuel] bounds the number of halvings; the length of the
    array suffices. *)
Fixpoint binsearch (w : list (option R)) (x : R) (fuel lo hi : nat) : nat :=
  match fuel with
  | O => lo
  | S fuel =>
      if (lo <? hi)%nat then
        let mid := (lo + (hi - lo) / 2)%nat in
        if match nth mid w None with Some y => Rltb y x | None => false end
        then binsearch w x fuel (S mid) hi
        else binsearch w x fuel lo mid
      else lo
  end.
Definition searchsorted (w : list (option R)) (x : R) : nat :=
  binsearch w x (length w) 0 (length w).

(** sampling.py:34-54 [linestring_sample]: one value of the generator; [x] picks
    the segment and [y] the point on it. [weights[-1]] of an empty array raises.
    The shape assertions are part of the type. *)
Definition linestring_sample (vertices : list vec) (x y : R) : res vec :=
  let w := linestring_length_cumsum vertices in
  match rev w with
  | [] => Err IndexError
  | last :: _ =>
      let i := searchsorted (normalized w last) x in
      match nth_error vertices i, nth_error vertices (i + 1) with
      | Some p0, Some p1 => Ok (random_sample_line y p0 p1)
      | _, _ => Err IndexError
      end
  end.

(** A row of the triangle mesh. *)
Definition triangle : Type := (vec * vec * vec)%type.

(** sampling.py:57-76 [triangle_area_cumsum]. *)
Definition triangle_area (t : triangle) : R :=
  let '(a, b, c) := t in polygon_area [a; b; c].
Fixpoint area_cumsum (area : R) (mesh : list triangle) : list R :=
  match mesh with
  | [] => []
  | t :: rest => let area := area + triangle_area t in area :: area_cumsum area rest
  end.
Definition triangle_area_cumsum (mesh : list triangle) : list R := area_cumsum 0 mesh.

(** sampling.py:79-113 [random_sample_triangle]; [r1], [r2] are the two draws. *)
Definition random_sample_triangle (r1 r2 : R) (a b c : vec) : vec :=
  vadd (vadd (vscale (1 - sqrt r1) a) (vscale (sqrt r1 * (1 - r2)) b))
       (vscale (r2 * sqrt r1) c).

(** sampling.py:138-139: [vertices[delaunay.simplices]]; [simplices] are the index
    triples returned by scipy's [Delaunay]. An index out of range raises. *)
Fixpoint mesh_of (vertices : list vec) (simplices : list (nat * nat * nat)) : res (list triangle) :=
  match simplices with
  | [] => Ok []
  | (i, j, k) :: rest =>
      match nth_error vertices i, nth_error vertices j, nth_error vertices k with
      | Some a, Some b, Some c => do m <- mesh_of vertices rest; Ok ((a, b, c) :: m)
      | _, _, _ => Err IndexError
      end
  end.

(** sampling.py:143-151: the triangle picked by [x]. *)
Definition pick_triangle (mesh : list triangle) (x : R) : res triangle :=
  let w := triangle_area_cumsum mesh in
  match rev w with
  | [] => Err IndexError
  | last :: _ =>
      match nth_error mesh (searchsorted (normalized w last) x) with
      | Some t => Ok t
      | None => Err IndexError
      end
  end.

(** sampling.py:116-152 [polygon_sample]: one value of the generator; [x] picks
    the triangle, [r1] and [r2] the point in it. *)
Definition polygon_sample (vertices : list vec) (simplices : list (nat * nat * nat))
    (x r1 r2 : R) : res vec :=
  do mesh <- mesh_of vertices simplices;
  do t <- pick_triangle mesh x;
  let '(a, b, c) := t in Ok (random_sample_triangle r1 r2 a b c).
