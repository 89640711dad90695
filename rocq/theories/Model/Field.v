(** * Model of crowddynamics/simulation/field.py

    Shapely geometries are values of a type [G] given as a parameter, and the shapely
    operations used by the field are parameters as well. The solvers behind
    [shortest_path] and [direction_map_obstacles] (drawing, fast marching,
    interpolation) are parameters too: the result depends on nothing but their
    arguments. *)
From Verif Require Export Model.Base Model.Steering Model.Sampling Model.Geometry.
From Coq Require Import String.
Open Scope R_scope.

(** The argument [index] of the navigation queries: an integer, a float (or another
    number that is no integer), or a string. *)
Inductive index : Type := Int (z : Z) | Float (x : R) | Word (s : string).
(** Python's [==] between such arguments: 1 == 1.0. *)
Definition index_eqb (a b : index) : bool :=
  match a, b with
  | Int x, Int y => Z.eqb x y
  | Int x, Float y => Reqb (IZR x) y
  | Float x, Int y => Reqb x (IZR y)
  | Float x, Float y => Reqb x y
  | Word s, Word t => String.eqb s t
  | _, _ => false
  end.

(** Python's [l[z]] on a list. *)
Definition list_get {A} (l : list A) (z : Z) : res A :=
  let n := Z.of_nat (List.length l) in
  if (Z.leb (- n) z && Z.ltb z n)%bool then
    match nth_error l (Z.to_nat (if Z.ltb z 0 then z + n else z)) with
    | Some x => Ok x
    | None => Err IndexError
    end
  else Err IndexError.

(** [functools.lru_cache()], the decorator of field.py:131, 138, 151, 155: a list of
    keys and values, the most recently used first, of at most 128 entries. *)
Definition maxsize : nat := 128.
Section Lru.
  Context {K D : Type}.
  Variable eqb : K -> K -> bool.
  Definition lookup (k : K) (c : list (K * D)) : option (K * D) := find (fun e => eqb (fst e) k) c.
  (** A hit moves the entry to the front. *)
  Definition touch (k : K) (c : list (K * D)) : list (K * D) :=
    match lookup k c with
    | Some e => e :: filter (fun e => negb (eqb (fst e) k)) c
    | None => c
    end.
  (** A miss stores the new value in front and drops the oldest entry of a full cache. *)
  Definition store (k : K) (v : D) (c : list (K * D)) : list (K * D) := firstn maxsize ((k, v) :: c).
  (** One call of the decorated method in state [s]; a raised exception is not stored. *)
  Definition cached {S : Type} (get : S -> list (K * D)) (put : S -> list (K * D) -> S)
      (call : S -> S * res D) (k : K) (s : S) : S * res D :=
    match lookup k (get s) with
    | Some e => (put s (touch k (get s)), Ok (snd e))
    | None =>
        let '(s, r) := call s in
        match r with
        | Ok v => (put s (store k v (get s)), Ok v)
        | Err e => (s, Err e)
        end
    end.
End Lru.

(** Sequencing of calls that change the state and may raise. *)
Definition sbind {S A B} (x : S * res A) (f : S -> A -> S * res B) : S * res B :=
  let '(s, r) := x in match r with Ok a => f s a | Err e => (s, Err e) end.

Section Field.
  Variable G : Type.

  (** field.py:72-85, the traits of a field. *)
  Record field : Type := Field {
    f_domain : option G;
    f_obstacles : option G;
    f_targets : list G;
    f_spawns : list G }.

  (** *** Assignments *)
  Variables is_valid is_empty : G -> bool.
  (** field.py:90-97 and 99-106, [_valid_domain] and [_valid_obstacles]; traitlets does not
      validate None when it is allowed. *)
  Definition validated (v : option G) : res (option G) :=
    match v with
    | None => Ok None
    | Some g => if negb (is_valid g) then Err ValidationError
                else if is_empty g then Err ValidationError else Ok (Some g)
    end.
  Definition assign_domain (v : option G) (f : field) : field * res unit :=
    match validated v with
    | Ok v => (Field v (f_obstacles f) (f_targets f) (f_spawns f), Ok tt)
    | Err e => (f, Err e)
    end.
  Definition assign_obstacles (v : option G) (f : field) : field * res unit :=
    match validated v with
    | Ok v => (Field (f_domain f) v (f_targets f) (f_spawns f), Ok tt)
    | Err e => (f, Err e)
    end.
  (** [targets] and [spawns] are lists without validation of the shapes. *)
  Definition assign_targets (v : list G) (f : field) : field := Field (f_domain f) (f_obstacles f) v (f_spawns f).
  Definition assign_spawns (v : list G) (f : field) : field := Field (f_domain f) (f_obstacles f) (f_targets f) v.

  (** An assignment statement on a field; one that raises changes nothing. *)
  Inductive change : Type :=
  | SetDomain (v : option G) | SetObstacles (v : option G) | SetTargets (v : list G) | SetSpawns (v : list G).
  Definition change_field (f : field) (c : change) : field :=
    match c with
    | SetDomain v => fst (assign_domain v f)
    | SetObstacles v => fst (assign_obstacles v f)
    | SetTargets v => assign_targets v f
    | SetSpawns v => assign_spawns v f
    end.

  (** *** Convex hull *)
  (** Shapely's [|], the empty geometry [BaseGeometry()] and the property [convex_hull]. *)
  Variable join : G -> G -> G.
  Variable nothing : G.
  Variable hull : G -> G.
  (** [if obstacles:] shapely's truth value is "not empty". *)
  Definition truth (g : option G) : bool := match g with Some g => negb (is_empty g) | None => false end.
  (** field.py:108-117 [convex_hull]. *)
  Definition convex_hull (f : field) : res G :=
    let g := nothing in
    let g := if truth (f_obstacles f) then match f_obstacles f with Some o => join g o | None => g end else g in
    do g <- match f_targets f with [] => Ok g | ts => do u <- union join ts; Ok (join g u) end;
    do g <- match f_spawns f with [] => Ok g | ss => do u <- union join ss; Ok (join g u) end;
    Ok (hull g).

  (** *** Samples of spawns *)
  (** Shapely's [-] and [buffer]; [ring] gives the vertices of the boundary of a geometry
      ([exterior] raises AttributeError for hulls that are points or lines); [delaunay] is
      scipy's triangulation. *)
  Variable difference : G -> G -> G.
  Variable buffer : G -> R -> G.
  Variable ring : G -> res (list vec).
  Variable delaunay : list vec -> list (nat * nat * nat).
  (** field.py:119-124 [_samples]: one value of the generator for the draws [x], [r1], [r2]. *)
  Definition samples (spawn : G) (obstacles : option G) (radius x r1 r2 : R) : res vec :=
    let geom := match obstacles with
                | Some o => if is_empty o then spawn else difference spawn (buffer o radius)
                | None => spawn
                end in
    do vertices <- ring (hull geom);
    polygon_sample vertices (delaunay vertices) x r1 r2.
  (** field.py:126-129 [sample_spawn]. *)
  Definition sample_spawn (f : field) (spawn_index : Z) (radius x r1 r2 : R) : res vec :=
    do spawn <- list_get (f_spawns f) spawn_index;
    samples spawn (f_obstacles f) radius x r1 r2.

  (** *** Cached queries *)
  Variable bounds : G -> R * R * R * R.
  Definition maps : Type := (grid (option vec) * grid R)%type.
  (** quickest_path.py:184-197 after line 186, and obstacle_handling.py:105-110. *)
  Variable solve_path : mesh -> option G -> G -> G -> R -> res maps.
  Variable solve_obstacles : mesh -> option G -> res maps.
  (** quickest_path.py:184-186 [shortest_path]: None has no [buffer]. *)
  Definition shortest_path (m : mesh) (domain : option G) (targets : G) (obstacles : option G) (radius : R) : res maps :=
    match obstacles with
    | None => Err AttributeError
    | Some o => solve_path m domain targets o radius
    end.

  (** Field objects by identity, and the four caches of the class, shared by all objects:
      the key of a call is the object and the arguments. *)
  Definition nav_result : Type := (mesh * grid R * grid (option vec))%type.
  Record world : Type := World {
    fields : nat -> field;
    c_mesh : list ((nat * R) * mesh);
    c_path : list ((nat * (R * index * R)) * maps);
    c_obstacles : list ((nat * R) * maps);
    c_navigation : list ((nat * (index * R * R * R)) * nav_result) }.
  Definition key_eqb {K} (eqb : K -> K -> bool) (a b : nat * K) : bool :=
    (Nat.eqb (fst a) (fst b) && eqb (snd a) (snd b))%bool.
  Definition path_args_eqb (a b : R * index * R) : bool :=
    let '(s, i, r) := a in let '(s', i', r') := b in (Reqb s s' && index_eqb i i' && Reqb r r')%bool.
  Definition nav_args_eqb (a b : index * R * R * R) : bool :=
    let '(i, s, r, h) := a in let '(i', s', r', h') := b in
    (index_eqb i i' && Reqb s s' && Reqb r r' && Reqb h h')%bool.
  Definition put_mesh (w : world) c := World (fields w) c (c_path w) (c_obstacles w) (c_navigation w).
  Definition put_path (w : world) c := World (fields w) (c_mesh w) c (c_obstacles w) (c_navigation w).
  Definition put_obstacles (w : world) c := World (fields w) (c_mesh w) (c_path w) c (c_navigation w).
  Definition put_navigation (w : world) c := World (fields w) (c_mesh w) (c_path w) (c_obstacles w) c.

  (** field.py:131-136 [meshgrid]. *)
  Definition mesh_body (o : nat) (step : R) (w : world) : world * res mesh :=
    match f_domain (fields w o) with
    | None => (w, Err CrowdDynamicsException)
    | Some d => let '(minx, miny, maxx, maxy) := bounds d in (w, meshgrid step minx miny maxx maxy)
    end.
  Definition ask_mesh (o : nat) (step : R) (w : world) : world * res mesh :=
    cached (key_eqb Reqb) c_mesh put_mesh (mesh_body o step) (o, step) w.

  (** field.py:138-149 [shortest_path_target]. *)
  Definition chosen_targets (f : field) (i : index) : res G :=
    match i with
    | Int z => list_get (f_targets f) z
    | Word s => if String.eqb s "closest" then union join (f_targets f) else Err InvalidType
    | Float _ => Err InvalidType
    end.
  Definition path_body (o : nat) (step : R) (i : index) (radius : R) (w : world) : world * res maps :=
    match chosen_targets (fields w o) i with
    | Err e => (w, Err e)
    | Ok targets =>
        sbind (ask_mesh o step w) (fun w m =>
          (w, shortest_path m (f_domain (fields w o)) targets (f_obstacles (fields w o)) radius))
    end.
  Definition ask_path (o : nat) (step : R) (i : index) (radius : R) (w : world) : world * res maps :=
    cached (key_eqb path_args_eqb) c_path put_path (path_body o step i radius) (o, (step, i, radius)) w.

  (** field.py:151-153 [direction_map_obstacles]. *)
  Definition obstacles_body (o : nat) (step : R) (w : world) : world * res maps :=
    sbind (ask_mesh o step w) (fun w m => (w, solve_obstacles m (f_obstacles (fields w o)))).
  Definition ask_obstacles (o : nat) (step : R) (w : world) : world * res maps :=
    cached (key_eqb Reqb) c_obstacles put_obstacles (obstacles_body o step) (o, step) w.

  (** field.py:155-164 [navigation_to_target]. *)
  Definition navigation_body (o : nat) (i : index) (step radius strength : R) (w : world) : world * res nav_result :=
    match f_targets (fields w o) with
    | [] => (w, Err CrowdDynamicsException)
    | _ =>
        sbind (ask_path o step i radius w) (fun w t =>
        sbind (ask_obstacles o step w) (fun w b =>
        let dir_map := obstacle_handling (snd b) (fst b) (fst t) radius strength in
        sbind (ask_mesh o step w) (fun w m => (w, Ok (m, snd t, dir_map)))))
    end.
  Definition ask_navigation (o : nat) (i : index) (step radius strength : R) (w : world) : world * res nav_result :=
    cached (key_eqb nav_args_eqb) c_navigation put_navigation (navigation_body o i step radius strength)
      (o, (i, step, radius, strength)) w.

  (** The four queries as data. *)
  Inductive query : Type :=
  | QMesh (step : R)
  | QPath (step : R) (i : index) (radius : R)
  | QObstacles (step : R)
  | QNavigation (i : index) (step radius strength : R).
  Inductive answer : Type :=
  | AMesh (m : mesh)
  | APath (m : maps)
  | AObstacles (m : maps)
  | ANavigation (n : nav_result).
  Definition give {A} (c : A -> answer) (x : world * res A) : world * res answer :=
    (fst x, match snd x with Ok a => Ok (c a) | Err e => Err e end).
  Definition ask (w : world) (o : nat) (q : query) : world * res answer :=
    match q with
    | QMesh step => give AMesh (ask_mesh o step w)
    | QPath step i radius => give APath (ask_path o step i radius w)
    | QObstacles step => give AObstacles (ask_obstacles o step w)
    | QNavigation i step radius strength => give ANavigation (ask_navigation o i step radius strength w)
    end.
  (** An assignment to traits of object [o], or a change in place of its lists. *)
  Definition assign (w : world) (o : nat) (f : field) : world :=
    World (fun p => if Nat.eqb p o then f else fields w p)
      (c_mesh w) (c_path w) (c_obstacles w) (c_navigation w).
  (** What a program does with fields. *)
  Inductive event : Type := Ask (o : nat) (q : query) | Assign (o : nat) (f : field).
  Definition happen (w : world) (e : event) : world :=
    match e with Ask o q => fst (ask w o q) | Assign o f => assign w o f end.
  Definition after (h : list event) (w : world) : world := fold_left happen h w.
  (** A new interpreter: nothing was asked. *)
  Definition unasked (fs : nat -> field) : world := World fs [] [] [] [].
End Field.
Arguments Field {G}. Arguments f_domain {G}. Arguments f_obstacles {G}. Arguments f_targets {G}. Arguments f_spawns {G}.
