(** * Model of crowddynamics/examples/fields.py

    Geometries are kept as the expressions that build them; [Spec/Rooms.v] says which
    points they have. *)
From Verif Require Export Model.Field.
Open Scope R_scope.

(** Shapely expressions: [BaseGeometry()], [LineString(vs)], [Polygon(ring)], [a | b],
    [a - b], [a.convex_hull], [Point(c).buffer(r)]. *)
Inductive shape : Type :=
| SNothing
| SLine (vs : list vec)
| SPoly (ring : list vec)
| SJoin (a b : shape)
| SMinus (a b : shape)
| SHull (a : shape)
| SDisc (c : vec) (r : R).

(** [polygon.exterior]: the ring, closed. *)
Definition exterior (s : shape) : shape :=
  match s with
  | SPoly (v :: rest) => SLine (v :: rest ++ [v])
  | _ => SNothing
  end.

(** fields.py:8-10 [rectangle]. *)
Definition rectangle (x y width height : R) : shape :=
  SPoly [V x y; V (x + width) y; V (x + width) (y + height); V x (y + height)].

(** [Float(min=lo, max=hi)]: traitlets refuses other values with TraitError. *)
Definition float_trait (lo : R) (hi : option R) (x : R) : res R :=
  if Rltb x lo then Err TraitError
  else match hi with
       | Some m => if Rltb m x then Err TraitError else Ok x
       | None => Ok x
       end.

Section ExampleFields.
  (** Shapely's predicates, and whether a value is an instance of [Polygon]. *)
  Variables is_valid is_empty is_polygon : shape -> bool.

  (** field.py:72-75: [domain] is a trait [Instance(Polygon)]; then the validator. *)
  Definition set_domain (d : shape) (f : field shape) : res (field shape) :=
    if is_polygon d then
      let '(f, r) := assign_domain shape is_valid is_empty (Some d) f in
      do _ <- r; Ok f
    else Err TraitError.
  Definition set_obstacles (o : shape) (f : field shape) : res (field shape) :=
    let '(f, r) := assign_obstacles shape is_valid is_empty (Some o) f in
    do _ <- r; Ok f.
  (** field.py:108-117 with the operations of [shape]. *)
  Definition field_hull (f : field shape) : res shape := convex_hull shape is_empty SJoin SNothing SHull f.
  (** [super().__init__()]: a field without shapes. *)
  Definition bare : field shape := Field None None [] [].

  (** *** OutdoorField: fields.py:13-38 *)
  (** [None]: the trait has no value yet; its default is computed when it is first read. *)
  Record outdoor : Type := Outdoor {
    o_width : R; o_height : R; o_domain : option shape; o_spawns : option (list shape) }.
  (** fields.py:23-26 and 34-37. *)
  Definition outdoor_rect (width height : R) : shape :=
    SPoly [V 0 0; V 0 height; V width height; V width 0].
  (** A value for the domain, checked like an assignment. *)
  Definition checked_domain (d : shape) : res shape :=
    do f <- set_domain d bare; Ok d.
  (** Reading [domain]: fields.py:21-26. *)
  Definition read_domain (f : outdoor) : outdoor * res shape :=
    match o_domain f with
    | Some d => (f, Ok d)
    | None =>
        match checked_domain (outdoor_rect (o_width f) (o_height f)) with
        | Ok d => (Outdoor (o_width f) (o_height f) (Some d) (o_spawns f), Ok d)
        | Err e => (f, Err e)
        end
    end.
  (** Reading [spawns]: fields.py:28-30. *)
  Definition read_spawns (f : outdoor) : outdoor * res (list shape) :=
    match o_spawns f with
    | Some l => (f, Ok l)
    | None =>
        let '(f, r) := read_domain f in
        match r with
        | Ok d => (Outdoor (o_width f) (o_height f) (o_domain f) (Some [d]), Ok [d])
        | Err e => (f, Err e)
        end
    end.
  (** fields.py:32-38, the observer. *)
  Definition outdoor_observer (f : outdoor) : outdoor * res unit :=
    match checked_domain (outdoor_rect (o_width f) (o_height f)) with
    | Ok d => (Outdoor (o_width f) (o_height f) (Some d) (Some [d]), Ok tt)
    | Err e => (f, Err e)
    end.
  (** Assignments: refused values change nothing, equal values notify nobody. *)
  Definition set_width (w : R) (f : outdoor) : outdoor * res unit :=
    match float_trait 0 None w with
    | Err e => (f, Err e)
    | Ok w =>
        let g := Outdoor w (o_height f) (o_domain f) (o_spawns f) in
        if Reqb w (o_width f) then (g, Ok tt) else outdoor_observer g
    end.
  Definition set_height (h : R) (f : outdoor) : outdoor * res unit :=
    match float_trait 0 None h with
    | Err e => (f, Err e)
    | Ok h =>
        let g := Outdoor (o_width f) h (o_domain f) (o_spawns f) in
        if Reqb h (o_height f) then (g, Ok tt) else outdoor_observer g
    end.
  (** [OutdoorField(width=w, height=h)]; the notifications are held back until both values
      are set. *)
  Definition outdoor_new (w h : R) : res outdoor :=
    do w <- float_trait 0 None w;
    do h <- float_trait 0 None h;
    let f := Outdoor w h None None in
    if Reqb w 10 && Reqb h 10 then Ok f
    else let '(f, r) := outdoor_observer f in do _ <- r; Ok f.
  (** What a program does with such a field; exceptions are caught by the program. *)
  Inductive outdoor_op : Type := SetWidth (w : R) | SetHeight (h : R) | ReadDomain | ReadSpawns.
  Definition outdoor_do (f : outdoor) (o : outdoor_op) : outdoor :=
    match o with
    | SetWidth w => fst (set_width w f)
    | SetHeight h => fst (set_height h f)
    | ReadDomain => fst (read_domain f)
    | ReadSpawns => fst (read_spawns f)
    end.
  Definition outdoor_after (h : list outdoor_op) (f : outdoor) : outdoor := fold_left outdoor_do h f.

  (** *** HallwayField: fields.py:41-86 *)
  (** fields.py:54-55 and 74-75. *)
  Definition hallway_walls (w h : R) : shape :=
    SJoin (SLine [V 0 0; V w 0]) (SLine [V 0 h; V w h]).
  (** fields.py:59-60 and 80-81. *)
  Definition hallway_targets (w h : R) : list shape :=
    [SLine [V 0 0; V 0 h]; SLine [V w 0; V w h]].
  (** fields.py:64-66 and 76-78. *)
  Definition hallway_spawns (w h ratio : R) : list shape :=
    [rectangle 0 0 (ratio * w) h; rectangle ((1 - ratio) * w) 0 (ratio * w) h].
  Record hallway : Type := Hallway {
    h_width : R; h_height : R; h_ratio : R;
    h_obstacles : option shape; h_targets : option (list shape);
    h_spawns : option (list shape); h_domain : option shape }.
  (** The attributes as they are read, with defaults filled in: fields.py:52-66. *)
  Definition hallway_fill (f : hallway) : hallway :=
    Hallway (h_width f) (h_height f) (h_ratio f)
      (Some (match h_obstacles f with Some o => o | None => hallway_walls (h_width f) (h_height f) end))
      (Some (match h_targets f with Some t => t | None => hallway_targets (h_width f) (h_height f) end))
      (Some (match h_spawns f with Some s => s | None => hallway_spawns (h_width f) (h_height f) (h_ratio f) end))
      (h_domain f).
  Definition some_list {A} (l : option (list A)) : list A := match l with Some l => l | None => [] end.
  (** The hull of the filled attributes, checked as a domain. Simplification: the checks of
      the default obstacles are left out here, and shapely's [|] and [convex_hull] are
      taken not to raise, which may be wrong for degenerate shapes only. *)
  Definition hallway_hull (f : hallway) : res shape :=
    do d <- field_hull (Field None (h_obstacles f) (some_list (h_targets f)) (some_list (h_spawns f)));
    checked_domain d.
  (** Reading [domain]: fields.py:68-70. *)
  Definition hallway_read_domain (f : hallway) : hallway * res shape :=
    match h_domain f with
    | Some d => (f, Ok d)
    | None =>
        let f := hallway_fill f in
        match hallway_hull f with
        | Ok d => (Hallway (h_width f) (h_height f) (h_ratio f) (h_obstacles f) (h_targets f) (h_spawns f) (Some d), Ok d)
        | Err e => (f, Err e)
        end
    end.
  (** fields.py:72-86, the observer. *)
  Definition hallway_observer (f : hallway) : hallway * res unit :=
    let o := hallway_walls (h_width f) (h_height f) in
    match set_obstacles o bare with
    | Err e => (f, Err e)
    | Ok _ =>
        let f := Hallway (h_width f) (h_height f) (h_ratio f) (Some o)
                   (Some (hallway_targets (h_width f) (h_height f)))
                   (Some (hallway_spawns (h_width f) (h_height f) (h_ratio f))) (h_domain f) in
        match hallway_hull f with
        | Ok d => (Hallway (h_width f) (h_height f) (h_ratio f) (h_obstacles f) (h_targets f) (h_spawns f) (Some d), Ok tt)
        | Err e => (f, Err e)
        end
    end.
  (** Assignments to [width], [height] and [ratio]. *)
  Definition hallway_set (w h r : R) (f : hallway) : hallway * res unit :=
    let g := Hallway w h r (h_obstacles f) (h_targets f) (h_spawns f) (h_domain f) in
    if Reqb w (h_width f) && Reqb h (h_height f) && Reqb r (h_ratio f) then (g, Ok tt)
    else hallway_observer g.
  Inductive hallway_op : Type :=
  | HSetWidth (w : R) | HSetHeight (h : R) | HSetRatio (r : R) | HRead | HReadDomain.
  (** [HRead]: obstacles, targets and spawns are read. *)
  Definition hallway_do (f : hallway) (o : hallway_op) : hallway :=
    match o with
    | HSetWidth w => match float_trait 0 None w with Ok w => fst (hallway_set w (h_height f) (h_ratio f) f) | Err _ => f end
    | HSetHeight h => match float_trait 0 None h with Ok h => fst (hallway_set (h_width f) h (h_ratio f) f) | Err _ => f end
    | HSetRatio r => match float_trait 0 (Some 1) r with Ok r => fst (hallway_set (h_width f) (h_height f) r f) | Err _ => f end
    | HRead => hallway_fill f
    | HReadDomain => fst (hallway_read_domain f)
    end.
  Definition hallway_after (h : list hallway_op) (f : hallway) : hallway := fold_left hallway_do h f.
  (** [HallwayField(width=w, height=h, ratio=r)]. *)
  Definition hallway_new (w h r : R) : res hallway :=
    do w <- float_trait 0 None w;
    do h <- float_trait 0 None h;
    do r <- float_trait 0 (Some 1) r;
    let '(f, r) := hallway_set w h r (Hallway 10 10 (1/3) None None None None) in
    do _ <- r; Ok f.
  (** The field as the rest of the program sees it. *)
  Definition hallway_field (f : hallway) : res (field shape) :=
    let f := hallway_fill f in
    let '(f, r) := hallway_read_domain f in
    do d <- r;
    Ok (Field (Some d) (h_obstacles f) (some_list (h_targets f)) (some_list (h_spawns f))).

  (** *** Fields whose shapes are made in the constructor *)
  (** Statements at the end of the constructors: obstacles, targets, spawns, domain. *)
  Definition assemble (obstacles : shape) (targets spawns : list shape) (domain : shape) : res (field shape) :=
    do f <- set_obstacles obstacles bare;
    set_domain domain (Field (f_domain f) (f_obstacles f) targets spawns).

  (** fields.py:89-119 [Rounding]. *)
  Definition rounding (width height ratio : R) : res (field shape) :=
    do width <- float_trait 0 None width;
    do height <- float_trait 0 None height;
    do ratio <- float_trait 0 (Some 1) ratio;
    let domain := SPoly [V 0 0; V 0 height; V width height; V width 0] in
    let target := SLine [V 0 (height / 2); V 0 height] in
    let spawn := SPoly [V 0 0; V 0 (height / 2); V (width / 2) (height / 2); V (width / 2) 0] in
    let obstacles := SJoin (SLine [V 0 (height / 2); V (width * ratio) (height / 2)])
                           (SMinus (exterior domain) target) in
    assemble obstacles [target] [spawn] domain.

  (** fields.py:122-150 [AvoidObstacle]. *)
  Definition avoid_obstacle (width height exit_width ratio_obs : R) : res (field shape) :=
    do width <- float_trait 0 None width;
    do height <- float_trait 0 None height;
    do exit_width <- float_trait 1 None exit_width;
    do ratio_obs <- float_trait 0 (Some 1) ratio_obs;
    let domain := rectangle 0 0 width height in
    let spawn_follower := rectangle 0 0 (ratio_obs * width) height in
    let spawn_leader := rectangle 0 (1/2 * height) (ratio_obs * width) (1/2 * height) in
    let target := SLine [V width 0; V width exit_width] in
    let obstacles := SJoin (SMinus (exterior domain) target)
                           (SLine [V (ratio_obs * width) 0; V (ratio_obs * width) (1/2 * height)]) in
    assemble obstacles [target] [spawn_leader; spawn_follower] domain.

  (** fields.py:153-172 [ClosedRoom]. *)
  Definition closed_room (width height : R) : res (field shape) :=
    do width <- float_trait 0 None width;
    do height <- float_trait 0 None height;
    let domain := SPoly [V 0 0; V 0 height; V width height; V width 0] in
    assemble (exterior domain) [] [domain] domain.

  (** fields.py:175-210 [RoomWithOneExit]. *)
  Definition room_with_one_exit (width height exit_width exit_hall_width : R) : res (field shape) :=
    do width <- float_trait 0 None width;
    do height <- float_trait 0 None height;
    do exit_width <- float_trait 0 (Some 10) exit_width;
    do exit_hall_width <- float_trait 0 None exit_hall_width;
    let room := SLine [V width 0; V 0 0; V 0 height; V width height] in
    let hall := SJoin (rectangle width ((height + exit_width) / 2) exit_hall_width ((height - exit_width) / 2))
                      (rectangle width 0 exit_hall_width ((height - exit_width) / 2)) in
    let target := SLine [V (width + exit_hall_width) ((height - exit_width) / 2);
                         V (width + exit_hall_width) ((height + exit_width) / 2)] in
    do f <- set_obstacles (SJoin room hall) bare;
    let f := Field (f_domain f) (f_obstacles f) [target] [SHull room] in
    do d <- field_hull f;
    set_domain d f.

  (** fields.py:213-279 [FourExitsField]. *)
  Definition four_exits_walls (exit_width : R) : list (list vec) :=
    [[V 0 10; V 0 0; V 87 0];
     [V 20 0; V 20 40];
     [V 20 20; V 40 20];
     [V 60 0; V 60 20];
     [V 0 (10 + exit_width); V 0 80; V 6 80];
     [V 0 60; V 40 60];
     [V (6 + exit_width) 80; V 100 80; V 100 (50 + exit_width)];
     [V 100 60; V 60 60];
     [V 70 60; V 70 40];
     [V 100 50; V 100 0; V (87 + exit_width) 0]].
  Definition four_exits (exit_width : R) : res (field shape) :=
    do exit_width <- float_trait 0 (Some 10) exit_width;
    let obstacles := fold_left (fun o l => SJoin o (SLine l)) (four_exits_walls exit_width) SNothing in
    let targets := [SLine [V 0 10; V 0 (10 + exit_width)];
                    SLine [V 6 80; V (6 + exit_width) 80];
                    SLine [V 100 (50 + exit_width); V 100 50];
                    SLine [V 87 0; V (87 + exit_width) 0]] in
    do f <- set_obstacles obstacles bare;
    let f := Field (f_domain f) (f_obstacles f) targets [SHull obstacles] in
    do d <- field_hull f;
    set_domain d f.

  (** fields.py:282-302 [PillarInTheMiddle]. *)
  Definition pillar_in_the_middle (width height radius_pillar : R) : res (field shape) :=
    do width <- float_trait 0 None width;
    do height <- float_trait 0 None height;
    do radius_pillar <- float_trait 0 None radius_pillar;
    let domain := rectangle (width / 2) (height / 2) (width / 2) (height / 2) in
    do f <- set_domain domain bare;
    do f <- set_obstacles (SDisc (V 0 0) radius_pillar) f;
    Ok (Field (f_domain f) (f_obstacles f) (f_targets f) [domain]).
End ExampleFields.
