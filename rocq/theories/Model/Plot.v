(** * Model of crowddynamics/visualizations.py without set_aspect (Model/Aspect.v), and of
      [import_module] in utils.py as far as it chooses a name

    A bokeh figure is the list of the glyphs drawn on it so far; keyword arguments are names
    with their values as text. The exporter is that of anytree 2.1.4. *)
From Coq Require Import Ascii String DecimalString.
From Verif Require Export Model.Geometry Model.Steering Model.Field Model.Aspect Model.LogicTree Model.Base.
Open Scope R_scope.

Definition kwargs : Type := list (string * string).
(** [circle], [line], [patch], [image], [segment] and [triangle] of bokeh's figure, with the
    lists given for the coordinates. None is NaN or masked. *)
Inductive glyph : Type :=
| GCircle (xs ys : list R) (kw : kwargs)
| GLine (xs ys : list R) (kw : kwargs)
| GPatch (xs ys : list R) (kw : kwargs)
| GImage (image : grid R) (x y dw dh : R) (kw : kwargs)
| GSegment (x0 y0 : list R) (x1 y1 : list (option R)) (kw : kwargs)
| GTriangle (xs ys : list (option R)) (size : R) (angle : list (option R)).

Definition xs_of (l : list vec) : list R := map vx l.
Definition ys_of (l : list vec) : list R := map vy l.
(** visualizations.py:87-105 [add_geom]: the figure afterwards and the exception. Empty line
    strings and polygons have no [xy]. *)
Fixpoint add_geom (kw : kwargs) (g : geom) (fig : list glyph) : list glyph * option exn :=
  match g with
  | Point p => (fig ++ [GCircle (xs_of [p]) (ys_of [p]) kw], None)
  | LineString [] => (fig, Some AttributeError)
  | LineString coords => (fig ++ [GLine (xs_of coords) (ys_of coords) kw], None)
  | Polygon [] _ => (fig, Some AttributeError)
  | Polygon exterior _ => (fig ++ [GPatch (xs_of exterior) (ys_of exterior) kw], None)
  | Multipart parts =>
      (fix all (l : list geom) (fig : list glyph) : list glyph * option exn :=
         match l with
         | [] => (fig, None)
         | g :: rest => match add_geom kw g fig with
                        | (fig, None) => all rest fig
                        | (fig, Some e) => (fig, Some e)
                        end
         end) parts fig
  | NoGeometry => (fig, Some TypeError)
  end.
(** None is no geometry. *)
Definition as_geom (g : option geom) : geom := match g with Some g => g | None => NoGeometry end.
(** Statement by statement. *)
Definition next (r : list glyph * option exn) (k : list glyph -> list glyph * option exn) : list glyph * option exn :=
  match r with (fig, None) => k fig | (fig, Some e) => (fig, Some e) end.
Fixpoint add_each (l : list (kwargs * geom)) (fig : list glyph) : list glyph * option exn :=
  match l with
  | [] => (fig, None)
  | (kw, g) :: l => next (add_geom kw g fig) (add_each l)
  end.
Open Scope string_scope. Open Scope list_scope.
(** visualizations.py:108-126 [add_field] *)
Definition add_field (f : field geom) (fig : list glyph) : list glyph * option exn :=
  next (add_geom [("alpha", "0.05")] (as_geom (f_domain f)) fig) (fun fig =>
  next (add_each (map (pair [("alpha", "0.5"); ("line_width", "0"); ("color", "green")]) (f_spawns f)) fig) (fun fig =>
  next (add_each (map (pair [("alpha", "0.5"); ("line_dash", "dashed"); ("color", "olive")]) (f_targets f)) fig) (fun fig =>
  add_geom [("alpha", "0.8")] (as_geom (f_obstacles f)) fig))).

(** visualizations.py:129-142 [add_distance_map]; the parameters of bokeh's [image] are the
    images, the lower left corner, the width and the height. *)
Definition set_default (k v : string) (kw : kwargs) : kwargs :=
  if existsb (fun e => String.eqb (fst e) k) kw then kw else kw ++ [(k, v)].
Definition add_distance_map (m : mesh) (image : grid R) (kw : kwargs) (fig : list glyph) : list glyph :=
  fig ++ [GImage image (m_minx m) (m_miny m) (m_maxx m) (m_maxy m) (set_default "palette" "Greys256" kw)].

(** [a[::freq]] along an axis of length [n], as indices. *)
Definition stride (freq n : nat) : list nat := map (fun k => (k * freq)%nat) (seq 0 ((n + freq - 1) / freq)).
(** [a[::freq, ::freq].flatten()] *)
Definition sliced {A} (freq n m : nat) (a : nat -> nat -> A) : list A :=
  flat_map (fun i => map (a i) (stride freq m)) (stride freq n).
Definition omap {A B} (f : A -> B) (o : option A) : option B := match o with Some a => Some (f a) | None => None end.
(** visualizations.py:145-169 [add_direction_map] for [freq >= 0]; a slice of step zero raises
    ValueError, and so do arrays of different lengths (the broadcasting of length one is not
    modelled). *)
Definition add_direction_map (m : mesh) (directions : grid (option vec)) (freq : nat) (kw : kwargs) (fig : list glyph) : list glyph * option exn :=
  if Nat.eqb freq 0 then (fig, Some ValueError)
  else
    let x0 := sliced freq (m_rows m) (m_cols m) (fun i j => vx (m_node m i j)) in
    let y0 := sliced freq (m_rows m) (m_cols m) (fun i j => vy (m_node m i j)) in
    let u := sliced freq (rows directions) (cols directions) (fun i j => omap vx (at_ directions i j)) in
    let v := sliced freq (rows directions) (cols directions) (fun i j => omap vy (at_ directions i j)) in
    if negb (Nat.eqb (List.length x0) (List.length u)) then (fig, Some ValueError)
    else
      let k := 9/10 * INR freq * m_step m in
      let x1 := map (fun '(x, u) => omap (fun u => x + k * u) u) (combine x0 u) in
      let y1 := map (fun '(y, v) => omap (fun v => y + k * v) v) (combine y0 v) in
      let angle := map (fun '(u, v) => match u, v with Some u, Some v => Some (Vector2D.angle (V u v) - PI / 2) | _, _ => None end) (combine u v) in
      (fig ++ [GSegment x0 y0 x1 y1 kw; GTriangle x1 y1 4 angle], None).

(** ** Files *)
Definition text : Type := list ascii.
Definition slash : ascii := "/"%char.
Definition dot_ : ascii := "."%char.
(** [p.rfind(c)] *)
Fixpoint rfind_from (c : ascii) (p : text) (i : Z) (found : Z) : Z :=
  match p with
  | [] => found
  | d :: p => rfind_from c p (i + 1) (if Ascii.eqb d c then i else found)
  end.
Definition rfind (c : ascii) (p : text) : Z := rfind_from c p 0 (-1).
(** [os.path.splitext] on posix (genericpath.py). *)
Definition splitext (p : text) : text * text :=
  let sep := rfind slash p in
  let dot := rfind dot_ p in
  if Z.ltb sep dot then
    if existsb (fun c => negb (Ascii.eqb c dot_)) (firstn (Z.to_nat (dot - (sep + 1))) (skipn (Z.to_nat (sep + 1)) p))
    then (firstn (Z.to_nat dot) p, skipn (Z.to_nat dot) p)
    else (p, [])
  else (p, []).
(** [os.path.split(p)[1]] on posix. *)
Definition tail_of (p : text) : text := skipn (Z.to_nat (rfind slash p + 1)) p.
Definition chars (s : string) : text := list_ascii_of_string s.
Fixpoint text_eqb (a b : text) : bool :=
  match a, b with
  | [], [] => true
  | x :: a, y :: b => (Ascii.eqb x y && text_eqb a b)%bool
  | _, _ => false
  end.
(** What bokeh is told. *)
Inductive event : Type := OutputFile (filename title : text) | Axes (x y : R * R) | Shown (fig : list glyph) | Saved (fig : list glyph).
(** visualizations.py:54-84 [figure] around a body. An exception of the body is raised at the
    [yield], and nothing after it runs. *)
Definition figure (filename : text) (show save : bool) (body : list glyph -> list glyph * option exn) : list event * option exn :=
  let '(base, ext) := splitext filename in
  let name := tail_of base in
  let filename := if text_eqb ext (chars ".html") then filename else filename ++ chars ".html" in
  let '(fig, e) := body [] in
  match e with
  | Some e => ([OutputFile filename name], Some e)
  | None => ([OutputFile filename name] ++ (if show then [Shown fig] else []) ++ (if save then [Saved fig] else []), None)
  end.
(** utils.py:115-126 [import_module]: the name the module gets. *)
Definition module_name (path : text) : text := tail_of (fst (splitext path)).

(** [str.format] of a number. *)
Definition digits (n : nat) : string := NilZero.string_of_uint (Nat.to_uint n).
Definition numbered (prefix : string) (i : nat) : string := String.append prefix (digits i).
Definition enumerate {A} (l : list A) : list (nat * A) := combine (seq 0 (List.length l)) l.
(** visualizations.py:172-225 [plot_field]. [hull_bounds] are the bounds of the convex hull,
    [navigation] is what [field.navigation_to_target('closest', ...)] returns or raises; masked
    distances are None. Domains are never empty (field.py:90-97), so that [if field.domain] is a
    test for None. [width] and [height] are the sizes of the figure. *)
Definition plot_field (name : text) (width height : R) (f : field geom) (bounds : geom -> R * R * R * R) (hull_bounds : res (R * R * R * R))
    (navigation : res (mesh * grid (option R) * grid (option vec))) : list event * option exn :=
  let out := [OutputFile (name ++ chars ".html")%list name] in
  match (
    do b <- match f_domain f with Some d => Ok (bounds d) | None => hull_bounds end;
    let '(minx, miny, maxx, maxy) := b in set_aspect width height [minx; maxx] [miny; maxy] 1 (1/10))
  with
  | Err e => (out, Some e)
  | Ok (xs, ys) =>
      let out := (out ++ [Axes xs ys])%list in
      match navigation with
      | Err e => (out, Some e)
      | Ok (m, dmap, directions) =>
          let filled := Grid (rows dmap) (cols dmap) (fun i j => match at_ dmap i j with Some d => d | None => 1 end) in
          let '(fig, e) :=
            next (add_direction_map m directions 2 [("legend", "direction_map")] (add_distance_map m filled [("legend", "distance_map")] [])) (fun fig =>
            next (add_geom [("legend", "domain"); ("alpha", "0.05")] (as_geom (f_domain f)) fig) (fun fig =>
            next (add_each (map (fun '(i, s) => ([("legend", numbered "spawn_" i); ("alpha", "0.5"); ("line_width", "0"); ("color", "green")], s)) (enumerate (f_spawns f))) fig) (fun fig =>
            next (add_each (map (fun '(i, t) => ([("legend", numbered "target_" i); ("alpha", "0.8"); ("line_width", "3.0"); ("line_dash", "dashed"); ("color", "olive")], t)) (enumerate (f_targets f))) fig) (fun fig =>
            add_geom [("legend", "obstacles"); ("line_width", "3.0"); ("alpha", "0.8")] (as_geom (f_obstacles f)) fig)))) in
          match e with
          | Some e => (out, Some e)
          | None => ((out ++ [Shown fig])%list, None)
          end
      end
  end.

(** ** Trees of logic nodes *)
(** The lines of anytree's exporter. *)
Inductive dot_line : Type := DotHead | DotNode (nm : string) | DotEdge (a b : string) | DotEnd.
Definition dot_lines (f : tree_state) (r : nat) : list dot_line :=
  ([DotHead] ++ map (fun i => DotNode (name f i)) (preorder f r) ++
   flat_map (fun i => map (fun c => DotEdge (name f i) (name f c)) (kids f i)) (preorder f r) ++ [DotEnd])%list.
Inductive rendered : Type := Picture (file : text) (lines : list dot_line) | Dotfile (file : text) (lines : list dot_line).
(** visualizations.py:230-246 [render_tree]; [Exception] is [OtherError 0]. *)
Definition render_tree (f : tree_state) (node : nat) (filepath : text) : res rendered :=
  let lines := dot_lines f (root f node) in
  let '(base, ext) := splitext filepath in
  if text_eqb ext (chars ".png") then Ok (Picture filepath lines)
  else if text_eqb ext (chars ".dot") then Ok (Dotfile filepath lines)
  else Err (OtherError 0).
