(** * Properties C106, C107: plots, their files, pictures of trees *)
From Coq Require Import Lra Lia Ascii String.
From Verif Require Import Proofs.VecLemmas Proofs.Vector2DProofs Proofs.TreeProofs Proofs.PlotProofs Spec.Plots.
Open Scope R_scope. Open Scope string_scope. Open Scope list_scope.

(** ** C106 *)
(** Every part of a geometry is drawn once, in order, with its coordinates and the given style. *)
Theorem C106_every_part : forall g kw fig, drawable g ->
  exists glyphs, add_geom kw g fig = (fig ++ glyphs, None) /\ Forall2 (drawn kw) (simple_parts g) glyphs.
Proof.
  intros g kw fig D. destruct (drawable_draws _ _ _ (draws_geom g kw fig)) as (glyphs & E & F).
  - intros kw' g' I. apply in_map_iff in I as (x & [= <- <-] & I). exact (D x I).
  - exists glyphs. split; [exact E|]. clear E. revert glyphs F. induction (simple_parts g) as [|x l IH]; intros glyphs F; inversion F; subst; constructor; auto.
Qed.
Print Assumptions C106_every_part.
(** Anything else is refused, and the parts before it have been drawn. *)
Theorem C106_refused : forall g kw fig, ~ drawable g -> exists e l1 bad l2 glyphs, add_geom kw g fig = (fig ++ glyphs, Some e) /\
  (e = AttributeError \/ e = TypeError) /\ simple_parts g = l1 ++ bad :: l2 /\ Forall2 (drawn kw) l1 glyphs /\ forall kw' x, ~ drawn kw' bad x.
Proof.
  intros g kw fig D. destruct (draws_geom g kw fig) as (glyphs & E & H). destruct (add_geom kw g fig) as [fig' e]. cbn [fst snd] in *. subst fig'.
  assert (F2 : forall l gs, Forall2 drawn_with (map (pair kw) l) gs -> Forall2 (drawn kw) l gs).
  { induction l as [|x l IH]; intros gs F; inversion F; subst; constructor; auto. }
  destruct e as [e|].
  - destruct H as (He & l1 & kw' & bad & l2 & M & F & B).
    assert (exists m1 m2, simple_parts g = m1 ++ bad :: m2 /\ l1 = map (pair kw) m1) as (m1 & m2 & S & ->).
    { clear - M. revert l1 M. induction (simple_parts g) as [|x l IH]; intros [|y l1] M; cbn in M; try discriminate.
      - assert (bad = x) by congruence. subst bad. exists [], l. auto.
      - assert (M1 : y = (kw, x)) by congruence. assert (M2 : map (pair kw) l = l1 ++ (kw', bad) :: l2) by congruence.
        destruct (IH l1 M2) as (m1 & m2 & -> & ->). exists (x :: m1), m2. subst y. auto. }
    exists e, m1, bad, m2, glyphs. repeat match goal with |- _ /\ _ => split end; auto.
  - exfalso. apply D. intros part I. apply F2 in H. clear - H I. induction H as [|x y l gs K H IH]; destruct I; [subst|auto].
    inversion K; eexists; econstructor; eassumption.
Qed.
Print Assumptions C106_refused.
(** A field is drawn completely: the domain, all spawns, all targets, the obstacles. *)
Theorem C106_field : forall f fig, (forall kw g, In (kw, g) (field_items f) -> drawable g) ->
  exists glyphs, add_field f fig = (fig ++ glyphs, None) /\ Forall2 drawn_with (parts_of (field_items f)) glyphs.
Proof.
  intros f fig D. apply drawable_draws; [apply draws_field|]. intros kw g I. apply in_flat_map in I as ([kw' g'] & I & J). apply in_map_iff in J as (x & [= -> ->] & J). exact (D kw g' I g J).
Qed.
Print Assumptions C106_field.
Theorem C106_plot_field : forall name width height f bounds hull nav,
  let '(events, e) := plot_field name width height f bounds hull nav in
  match e with
  | Some _ => forall fig, ~ In (Shown fig) events
  | None => exists m dmap directions image arrows glyphs xs ys, nav = Ok (m, dmap, directions) /\
      add_direction_map m directions 2 [("legend", "direction_map")] [] = (arrows, None) /\
      image = Grid (rows dmap) (cols dmap) (fun i j => match at_ dmap i j with Some d => d | None => 1 end) /\
      Forall2 drawn_with (parts_of (plot_items f)) glyphs /\
      events = [OutputFile (name ++ chars ".html") name; Axes xs ys;
                Shown (add_distance_map m image [("legend", "distance_map")] [] ++ arrows ++ glyphs)]
  end.
Proof. exact plot_spec. Qed.
Print Assumptions C106_plot_field.
(** The axes show the whole domain (the convex hull of the rest, if there is none) with a tenth
    of its size to spare on each side, metres being as long upwards as to the right. *)
Theorem C106_axes : forall name width height f bounds hull nav minx miny maxx maxy, 0 < width -> 0 < height -> minx <= maxx -> miny <= maxy ->
  match f_domain f with Some d => Ok (bounds d) | None => hull end = Ok (minx, miny, maxx, maxy) ->
  exists xa xb ya yb, In (Axes (xa, xb) (ya, yb)) (fst (plot_field name width height f bounds hull nav)) /\
    xa <= minx - (maxx - minx) / 10 /\ maxx + (maxx - minx) / 10 <= xb /\ ya <= miny - (maxy - miny) / 10 /\ maxy + (maxy - miny) / 10 <= yb /\
    (xb - xa) / width = (yb - ya) / height /\
    (minx < maxx -> miny < maxy -> xb - xa = (maxx - minx) * (12/10) \/ yb - ya = (maxy - miny) * (12/10)).
Proof.
  intros name width height f bounds hull nav minx miny maxx maxy W H X Y E. destruct (plot_axes name width height f bounds hull nav minx miny maxx maxy W H X Y E) as (xa & xb & ya & yb & I & S).
  exists xa, xb, ya, yb. split; [exact I|]. unfold set_aspect, rmin, rmax in S. cbn [fold_left rbind] in S. rewrite !Rmin_left, !Rmax_right in S by lra. cbn [rbind] in S.
  rewrite (proj2 (Reqb_false height 0)) in S by lra. assert (Q : 0 < width / height) by (apply Rdiv_lt_0_compat; lra). rewrite Rmult_1_l in S. set (r := width / height) in *. assert (WR : width = r * height) by (unfold r; field; lra). clearbody r.
  set (w := if Rleb ((maxx - minx) * (1 + 2 * (1/10))) 0 then 1 else (maxx - minx) * (1 + 2 * (1/10))) in S.
  set (h := if Rleb ((maxy - miny) * (1 + 2 * (1/10))) 0 then 1 else (maxy - miny) * (1 + 2 * (1/10))) in S.
  assert (Hw : (maxx - minx) * (12/10) <= w /\ 0 < w /\ (minx < maxx -> w = (maxx - minx) * (12/10))) by (unfold w; destruct (Rleb_spec ((maxx - minx) * (1 + 2 * (1/10))) 0); repeat split; intros; lra).
  assert (Hh : (maxy - miny) * (12/10) <= h /\ 0 < h /\ (miny < maxy -> h = (maxy - miny) * (12/10))) by (unfold h; destruct (Rleb_spec ((maxy - miny) * (1 + 2 * (1/10))) 0); repeat split; intros; lra).
  clearbody w h. destruct Hw as (W1 & W2 & W3), Hh as (H1 & H2 & H3).
  assert (G : exists w' h', xa = 1/2 * (maxx + minx) - 1/2 * w' /\ xb = 1/2 * (maxx + minx) + 1/2 * w' /\ ya = 1/2 * (maxy + miny) - 1/2 * h' /\ yb = 1/2 * (maxy + miny) + 1/2 * h' /\
    w <= w' /\ h <= h' /\ w' = r * h' /\ (w' = w \/ h' = h)).
  { destruct (Rltb_spec w (r * h)) as [L|L].
    - cbn [rbind] in S. injection S as <- <- <- <-. exists (r * h), h. repeat split; auto; lra.
    - rewrite (proj2 (Reqb_false r 0)) in S by lra. cbn [rbind] in S. injection S as <- <- <- <-. exists w, (w / r).
      assert (h <= w / r) by (apply (Rmult_le_reg_l r); [lra|]; replace (r * (w / r)) with w by (field; lra); lra). repeat split; auto; try lra. field; lra. }
  destruct G as (w' & h' & -> & -> & -> & -> & G1 & G2 & G3 & G4). do 4 (split; [lra|]). split; [rewrite WR, G3; field; split; lra|].
  intros A B. specialize (W3 A). specialize (H3 B). destruct G4 as [G4|G4]; [left|right]; lra.
Qed.
Print Assumptions C106_axes.
(** The picture of distances is grey unless a palette is given. *)
Theorem C106_palette : forall m image kw fig, exists kw', add_distance_map m image kw fig = fig ++ [GImage image (m_minx m) (m_miny m) (m_maxx m) (m_maxy m) kw'] /\
  ((exists v, In ("palette"%string, v) kw) -> kw' = kw) /\ ((forall v, ~ In ("palette"%string, v) kw) -> kw' = kw ++ [("palette"%string, "Greys256"%string)]).
Proof.
  intros m image kw fig. eexists. split; [reflexivity|]. unfold set_default. split.
  - intros [v I]. assert (X : existsb (fun e => String.eqb (fst e) "palette") kw = true) by (apply existsb_exists; exists ("palette"%string, v); split; [exact I|reflexivity]). now rewrite X.
  - intros N. assert (X : existsb (fun e => String.eqb (fst e) "palette") kw = false).
    { apply not_true_is_false. intros H. apply existsb_exists in H as ([k v] & I & E). apply String.eqb_eq in E. cbn in E. subst k. exact (N v I). }
    now rewrite X.
Qed.
Print Assumptions C106_palette.
(** One arrow at every [freq]-th node of the grid, in both directions, and no other. *)
Theorem C106_arrows : forall m directions freq kw fig, (0 < freq)%nat -> rows directions = m_rows m -> cols directions = m_cols m ->
  exists nodes x0 y0 x1 y1 angles, add_direction_map m directions freq kw fig = (fig ++ [GSegment x0 y0 x1 y1 kw; GTriangle x1 y1 4 angles], None) /\
  (forall i j, In (i, j) nodes <-> (i < m_rows m /\ j < m_cols m)%nat /\ (exists k, (i = k * freq)%nat) /\ exists k, (j = k * freq)%nat) /\ NoDup nodes /\
  List.length x0 = List.length nodes /\ List.length y0 = List.length nodes /\ List.length x1 = List.length nodes /\ List.length y1 = List.length nodes /\ List.length angles = List.length nodes /\
  forall k i j, nth_error nodes k = Some (i, j) -> exists a b c d e,
    nth_error x0 k = Some a /\ nth_error y0 k = Some b /\ nth_error x1 k = Some c /\ nth_error y1 k = Some d /\ nth_error angles k = Some e /\
    arrow m freq i j (at_ directions i j) a b c d e.
Proof. exact arrows_spec. Qed.
Print Assumptions C106_arrows.
(** No arrow of unit direction comes close to the start of another. *)
Theorem C106_arrows_apart : forall m freq i j i' j' d a b c1 c2 e a' b' c1' c2' d' e' t, (0 < freq)%nat -> 0 < m_step m -> elen d = 1 ->
  (exists k, (i = k * freq)%nat) -> (exists k, (j = k * freq)%nat) -> (exists k, (i' = k * freq)%nat) -> (exists k, (j' = k * freq)%nat) -> (i, j) <> (i', j') ->
  arrow m freq i j (Some d) a b (Some c1) (Some c2) e -> arrow m freq i' j' d' a' b' c1' c2' e' -> 0 <= t <= 1 ->
  INR freq * m_step m / 10 <= edist (V ((1 - t) * a + t * c1) ((1 - t) * b + t * c2)) (V a' b').
Proof.
  intros m freq i j i' j' d a b c1 c2 e a' b' c1' c2' d' e' t F S D H1 H2 H3 H4 N (-> & -> & [= ->] & [= ->] & _) (-> & -> & _) T. rewrite elen_vlength in D.
  pose proof (arrow_apart m freq i j i' j' d t F S D T H1 H2 H3 H4 N) as A. unfold m_node, vadd, vscale in A. cbn [vx vy] in A.
  replace (V ((1 - t) * _ + t * _) _) with (V (m_minx m + INR j * m_step m + t * (9/10 * INR freq * m_step m) * vx d) (m_miny m + INR i * m_step m + t * (9/10 * INR freq * m_step m) * vy d)) by (f_equal; ring).
  exact A.
Qed.
Print Assumptions C106_arrows_apart.
(** The picture of the distances lies on the grid only if the grid starts in the origin: the
    upper right corner is given where bokeh expects the width and the height. *)
Theorem C106_image_partial : forall m image kw, m_minx m <= m_maxx m -> m_miny m <= m_maxy m ->
  exists g, add_distance_map m image kw [] = [g] /\ ((forall p, on_image g p <-> in_bounds m p) <-> m_minx m = 0 /\ m_miny m = 0).
Proof.
  intros m image kw X Y. eexists. split; [reflexivity|]. unfold on_image, in_bounds. split.
  - intros H. pose proof (H (V (m_minx m) (m_miny m))) as A. pose proof (H (V (m_maxx m) (m_maxy m))) as B. cbn [vx vy] in *.
    assert (m_minx m <= m_minx m <= m_minx m + m_maxx m /\ m_miny m <= m_miny m <= m_miny m + m_maxy m) as A' by (apply A; lra).
    pose proof (H (V (m_minx m + m_maxx m) (m_miny m + m_maxy m))) as C. cbn [vx vy] in C. assert (m_minx m <= m_maxx m /\ m_miny m <= m_maxy m) by auto.
    assert (C' : m_minx m <= m_minx m + m_maxx m <= m_maxx m /\ m_miny m <= m_miny m + m_maxy m <= m_maxy m) by (apply C; lra).
    assert (B' : m_minx m <= m_maxx m <= m_minx m + m_maxx m /\ m_miny m <= m_maxy m <= m_miny m + m_maxy m) by (apply B; lra). lra.
  - intros [-> ->] p. lra.
Qed.
Print Assumptions C106_image_partial.
Theorem C106_image_refuted : exists m image kw g p, meshgrid (1/2) 10 10 20 20 = Ok m /\ add_distance_map m image kw [] = [g] /\ on_image g p /\ ~ in_bounds m p.
Proof.
  eexists. exists (Grid 1 1 (fun _ _ => 0)), [], (GImage (Grid 1 1 (fun _ _ => 0)) 10 10 20 20 [("palette", "Greys256")]), (V 29 29).
  split; [unfold meshgrid; destruct (Reqb (1/2) 0) eqn:E; [apply Reqb_true in E; lra|reflexivity]|]. split; [reflexivity|]. unfold on_image, in_bounds. cbn. lra.
Qed.
Print Assumptions C106_image_refuted.
(** Holes do not show: with and without them a polygon looks the same. *)
Theorem C106_holes_refuted : forall kw exterior interiors fig, add_geom kw (Polygon exterior interiors) fig = add_geom kw (Polygon exterior []) fig.
Proof. intros kw [|a l] interiors fig; reflexivity. Qed.
Print Assumptions C106_holes_refuted.
(** A field may have no domain or no obstacles; then both functions raise. *)
Theorem C106_bare_field_refuted : forall f, f_domain f = None \/ f_obstacles f = None ->
  (forall fig, snd (add_field f fig) <> None) /\
  forall name width height bounds hull nav, snd (plot_field name width height f bounds hull nav) <> None.
Proof.
  intros f H. assert (B : forall items, In NoGeometry (map snd items) -> forall gs, ~ Forall2 drawn_with (parts_of items) gs).
  { intros items I gs F. apply in_map_iff in I as ([kw g] & E & I). cbn in E. subst g.
    assert (J : In (kw, NoGeometry) (parts_of items)) by (apply in_flat_map; exists (kw, NoGeometry); split; [exact I|now left]).
    clear - F J. induction F as [|x y l m D F IH]; destruct J; [subst x; inversion D|auto]. }
  split.
  - intros fig N. destruct (draws_field f fig) as (gs & _ & D). rewrite N in D. revert D. apply B. unfold field_items. rewrite !map_app.
    destruct H as [->| ->]; [now left|]. apply in_or_app. right. apply in_or_app. right. apply in_or_app. right. now left.
  - intros name width height bounds hull nav N. pose proof (plot_spec name width height f bounds hull nav) as P. destruct (plot_field _ _ _ _ _ _ _) as [ev e]. cbn in N. subst e.
    destruct P as (_ & _ & _ & _ & _ & gs & _ & _ & _ & _ & _ & D & _). revert D. apply B. unfold plot_items. rewrite !map_app.
    destruct H as [->| ->]; [now left|]. apply in_or_app. right. apply in_or_app. right. apply in_or_app. right. now left.
Qed.
Print Assumptions C106_bare_field_refuted.
(** A room with two spawns and a wall of two pieces. *)
Example C106_case : let square := Polygon [V 0 0; V 1 0; V 1 1; V 0 0] [] in let wall := Multipart [LineString [V 0 0; V 1 0]; Multipart [Point (V 1 1)]] in
  let f := Field (Some square) (Some wall) [Point (V 2 2)] [square; square] in
  (forall kw g, In (kw, g) (field_items f) -> drawable g) /\ List.length (parts_of (field_items f)) = 6%nat /\ drawable wall /\ ~ drawable (Multipart [square; NoGeometry]).
Proof.
  cbv zeta. assert (S : drawable (Polygon [V 0 0; V 1 0; V 1 1; V 0 0] [])) by (intros p [<-|[]]; eexists; constructor; discriminate).
  assert (W : drawable (Multipart [LineString [V 0 0; V 1 0]; Multipart [Point (V 1 1)]])) by (intros p [<-|[<-|[]]]; eexists; constructor; discriminate).
  split; [|split; [reflexivity|split; [exact W|]]].
  - intros kw g I. cbn in I. repeat destruct I as [I|I]; try contradiction; injection I as <- <-; auto. intros p [<-|[]]. eexists. constructor.
  - intros D. destruct (D NoGeometry) as (x & X); [cbn; auto|]. inversion X.
Qed.

(** ** C107 *)
(** [os.path.splitext] as modelled finds the extension, if there is one. *)
Theorem C107_splitext : forall p base ext, splitext p = (base, ext) <->
  has_extension p base ext \/ (base = p /\ ext = [] /\ forall b e, ~ has_extension p b e).
Proof.
  intros p base ext. split; [apply splitext_spec|]. intros [H|(-> & -> & H)]; [now apply splitext_has|].
  destruct (splitext p) as [b e] eqn:S. destruct (splitext_spec p b e S) as [K|(-> & -> & _)]; [destruct (H _ _ K)|reflexivity].
Qed.
Print Assumptions C107_splitext.
(** The plot goes into a file that ends in .html, under the last component of the name; it is
    shown and saved as asked, complete, and not at all if the body raises. *)
Theorem C107_figure : forall filename show save body, exists base ext file title,
  (has_extension filename base ext \/ (base = filename /\ ext = [] /\ forall b e, ~ has_extension filename b e)) /\
  ((ext = chars ".html" /\ file = filename) \/ (ext <> chars ".html" /\ file = filename ++ chars ".html")) /\
  last_component base title /\
  figure filename show save body = match body [] with
    | (fig, Some e) => ([OutputFile file title], Some e)
    | (fig, None) => (OutputFile file title :: (if show then [Shown fig] else []) ++ (if save then [Saved fig] else []), None)
    end.
Proof. exact figure_spec. Qed.
Print Assumptions C107_figure.
Theorem C107_html : forall filename show save body, exists stem title rest e, figure filename show save body = (OutputFile (stem ++ chars ".html") title :: rest, e).
Proof.
  intros filename show save body. destruct (figure_spec filename show save body) as (base & ext & file & title & X & F & _ & ->).
  assert (exists stem, file = stem ++ chars ".html") as (stem & ->).
  { destruct F as [(-> & ->)|(_ & ->)]; [|eauto]. destruct X as [(E & _)|(_ & E & _)]; [exists base; exact E|discriminate]. }
  destruct (body []) as [fig [e|]]; do 4 eexists; reflexivity.
Qed.
Print Assumptions C107_html.
(** The name of an imported module is that of its file without the extension. *)
Theorem C107_module_name : forall path base ext, has_extension path base ext -> last_component base (module_name path).
Proof. intros path base ext H. unfold module_name. rewrite (splitext_has _ _ _ H). apply tail_last. Qed.
Print Assumptions C107_module_name.
(** The picture of a tree names every node of the tree once and has a line for every node with
    a parent, whichever node of the tree is given. *)
Theorem C107_lines : forall f i file, reachable f -> (i < size f)%nat -> exists t edges lines, top_of f i (oroot t) /\ shape f t /\ NoDup (opre t) /\
  (forall j, In j (opre t) <-> (j < size f)%nat /\ top_of f j (oroot t)) /\
  NoDup edges /\ (forall p c, In (p, c) edges <-> (c < size f)%nat /\ top_of f c (oroot t) /\ par f c = Some p) /\
  lines = DotHead :: map (fun j => DotNode (name f j)) (opre t) ++ map (fun '(p, c) => DotEdge (name f p) (name f c)) edges ++ [DotEnd] /\
  ((exists base, has_extension file base (chars ".png") /\ render_tree f i file = Ok (Picture file lines)) \/
   (exists base, has_extension file base (chars ".dot") /\ render_tree f i file = Ok (Dotfile file lines)) \/
   ((forall base, ~ has_extension file base (chars ".png") /\ ~ has_extension file base (chars ".dot")) /\ render_tree f i file = Err (OtherError 0))).
Proof.
  intros f i file R Hi. destruct (lines_spec f i R Hi) as (t & edges & A & B & C & D & E & F & L). exists t, edges. eexists. do 6 (split; [assumption|]). split; [reflexivity|].
  rewrite <- L. unfold render_tree. destruct (splitext file) as [base ext] eqn:S. pose proof (splitext_spec _ _ _ S) as X.
  assert (U : forall b e, has_extension file b e -> ext = e).
  { intros b e H. rewrite (splitext_has _ _ _ H) in S. congruence. }
  destruct (text_eqb ext (chars ".png")) eqn:P.
  - apply text_eqb_spec in P. subst ext. left. exists base. split; [|reflexivity]. destruct X as [X|(_ & X & _)]; [exact X|discriminate].
  - right. destruct (text_eqb ext (chars ".dot")) eqn:Q.
    + apply text_eqb_spec in Q. subst ext. left. exists base. split; [|reflexivity]. destruct X as [X|(_ & X & _)]; [exact X|discriminate].
    + right. split; [|reflexivity]. intros b. split; intros H; apply U in H; apply text_eqb_spec in H; congruence.
Qed.
Print Assumptions C107_lines.
Theorem C107_any_node : forall f i j file, reachable f -> (i < size f)%nat -> (j < size f)%nat -> (exists r, top_of f i r /\ top_of f j r) ->
  render_tree f i file = render_tree f j file.
Proof.
  intros f i j file R Hi Hj (r & Ti & Tj). pose proof (reachable_wf f R) as W. unfold render_tree.
  now rewrite <- (TreeOrderProofs.top_root f i r W Hi Ti), <- (TreeOrderProofs.top_root f j r W Hj Tj).
Qed.
Print Assumptions C107_any_node.
(** Nodes are told apart by their names only: a chain and a fork of nodes of the same name
    give the same file. *)
Definition three : tree_state := fst (call (fst (call (fst (call no_nodes (NewNode "A"))) (NewNode "A"))) (NewNode "A")).
Definition chain3 : tree_state := fst (call (fst (call three (SetParent 1 (Some 0%nat)))) (SetParent 2 (Some 1%nat))).
Definition fork3 : tree_state := fst (call (fst (call three (SetParent 1 (Some 0%nat)))) (SetParent 2 (Some 0%nat))).
Theorem C107_same_names_refuted : exists f g i, reachable f /\ reachable g /\ (i < size f)%nat /\ (i < size g)%nat /\ par f 2 <> par g 2 /\
  forall file, render_tree f i file = render_tree g i file.
Proof.
  exists chain3, fork3, 0%nat. assert (R : reachable three) by (do 3 (apply reach_call; [|exact I]); constructor).
  split; [|split; [|split; [|split; [|split]]]].
  - apply reach_call; [apply reach_call; [exact R|cbn; lia]|cbn; lia].
  - apply reach_call; [apply reach_call; [exact R|cbn; lia]|cbn; lia].
  - cbn. lia.
  - cbn. lia.
  - cbn. discriminate.
  - intros file. reflexivity.
Qed.
Print Assumptions C107_same_names_refuted.
Example C107_case : has_extension (chars "out/a.b.png") (chars "out/a.b") (chars ".png") /\
  splitext (chars "dir.d/.html") = (chars "dir.d/.html", []) /\
  fst (figure (chars "out/plot.HTML") true false (fun fig => (fig, None))) = [OutputFile (chars "out/plot.HTML.html") (chars "plot"); Shown []] /\
  render_tree chain3 1 (chars "t.dot") = Ok (Dotfile (chars "t.dot") [DotHead; DotNode "A"; DotNode "A"; DotNode "A"; DotEdge "A" "A"; DotEdge "A" "A"; DotEnd]).
Proof.
  split; [|split; [reflexivity|split; reflexivity]]. split; [reflexivity|]. exists (chars "out/"), (chars "a.b"), (chars "png").
  split; [reflexivity|]. split; [reflexivity|]. split; [right; exists (chars "out"); reflexivity|]. split; [cbn; intuition discriminate|]. split; [exists "a"%char; split; [now left|discriminate]|]. cbn. intuition discriminate.
Qed.
