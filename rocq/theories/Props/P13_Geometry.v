(** * Properties C46, C80-C82: geometries as segments, arrays and pictures *)
From Coq Require Import Lra Lia.
From Verif Require Import Spec.Shapes Proofs.GeometryProofs Proofs.VecLemmas.
Open Scope R_scope.

(** C46: the segments run through the lines of the geometry one after another, each
    line from its first to its last coordinate.  Holds for geometries without
    holes; see below for the others. *)
Theorem C46_segments_partial : forall g, proper g -> without_holes g ->
  exists pairs, geom_to_linesegment g = Ok pairs /\ traces (all_lines g) pairs.
Proof. intros g P W. rewrite (without_holes_lines g W). now apply segments_spec. Qed.
Print Assumptions C46_segments_partial.
(** What the pairs of one line look like: one less than coordinates, each starting
    where the one before ends, the first at the first coordinate and the last at
    the last. *)
Theorem C46_chain : forall l, exists pairs, geom_to_linesegment (LineString l) = Ok pairs /\
  length pairs = (length l - 1)%nat /\
  (forall i a b c d, nth_error pairs i = Some (a, b) -> nth_error pairs (S i) = Some (c, d) -> b = c) /\
  (forall a b, nth_error pairs 0 = Some (a, b) -> nth_error l 0 = Some a) /\
  (forall a b, nth_error pairs (length pairs - 1) = Some (a, b) -> nth_error l (length l - 1) = Some b).
Proof.
  intros l. exists (zip_pairs l). split; [reflexivity|].
  split; [apply consecutive_length, zip_pairs_consecutive|apply consecutive_chain, zip_pairs_consecutive].
Qed.
Print Assumptions C46_chain.
(** With holes: only the outer lines are run through. *)
Theorem C46_outer_lines : forall g, proper g ->
  exists pairs, geom_to_linesegment g = Ok pairs /\ traces (outer_lines g) pairs.
Proof. exact segments_spec. Qed.
Print Assumptions C46_outer_lines.
(** The walls of a hole are not among the segments: the holes do not matter. *)
Theorem C46_holes_refuted : forall e holes, geom_to_linesegment (Polygon e holes) = geom_to_linesegment (Polygon e []) /\
  (forall v w, e = v :: w -> holes <> [] ->
   forall pairs, geom_to_linesegment (Polygon e holes) = Ok pairs ->
   (forall h, In h holes -> 2 <= length h) -> ~ traces (all_lines (Polygon e holes)) pairs)%nat.
Proof.
  intros e holes. split; [destruct e; reflexivity|].
  intros v w -> L pairs H H2 (groups & E & F). cbn in H. injection H as <-.
  cbn [all_lines] in F. inversion F as [|? g0 ? gs C0 Cs]; subst.
  pose proof (consecutive_length _ _ C0) as L0.
  pose proof (consecutive_length _ _ (zip_pairs_consecutive (v :: w))) as L1.
  apply (f_equal (@length _)) in E. change (combine _ _) with (zip_pairs (v :: w)) in E.
  cbn [concat] in E. rewrite app_length, L0, L1 in E.
  destruct Cs as [|h g1 hs gs C1 Cs]; [now apply L|].
  pose proof (consecutive_length _ _ C1) as Lh. specialize (H2 h (or_introl eq_refl)).
  cbn [concat] in E. rewrite app_length in E. lia.
Qed.
Print Assumptions C46_holes_refuted.
(** The obstacles handed to the simulation are the segments; no geometry, no
    obstacles. *)
Theorem C46_obstacles : geom_to_linear_obstacles None = Ok [] /\
  (forall g pairs, geom_to_linesegment g = Ok pairs ->
     geom_to_linear_obstacles (Some g) = Ok (map (fun p => Obs (fst p) (snd p)) pairs)) /\
  (forall g e, geom_to_linesegment g = Err e -> geom_to_linear_obstacles (Some g) = Err e).
Proof.
  split; [reflexivity|]. split.
  - intros g pairs H. unfold geom_to_linear_obstacles. rewrite H. cbn. f_equal.
    apply map_ext. now intros [a b].
  - intros g e H. unfold geom_to_linear_obstacles. now rewrite H.
Qed.
Print Assumptions C46_obstacles.
(** What is refused: empty polygons, things that are no geometry, and collections with such
    a part, with the error of the first one. *)
Theorem C46_refused : (forall holes, geom_to_linesegment (Polygon [] holes) = Err AttributeError) /\ geom_to_linesegment NoGeometry = Err TypeError /\
  (forall l1 g l2 e, (forall h, In h l1 -> exists pairs, geom_to_linesegment h = Ok pairs) -> geom_to_linesegment g = Err e ->
     geom_to_linesegment (Multipart (l1 ++ g :: l2)) = Err e).
Proof.
  split; [reflexivity|]. split; [reflexivity|]. intros l1 g l2 e H E. induction l1 as [|h l1 IH]; cbn.
  - now rewrite E.
  - destruct (H h (or_introl eq_refl)) as [pairs ->]. cbn. specialize (IH (fun h Hh => H h (or_intror Hh))). cbn in IH. now rewrite IH.
Qed.
Print Assumptions C46_refused.
Definition tri : list vec := [V 5 6; V 7 8; V 9 10; V 5 6].
Example C46_ex : proper (Multipart [LineString [V 1 2; V 3 4]; Polygon tri []]) /\
  without_holes (Multipart [LineString [V 1 2; V 3 4]; Polygon tri []]) /\
  geom_to_linesegment (Multipart [LineString [V 1 2; V 3 4]; Polygon tri []]) =
  Ok [(V 1 2, V 3 4); (V 5 6, V 7 8); (V 7 8, V 9 10); (V 9 10, V 5 6)].
Proof.
  split; [|split]; [| |reflexivity]; constructor; intros g [<- | [<- | []]]; constructor.
Qed.

(** C80: distinct single geometries have distinct arrays, so the array can be read
    back. *)
Theorem C80_array_partial : forall g, single g ->
  exists a, geom_to_array g = Ok a /\ forall g', geom_to_array g' = Ok a -> g' = g.
Proof.
  intros g S. destruct (geom_to_array_ok g S) as (a & E). exists a. split; [exact E|].
  intros g' E'. exact (geom_to_array_inj g' g a E' E).
Qed.
Print Assumptions C80_array_partial.
(** No collection has an array. *)
Theorem C80_array_multipart_refuted : forall parts, geom_to_array (Multipart parts) = Err ValueError.
Proof. reflexivity. Qed.
Print Assumptions C80_array_multipart_refuted.
(** Nor has an empty polygon, or what is no geometry. *)
Theorem C80_refused : (forall holes, geom_to_array (Polygon [] holes) = Err ValueError) /\ geom_to_array NoGeometry = Err TypeError.
Proof. split; reflexivity. Qed.
Print Assumptions C80_refused.
Example C80_ex : single (Polygon tri [[V 6 7]]) /\
  geom_to_array (LineString [V 1 2]) = Ok [(None, 1); (Some 1, 2)].
Proof. split; [discriminate|reflexivity]. Qed.

(** C81: drawing a geometry that has no holes and stays inside the grid marks the
    cells it covers and no others. *)
Theorem C81_draw_partial : forall (A : Type) line fill perimeter indicer (value zero : A) s g,
  proper s -> without_holes s ->
  (forall c, ink line fill perimeter indicer s c -> in_grid g c) ->
  exists g', draw_geom line fill perimeter indicer value zero s g = Ok g' /\
    rows g' = rows g /\ cols g' = cols g /\ forall i j,
    (ink line fill perimeter indicer s (cell_of i j) -> at_ g' i j = value) /\
    (~ ink line fill perimeter indicer s (cell_of i j) -> at_ g' i j = at_ g i j).
Proof. intros. now apply draw_spec. Qed.
Print Assumptions C81_draw_partial.
(** One polygon with holes: its holes become zero. *)
Theorem C81_draw_polygon : forall (A : Type) line fill perimeter indicer (value zero : A) v e holes g,
  (forall c, ink line fill perimeter indicer (Polygon (v :: e) holes) c -> in_grid g c) ->
  (forall i c, In i holes -> In c (fill (map indicer i)) -> in_grid g c) ->
  exists g', draw_geom line fill perimeter indicer value zero (Polygon (v :: e) holes) g = Ok g' /\
    rows g' = rows g /\ cols g' = cols g /\ forall i j,
    let c := cell_of i j in
    let hole := exists h, In h holes /\ In c (fill (map indicer h)) in
    (hole -> at_ g' i j = zero) /\
    (~ hole -> ink line fill perimeter indicer (Polygon (v :: e) holes) c -> at_ g' i j = value) /\
    (~ hole -> ~ ink line fill perimeter indicer (Polygon (v :: e) holes) c -> at_ g' i j = at_ g i j).
Proof. intros. now apply draw_polygon_spec. Qed.
Print Assumptions C81_draw_polygon.
(** A hole of a later part wipes out what an earlier part drew there. *)
Theorem C81_hole_erases_refuted : forall (A : Type) line fill perimeter indicer (value zero : A) s v e h g g' i j,
  draw_geom line fill perimeter indicer value zero (Multipart [s; Polygon (v :: e) [h]]) g = Ok g' ->
  (forall c, In c (fill (map indicer h)) -> in_grid g' c) ->
  ink line fill perimeter indicer s (cell_of i j) -> In (cell_of i j) (fill (map indicer h)) ->
  at_ g' i j = zero.
Proof. intros A line fill perimeter indicer value zero s v e h g g' i j D G _ I. eapply hole_erases; eauto. Qed.
Print Assumptions C81_hole_erases_refuted.
(** A segment that covers a cell left of the grid marks a cell at the right end of
    its row, and one that covers a cell beyond the last row or column raises. *)
Theorem C81_outside_refuted : forall (A : Type) line fill perimeter indicer (value zero : A) a b x y g,
  line (indicer a) (indicer b) = [(x, y)] ->
  ((- Z.of_nat (cols g) <= x < 0)%Z -> (0 <= y < Z.of_nat (rows g))%Z ->
   exists g', draw_geom line fill perimeter indicer value zero (LineString [a; b]) g = Ok g' /\
     at_ g' (Z.to_nat y) (Z.to_nat (x + Z.of_nat (cols g))) = value) /\
  ((Z.of_nat (cols g) <= x \/ Z.of_nat (rows g) <= y)%Z ->
   draw_geom line fill perimeter indicer value zero (LineString [a; b]) g = Err IndexError).
Proof.
  intros A line fill perimeter indicer value zero a b x y g E. split.
  - intros X Y. destruct (put_cells_wraps value x y g X Y) as (g' & F & V). exists g'. split; [|exact V].
    change (draw_geom line fill perimeter indicer value zero (LineString [a; b]) g) with
      (do g <- put_cells (line (indicer a) (indicer b)) value g; Ok g).
    rewrite E, F. reflexivity.
  - intros O. change (draw_geom line fill perimeter indicer value zero (LineString [a; b]) g) with
      (do g <- put_cells (line (indicer a) (indicer b)) value g; Ok g).
    rewrite E, (put_cells_outside value x y) by (auto; now left). reflexivity.
Qed.
Print Assumptions C81_outside_refuted.
(** An empty polygon, or what is no geometry, is refused, also as a part of something else. *)
Theorem C81_refused : forall (A : Type) line fill perimeter indicer (value zero : A) g,
  (forall holes, draw_geom line fill perimeter indicer value zero (Polygon [] holes) g = Err TypeError) /\
  draw_geom line fill perimeter indicer value zero NoGeometry g = Err TypeError /\
  (forall s parts1 parts2, (exists holes, s = Polygon [] holes) \/ s = NoGeometry -> proper (Multipart parts1) -> without_holes (Multipart parts1) ->
     (forall c, ink line fill perimeter indicer (Multipart parts1) c -> in_grid g c) ->
     draw_geom line fill perimeter indicer value zero (Multipart (parts1 ++ s :: parts2)) g = Err TypeError).
Proof.
  intros A line fill perimeter indicer value zero g. split; [reflexivity|]. split; [reflexivity|]. intros s parts1 parts2 S P W I.
  destruct (C81_draw_partial A line fill perimeter indicer value zero (Multipart parts1) g P W I) as (g1 & D & _). clear P W I.
  revert g g1 D. induction parts1 as [|p parts1 IH]; intros g g1 D.
  - cbn [app]. destruct S as [[holes ->]| ->]; reflexivity.
  - cbn [app]. change (draw_geom line fill perimeter indicer value zero (Multipart (p :: parts1)) g) with (do g' <- draw_geom line fill perimeter indicer value zero p g; draw_geom line fill perimeter indicer value zero (Multipart parts1) g') in D.
    change (draw_geom line fill perimeter indicer value zero (Multipart (p :: parts1 ++ s :: parts2)) g) with (do g' <- draw_geom line fill perimeter indicer value zero p g; draw_geom line fill perimeter indicer value zero (Multipart (parts1 ++ s :: parts2)) g').
    destruct (draw_geom line fill perimeter indicer value zero p g) as [g'|e]; cbn [rbind] in *; [|discriminate]. eapply IH; eauto.
Qed.
Print Assumptions C81_refused.
(** Two ends of a segment in one cell, on the grid of a mesh of 3 by 3 nodes. *)
Definition ends (a b : Z * Z) : list (Z * Z) := [a; b].
Definition small_mesh : mesh := Mesh 1 0 0 2 2.
Definition blank : grid bool := Grid 3 3 (fun _ _ => false).
Lemma trunc_half k : (0 <= k)%Z -> trunc (IZR k + 1/2) = k.
Proof.
  intros H. unfold trunc. apply IZR_le in H. rcase; [lra|]. apply Int_part_unique. lra.
Qed.
Lemma small_index i j : (0 <= i)%Z -> (0 <= j)%Z ->
  indicer small_mesh (V (IZR i + 1/2) (IZR j + 1/2)) = (i, j).
Proof.
  intros I J. unfold indicer, small_mesh. cbn.
  replace ((IZR i + 1/2 - 0) / 1) with (IZR i + 1/2) by field.
  replace ((IZR j + 1/2 - 0) / 1) with (IZR j + 1/2) by field. now rewrite !trunc_half.
Qed.
Example C81_ex :
  let s := LineString [V (IZR 0 + 1/2) (IZR 1 + 1/2); V (IZR 1 + 1/2) (IZR 1 + 1/2)] in
  exists g', draw_geom ends (fun l => l) (fun l => l) (indicer small_mesh) true false s blank = Ok g' /\
    at_ g' 1%nat 0%nat = true /\ at_ g' 1%nat 1%nat = true /\ at_ g' 0%nat 0%nat = false.
Proof.
  cbn [draw_geom draw_lines]. unfold zip_pairs. cbn [removelast tl combine draw_lines].
  rewrite !small_index by lia. eexists. split; [reflexivity|]. repeat split.
Qed.

(** C82: the union of geometries has the points of all of them, when [|] joins two. *)
Theorem C82_union : forall (G P : Type) (join : G -> G -> G) (mem : G -> P -> Prop),
  (forall a b p, mem (join a b) p <-> mem a p \/ mem b p) ->
  union join [] = Err TypeError /\ forall l, l <> [] ->
  exists g, union join l = Ok g /\ forall p, mem g p <-> exists x, In x l /\ mem x p.
Proof. intros G P join mem J. split; [reflexivity|]. now apply union_spec. Qed.
Print Assumptions C82_union.
Example C82_ex : union (@app Z) [[1]; [2; 3]; [4]]%Z = Ok [1; 2; 3; 4]%Z.
Proof. reflexivity. Qed.
