(** * Properties C01-C11: vectors, polygons, segments, distances *)
From Coq Require Import Lra Lia.
From Verif Require Import Proofs.Vector2DProofs Proofs.Geom2DProofs Proofs.DistanceProofs Proofs.Witness1.
Open Scope R_scope.

(** C01: the result lies in [-pi, pi], differs from the input by whole turns,
    leaves normalised angles alone, and maps positive odd multiples of pi to pi
    and negative ones to -pi. *)
Theorem C01_wrap_to_pi : forall rad,
  (- PI <= wrap_to_pi rad <= PI) /\
  (exists k : Z, wrap_to_pi rad = rad + 2 * PI * IZR k) /\
  (- PI <= rad <= PI -> wrap_to_pi rad = rad).
Proof. exact (fun rad => conj (wrap_range rad) (conj (wrap_turns rad) (wrap_id rad))). Qed.
Print Assumptions C01_wrap_to_pi.
Theorem C01_wrap_to_pi_odd_multiples : forall k : Z,
  wrap_to_pi (IZR (2 * k + 1) * PI) = if (0 <=? k)%Z then PI else - PI.
Proof. exact wrap_odd. Qed.
Print Assumptions C01_wrap_to_pi_odd_multiples.
Example C01_ex : wrap_to_pi (3 * PI / 2) = - (PI / 2).
Proof.
  pose proof PI_RGT_0. unfold wrap_to_pi. rewrite (fmod_unique _ (2*PI) 0 (3*PI/2)) by lra.
  rdec. cbn [andb]. lra.
Qed.

(** C02 *)
Theorem C02_rotations : forall v,
  rotate270 (rotate90 v) = v /\ rotate90 (rotate270 v) = v /\
  elen (rotate90 v) = elen v /\ elen (rotate270 v) = elen v /\
  perpendicular v (rotate90 v) /\ perpendicular v (rotate270 v) /\
  outer v (rotate90 v) = inner v v /\ outer v (rotate270 v) = - inner v v /\
  rotate90 (rotate90 (rotate90 (rotate90 v))) = v.
Proof.
  exact (fun v => conj (proj1 (rotate_inverse v)) (conj (proj2 (rotate_inverse v))
    (conj (rotate90_length v) (conj (rotate270_length v)
    (conj (proj2 (rotate90_outer v)) (conj (proj2 (rotate270_outer v))
    (conj (proj1 (rotate90_outer v)) (conj (proj1 (rotate270_outer v)) (rotate90_four v))))))))).
Qed.
Print Assumptions C02_rotations.
Example C02_ex : rotate90 (V 1 0) = V 0 1.
Proof. veq; lra. Qed.

(** C03 *)
Theorem C03_normalize : forall v,
  (v <> vzero -> is_unit (normalize v) /\ same_direction v (normalize v)) /\
  normalize vzero = vzero.
Proof. exact normalize_spec. Qed.
Print Assumptions C03_normalize.
Theorem C03_truncate : forall v l, 0 <= l ->
  (elen v <= l -> truncate v l = v) /\
  (l < elen v -> elen (truncate v l) = l) /\
  elen (truncate v l) <= l /\
  (0 < l -> v <> vzero -> same_direction v (truncate v l)).
Proof. exact truncate_spec. Qed.
Print Assumptions C03_truncate.
Example C03_ex : elen (V 3 4) = 5 /\ elen (truncate (V 3 4) 1) = 1.
Proof.
  assert (E : elen (V 3 4) = 5) by (rewrite elen_vlength; apply vlength_eq; cbn; lra).
  split; [exact E|]. apply C03_truncate; lra.
Qed.

(** C04 *)
Theorem C04_unit_vector_angle : forall phi v,
  is_unit (unit_vector phi) /\
  (- PI < phi <= PI -> angle (unit_vector phi) = phi) /\
  (- PI < angle v <= PI) /\
  (v <> vzero -> V (elen v * vx (unit_vector (angle v))) (elen v * vy (unit_vector (angle v))) = v).
Proof. exact unit_angle_spec. Qed.
Print Assumptions C04_unit_vector_angle.
Theorem C04_weighted_average : forall e0 e1 w,
  weighted_average e0 e1 w = along e1 e0 w.
Proof. exact weighted_average_along. Qed.
Print Assumptions C04_weighted_average.
(** The documented normalisation of [weighted_average] is not performed. *)
Theorem C04_weighted_average_unit_refuted :
  exists e0 e1 w, is_unit e0 /\ is_unit e1 /\ 0 < w < 1 /\ ~ is_unit (weighted_average e0 e1 w).
Proof. exact weighted_average_not_unit. Qed.
Print Assumptions C04_weighted_average_unit_refuted.
Example C04_ex : angle (V (-1) 0) = PI.
Proof.
  replace (V (-1) 0) with (unit_vector PI) by (unfold unit_vector; rewrite cos_PI, sin_PI; reflexivity).
  apply (C04_unit_vector_angle PI (V 0 0)). pose proof PI_RGT_0. lra.
Qed.

(** C05 *)
Theorem C05_polygon_area : forall vs, polygon_area vs = shoelace_area vs.
Proof. exact polygon_area_shoelace. Qed.
Print Assumptions C05_polygon_area.
Theorem C05_area_invariant : forall vs t v k,
  polygon_area (translate t vs) = polygon_area vs /\
  polygon_area (rev vs) = polygon_area vs /\
  polygon_area (vs ++ [v]) = polygon_area (v :: vs) /\
  polygon_area (v :: vs ++ [v]) = polygon_area (v :: vs) /\
  polygon_area (dilate k vs) = k * k * polygon_area vs.
Proof. exact polygon_area_invariant. Qed.
Print Assumptions C05_area_invariant.
(** The signed quantity behind the area is the area of a triangle for three
    vertices, and adds up when the polygon is cut along a diagonal. *)
Theorem C05_area_triangle : forall a b c,
  polygon_area [a; b; c] =
  Rabs ((vx b - vx a) * (vy c - vy a) - (vy b - vy a) * (vx c - vx a)) / 2.
Proof. exact polygon_area_triangle. Qed.
Print Assumptions C05_area_triangle.
Theorem C05_area_cut : forall a l1 b l2,
  0 <= signed2 (a :: l1 ++ [b]) -> 0 <= signed2 (a :: b :: l2) ->
  polygon_area (a :: l1 ++ b :: l2) = polygon_area (a :: l1 ++ [b]) + polygon_area (a :: b :: l2).
Proof. exact polygon_area_cut. Qed.
Print Assumptions C05_area_cut.
Theorem C05_area_small : forall vs, (length vs < 3)%nat -> polygon_area vs = 0.
Proof.
  intros [|a [|b [|c l]]] H; cbn in H; try lia; rewrite C05_polygon_area; unfold shoelace_area; cbn; unfold outer; cbn; match goal with |- context[Rabs ?x] => replace x with 0 by ring end; rewrite Rabs_R0; lra.
Qed.
Print Assumptions C05_area_small.
Example C05_ex : polygon_area [V 0 0; V 2 0; V 2 3; V 0 3] = 6.
Proof. rewrite C05_polygon_area. unfold shoelace_area; cbn; unfold outer; cbn. rewrite Rabs_right; lra. Qed.

(** C06 *)
Theorem C06_line_intersect : forall x0 x1 y0 y1,
  line_intersect x0 x1 y0 y1 = true <->
  ~ parallel (V (vx x1 - vx x0) (vy x1 - vy x0)) (V (vx y1 - vx y0) (vy y1 - vy y0)) /\
  exists p, on_segment x0 x1 p /\ on_segment y0 y1 p.
Proof. exact line_intersect_iff. Qed.
Print Assumptions C06_line_intersect.
Theorem C06_line_intersect_symmetric : forall x0 x1 y0 y1,
  line_intersect x0 x1 y0 y1 = line_intersect y0 y1 x0 x1 /\
  line_intersect x0 x1 y0 y1 = line_intersect x1 x0 y0 y1 /\
  line_intersect x0 x1 y0 y1 = line_intersect x0 x1 y1 y0.
Proof.
  exact (fun a b c d => conj (line_intersect_swap a b c d)
    (conj (line_intersect_flip a b c d) (line_intersect_flip2 a b c d))).
Qed.
Print Assumptions C06_line_intersect_symmetric.
(** Without the side condition the equivalence fails: overlapping collinear
    segments are reported as not intersecting. *)
Theorem C06_collinear_refuted : exists x0 x1 y0 y1 p,
  on_segment x0 x1 p /\ on_segment y0 y1 p /\ x0 <> x1 /\ y0 <> y1 /\
  line_intersect x0 x1 y0 y1 = false.
Proof. exact collinear_refuted. Qed.
Print Assumptions C06_collinear_refuted.
Example C06_ex : line_intersect (V 0 0) (V 2 2) (V 0 2) (V 2 0) = true.
Proof. unfold line_intersect; cbn. rdec. reflexivity. Qed.

(** C07 *)
Theorem C07_line_of_sight : forall a b obs,
  is_obstacle_between_points a b obs = true <->
  exists o p, In o obs /\
    ~ parallel (V (vx b - vx a) (vy b - vy a)) (V (vx (p1 o) - vx (p0 o)) (vy (p1 o) - vy (p0 o))) /\
    on_segment a b p /\ on_segment (p0 o) (p1 o) p.
Proof. exact line_of_sight_iff. Qed.
Print Assumptions C07_line_of_sight.
Theorem C07_line_of_sight_laws : forall a b o1 o2,
  is_obstacle_between_points a b o1 = is_obstacle_between_points b a o1 /\
  ((forall o, In o o1 <-> In o o2) ->
     is_obstacle_between_points a b o1 = is_obstacle_between_points a b o2) /\
  ((forall o, In o o1 -> In o o2) ->
     is_obstacle_between_points a b o1 = true -> is_obstacle_between_points a b o2 = true).
Proof.
  exact (fun a b o1 o2 => conj (between_sym a b o1) (conj (between_perm a b o1 o2) (between_mono a b o1 o2))).
Qed.
Print Assumptions C07_line_of_sight_laws.
Example C07_ex : is_obstacle_between_points (V 0 0) (V 2 2) [Obs (V 5 5) (V 5 6); Obs (V 0 2) (V 2 0)] = true.
Proof. unfold is_obstacle_between_points, line_intersect; cbn. rdec. reflexivity. Qed.

(** C08 *)
Theorem C08_distance_circles : forall x0 r0 x1 r1,
  fst (distance_circles x0 r0 x1 r1) = edist x0 x1 - (r0 + r1) /\
  direction_from_to x1 x0 (snd (distance_circles x0 r0 x1 r1)) /\
  (0 < r0 -> 0 < r1 ->
     (fst (distance_circles x0 r0 x1 r1) < 0 <-> open_discs_meet x0 r0 x1 r1)) /\
  fst (distance_circles x1 r1 x0 r0) = fst (distance_circles x0 r0 x1 r1) /\
  vadd (snd (distance_circles x1 r1 x0 r0)) (snd (distance_circles x0 r0 x1 r1)) = vzero.
Proof. exact distance_circles_all. Qed.
Print Assumptions C08_distance_circles.
Example C08_ex : fst (distance_circles (V 0 0) 1 (V 3 4) 1) = 3.
Proof.
  destruct (C08_distance_circles (V 0 0) 1 (V 3 4) 1) as [-> _].
  rewrite (edist_eq _ _ 5); cbn; lra.
Qed.

(** C09 *)
(** Distance, normal and first lever arm are those of a minimising pair. *)
Theorem C09_distance_three_circles_partial : forall x0 r0 x1 r1,
  exists h n m0 m1 i j, (i < 3)%nat /\ (j < 3)%nat /\
    distance_three_circles x0 r0 x1 r1 = (Some h, n, m0, m1) /\
    h = gap (tget x0 i, tget r0 i) (tget x1 j, tget r1 j) /\
    (forall i' j', (i' < 3)%nat -> (j' < 3)%nat ->
        h <= gap (tget x0 i', tget r0 i') (tget x1 j', tget r1 j')) /\
    direction_from_to (tget x1 j) (tget x0 i) n /\
    m0 = vsub (vadd (tget x0 i) (vscale (tget r0 i) n)) (t_0 x0) /\
    m1 = vsub (vsub (tget x0 j) (vscale (tget r1 j) n)) (t_0 x1).
Proof. exact distance_three_circles_spec. Qed.
Print Assumptions C09_distance_three_circles_partial.
(** The second lever arm is not the documented [x1 - r1 n - x_torso] for any
    minimising pair (distance.py:103 indexes the other body). *)
Theorem C09_second_lever_arm_refuted : exists x0 r0 x1 r1 h n m0 m1,
  distance_three_circles x0 r0 x1 r1 = (Some h, n, m0, m1) /\
  forall i j, (i < 3)%nat -> (j < 3)%nat ->
    h = gap (tget x0 i, tget r0 i) (tget x1 j, tget r1 j) ->
    m1 <> vsub (vsub (tget x1 j) (vscale (tget r1 j) n)) (t_0 x1).
Proof. exact (ex_intro _ wx0 (ex_intro _ wr (ex_intro _ wx1 (ex_intro _ wr second_lever_arm_wrong)))). Qed.
Print Assumptions C09_second_lever_arm_refuted.
(** The documented point [x0 + r0 n] is the one of the circle farthest from the
    other circle, not the contact point. *)
Theorem C09_lever_arm_far_side : forall x0 r0 x1 r1, x0 <> x1 -> 0 <= r0 ->
  edist (vadd x0 (vscale r0 (snd (distance_circles x0 r0 x1 r1)))) x1 = edist x0 x1 + r0.
Proof. exact far_side. Qed.
Print Assumptions C09_lever_arm_far_side.

(** C10 *)
Theorem C10_distance_circle_line : forall x r a b, a <> b ->
  exists e q n, distance_circle_line x r a b = Some (e - r, n) /\
    on_segment a b q /\ edist x q = e /\ segment_distance a b x e /\
    direction_from_to q x n.
Proof. exact distance_circle_line_spec. Qed.
Print Assumptions C10_distance_circle_line.
Theorem C10_degenerate_wall : forall x r a, distance_circle_line x r a a = None.
Proof. exact distance_circle_line_degenerate. Qed.
Print Assumptions C10_degenerate_wall.
Example C10_ex : V 0 0 <> V 4 0.
Proof. intros E. apply (f_equal vx) in E. cbn in E. lra. Qed.

(** C11 *)
Theorem C11_distance_three_circle_line : forall x r a b, a <> b ->
  exists h n m i, (i < 3)%nat /\
    distance_three_circle_line x r a b = Some (h, n, m) /\
    (exists e q, h = e - tget r i /\ segment_distance a b (tget x i) e /\
       on_segment a b q /\ edist (tget x i) q = e /\ direction_from_to q (tget x i) n) /\
    (forall i' e', (i' < 3)%nat -> segment_distance a b (tget x i') e' -> h <= e' - tget r i') /\
    m = V (vx (tget x i) - tget r i * vx n - vx (t_0 x)) (vy (tget x i) - tget r i * vy n - vy (t_0 x)).
Proof. exact three_circle_line_all. Qed.
Print Assumptions C11_distance_three_circle_line.
