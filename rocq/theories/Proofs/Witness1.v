(** Concrete configurations used by the plane-geometry properties. *)
From Coq Require Import Lra Lia Psatz.
From Verif Require Export Proofs.DistanceProofs Proofs.Geom2DProofs.
Open Scope R_scope.

Lemma collinear_overlap :
  line_intersect (V 0 0) (V 2 0) (V 1 0) (V 3 0) = false /\
  on_segment (V 0 0) (V 2 0) (V 1 0) /\ on_segment (V 1 0) (V 3 0) (V 1 0).
Proof.
  split; [|split].
  - unfold line_intersect; cbn. rdec. reflexivity.
  - exists (1/2). split; [lra|]. veq; lra.
  - exists 0. split; [lra|]. veq; lra.
Qed.

(** Two upright bodies facing each other at distance 3. *)
Definition wx0 : tri vec := T3 (V 0 0) (V 0 1) (V 0 (-1)).
Definition wx1 : tri vec := T3 (V 3 0) (V 3 1) (V 3 (-1)).
Definition wr : tri R := T3 1 (1/2) (1/2).

Lemma wgap00 : gap (circ wx0 wr 0) (circ wx1 wr 0) = 1.
Proof. unfold gap, circ; cbn. rewrite (edist_eq _ _ 3); cbn; lra. Qed.
Lemma wgap_other i j : (i < 3)%nat -> (j < 3)%nat -> (i, j) <> (0, 0)%nat ->
  1 < gap (circ wx0 wr i) (circ wx1 wr j).
Proof.
  intros Hi Hj Hne.
  assert (G : forall x y r s, 3 <= edist x y -> r + s <= 3/2 -> 1 < edist x y - (r + s)) by (intros; lra).
  assert (D : forall a b, 3 <= edist (V 0 a) (V 3 b)).
  { intros a b. apply Rle_trans with (sqrt (3*3)); [rewrite sqrt_square; lra|].
    unfold edist; cbn [vx vy]. apply sqrt_le_1_alt. pose proof (Rle_0_sqr (a - b)) as SQ; unfold Rsqr in SQ; lra. }
  destruct i as [|[|[|]]]; try lia; destruct j as [|[|[|]]]; try lia; try congruence;
    unfold gap, circ; cbn; apply G; try apply D; lra.
Qed.
Lemma second_lever_arm_wrong :
  exists h n m0 m1, distance_three_circles wx0 wr wx1 wr = (Some h, n, m0, m1) /\
    forall i j, (i < 3)%nat -> (j < 3)%nat -> h = gap (circ wx0 wr i) (circ wx1 wr j) ->
      m1 <> vsub (vsub (tget wx1 j) (vscale (tget wr j) n)) (t_0 wx1).
Proof.
  destruct (distance_three_circles_spec wx0 wr wx1 wr)
    as (h & n & m0 & m1 & i & j & Hi & Hj & E & Eh & Hmin & Hn & E0 & E1).
  assert (h <= 1) by (rewrite <- wgap00; apply Hmin; lia).
  assert (U : forall i j, (i < 3)%nat -> (j < 3)%nat -> h = gap (circ wx0 wr i) (circ wx1 wr j) -> i = 0%nat /\ j = 0%nat).
  { intros i' j' Hi' Hj' E'. destruct (Nat.eq_dec i' 0), (Nat.eq_dec j' 0); auto; exfalso;
    (assert (1 < gap (circ wx0 wr i') (circ wx1 wr j')) by (apply wgap_other; auto; congruence)); lra. }
  destruct (U i j Hi Hj Eh) as [-> ->].
  exists h, n, m0, m1. split; [exact E|]. intros i' j' Hi' Hj' E'.
  destruct (U i' j' Hi' Hj' E') as [-> ->].
  rewrite E1. intros F. apply (f_equal vx) in F. cbn in F. lra.
Qed.
Lemma far_side x0 r0 x1 r1 : x0 <> x1 -> 0 <= r0 ->
  let n := snd (distance_circles x0 r0 x1 r1) in
  edist (vadd x0 (vscale r0 n)) x1 = edist x0 x1 + r0.
Proof.
  intros Hne Hr n. destruct (distance_circles_normal x0 r0 x1 r1) as (E & U & _). fold n in E, U.
  specialize (U Hne). unfold is_unit in U. rewrite elen_vlength in U.
  pose proof (vlength_sq n) as L. rewrite U in L.
  apply vec_eq_inv in E as [E1 E2]. set (d := edist x0 x1) in *.
  assert (0 <= d) by apply edist_nonneg.
  apply edist_eq; [lra|]. unfold vadd, vscale; cbn [vx vy].
  replace (vx x0 + r0 * vx n - vx x1) with ((d + r0) * vx n) by lra.
  replace (vy x0 + r0 * vy n - vy x1) with ((d + r0) * vy n) by lra.
  replace ((d + r0) * vx n * ((d + r0) * vx n) + (d + r0) * vy n * ((d + r0) * vy n))
    with ((d+r0)*(d+r0)*(vx n * vx n + vy n * vy n)) by ring.
  rewrite <- L. ring.
Qed.

(** ** Repackaged statements used by Props/P01_Plane.v *)
Lemma rotate90_four v : rotate90 (rotate90 (rotate90 (rotate90 v))) = v.
Proof. veq; ring. Qed.
Lemma normalize_spec v :
  (v <> vzero -> is_unit (normalize v) /\ same_direction v (normalize v)) /\
  normalize vzero = vzero.
Proof.
  split; [|apply normalize_zero]. intros H. split.
  - unfold is_unit. rewrite elen_vlength. now apply normalize_unit.
  - exists (/ vlength v). split; [apply Rinv_0_lt_compat; now apply vlength_pos|].
    now apply normalize_nonzero.
Qed.
Lemma truncate_spec v l : 0 <= l ->
  (elen v <= l -> truncate v l = v) /\
  (l < elen v -> elen (truncate v l) = l) /\
  elen (truncate v l) <= l /\
  (0 < l -> v <> vzero -> same_direction v (truncate v l)).
Proof.
  intros Hl. rewrite !elen_vlength. split; [apply truncate_le|].
  split; [intros; now apply truncate_gt|]. split; [now apply truncate_bound|].
  apply truncate_scale.
Qed.
Lemma unit_angle_spec phi v :
  is_unit (unit_vector phi) /\
  (- PI < phi <= PI -> angle (unit_vector phi) = phi) /\
  (- PI < angle v <= PI) /\
  (v <> vzero -> V (elen v * vx (unit_vector (angle v))) (elen v * vy (unit_vector (angle v))) = v).
Proof.
  split; [unfold is_unit; rewrite elen_vlength; apply unit_vector_length|].
  split; [apply angle_unit|]. split; [apply angle_range|].
  intros H. rewrite elen_vlength. exact (unit_vector_angle v H).
Qed.
Lemma weighted_average_along e0 e1 w : weighted_average e0 e1 w = along e1 e0 w.
Proof. unfold weighted_average. veq; ring. Qed.
Lemma weighted_average_not_unit :
  exists e0 e1 w, is_unit e0 /\ is_unit e1 /\ 0 < w < 1 /\ ~ is_unit (weighted_average e0 e1 w).
Proof.
  exists (V 1 0), (V (-1) 0), (1/2). unfold is_unit. rewrite !elen_vlength.
  split; [apply vlength_eq; cbn; lra|]. split; [apply vlength_eq; cbn; lra|]. split; [lra|].
  replace (weighted_average (V 1 0) (V (-1) 0) (1/2)) with vzero
    by (unfold weighted_average; veq; lra).
  assert (vlength vzero = 0) as -> by now apply vlength_zero. lra.
Qed.
Lemma polygon_area_invariant vs t v k :
  polygon_area (translate t vs) = polygon_area vs /\
  polygon_area (rev vs) = polygon_area vs /\
  polygon_area (vs ++ [v]) = polygon_area (v :: vs) /\
  polygon_area (v :: vs ++ [v]) = polygon_area (v :: vs) /\
  polygon_area (dilate k vs) = k * k * polygon_area vs.
Proof.
  rewrite !polygon_area_shoelace. unfold shoelace_area.
  rewrite signed2_translate, signed2_rev, signed2_rotate, signed2_closed, signed2_dilate.
  rewrite Rabs_Ropp, Rabs_mult, (Rabs_pos_eq (k*k)) by nra.
  repeat split. lra.
Qed.
Lemma polygon_area_triangle a b c :
  polygon_area [a; b; c] =
  Rabs ((vx b - vx a) * (vy c - vy a) - (vy b - vy a) * (vx c - vx a)) / 2.
Proof. rewrite polygon_area_shoelace. unfold shoelace_area. now rewrite signed2_triangle. Qed.
Lemma polygon_area_cut a l1 b l2 :
  0 <= signed2 (a :: l1 ++ [b]) -> 0 <= signed2 (a :: b :: l2) ->
  polygon_area (a :: l1 ++ b :: l2) = polygon_area (a :: l1 ++ [b]) + polygon_area (a :: b :: l2).
Proof.
  intros H1 H2. rewrite !polygon_area_shoelace. unfold shoelace_area.
  rewrite signed2_cut, !Rabs_pos_eq by lra. lra.
Qed.
Lemma collinear_refuted : exists x0 x1 y0 y1 p,
  on_segment x0 x1 p /\ on_segment y0 y1 p /\ x0 <> x1 /\ y0 <> y1 /\
  line_intersect x0 x1 y0 y1 = false.
Proof.
  destruct collinear_overlap as (A & B & C).
  exists (V 0 0), (V 2 0), (V 1 0), (V 3 0), (V 1 0).
  split; [auto|]. split; [auto|].
  split; [intros E; apply (f_equal vx) in E; cbn in E; lra|].
  split; [intros E; apply (f_equal vx) in E; cbn in E; lra|auto].
Qed.
Lemma line_of_sight_iff a b obs :
  is_obstacle_between_points a b obs = true <->
  exists o p, In o obs /\
    ~ parallel (V (vx b - vx a) (vy b - vy a)) (V (vx (p1 o) - vx (p0 o)) (vy (p1 o) - vy (p0 o))) /\
    on_segment a b p /\ on_segment (p0 o) (p1 o) p.
Proof.
  rewrite between_iff. split.
  - intros (o & Hin & H). apply line_intersect_iff in H as (H1 & p & H2 & H3). exists o, p; auto.
  - intros (o & p & Hin & H1 & H2 & H3). exists o. split; auto. apply line_intersect_iff. split; eauto.
Qed.
Lemma distance_circles_all x0 r0 x1 r1 :
  fst (distance_circles x0 r0 x1 r1) = edist x0 x1 - (r0 + r1) /\
  direction_from_to x1 x0 (snd (distance_circles x0 r0 x1 r1)) /\
  (0 < r0 -> 0 < r1 ->
     (fst (distance_circles x0 r0 x1 r1) < 0 <-> open_discs_meet x0 r0 x1 r1)) /\
  fst (distance_circles x1 r1 x0 r0) = fst (distance_circles x0 r0 x1 r1) /\
  vadd (snd (distance_circles x1 r1 x0 r0)) (snd (distance_circles x0 r0 x1 r1)) = vzero.
Proof.
  split; [reflexivity|]. split; [apply distance_circles_normal|].
  split; [exact (discs_meet_iff x0 r0 x1 r1)|].
  rewrite (distance_circles_swap x0 r0 x1 r1). split; [reflexivity|]. cbn [snd]. veq; ring.
Qed.
Lemma is_least_unique P a b : is_least P a -> is_least P b -> a = b.
Proof. intros [A1 A2] [B1 B2]. apply Rle_antisym; auto. Qed.
Lemma three_circle_line_all x r a b : a <> b ->
  exists h n m i, (i < 3)%nat /\
    distance_three_circle_line x r a b = Some (h, n, m) /\
    (exists e q, h = e - tget r i /\ segment_distance a b (tget x i) e /\
       on_segment a b q /\ edist (tget x i) q = e /\ direction_from_to q (tget x i) n) /\
    (forall i' e', (i' < 3)%nat -> segment_distance a b (tget x i') e' -> h <= e' - tget r i') /\
    m = V (vx (tget x i) - tget r i * vx n - vx (t_0 x)) (vy (tget x i) - tget r i * vy n - vy (t_0 x)).
Proof.
  intros Hab. destruct (distance_three_circle_line_spec x r a b Hab) as (h & n & m & i & Hi & E & Eh & Hmin & Em).
  exists h, n, m, i. split; [auto|]. split; [auto|]. split; [|split; [|exact Em]].
  - destruct (distance_circle_line_spec (tget x i) (tget r i) a b Hab) as (e & q & n' & E' & Hq & Hd & Hs & Hn).
    rewrite E' in Eh. inversion Eh; subst. exists (edist (tget x i) q), q. auto.
  - intros i' e' Hi' Hs'.
    destruct (distance_circle_line_spec (tget x i') (tget r i') a b Hab) as (e & q & n' & E' & _ & _ & Hs & _).
    replace e' with e by (eapply is_least_unique; eauto). eapply Hmin; eauto.
Qed.
