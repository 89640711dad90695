(** * Property C143: lines of sight and areas in double precision *)
From Coq Require Import Reals ZArith Lra Lia List.
From Flocq Require Import Core.
From Verif Require Import Model.Geom2D Spec.Plane Spec.Polygon Spec.Doubles Spec.GridPoints Model.Floats Model.FloatGeom Proofs.FloatProofs Proofs.FloatSums Proofs.FloatCells Proofs.FloatGeomProofs Props.P01_Plane.
Import ListNotations.
Open Scope R_scope.

Lemma grid_onZ g n c : on_grid g n c <-> onZ g n c. Proof. unfold on_grid, onZ. split; intros (k & K & E); exists k; split; auto; [rewrite pow2|rewrite <- pow2]; auto. Qed.
Lemma grid_vonZ g n v : grid_point g n v <-> vonZ g n v. Proof. unfold grid_point, vonZ. now rewrite !grid_onZ. Qed.

(** Which of the two segments comes first does not matter, whatever the coordinates. *)
Theorem C143_swapped : forall x0 x1 y0 y1, f_line_intersect y0 y1 x0 x1 = f_line_intersect x0 x1 y0 y1.
Proof. exact f_line_intersect_swap. Qed.
Print Assumptions C143_swapped.
(** If everything is drawn on a grid, the line of sight is judged as it is: blocked just if it
    meets a wall that is not parallel to it. *)
Theorem C143_grid_sight : forall g a b obstacles, (-537 <= g)%Z -> grid_point g (2 ^ 24) a -> grid_point g (2 ^ 24) b ->
  (forall o, In o obstacles -> grid_point g (2 ^ 24) (p0 o) /\ grid_point g (2 ^ 24) (p1 o)) ->
  (f_is_obstacle_between_points a b obstacles = true <->
   exists o p, In o obstacles /\
     ~ parallel (V (vx b - vx a) (vy b - vy a)) (V (vx (p1 o) - vx (p0 o)) (vy (p1 o) - vy (p0 o))) /\
     on_segment a b p /\ on_segment (p0 o) (p1 o) p).
Proof.
  intros g a b obstacles G A B H. rewrite (f_sight_exact g); [apply C07_line_of_sight|auto|now apply grid_vonZ..|]. intros o O. rewrite <- !grid_vonZ. auto.
Qed.
Print Assumptions C143_grid_sight.
(** So are areas, as long as there are not too many corners. *)
Theorem C143_grid_area : forall g n vs, (-536 <= g)%Z -> (0 <= n)%Z -> (2 * (n * n) * Z.of_nat (length vs) < 2 ^ 53)%Z ->
  (forall v, In v vs -> grid_point g n v) -> f_polygon_area vs = shoelace_area vs.
Proof.
  intros g n vs G N B H. rewrite <- C05_polygon_area. apply (f_polygon_area_exact g n); auto. intros v I. now apply grid_vonZ, H.
Qed.
Print Assumptions C143_grid_area.
(** For other coordinates up to [M] the answer is right if the lines are not too close to
    parallel and do not cross too close to their ends. *)
Theorem C143_clear : forall M x0 x1 y0 y1 eps s t, 1 <= M ->
  (forall p, In p [x0; x1; y0; y1] -> double (vx p) /\ double (vy p) /\ Rabs (vx p) <= M /\ Rabs (vy p) <= M) ->
  along x0 x1 t = along y0 y1 s ->
  let d := (vx x1 - vx x0) * (vy y1 - vy y0) - (vy x1 - vy x0) * (vx y1 - vx y0) in
  powerRZ 2 (-45) * (M * M) <= eps * Rabs d -> powerRZ 2 (-50) <= eps <= 1 -> clear_of eps t -> clear_of eps s ->
  (f_line_intersect x0 x1 y0 y1 = true <-> 0 < t < 1 /\ 0 < s < 1).
Proof.
  intros M x0 x1 y0 y1 eps s t HM H X d HE E CT CS.
  assert (P : forall p, In p [x0; x1; y0; y1] -> vfmt M p). { intros p I. destruct (H p I) as (A & B & C & D). repeat split; auto; now apply double_fmt. }
  assert (E45 : powerRZ 2 (-45) = 128 * W) by (rewrite <- pow2; cbn; lra). assert (E50 : powerRZ 2 (-50) = 4 * W) by (rewrite <- pow2; cbn; lra).
  rewrite (f_line_intersect_clear M x0 x1 y0 y1 eps s t HM); auto; try (apply P; cbn; tauto).
  - rewrite !Bool.andb_true_iff. unfold clear_of in CT, CS. assert (0 < eps) by lra.
    destruct (Rle_bool_spec 0 t), (Rle_bool_spec t 1), (Rle_bool_spec 0 s), (Rle_bool_spec s 1); split; intros K; try (repeat split; lra); try (destruct K as [[] []]; discriminate); exfalso; lra.
  - rewrite E45 in HE. exact HE.
  - lra.
  - lra.
Qed.
Print Assumptions C143_clear.
(** A wall along an axis never blocks a view along the same axis. *)
Theorem C143_along_axis : forall x0 x1 y0 y1, vx x0 = vx x1 /\ vx y0 = vx y1 \/ vy x0 = vy x1 /\ vy y0 = vy y1 -> f_line_intersect x0 x1 y0 y1 = false.
Proof.
  intros x0 x1 y0 y1 H. assert (Z : rnd 0 = 0) by apply rnd_id, generic_format_0. unfold f_line_intersect. cbv zeta. rewrite Req_bool_true; [reflexivity|]. unfold f_cross, f_vsub; cbn [vx vy].
  destruct H as [[-> ->]|[-> ->]]; rewrite !(Rminus_diag_eq _ _ eq_refl), !Z, !Rmult_0_r, !Rmult_0_l, !Z, (Rminus_diag_eq _ _ eq_refl); exact Z.
Qed.
Print Assumptions C143_along_axis.
(** But lines two metres long that cross in the middle are missed if the angle between them is
    small enough. *)
Theorem C143_missed_refuted : exists x0 x1 y0 y1 p, (forall q, In q [x0; x1; y0; y1] -> double (vx q) /\ double (vy q)) /\
  p = along x0 x1 (1/2) /\ p = along y0 y1 (1/2) /\
  ~ parallel (V (vx x1 - vx x0) (vy x1 - vy x0)) (V (vx y1 - vx y0) (vy y1 - vy y0)) /\
  f_line_intersect x0 x1 y0 y1 = false.
Proof.
  exists (V (- (1 + nearly)) (-1)), (V (1 + nearly) 1), (V (-1) (- (1 - nearly))), (V 1 (1 - nearly)), (V 0 0). split; [|split; [|split; [|split; [|exact nearly_missed]]]].
  - assert (A : fmt 1) by (apply (fmt_int 1); lia). assert (B : fmt (1 + nearly)). { replace (1 + nearly) with (IZR (2 ^ 30 + 1) * bpow radix2 (-30)) by (unfold nearly; cbn; lra). apply fmt_dyadic; lia. }
    assert (C : fmt (1 - nearly)). { replace (1 - nearly) with (IZR (2 ^ 30 - 1) * bpow radix2 (-30)) by (unfold nearly; cbn; lra). apply fmt_dyadic; lia. }
    intros q I. rewrite !double_fmt. repeat (destruct I as [<-|I]; [cbn [vx vy]; split; auto using generic_format_opp|]); [..|destruct I]; change (-1) with (- (1)); auto using generic_format_opp.
  - unfold along; cbn. f_equal; lra.
  - unfold along; cbn. f_equal; lra.
  - cbn [vx vy]. intros (s & t & N & A & B). cbn [vx vy] in A, B. assert (P : 0 < nearly) by apply bpow_gt_0. assert (P1 : nearly < 1) by (unfold nearly; cbn; lra).
    assert (s * (1 + nearly) = t) by lra. assert (s = t * (1 - nearly)) by lra. assert (t * (nearly * nearly) = 0) by nra. assert (t = 0) by (apply Rmult_eq_reg_r with (nearly * nearly); nra). destruct N as [N|N]; apply N; nra.
Qed.
Print Assumptions C143_missed_refuted.

(** A wall across a corridor, drawn in quarters of a metre; and a view that passes it at a place
    that no grid has. *)
Example C143_case : let wall := Obs (V (5/4) (-1)) (V (5/4) (3/4)) in
  (grid_point (-2) (2 ^ 24) (V 0 0) /\ grid_point (-2) (2 ^ 24) (V 3 (1/4)) /\ grid_point (-2) (2 ^ 24) (p0 wall) /\ grid_point (-2) (2 ^ 24) (p1 wall)) /\
  f_is_obstacle_between_points (V 0 0) (V 3 (1/4)) [wall] = true /\
  f_polygon_area [V 0 0; V 3 0; V 3 (5/4); V 0 (5/4)] = 15/4 /\
  (let y := V 1 (rnd (1/3)) in f_line_intersect (V 0 (-1)) (V 0 1) (V (-1) 0) y = true).
Proof.
  assert (Q : forall c k, (Z.abs k <= 2 ^ 24)%Z -> c = IZR k / 4 -> on_grid (-2) (2 ^ 24) c). { intros c k K ->. exists k. split; auto. rewrite <- pow2. cbn. lra. }
  assert (P : forall a b k l, (Z.abs k <= 2 ^ 24)%Z -> (Z.abs l <= 2 ^ 24)%Z -> a = IZR k / 4 -> b = IZR l / 4 -> grid_point (-2) (2 ^ 24) (V a b)) by (intros a b k l K L A B; split; [exact (Q a k K A)|exact (Q b l L B)]).
  cbv zeta. cbn [p0 p1]. assert (G : grid_point (-2) (2 ^ 24) (V 0 0) /\ grid_point (-2) (2 ^ 24) (V 3 (1/4)) /\ grid_point (-2) (2 ^ 24) (V (5/4) (-1)) /\ grid_point (-2) (2 ^ 24) (V (5/4) (3/4))).
  { split; [|split; [|split]]; [apply (P _ _ 0%Z 0%Z)|apply (P _ _ 12%Z 1%Z)|apply (P _ _ 5%Z (-4)%Z)|apply (P _ _ 5%Z 3%Z)]; try lia; lra. }
  split; [exact G|]. destruct G as (G1 & G2 & G3 & G4). split; [|split].
  - apply (C143_grid_sight (-2)); auto; [lia| |]. { intros o [<-|[]]. auto. }
    exists (Obs (V (5/4) (-1)) (V (5/4) (3/4))), (V (5/4) (5/48)). split; [now left|]. cbn [p0 p1 vx vy]. split; [|split].
    + intros (s & t & N & A & B). cbn [vx vy] in A, B. lra.
    + exists (5/12). split; [lra|]. unfold along; cbn. f_equal; lra.
    + exists (53/84). split; [lra|]. unfold along; cbn. f_equal; lra.
  - rewrite (C143_grid_area (-2) (2 ^ 20)); [|lia|lia|cbn; lia|].
    + unfold shoelace_area, signed2; cbn; unfold outer; cbn. rewrite Rabs_right; lra.
    + assert (P' : forall a b k l, (Z.abs k <= 2 ^ 20)%Z -> (Z.abs l <= 2 ^ 20)%Z -> a = IZR k / 4 -> b = IZR l / 4 -> grid_point (-2) (2 ^ 20) (V a b)).
      { intros a b k l K L A B. split; [exists k|exists l]; (split; [auto|rewrite <- pow2; cbn; lra]). }
      intros v I. repeat (destruct I as [<-|I]; [|]); [apply (P' _ _ 0%Z 0%Z)|apply (P' _ _ 12%Z 0%Z)|apply (P' _ _ 12%Z 5%Z)|apply (P' _ _ 0%Z 5%Z)|destruct I]; try lia; lra.
  - set (c := rnd (1/3)). assert (C : 0 <= c <= 1). { split; [apply rnd_above; [apply generic_format_0|lra]|apply rnd_below; [apply (fmt_int 1); lia|lra]]. }
    apply (C143_clear 1 _ _ _ _ (1/8) (1/2) ((c / 2 + 1) / 2)); cbn [vx vy].
    + lra.
    + assert (D1 : double 1) by (apply double_fmt, (fmt_int 1); lia). assert (D0 : double 0) by (apply double_fmt, generic_format_0). assert (Dm : double (-1)) by (apply double_fmt, (fmt_int (-1)); lia).
      assert (Dc : double c) by apply double_fmt, rnd_fmt. intros p I. repeat (destruct I as [<-|I]; [cbn [vx vy]; split; [auto|split; [auto|split; apply Rabs_le; lra]]|]). destruct I.
    + unfold along; cbn. f_equal; lra.
    + replace ((0 - 0) * (c - 0) - (1 - -1) * (1 - -1)) with (-4) by ring. rewrite Rabs_left by lra. rewrite <- pow2. cbn. lra.
    + split; [rewrite <- pow2; cbn|]; lra.
    + assert (c <= 5/8). { apply rnd_below; [|lra]. replace (5/8) with (IZR 5 * bpow radix2 (-3)) by (cbn; lra). apply fmt_dyadic; lia. } unfold clear_of. lra.
    + unfold clear_of. lra.
    + lra.
Qed.
