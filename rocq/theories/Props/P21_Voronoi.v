(** * Property C105: completed Voronoi diagrams *)
From Coq Require Import Lra Lia.
From Verif Require Import Proofs.VecLemmas Proofs.Witness8 Proofs.VoronoiProofs Proofs.VoronoiCase Spec.Voronoi.
Open Scope R_scope.

(** The old vertices stay in front of the new ones; there is one region for every point, in the
    order of the points. *)
Theorem C105_finished : forall argsort d radius, sorts argsort -> is_voronoi d -> 0 <= radius ->
  exists regions extra, voronoi_finite_polygons_2d argsort d (Some radius) = Ok (regions, d_vertices d ++ extra) /\
  length regions = length (d_points d) /\
  forall k p old region, nth_error (d_points d) k = Some p -> region_of d k old -> nth_error regions k = Some region ->
    finished d radius (d_vertices d ++ extra) k p old region.
Proof. exact finite_spec. Qed.
Print Assumptions C105_finished.
(** Without a radius it is twice the difference of the largest and the smallest coordinate. *)
Theorem C105_default_radius : forall argsort d, d_points d <> [] -> exists lo hi,
  (forall p, In p (d_points d) -> lo <= vx p <= hi /\ lo <= vy p <= hi) /\
  (exists p, In p (d_points d) /\ (vx p = lo \/ vy p = lo)) /\ (exists p, In p (d_points d) /\ (vx p = hi \/ vy p = hi)) /\ lo <= hi /\
  voronoi_finite_polygons_2d argsort d None = voronoi_finite_polygons_2d argsort d (Some (2 * (hi - lo))).
Proof. exact default_radius. Qed.
Print Assumptions C105_default_radius.
(** All points of a completed region are nearest to the region's own point. *)
Theorem C105_inside : forall argsort d radius regions vertices k p region corners y, sorts argsort -> is_voronoi d -> 0 <= radius ->
  voronoi_finite_polygons_2d argsort d (Some radius) = Ok (regions, vertices) ->
  nth_error (d_points d) k = Some p -> nth_error regions k = Some region -> Forall2 (vertex vertices) region corners ->
  mixture corners y -> nearest_to (d_points d) p y.
Proof.
  intros argsort d radius regions vertices k p region corners y Hs Hd Hr E P R C M.
  destruct (finite_spec argsort d radius Hs Hd Hr) as (rs & extra & E' & L & F). rewrite E in E'. injection E' as -> ->.
  destruct (iv_region d Hd k) as (old & O); [apply nth_error_Some; congruence|]. specialize (F k p old region P O R).
  apply (nearest_mixture (d_points d) p corners); [|exact M]. intros x Hx. apply In_nth_error in Hx as (i & Hi).
  destruct (Forall2_nth' _ _ _ C i x Hi) as (v & Hv & Vx). apply nth_error_In in Hv. destruct (fin_corners _ _ _ _ _ _ _ F v Hv) as (x' & V' & N).
  rewrite (vertex_fun _ _ _ _ Vx V'). exact N.
Qed.
Print Assumptions C105_inside.
(** Two regions have no more in common than points as far from the one as from the other. *)
Theorem C105_disjoint : forall argsort d radius regions vertices k p region corners k' p' region' corners' y,
  sorts argsort -> is_voronoi d -> 0 <= radius -> voronoi_finite_polygons_2d argsort d (Some radius) = Ok (regions, vertices) ->
  nth_error (d_points d) k = Some p -> nth_error regions k = Some region -> Forall2 (vertex vertices) region corners -> mixture corners y ->
  nth_error (d_points d) k' = Some p' -> nth_error regions k' = Some region' -> Forall2 (vertex vertices) region' corners' -> mixture corners' y ->
  edist y p = edist y p'.
Proof.
  intros argsort d radius regions vertices k p region corners k' p' region' corners' y Hs Hd Hr E P R C M P' R' C' M'.
  apply Rle_antisym.
  - exact (C105_inside argsort d radius regions vertices k p region corners y Hs Hd Hr E P R C M p' (nth_error_In _ _ P')).
  - exact (C105_inside argsort d radius regions vertices k' p' region' corners' y Hs Hd Hr E P' R' C' M' p (nth_error_In _ _ P)).
Qed.
Print Assumptions C105_disjoint.
(** Neighbours whose common ridge was open get the same new corner, so that no gap opens
    between them. *)
Theorem C105_shared : forall argsort d radius regions vertices k q v w old old' region region',
  sorts argsort -> is_voronoi d -> 0 <= radius -> voronoi_finite_polygons_2d argsort d (Some radius) = Ok (regions, vertices) ->
  ridge d k q v w -> (v < 0)%Z -> region_of d k old -> region_of d q old' -> (exists u, In u old /\ (u < 0)%Z) -> (exists u, In u old' /\ (u < 0)%Z) ->
  nth_error regions k = Some region -> nth_error regions q = Some region' ->
  exists a b x y u u', nth_error (d_points d) k = Some a /\ nth_error (d_points d) q = Some b /\ vertex (d_vertices d) w x /\
    opened (d_points d) radius a b x y /\ In u region /\ vertex vertices u y /\ In u' region' /\ vertex vertices u' y.
Proof.
  intros argsort d radius regions vertices k q v w old old' region region' Hs Hd Hr E Rg V0 O O' U U' R R'.
  destruct (finite_spec argsort d radius Hs Hd Hr) as (rs & extra & E' & L & F). rewrite E in E'. injection E' as -> ->.
  destruct (iv_ridge d Hd k q v w Rg) as (a & b & A & B & N).
  destruct (iv_open_ridge d Hd k q v w a b Rg V0 A B) as (_ & _ & _ & _ & (Nab & _)).
  assert (Rg' : ridge d q k v w) by (destruct Rg as (i & P & Q); exists i; tauto).
  destruct (fin_opened _ _ _ _ _ _ _ (F k a old region A O R) q v w b Rg V0 U B) as (x & u & y & X & I & Y & P).
  destruct (fin_opened _ _ _ _ _ _ _ (F q b old' region' B O' R') k v w a Rg' V0 U' A) as (x' & u' & y' & X' & I' & Y' & P').
  rewrite (vertex_fun _ _ _ _ X' X) in P'. rewrite <- (opened_unique (d_points d) radius a b x y y' Nab P P') in Y'.
  exists a, b, x, y, u, u'. repeat match goal with |- _ /\ _ => split end; assumption.
Qed.
Print Assumptions C105_shared.
(** With the default radius an agent's own position can be outside of its region: far from a
    dense group the ridges leave in almost the same direction. *)
Theorem C105_own_point_refuted : exists d, is_voronoi d /\ forall argsort, sorts argsort -> exists regions vertices region p,
  voronoi_finite_polygons_2d argsort d None = Ok (regions, vertices) /\ nth_error (d_points d) 0 = Some p /\ nth_error regions 0 = Some region /\
  forall corners y, Forall2 (vertex vertices) region corners -> mixture corners y -> y <> p.
Proof.
  exists kite. split; [exact kite_ok|]. intros argsort Hs. destruct (kite_left argsort Hs) as (regions & vertices & region & E & R & H).
  exists regions, vertices, region, (V 0 0). auto.
Qed.
Print Assumptions C105_own_point_refuted.
(** [density_voronoi_2] looks the areas, which are in the order of the points, up by scipy's
    region numbers. Scipy keeps one region that belongs to no point. Unless that one is the
    last, some point has a number past the end of the areas. *)
Theorem C105_region_numbers_refuted : forall argsort d, is_voronoi d -> sorts argsort -> d_points d <> [] ->
  NoDup (d_point_region d) -> length (d_regions d) = S (length (d_points d)) ->
  (exists e, (e < length (d_points d))%nat /\ ~ In (Z.of_nat e) (d_point_region d)) ->
  (exists regions vertices r, voronoi_finite_polygons_2d argsort d None = Ok (regions, vertices) /\ In r (d_point_region d) /\ (Z.of_nat (length regions) <= r)%Z) /\
  forall cell_size density, density_of_diagram argsort d cell_size <> Ok density.
Proof.
  intros argsort d Hd Hs Hn Nd Lr He. pose proof (last_region d Hd Nd Lr He) as I. split; [|intros c; apply overrun; assumption].
  destruct (default_radius argsort d Hn) as (lo & hi & _ & _ & _ & Lh & ->).
  destruct (finite_spec argsort d (2 * (hi - lo)) Hs Hd ltac:(lra)) as (regions & extra & E & L & _).
  exists regions, (d_vertices d ++ extra), (Z.of_nat (length (d_points d))). rewrite L. repeat split; auto. lia.
Qed.
Print Assumptions C105_region_numbers_refuted.

(** Five agents, four on the corners of a square, one in its middle. The region in the middle
    stays; that of the corner at (0, 0) gets two corners on the axes, at the radius. *)
Example C105_case : sorts argsort_R /\ is_voronoi quincunx /\ exists regions extra,
  voronoi_finite_polygons_2d argsort_R quincunx (Some 5) = Ok (regions, d_vertices quincunx ++ extra) /\
  nth_error regions 4 = Some [0; 1; 3; 2]%Z /\
  exists region u u', nth_error regions 0 = Some region /\ In u region /\ vertex (d_vertices quincunx ++ extra) u (V 1 (-5)) /\
    In u' region /\ vertex (d_vertices quincunx ++ extra) u' (V (-5) 1).
Proof.
  split; [exact argsort_R_ok|]. split; [exact quincunx_ok|].
  destruct (finite_spec argsort_R quincunx 5 argsort_R_ok quincunx_ok ltac:(lra)) as (regions & extra & E & L & F). exists regions, extra. split; [exact E|].
  destruct regions as [|r0 [|r1 [|r2 [|r3 [|r4 [|]]]]]]; try discriminate L. split.
  - cbn. f_equal. apply (fin_bounded _ _ _ _ _ _ _ (F 4%nat (V 1 1) [0; 1; 3; 2]%Z r4 eq_refl ltac:(exists 5%Z; split; [reflexivity|split; [lia|reflexivity]]) eq_refl)).
    intros v I. pick I; lia.
  - pose proof (F 0%nat (V 0 0) [-1; 0; 1]%Z r0 eq_refl ltac:(exists 1%Z; split; [reflexivity|split; [lia|reflexivity]]) eq_refl) as G.
    assert (S : forall y : vec, edist y y = 0) by (intros; unfold edist; rewrite !Rminus_diag_eq by reflexivity; rewrite Rmult_0_l, Rplus_0_r; apply sqrt_0).
    destruct (fin_opened _ _ _ _ _ _ _ G 1%nat (-1)%Z 0%Z (V 2 0) ltac:(exists 0%nat; cbn; auto) ltac:(lia) ltac:(exists (-1)%Z; cbn; split; [auto|lia]) eq_refl) as (x & u & y & X & I & Y & P).
    destruct (fin_opened _ _ _ _ _ _ _ G 2%nat (-1)%Z 1%Z (V 0 2) ltac:(exists 1%nat; cbn; auto) ltac:(lia) ltac:(exists (-1)%Z; cbn; split; [auto|lia]) eq_refl) as (x' & u' & y' & X' & I' & Y' & P').
    destruct X as [_ X]. cbn in X. injection X as <-. destruct X' as [_ X']. cbn in X'. injection X' as <-.
    assert (A : opened (d_points quincunx) 5 (V 2 0) (V 0 0) (V 1 0) (V 1 (-5))).
    { unfold opened. cbn [vx vy]. split; [unfold edist; cbn [vx vy]; replace (_ + _) with (5 * 5) by ring; apply sqrt_square; lra|]. split; [lra|]. split.
      - intros q Hq. pick Hq; subst q; cbn; lra.
      - intros _. exists (V 1 1). cbn. split; [tauto|lra]. }
    assert (A' : opened (d_points quincunx) 5 (V 0 2) (V 0 0) (V 0 1) (V (-5) 1)).
    { unfold opened. cbn [vx vy]. split; [unfold edist; cbn [vx vy]; replace (_ + _) with (5 * 5) by ring; apply sqrt_square; lra|]. split; [lra|]. split.
      - intros q Hq. pick Hq; subst q; cbn; lra.
      - intros _. exists (V 1 1). cbn. split; [tauto|lra]. }
    assert (y = V 1 (-5)) as -> by (eapply opened_unique; [|exact P|exact A]; let N := fresh in intros N; injection N; intros; lra).
    assert (y' = V (-5) 1) as -> by (eapply opened_unique; [|exact P'|exact A']; let N := fresh in intros N; injection N; intros; lra).
    exists r0, u, u'. cbn. auto.
Qed.
(** The same five agents meet the hypotheses of the refutation. *)
Example C105_overrun_case : forall cell_size density, density_of_diagram argsort_R quincunx cell_size <> Ok density.
Proof.
  destruct quincunx_overrun as (A & B & C). apply C105_region_numbers_refuted; auto; [exact quincunx_ok|exact argsort_R_ok|discriminate].
Qed.
