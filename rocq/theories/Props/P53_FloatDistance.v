(** * Property C152: the distance to a wall at any angle in double precision *)
From Coq Require Import Reals ZArith List Lra Lia.
From Flocq Require Import Core.
From Verif Require Import Model.Floats Model.Distance Proofs.VecLemmas Proofs.FloatProofs Proofs.FloatCases Proofs.FloatForcesProofs Proofs.FloatContact Proofs.FloatSamplingProofs.
From Verif Require Import Model.Motion Proofs.DistanceProofs Proofs.FloatDistance Props.P49_FloatWalls.
Import ListNotations.
Open Scope R_scope.

(** Forty units of rounding of the distances to the two ends, one of the radius, and underflow. *)
Definition wall_error (x : vec) (r : R) (a b : vec) : R :=
  powerRZ 2 (-53) * (40 * (edist x a + edist x b) + Rabs r) + powerRZ 2 (-1070).
Lemma wall_error_val x r a b : wall_error x r a b = 40 * U * (edist x a + edist x b) + U * Rabs r + 32 * T.
Proof.
  unfold wall_error. assert (A : powerRZ 2 (-53) = U) by (rewrite U_val, <- pow2; reflexivity).
  assert (B : powerRZ 2 (-1070) = 32 * T) by (unfold T; rewrite <- pow2; replace (bpow radix2 (-1070)) with (bpow radix2 5 * bpow radix2 (-1075)) by (rewrite <- bpow_plus; reflexivity); reflexivity).
  rewrite A, B. ring.
Qed.

(** The gap returned is the distance to the nearest point of the wall less the radius. *)
Theorem C152_distance : forall hypot x r a b e, good_hypot hypot -> vdouble x -> vdouble a -> vdouble b ->
  powerRZ 2 (-900) <= edist a b -> segment_distance a b x e ->
  Rabs (fst (f_distance_circle_line hypot x r a b) - (e - r)) <= wall_error x r a b.
Proof. intros. rewrite wall_error_val. now apply f_distance_near. Qed.
Print Assumptions C152_distance.

(** On a site of a kilometre and for a radius of at most one metre that is a tenth of a nanometre. *)
Theorem C152_site : forall hypot x r a b e, good_hypot hypot -> vdouble x -> vdouble a -> vdouble b ->
  powerRZ 2 (-900) <= edist a b -> segment_distance a b x e ->
  (forall c, In c [vx x; vy x; vx a; vy a; vx b; vy b] -> 0 <= c <= 1000) -> 0 <= r <= 1 ->
  Rabs (fst (f_distance_circle_line hypot x r a b) - (e - r)) <= / 10 ^ 10.
Proof.
  intros hypot x r a b e H X A B L SD C R. eapply Rle_trans; [now apply C152_distance|]. rewrite wall_error_val. pose proof T_small as TS. pose proof T_pos.
  assert (K : forall p q : vec, 0 <= vx p <= 1000 -> 0 <= vy p <= 1000 -> 0 <= vx q <= 1000 -> 0 <= vy q <= 1000 -> edist p q <= 2000).
  { intros p q P1 P2 Q1 Q2. unfold edist. change (far (vx p - vx q) (vy p - vy q) <= 2000). eapply Rle_trans; [apply far_high|]. assert (Rabs (vx p - vx q) <= 1000) by (apply Rabs_le; lra). assert (Rabs (vy p - vy q) <= 1000) by (apply Rabs_le; lra). lra. }
  assert (K1 : edist x a <= 2000) by (apply K; apply C; cbn; tauto). assert (K2 : edist x b <= 2000) by (apply K; apply C; cbn; tauto).
  rewrite (Rabs_pos_eq r) by lra. rewrite U_val in *. lra.
Qed.
Print Assumptions C152_site.

(** Whoever is clear of every wall by more than the error is not pushed, in any crowd and room. *)
Theorem C152_clear : forall hypot agents walls i a, good_hypot hypot -> nth_error agents i = Some a -> vdouble (a_position a) ->
  (forall o, In o walls -> wall_doubles o /\ powerRZ 2 (-900) <= edist (p0 o) (p1 o) /\
     exists e, segment_distance (p0 o) (p1 o) (a_position a) e /\ a_radius a + wall_error (a_position a) (a_radius a) (p0 o) (p1 o) <= e) ->
  nth_error (f_agent_circular_obstacle hypot agents walls) i = Some a.
Proof.
  intros hypot agents walls i a H N X W. unfold f_agent_circular_obstacle. rewrite nth_error_map, N. cbn [option_map]. f_equal.
  induction walls as [|o walls IH]; cbn [fold_left]; auto. assert (E : f_obstacle_circular hypot a o = a); [|rewrite E; apply IH; intros o' I; apply W; now right].
  destruct (W o (or_introl eq_refl)) as ((A & B) & L & e & SD & C). pose proof (C152_distance hypot (a_position a) (a_radius a) _ _ e H X A B L SD) as D. unfold f_obstacle_circular.
  destruct (f_distance_circle_line hypot (a_position a) (a_radius a) (p0 o) (p1 o)) as [h n]. cbn [fst] in D. apply Rabs_le_inv in D. rewrite Rlt_bool_false by lra. reflexivity.
Qed.
Print Assumptions C152_clear.

(** The direction of the push: off a unit vector, which points away from every point of the
    wall, by at most six units of rounding. *)
Theorem C152_direction : forall hypot x r a b e, good_hypot hypot -> vdouble x -> vdouble a -> vdouble b ->
  powerRZ 2 (-900) <= edist a b -> segment_distance a b x e -> wall_error x r a b * (edist x a + edist x b) < e * e ->
  let n := snd (f_distance_circle_line hypot x r a b) in
  exists m, vx m * vx m + vy m * vy m = 1 /\ Rabs (vx n - vx m) <= 6 * powerRZ 2 (-53) /\ Rabs (vy n - vy m) <= 6 * powerRZ 2 (-53) /\
    forall p, on_segment a b p -> 0 < vx m * (vx x - vx p) + vy m * (vy x - vy p).
Proof.
  intros hypot x r a b e H X A B L SD W n. rewrite wall_error_val in W. destruct (f_distance_near hypot x r a b e H X A B L SD) as [_ K]. assert (V : powerRZ 2 (-53) = U) by (rewrite U_val, <- pow2; reflexivity). rewrite V. exact (K W).
Qed.
Print Assumptions C152_direction.

(** Whoever overlaps a wall by more than the error is in contact with it: the force of contact is added. *)
Theorem C152_overlap : forall hypot a o e, good_hypot hypot -> vdouble (a_position a) -> wall_doubles o -> powerRZ 2 (-900) <= edist (p0 o) (p1 o) ->
  segment_distance (p0 o) (p1 o) (a_position a) e -> e + wall_error (a_position a) (a_radius a) (p0 o) (p1 o) < a_radius a ->
  exists h n, h < 0 /\ Rabs (h - (e - a_radius a)) <= wall_error (a_position a) (a_radius a) (p0 o) (p1 o) /\
    f_obstacle_circular hypot a o = f_add_force (f_force_contact h n (a_velocity a) (rotate270 n) (a_mu a) (a_kappa a) (a_damping a)) a.
Proof.
  intros hypot a o e H X (A & B) L SD C. pose proof (C152_distance hypot (a_position a) (a_radius a) _ _ e H X A B L SD) as D. unfold f_obstacle_circular.
  destruct (f_distance_circle_line hypot (a_position a) (a_radius a) (p0 o) (p1 o)) as [h n]. cbn [fst] in D. exists h, n. pose proof D as D'. apply Rabs_le_inv in D'. rewrite Rlt_bool_true by lra. repeat split; auto; lra.
Qed.
Print Assumptions C152_overlap.

(** Somebody who stands still and overlaps a wall at any angle is pushed away from every point of it by
    [mu] times the overlap, up to rounding. *)
Theorem C152_push : forall hypot a o e, good_hypot hypot -> vdouble (a_position a) -> wall_doubles o -> powerRZ 2 (-900) <= edist (p0 o) (p1 o) ->
  segment_distance (p0 o) (p1 o) (a_position a) e ->
  let err := wall_error (a_position a) (a_radius a) (p0 o) (p1 o) in
  err * (edist (a_position a) (p0 o) + edist (a_position a) (p1 o)) < e * e -> e + err < a_radius a <= powerRZ 2 100 ->
  a_velocity a = vzero -> a_force a = vzero -> 0 <= a_mu a <= powerRZ 2 100 -> Rabs (a_kappa a) <= powerRZ 2 100 -> Rabs (a_damping a) <= powerRZ 2 100 ->
  exists m, vx m * vx m + vy m * vy m = 1 /\
    (forall p, on_segment (p0 o) (p1 o) p -> 0 < vx m * (vx (a_position a) - vx p) + vy m * (vy (a_position a) - vy p)) /\
    forall c, c = vx \/ c = vy ->
      Rabs (c (a_force (f_obstacle_circular hypot a o)) - a_mu a * (a_radius a - e) * c m) <= a_mu a * (2 * err + powerRZ 2 (-49) * a_radius a) + powerRZ 2 (-767).
Proof.
  intros hypot a o e H X W L SD err WS OV V0 F0 MU KA DA. pose proof W as (A & B). pose proof U_tiny as UT.
  destruct (C152_direction hypot (a_position a) (a_radius a) (p0 o) (p1 o) e H X A B L SD WS) as (m & M1 & N1 & N2 & M2).
  pose proof (C152_distance hypot (a_position a) (a_radius a) _ _ e H X A B L SD) as D. fold err in D.
  assert (V : powerRZ 2 (-53) = U) by (rewrite U_val, <- pow2; reflexivity). assert (V9 : powerRZ 2 (-49) = 16 * U) by (rewrite U_val, <- pow2; assert (Z : bpow radix2 (-49) = / 562949953421312) by reflexivity; rewrite Z; lra). rewrite V in N1, N2.
  exists m. split; [exact M1|]. split; [exact M2|]. intros c C. unfold f_obstacle_circular.
  destruct (f_distance_circle_line hypot (a_position a) (a_radius a) (p0 o) (p1 o)) as [h n]. cbn [fst snd] in *. set (r := a_radius a) in *. set (S := edist (a_position a) (p0 o) + edist (a_position a) (p1 o)) in *.
  assert (E0 : 0 <= e <= S). { destruct SD as [(q & (k & Hk & Eq) & ->) Least]. split; [apply edist_nonneg|]. assert (edist (a_position a) q <= edist (a_position a) (p0 o)); [|pose proof (edist_nonneg (a_position a) (p1 o)); unfold S; lra]. apply Least. exists (p0 o). split; [|reflexivity]. exists 0. split; [lra|]. destruct (p0 o). unfold along. cbn. f_equal; ring. }
  assert (EP : 0 <= err) by (eapply Rle_trans; [apply Rabs_pos|exact D]). assert (LE : err <= e). { destruct (Rle_dec err e) as [K|K]; auto. exfalso. assert (e * e <= err * S) by (apply Rmult_le_compat; lra). lra. }
  apply Rabs_le_inv in D. rewrite Rlt_bool_true by lra. unfold f_add_force.
  assert (MC : Rabs (c m) <= 1). { destruct (len_coord m) as [Q1 Q2]. unfold vlength in Q1, Q2. rewrite M1, sqrt_1 in Q1, Q2. now destruct C as [-> | ->]. }
  assert (NC : Rabs (c n - c m) <= 6 * U) by now destruct C as [-> | ->]. assert (NB : Rabs (c n) <= 1001/1000) by (replace (c n) with ((c n - c m) + c m) by ring; eapply Rle_trans; [apply Rabs_triang|]; lra).
  assert (NA : Rabs (vx n) <= 1001/1000 /\ Rabs (vy n) <= 1001/1000). { destruct (len_coord m) as [Q1 Q2]. unfold vlength in Q1, Q2. rewrite M1, sqrt_1 in Q1, Q2. split; [replace (vx n) with ((vx n - vx m) + vx m) by ring|replace (vy n) with ((vy n - vy m) + vy m) by ring]; (eapply Rle_trans; [apply Rabs_triang|]; lra). }
  assert (P2 : 2 <= powerRZ 2 100) by (rewrite <- pow2; change 2 with (bpow radix2 1); apply bpow_le; lia).
  assert (HH : Rabs h = - h /\ 0 <= - h <= r) by (rewrite Rabs_left by lra; lra). destruct HH as [HA HB].
  pose proof (C148_contact c h n vzero (rotate270 n) (a_mu a) (a_kappa a) (a_damping a) C) as K.
  assert (K' := K ltac:(intros z [<-|[<-|[<-|[<-|[<-|[<-|[]]]]]]]; [lra|rewrite Rabs_pos_eq; lra|exact KA|exact DA|lra|destruct NA as [NX NY]; destruct C as [-> | ->]; cbn [rotate270 vx vy]; rewrite ?Rabs_Ropp; lra])). clear K.
  set (F := f_force_contact h n vzero (rotate270 n) (a_mu a) (a_kappa a) (a_damping a)) in *.
  assert (FC : c (a_force (set_force (f_vadd (a_force a) (f_force_contact h n (a_velocity a) (rotate270 n) (a_mu a) (a_kappa a) (a_damping a))) a)) = c F).
  { rewrite V0, F0. fold F. replace (a_force (set_force (f_vadd vzero F) a)) with (f_vadd vzero F) by (destruct a; reflexivity). destruct C as [-> | ->]; cbn [f_vadd vx vy vzero]; rewrite Rplus_0_l; apply rnd_id, rnd_fmt. }
  rewrite FC. assert (EX : c (force_contact h n vzero (rotate270 n) (a_mu a) (a_kappa a) (a_damping a)) = - h * a_mu a * c n) by (destruct C as [-> | ->]; unfold force_contact, dot; cbn [vadd vscale vsub vzero rotate270 vx vy]; ring). rewrite EX in K'.
  cbn [vx vy vzero] in K'. rewrite !Rmult_0_l, !Rabs_R0, Rplus_0_l, !Rmult_0_r, !Rmult_0_l, !Rplus_0_r, HA, V, (Rabs_pos_eq (a_mu a)) in K' by lra.
  set (mu := a_mu a) in *. set (t := powerRZ 2 (-767)) in *. rewrite V9.
  assert (R1 : Rabs (- h * mu * c n - mu * (r - e) * c m) <= mu * (1001/1000 * err + 6 * U * r)).
  { replace (- h * mu * c n - mu * (r - e) * c m) with (mu * ((- h - (r - e)) * c n + (r - e) * (c n - c m))) by ring. rewrite Rabs_mult, (Rabs_pos_eq mu) by lra. apply Rmult_le_compat_l; [lra|]. eapply Rle_trans; [apply Rabs_triang|]. rewrite !Rabs_mult.
    assert (Rabs (- h - (r - e)) * Rabs (c n) <= err * (1001/1000)) by (apply Rmult_le_compat; try apply Rabs_pos; auto; apply Rabs_le; lra). assert (Rabs (r - e) * Rabs (c n - c m) <= r * (6 * U)) by (apply Rmult_le_compat; try apply Rabs_pos; auto; rewrite Rabs_pos_eq; lra). lra. }
  assert (R2 : - h * (mu * Rabs (c n)) <= r * (mu * (1001/1000))) by (apply Rmult_le_compat; try lra; [apply Rmult_le_pos; [lra|apply Rabs_pos]|apply Rmult_le_compat_l; lra]).
  assert (R3 : U * (- h * (mu * Rabs (c n))) <= U * (r * (mu * (1001/1000)))) by (apply Rmult_le_compat_l; lra).
  replace (c F - mu * (r - e) * c m) with ((c F - - h * mu * c n) + (- h * mu * c n - mu * (r - e) * c m)) by ring. eapply Rle_trans; [apply Rabs_triang|].
  assert (R4 : 0 <= mu * err) by (apply Rmult_le_pos; lra). assert (R5 : 0 <= U * r * mu) by (apply Rmult_le_pos; [apply Rmult_le_pos|]; lra). lra.
Qed.
Print Assumptions C152_push.

(** A slanted wall from (0,0) to (4,3); an agent at (1,7) is five metres from its nearest point. *)
Example C152_case : good_hypot exact_hypot /\ vdouble (V 1 7) /\ vdouble (V 0 0) /\ vdouble (V 4 3) /\ powerRZ 2 (-900) <= edist (V 0 0) (V 4 3) /\ segment_distance (V 0 0) (V 4 3) (V 1 7) 5 /\
  wall_error (V 1 7) 1 (V 0 0) (V 4 3) * (edist (V 1 7) (V 0 0) + edist (V 1 7) (V 4 3)) < 5 * 5.
Proof.
  assert (D : forall n, (Z.abs n <= 8)%Z -> Spec.Doubles.double (IZR n)) by (intros n N; apply (dbl n 0); cbn; lia || lra).
  split; [exact exact_good|]. split; [split; apply D; lia|]. split; [split; apply D; lia|]. split; [split; apply D; lia|].
  assert (E : forall k, edist (V 1 7) (along (V 0 0) (V 4 3) k) = sqrt (25 + 25 * ((1 - k) * (1 - k)))) by (intros k; unfold edist, along; cbn [vx vy]; f_equal; ring).
  split.
  - unfold edist. cbn [vx vy]. replace ((0 - 4) * (0 - 4) + (0 - 3) * (0 - 3)) with (5 * 5) by ring. rewrite sqrt_square by lra. rewrite <- pow2. pose proof (bpow_le radix2 (-900) 0 ltac:(lia)) as K. change (bpow radix2 0) with 1 in K. lra.
  - split; [split|].
    + exists (along (V 0 0) (V 4 3) 1). split; [exists 1; split; [lra|reflexivity]|]. rewrite E. replace (25 + 25 * ((1 - 1) * (1 - 1))) with (5 * 5) by ring. now rewrite sqrt_square by lra.
    + intros y (p & (k & Hk & ->) & ->). rewrite E. rewrite <- (sqrt_square 5) at 1 by lra. apply sqrt_le_1_alt. pose proof (Rle_0_sqr (1 - k)) as K. unfold Rsqr in K. lra.
    + rewrite wall_error_val, (Rabs_pos_eq 1) by lra. assert (K1 : edist (V 1 7) (V 0 0) <= 8) by (eapply Rle_trans; [apply (far_high (1 - 0) (7 - 0))|]; rewrite !Rabs_pos_eq; lra). assert (K2 : edist (V 1 7) (V 4 3) <= 8) by (eapply Rle_trans; [apply (far_high (1 - 4) (7 - 3))|]; rewrite Rabs_left, Rabs_pos_eq; lra).
      set (s := edist (V 1 7) (V 0 0) + edist (V 1 7) (V 4 3)). assert (0 <= s <= 16) by (unfold s; pose proof (edist_nonneg (V 1 7) (V 0 0)); pose proof (edist_nonneg (V 1 7) (V 4 3)); lra). pose proof T_small. pose proof T_pos. rewrite U_val in *.
      assert (M : (40 * / 9007199254740992 * s + / 9007199254740992 * 1 + 32 * T) * s <= 1 * 16) by (apply Rmult_le_compat; lra). lra.
Qed.
(** An agent of radius six at (1,7) standing still overlaps that wall by a metre. *)
Definition wall53 : obstacle := Obs (V 0 0) (V 4 3).
Definition body53 : agent := set_mu 1024 (set_radius 6 (set_position (V 1 7) zero_row)).
Example C152_push_case : wall_doubles wall53 /\ segment_distance (p0 wall53) (p1 wall53) (a_position body53) 5 /\
  wall_error (a_position body53) (a_radius body53) (p0 wall53) (p1 wall53) * (edist (a_position body53) (p0 wall53) + edist (a_position body53) (p1 wall53)) < 5 * 5 /\
  5 + wall_error (a_position body53) (a_radius body53) (p0 wall53) (p1 wall53) < a_radius body53 <= powerRZ 2 100 /\
  a_velocity body53 = vzero /\ a_force body53 = vzero /\ 0 <= a_mu body53 <= powerRZ 2 100 /\ Rabs (a_kappa body53) <= powerRZ 2 100 /\ Rabs (a_damping body53) <= powerRZ 2 100.
Proof.
  destruct C152_case as (_ & D1 & D2 & D3 & _ & SD & _). change (p0 wall53) with (V 0 0). change (p1 wall53) with (V 4 3). change (a_position body53) with (V 1 7). change (a_radius body53) with 6. change (a_mu body53) with 1024. change (a_kappa body53) with 0. change (a_damping body53) with 0. rewrite Rabs_R0.
  assert (P2 : 1024 <= powerRZ 2 100) by (rewrite <- pow2; change 1024 with (bpow radix2 10); apply bpow_le; lia).
  rewrite wall_error_val, (Rabs_pos_eq 6) by lra. assert (K1 : edist (V 1 7) (V 0 0) <= 8) by (eapply Rle_trans; [apply (far_high (1 - 0) (7 - 0))|]; rewrite !Rabs_pos_eq; lra). assert (K2 : edist (V 1 7) (V 4 3) <= 8) by (eapply Rle_trans; [apply (far_high (1 - 4) (7 - 3))|]; rewrite Rabs_left, Rabs_pos_eq; lra).
  set (s := edist (V 1 7) (V 0 0) + edist (V 1 7) (V 4 3)). assert (0 <= s <= 16) by (unfold s; pose proof (edist_nonneg (V 1 7) (V 0 0)); pose proof (edist_nonneg (V 1 7) (V 4 3)); lra). pose proof T_small. pose proof T_pos. rewrite U_val in *.
  assert (M : (40 * / 9007199254740992 * s + / 9007199254740992 * 6 + 32 * T) * s <= 1 * 16) by (apply Rmult_le_compat; lra).
  split; [split; assumption|]. split; [exact SD|]. split; [lra|]. split; [lra|]. split; [reflexivity|]. split; [reflexivity|]. repeat split; lra.
Qed.
