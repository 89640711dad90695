(** * The distance to a wall at any angle in float64 *)
From Coq Require Import Reals ZArith List Lra Lia.
From Flocq Require Import Core.
From Verif Require Import Model.Floats Model.Distance Proofs.VecLemmas Proofs.FloatProofs Proofs.FloatSums Proofs.FloatGeomProofs Proofs.FloatForcesProofs Proofs.FloatContact Proofs.FloatSamplingProofs.
From Verif Require Export Model.FloatWalls Spec.FloatWalls Spec.Plane.
Open Scope R_scope.

(** ** The plane, in coordinates along and across the wall *)
Definition far (a p : R) : R := sqrt (a * a + p * p).
Lemma far_abs a b p : Rabs a <= Rabs b -> far a p <= far b p.
Proof. intros H. apply sqrt_le_1_alt. apply Rsqr_le_abs_1 in H. unfold Rsqr in H. lra. Qed.
Lemma far_low a p : Rabs p <= far a p.
Proof. unfold far. rewrite <- (sqrt_Rsqr_abs p). apply sqrt_le_1_alt. unfold Rsqr. pose proof (Rle_0_sqr a) as H. unfold Rsqr in H. lra. Qed.
Lemma far_high a p : far a p <= Rabs a + Rabs p.
Proof.
  unfold far. pose proof (Rabs_pos a). pose proof (Rabs_pos p). rewrite <- (sqrt_Rsqr (Rabs a + Rabs p)) by lra. apply sqrt_le_1_alt. unfold Rsqr.
  assert (A : Rabs a * Rabs a = a * a) by (rewrite <- Rabs_mult; apply Rabs_pos_eq; pose proof (Rle_0_sqr a) as K; exact K). assert (P : Rabs p * Rabs p = p * p) by (rewrite <- Rabs_mult; apply Rabs_pos_eq; pose proof (Rle_0_sqr p) as K; exact K).
  pose proof (Rmult_le_pos (Rabs a) (Rabs p)). lra.
Qed.
Section Plane.
  Variables (L t p e : R).
  Hypothesis LP : 0 < L.
  Hypothesis at_most : forall l, 0 <= l <= 1 -> e <= far (t - l * L) p.
  Hypothesis reached : exists l, 0 <= l <= 1 /\ e = far (t - l * L) p.
  Lemma geo_first d : 0 <= d -> t <= d -> Rabs (e - far t p) <= d.
  Proof.
    intros D H. pose proof (at_most 0 ltac:(lra)) as A. replace (t - 0 * L) with t in A by ring. destruct reached as (l & Hl & E). assert (0 <= l * L) by (apply Rmult_le_pos; lra).
    apply Rabs_le. split; [|lra]. destruct (Rle_dec t 0) as [N|N].
    - assert (far t p <= far (t - l * L) p) by (apply far_abs; rewrite !Rabs_left1 by lra; lra). lra.
    - pose proof (far_high t p) as F. pose proof (far_low (t - l * L) p) as G. rewrite (Rabs_pos_eq t) in F by lra. lra.
  Qed.
  Lemma geo_last d : 0 <= d -> L - d <= t -> Rabs (e - far (t - L) p) <= d.
  Proof.
    intros D H. pose proof (at_most 1 ltac:(lra)) as A. replace (t - 1 * L) with (t - L) in A by ring. destruct reached as (l & Hl & E). assert (l * L <= 1 * L) by (apply Rmult_le_compat_r; lra).
    apply Rabs_le. split; [|lra]. destruct (Rle_dec 0 (t - L)) as [N|N].
    - assert (far (t - L) p <= far (t - l * L) p) by (apply far_abs; rewrite !Rabs_pos_eq by lra; lra). lra.
    - pose proof (far_high (t - L) p) as F. pose proof (far_low (t - l * L) p) as G. rewrite (Rabs_left1 (t - L)) in F by lra. lra.
  Qed.
  Lemma geo_middle d : 0 <= d -> - d <= t <= L + d -> Rabs (e - Rabs p) <= d.
  Proof.
    intros D H. destruct reached as (l & Hl & E). pose proof (far_low (t - l * L) p) as G. apply Rabs_le. split; [lra|].
    assert (K : exists k, 0 <= k <= 1 /\ Rabs (t - k * L) <= d).
    { destruct (Rle_dec t 0); [exists 0; split; [lra|]; apply Rabs_le; lra|]. destruct (Rle_dec L t); [exists 1; split; [lra|]; apply Rabs_le; lra|].
      exists (t / L). split; [|replace (t / L * L) with t by (field; lra); rewrite Rminus_eq_0, Rabs_R0; lra]. split; [apply Rmult_le_pos; [lra|left; now apply Rinv_0_lt_compat]|]. apply (Rmult_le_reg_r L); auto. unfold Rdiv. rewrite Rmult_assoc, Rinv_l by lra. lra. }
    destruct K as (k & K1 & K2). pose proof (at_most k K1) as A. pose proof (far_high (t - k * L) p). lra.
  Qed.
End Plane.

(** ** The computed numbers *)
Lemma U_tiny : 0 < U < / 1000000. Proof. rewrite U_val. lra. Qed.
Lemma len_coord v : Rabs (vx v) <= vlength v /\ Rabs (vy v) <= vlength v.
Proof. split; [|exact (far_low (vx v) (vy v))]. unfold vlength. rewrite Rplus_comm. exact (far_low (vy v) (vx v)). Qed.
Lemma len_diff v w e : 0 <= e -> Rabs (vx v - vx w) <= e * Rabs (vx w) -> Rabs (vy v - vy w) <= e * Rabs (vy w) -> Rabs (vlength v - vlength w) <= e * vlength w.
Proof.
  intros E X Y. assert (K : edist v w <= e * vlength w).
  { unfold edist, vlength. rewrite <- (sqrt_Rsqr e) at 1 by exact E. rewrite <- sqrt_mult; [|apply Rle_0_sqr|pose proof (Rle_0_sqr (vx w)) as A; pose proof (Rle_0_sqr (vy w)) as B; unfold Rsqr in *; lra].
    apply sqrt_le_1_alt. assert (S : forall a b, Rabs a <= e * Rabs b -> a * a <= e * e * (b * b)).
    { intros a b H. assert (Rabs a <= Rabs (e * b)) by (rewrite Rabs_mult, (Rabs_pos_eq e) by exact E; exact H). apply Rsqr_le_abs_1 in H0. unfold Rsqr in H0. lra. }
    unfold Rsqr. pose proof (S _ _ X). pose proof (S _ _ Y). lra. }
  pose proof (edist_triangle v w vzero) as A. pose proof (edist_triangle w v vzero) as B. fold (elen v) (elen w) in A, B. rewrite !elen_vlength in A, B. assert (C : edist w v = edist v w) by (unfold edist; f_equal; ring). rewrite C in B. apply Rabs_le. lra.
Qed.
Lemma sub_near x w : vdouble x -> vdouble w -> Rabs (vx (f_vsub x w) - vx (vsub x w)) <= U * Rabs (vx (vsub x w)) /\ Rabs (vy (f_vsub x w) - vy (vsub x w)) <= U * Rabs (vy (vsub x w)).
Proof.
  intros [A B] [C D]. apply double_fmt in A, B, C, D. split; cbn [f_vsub vsub vx vy]; [change (vx x - vx w) with (vx x + - vx w)|change (vy x - vy w) with (vy x + - vy w)]; apply plus_off; auto; now apply generic_format_opp.
Qed.
Lemma hyp_near hypot v : good_hypot hypot -> vdouble v -> Rabs (hypot (vx v) (vy v) - vlength v) <= 2 * U * vlength v + 2 * T.
Proof.
  intros H [A B]. destruct (H _ _ A B) as (_ & _ & _ & E). eapply Rle_trans; [exact E|]. unfold norm2. cbn [fst snd]. fold (vlength v). assert (V1 : powerRZ 2 (-52) = 2 * U) by (rewrite U_val, <- pow2; assert (V : bpow radix2 (-52) = / 4503599627370496) by reflexivity; rewrite V; lra).
  assert (V2 : powerRZ 2 (-1074) = 2 * T) by (unfold T; rewrite <- pow2; replace (bpow radix2 (-1074)) with (bpow radix2 1 * bpow radix2 (-1075)) by (rewrite <- bpow_plus; reflexivity); reflexivity).
  rewrite V1, V2. pose proof T_pos. pose proof U_tiny. assert (0 <= vlength v) by apply sqrt_pos. assert (0 <= 2 * U * vlength v) by (apply Rmult_le_pos; lra). apply Rmax_lub; lra.
Qed.
Lemma f_vsub_double a b : vdouble (f_vsub a b). Proof. split; apply double_fmt, rnd_fmt. Qed.
Lemma length_near hypot x w : good_hypot hypot -> vdouble x -> vdouble w -> let q := f_vsub x w in
  Rabs (hypot (vx q) (vy q) - edist x w) <= 301/100 * U * edist x w + 2 * T.
Proof.
  intros H X W q. destruct (sub_near x w X W) as [A B]. pose proof U_tiny as UT. pose proof (len_diff q (vsub x w) U ltac:(lra) A B) as E. assert (V : vlength (vsub x w) = edist x w) by reflexivity. rewrite V in E.
  pose proof (hyp_near hypot q H (f_vsub_double x w)) as G. assert (P : 0 <= edist x w) by apply sqrt_pos. apply Rabs_le_inv in E. apply Rabs_le_inv in G.
  assert (K : U * edist x w <= / 1000000 * edist x w) by (apply Rmult_le_compat_r; lra). assert (UP : 0 <= U * edist x w) by (apply Rmult_le_pos; lra). assert (M : U * vlength q <= U * (edist x w * (1 + / 1000000))) by (apply Rmult_le_compat_l; lra). apply Rabs_le. lra.
Qed.
Lemma unit_near D D' L l : 0 < L -> Rabs D <= L -> Rabs (D' - D) <= U * Rabs D -> Rabs (l - L) <= 31/10 * U * L -> Rabs (rnd (D' / l) - D / L) <= 6 * U.
Proof.
  intros LP DL E F. pose proof U_tiny as UT. pose proof T_small as TS. pose proof T_pos as TP. apply Rabs_le_inv in F. assert (UL : U * L <= / 1000000 * L) by (apply Rmult_le_compat_r; lra). assert (ULP : 0 < U * L) by (apply Rmult_lt_0_compat; lra). assert (lP : 99/100 * L <= l) by lra.
  assert (K : Rabs (D' / l - D / L) <= 42/10 * U).
  { replace (D' / l - D / L) with (((D' - D) * L + D * (L - l)) / (l * L)) by (field; lra). unfold Rdiv. assert (PP : 0 < l * L) by (apply Rmult_lt_0_compat; lra). rewrite Rabs_mult, (Rabs_pos_eq (/ (l * L))) by (left; now apply Rinv_0_lt_compat).
    apply (Rmult_le_reg_r (l * L)); auto. rewrite Rmult_assoc, Rinv_l, Rmult_1_r by lra. eapply Rle_trans; [apply Rabs_triang|]. rewrite !Rabs_mult, (Rabs_pos_eq L) by lra.
    assert (A : Rabs (D' - D) * L <= U * L * L) by (apply Rmult_le_compat_r; [lra|]; eapply Rle_trans; [exact E|]; apply Rmult_le_compat_l; lra).
    assert (B : Rabs D * Rabs (L - l) <= L * (31/10 * U * L)) by (apply Rmult_le_compat; try apply Rabs_pos; auto; apply Rabs_le; lra).
    assert (C : U * L * (L * (1 - 31/10 * / 1000000)) <= U * L * l) by (apply Rmult_le_compat_l; lra). assert (Z : 0 < U * L * L) by (apply Rmult_lt_0_compat; lra). lra. }
  assert (Q : Rabs (D / L) <= 1) by (unfold Rdiv; rewrite Rabs_mult, (Rabs_pos_eq (/ L)) by (left; now apply Rinv_0_lt_compat); apply (Rmult_le_reg_r L); auto; rewrite Rmult_assoc, Rinv_l by lra; lra).
  pose proof (rnd_far (D' / l)) as R. assert (Q' : Rabs (D' / l) <= 1 + 42/10 * U) by (replace (D' / l) with ((D' / l - D / L) + D / L) by ring; eapply Rle_trans; [apply Rabs_triang|]; lra).
  assert (UQ : U * Rabs (D' / l) <= U * (101/100)) by (apply Rmult_le_compat_l; lra). replace (rnd (D' / l) - D / L) with ((rnd (D' / l) - D' / l) + (D' / l - D / L)) by ring. eapply Rle_trans; [apply Rabs_triang|]. lra.
Qed.
Lemma prod_near a a' b b' B : Rabs a <= 1 -> Rabs (a' - a) <= 6 * U -> Rabs (b' - b) <= U * Rabs b -> Rabs b <= B ->
  Rabs (rnd (a' * b') - a * b) <= 81/10 * U * B + T /\ Rabs (rnd (a' * b')) <= 102/100 * B + T.
Proof.
  intros A E F H. pose proof U_tiny as UT. pose proof (Rabs_pos b) as B0. assert (UB : 0 <= U * B) by (apply Rmult_le_pos; lra). assert (UB' : U * B <= / 1000000 * B) by (apply Rmult_le_compat_r; lra). assert (Ub : U * Rabs b <= U * B) by (apply Rmult_le_compat_l; lra).
  assert (B' : Rabs b' <= (1 + / 1000000) * B) by (replace b' with ((b' - b) + b) by ring; eapply Rle_trans; [apply Rabs_triang|]; lra).
  assert (P : Rabs (a' * b' - a * b) <= 701/100 * U * B).
  { replace (a' * b' - a * b) with ((a' - a) * b' + a * (b' - b)) by ring. eapply Rle_trans; [apply Rabs_triang|]. rewrite !Rabs_mult.
    assert (Rabs (a' - a) * Rabs b' <= 6 * U * ((1 + / 1000000) * B)) by (apply Rmult_le_compat; auto; apply Rabs_pos). assert (Rabs a * Rabs (b' - b) <= 1 * (U * B)) by (apply Rmult_le_compat; try apply Rabs_pos; lra). lra. }
  assert (M : Rabs (a * b) <= B) by (rewrite Rabs_mult; assert (Rabs a * Rabs b <= 1 * B) by (apply Rmult_le_compat; try apply Rabs_pos; lra); lra).
  assert (M' : Rabs (a' * b') <= 101/100 * B) by (replace (a' * b') with ((a' * b' - a * b) + a * b) by ring; eapply Rle_trans; [apply Rabs_triang|]; lra).
  pose proof (rnd_far (a' * b')) as R. assert (UM : U * Rabs (a' * b') <= U * (101/100 * B)) by (apply Rmult_le_compat_l; lra). split.
  - replace (rnd (a' * b') - a * b) with ((rnd (a' * b') - a' * b') + (a' * b' - a * b)) by ring. eapply Rle_trans; [apply Rabs_triang|]. lra.
  - replace (rnd (a' * b')) with ((rnd (a' * b') - a' * b') + a' * b') by ring. eapply Rle_trans; [apply Rabs_triang|]. lra.
Qed.
Lemma dot_near a a' b b' : Rabs (vx a) <= 1 -> Rabs (vy a) <= 1 -> Rabs (vx a' - vx a) <= 6 * U -> Rabs (vy a' - vy a) <= 6 * U -> Rabs (vx b' - vx b) <= U * Rabs (vx b) -> Rabs (vy b' - vy b) <= U * Rabs (vy b) ->
  Rabs (f_dot a' b' - (vx a * vx b + vy a * vy b)) <= 19 * U * vlength b + 4 * T.
Proof.
  intros A1 A2 E1 E2 F1 F2. destruct (len_coord b) as [B1 B2]. destruct (prod_near _ _ _ _ _ A1 E1 F1 B1) as [P1 P2]. destruct (prod_near _ _ _ _ _ A2 E2 F2 B2) as [Q1 Q2].
  pose proof U_tiny as UT. pose proof T_pos as TP. assert (P : 0 <= vlength b) by apply sqrt_pos. assert (UP : 0 <= U * vlength b) by (apply Rmult_le_pos; lra). assert (UTT : U * T <= / 1000000 * T) by (apply Rmult_le_compat_r; lra).
  destruct (sum_near _ _ _ _ _ _ _ _ P1 Q1 P2 Q2) as [S _]. unfold f_dot. eapply Rle_trans; [exact S|]. lra.
Qed.

(** ** The distance *)
(** [n] is off a unit vector that points away from every point of the wall by at most 6 units of rounding. *)
Definition away_from (x a b n : vec) : Prop :=
  exists m, vx m * vx m + vy m * vy m = 1 /\ Rabs (vx n - vx m) <= 6 * U /\ Rabs (vy n - vy m) <= 6 * U /\
    forall p, on_segment a b p -> 0 < vx m * (vx x - vx p) + vy m * (vy x - vy p).
Theorem f_distance_near hypot x r a b e : good_hypot hypot -> vdouble x -> vdouble a -> vdouble b -> powerRZ 2 (-900) <= edist a b -> segment_distance a b x e ->
  Rabs (fst (f_distance_circle_line hypot x r a b) - (e - r)) <= 40 * U * (edist x a + edist x b) + U * Rabs r + 32 * T /\
  ((40 * U * (edist x a + edist x b) + U * Rabs r + 32 * T) * (edist x a + edist x b) < e * e ->
   away_from x a b (snd (f_distance_circle_line hypot x r a b))).
Proof.
  intros H X A B LL SD. pose proof U_tiny as UT. pose proof T_pos as TP. pose proof T_small as TS.
  set (L := edist a b) in *. assert (LT : 2 * T <= U * (U * L) / 100).
  { rewrite <- pow2 in LL. assert (2 * T <= U * (U * bpow radix2 (-900)) / 100); [|assert (U * (U * bpow radix2 (-900)) <= U * (U * L)) by (apply Rmult_le_compat_l; [lra|]; apply Rmult_le_compat_l; lra); lra]. unfold T.
    replace (bpow radix2 (-1075)) with (bpow radix2 (-175) * bpow radix2 (-900)) by (rewrite <- bpow_plus; reflexivity). pose proof (bpow_gt_0 radix2 (-900)). assert (V : bpow radix2 (-175) = / 47890485652059026823698344598447161988085597568237568) by reflexivity. rewrite V, U_val. lra. }
  assert (LP : 0 < L) by (pose proof (bpow_gt_0 radix2 (-900)) as K; rewrite pow2 in K; lra).
  assert (LT0 : 0 <= U * L) by (apply Rmult_le_pos; lra). assert (LT' : U * (U * L) <= / 1000000 * (U * L)) by (apply Rmult_le_compat_r; lra).
  set (S := edist x a + edist x b). assert (P0 : 0 <= edist x a) by apply sqrt_pos. assert (P1 : 0 <= edist x b) by apply sqrt_pos. assert (CA : edist a x = edist x a) by (unfold edist; f_equal; ring). assert (LS : L <= S) by (unfold L, S; rewrite <- CA; apply edist_triangle).
  assert (US : 0 < U * S) by (apply Rmult_lt_0_compat; lra). assert (ULS : U * L <= U * S) by (apply Rmult_le_compat_l; lra). assert (US' : U * S <= / 1000000 * S) by (apply Rmult_le_compat_r; lra). assert (UTT : 0 <= U * T <= / 1000000 * T) by (split; [apply Rmult_le_pos|apply Rmult_le_compat_r]; lra).
  unfold f_distance_circle_line. cbv zeta. set (d := f_vsub b a). set (lw := hypot (vx d) (vy d)). set (q0 := f_vsub x a). set (q1 := f_vsub x b).
  assert (LW : Rabs (lw - L) <= 31/10 * U * L). { pose proof (length_near hypot b a H B A) as E. cbv zeta in E. fold d lw in E. assert (C : edist b a = L) by (unfold L, edist; f_equal; ring). rewrite C in E. lra. }
  destruct (sub_near b a B A) as [D1 D2]. fold d in D1, D2. destruct (sub_near x a X A) as [E1 E2]. fold q0 in E1, E2. destruct (sub_near x b X B) as [G1 G2]. fold q1 in G1, G2.
  assert (LE : vlength (vsub b a) = L) by (unfold L, edist, vlength, vsub; cbn; f_equal; ring). destruct (len_coord (vsub b a)) as [C1 C2]. rewrite LE in C1, C2.
  pose proof (unit_near _ _ _ _ LP C1 D1 LW) as T1. pose proof (unit_near _ _ _ _ LP C2 D2 LW) as T2.
  set (tw := f_vdiv d lw). set (t := V (vx (vsub b a) / L) (vy (vsub b a) / L)).
  assert (I : forall z, Rabs z <= L -> Rabs (z / L) <= 1) by (intros z Z; unfold Rdiv; rewrite Rabs_mult, (Rabs_pos_eq (/ L)) by (left; now apply Rinv_0_lt_compat); apply (Rmult_le_reg_r L); auto; rewrite Rmult_assoc, Rinv_l by lra; lra).
  assert (UN : vx t * vx t + vy t * vy t = 1).
  { assert (Q : L * L = vx (vsub b a) * vx (vsub b a) + vy (vsub b a) * vy (vsub b a)). { rewrite <- LE. unfold vlength. apply sqrt_sqrt. pose proof (Rle_0_sqr (vx (vsub b a))) as K1. pose proof (Rle_0_sqr (vy (vsub b a))) as K2. unfold Rsqr in *. lra. }
    unfold t. cbn [vx vy]. replace (_ + _) with ((vx (vsub b a) * vx (vsub b a) + vy (vsub b a) * vy (vsub b a)) / (L * L)) by (field; lra). rewrite <- Q. field. lra. }
  pose proof (dot_near t tw _ _ (I _ C1) (I _ C2) T1 T2 E1 E2) as K0. pose proof (dot_near t tw _ _ (I _ C1) (I _ C2) T1 T2 G1 G2) as K1.
  assert (K2 : Rabs (f_dot (rotate90 tw) q0 - (- vy t * vx (vsub x a) + vx t * vy (vsub x a))) <= 19 * U * vlength (vsub x a) + 4 * T).
  { apply (dot_near (V (- vy t) (vx t)) (rotate90 tw)); cbn [vx vy rotate90]; auto; [rewrite Rabs_Ropp; exact (I _ C2)|exact (I _ C1)|]. replace (- vy tw - - vy t) with (- (vy tw - vy t)) by ring. rewrite Rabs_Ropp. exact T2. }
  set (tau := vx t * vx (vsub x a) + vy t * vy (vsub x a)) in *. set (p := - vy t * vx (vsub x a) + vx t * vy (vsub x a)) in *.
  assert (TL : vx t * L = vx (vsub b a) /\ vy t * L = vy (vsub b a)) by (unfold t; cbn [vx vy]; split; field; lra). destruct TL as [TX TY].
  assert (TB : vx t * vx (vsub x b) + vy t * vy (vsub x b) = tau - L).
  { unfold tau. assert (Z1 : vx (vsub x b) = vx (vsub x a) - vx t * L) by (rewrite TX; unfold vsub; cbn; ring). assert (Z2 : vy (vsub x b) = vy (vsub x a) - vy t * L) by (rewrite TY; unfold vsub; cbn; ring). rewrite Z1, Z2. replace (_ + _) with (vx t * vx (vsub x a) + vy t * vy (vsub x a) - (vx t * vx t + vy t * vy t) * L) by ring. rewrite UN. ring. }
  rewrite TB in K1. assert (V0 : vlength (vsub x a) = edist x a) by reflexivity. assert (V1 : vlength (vsub x b) = edist x b) by reflexivity. rewrite V0 in K0, K2. rewrite V1 in K1.
  assert (FP : forall l, edist x (along a b l) = far (tau - l * L) p).
  { intros l. unfold edist, far, along. cbn [vx vy]. f_equal. assert (Z1 : vx x - (vx a + l * (vx b - vx a)) = vx (vsub x a) - l * (vx t * L)) by (rewrite TX; unfold vsub; cbn; ring). assert (Z2 : vy x - (vy a + l * (vy b - vy a)) = vy (vsub x a) - l * (vy t * L)) by (rewrite TY; unfold vsub; cbn; ring).
    rewrite Z1, Z2. unfold tau, p. set (mx := vx (vsub x a)). set (my := vy (vsub x a)). set (tx := vx t) in *. set (ty := vy t) in *.
    replace ((tx * mx + ty * my - l * L) * (tx * mx + ty * my - l * L) + (- ty * mx + tx * my) * (- ty * mx + tx * my)) with ((tx * tx + ty * ty) * (mx * mx + my * my) - 2 * (l * L) * (tx * mx + ty * my) + l * L * (l * L)) by ring. rewrite UN.
    replace ((mx - l * (tx * L)) * (mx - l * (tx * L)) + (my - l * (ty * L)) * (my - l * (ty * L))) with (mx * mx + my * my - 2 * (l * L) * (tx * mx + ty * my) + l * L * (l * L) * (tx * tx + ty * ty)) by ring. rewrite UN. ring. }
  destruct SD as [(pt & (l0 & Hl0 & ->) & Ee) Least]. rewrite FP in Ee.
  assert (AM : forall l, 0 <= l <= 1 -> e <= far (tau - l * L) p) by (intros l Hl; rewrite <- FP; apply Least; exists (along a b l); split; [now exists l|reflexivity]).
  assert (RE : exists l, 0 <= l <= 1 /\ e = far (tau - l * L) p) by now exists l0.
  assert (A0 : edist x a = far tau p) by (replace tau with (tau - 0 * L) at 1 by ring; rewrite <- FP; f_equal; destruct a; unfold along; cbn; f_equal; ring).
  assert (A1 : edist x b = far (tau - L) p) by (replace (tau - L) with (tau - 1 * L) at 1 by ring; rewrite <- FP; f_equal; destruct a, b; unfold along; cbn; f_equal; ring).
  assert (BT : Rabs tau <= edist x a) by (rewrite A0; unfold far; rewrite Rplus_comm; apply (far_low p tau)). assert (BT' : Rabs (tau - L) <= edist x b) by (rewrite A1; unfold far; rewrite Rplus_comm; apply (far_low p (tau - L))).
  assert (U0 : 0 <= U * edist x a <= / 1000000 * edist x a) by (split; [apply Rmult_le_pos|apply Rmult_le_compat_r]; lra). assert (U1 : 0 <= U * edist x b <= / 1000000 * edist x b) by (split; [apply Rmult_le_pos|apply Rmult_le_compat_r]; lra).
  assert (USE : U * S = U * edist x a + U * edist x b) by (unfold S; ring).
  set (lt := rnd (- f_dot tw q1 - f_dot tw q0)).
  assert (LTN : Rabs (lt - (L - 2 * tau)) <= 201/10 * U * S + 10 * T).
  { apply Rabs_le_inv in K0. apply Rabs_le_inv in K1. apply Rabs_le_inv in BT. apply Rabs_le_inv in BT'.
    assert (M : Rabs (- f_dot tw q1 - f_dot tw q0) <= 101/100 * S + 8 * T) by (apply Rabs_le; unfold S; lra). pose proof (rnd_far (- f_dot tw q1 - f_dot tw q0)) as F. fold lt in F. apply Rabs_le_inv in F.
    assert (UM : U * Rabs (- f_dot tw q1 - f_dot tw q0) <= U * (101/100 * S + 8 * T)) by (apply Rmult_le_compat_l; lra). apply Rabs_le. lra. }
  apply Rabs_le_inv in LTN. apply Rabs_le_inv in LW.
  assert (EB : 0 <= e <= edist x a /\ e <= edist x b).
  { split; [split; [destruct RE as (l & _ & ->); apply sqrt_pos|]|]; [rewrite A0; pose proof (AM 0 ltac:(lra)) as K; now replace (tau - 0 * L) with tau in K by ring|rewrite A1; pose proof (AM 1 ltac:(lra)) as K; now replace (tau - 1 * L) with (tau - L) in K by ring]. }
  set (W := 40 * U * S + U * Rabs r + 32 * T). assert (UR : 0 <= U * Rabs r) by (apply Rmult_le_pos; [lra|apply Rabs_pos]). assert (SP : 0 < S) by lra. assert (WP : 0 < W) by (unfold W; lra).
  assert (MAIN : forall di ni, Rabs (di - e) <= 31 * U * S + 9 * T -> (W < e -> W * S < e * e -> away_from x a b ni) ->
    Rabs (fst (rnd (di - r), ni) - (e - r)) <= W /\ (W * S < e * e -> away_from x a b (snd (rnd (di - r), ni)))).
  { intros di ni M AW. cbn [fst snd]. split.
    2:{ intros WE. apply AW; auto. apply (Rmult_lt_reg_r S); auto. eapply Rlt_le_trans; [exact WE|]. apply Rmult_le_compat_l; unfold S; lra. }
    pose proof (rnd_far (di - r)) as F. apply Rabs_le_inv in M. pose proof (Rabs_triang di (- r)) as N. fold (di - r) in N. rewrite Rabs_Ropp in N. assert (Dd : Rabs di <= 101/100 * S + 9 * T) by (apply Rabs_le; unfold S in *; lra).
    assert (UM : U * Rabs (di - r) <= U * (101/100 * S + 9 * T + Rabs r)) by (apply Rmult_le_compat_l; lra). apply Rabs_le_inv in F. apply Rabs_le. unfold W. lra. }
  set (eps := 116/10 * U * S + 5 * T). assert (EP : 0 <= eps) by (unfold eps; lra). assert (EW : eps <= W) by (unfold eps, W; lra).
  assert (LEW : L * eps <= W * S) by (rewrite (Rmult_comm W S); apply Rmult_le_compat; lra).
  assert (END : forall w, vdouble w -> W < e -> e <= edist x w -> (forall l, 0 <= l <= 1 -> 0 < vx (vsub x w) * (vx x - vx (along a b l)) + vy (vsub x w) * (vy x - vy (along a b l))) ->
    away_from x a b (f_vdiv (f_vsub x w) (hypot (vx (f_vsub x w)) (vy (f_vsub x w))))).
  { intros w DW We Ew Pos. set (B' := edist x w) in *. assert (BP : 0 < B') by lra. assert (UB : U * (40 * (U * S)) <= U * B') by (apply Rmult_le_compat_l; unfold W in *; lra).
    assert (UUS : U * (U * L) <= U * (U * S)) by (apply Rmult_le_compat_l; lra). pose proof (length_near hypot x w H X DW) as N. cbv zeta in N. fold B' in N.
    assert (UBP : 0 < U * B') by (apply Rmult_lt_0_compat; lra). assert (N' : Rabs (hypot (vx (f_vsub x w)) (vy (f_vsub x w)) - B') <= 31/10 * U * B') by lra.
    destruct (len_coord (vsub x w)) as [Q1 Q2]. change (vlength (vsub x w)) with B' in Q1, Q2. destruct (sub_near x w X DW) as [Z1 Z2].
    exists (V (vx (vsub x w) / B') (vy (vsub x w) / B')). cbn [vx vy]. split; [|split; [exact (unit_near _ _ _ _ BP Q1 Z1 N')|split; [exact (unit_near _ _ _ _ BP Q2 Z2 N')|]]].
    - assert (Q : B' * B' = vx (vsub x w) * vx (vsub x w) + vy (vsub x w) * vy (vsub x w)) by exact (vlength_sq (vsub x w)). replace (_ + _) with ((vx (vsub x w) * vx (vsub x w) + vy (vsub x w) * vy (vsub x w)) / (B' * B')) by (field; lra). rewrite <- Q. field. lra.
    - intros p0 (l & Hl & ->). replace (_ + _) with ((vx (vsub x w) * (vx x - vx (along a b l)) + vy (vsub x w) * (vy x - vy (along a b l))) * / B') by (field; lra). apply Rmult_lt_0_compat; [now apply Pos|now apply Rinv_0_lt_compat]. }
  destruct (Rlt_bool_spec lw lt) as [Q|Q]; [|destruct (Rlt_bool_spec lt (- lw)) as [Q'|Q']].
  - apply MAIN.
    + pose proof (geo_first L tau p e LP AM RE eps EP ltac:(unfold eps; lra)) as Z. rewrite <- A0 in Z. pose proof (length_near hypot x a H X A) as N. cbv zeta in N. fold q0 in N. apply Rabs_le_inv in Z. apply Rabs_le_inv in N. apply Rabs_le. unfold eps in Z. lra.
    + intros We WS. apply END; auto; [lra|]. intros l Hl. assert (TE : tau <= eps) by (unfold eps; lra). assert (O : vx (vsub x a) * (vx x - vx (along a b l)) + vy (vsub x a) * (vy x - vy (along a b l)) = edist x a * edist x a - l * (L * tau)).
      { rewrite <- V0, vlength_sq. unfold tau. replace (L * (vx t * vx (vsub x a) + vy t * vy (vsub x a))) with (vx t * L * vx (vsub x a) + vy t * L * vy (vsub x a)) by ring. rewrite TX, TY. unfold vsub, along. cbn [vx vy]. ring. }
      rewrite O. assert (e * e <= edist x a * edist x a) by (apply Rmult_le_compat; lra). assert (L * tau <= L * eps) by (apply Rmult_le_compat_l; lra). destruct (Rle_dec (L * tau) 0) as [Z|Z]; [|assert (l * (L * tau) <= 1 * (L * tau)) by (apply Rmult_le_compat_r; lra); lra].
      assert (l * (L * tau) <= l * 0) by (apply Rmult_le_compat_l; lra). assert (0 < W * S) by (apply Rmult_lt_0_compat; lra). lra.
  - apply MAIN.
    + pose proof (geo_last L tau p e LP AM RE eps EP ltac:(unfold eps; lra)) as Z. rewrite <- A1 in Z. pose proof (length_near hypot x b H X B) as N. cbv zeta in N. fold q1 in N. apply Rabs_le_inv in Z. apply Rabs_le_inv in N. apply Rabs_le. unfold eps in Z. lra.
    + intros We WS. apply END; auto; [lra|]. intros l Hl. assert (TE : - eps <= tau - L) by (unfold eps; lra). assert (O : vx (vsub x b) * (vx x - vx (along a b l)) + vy (vsub x b) * (vy x - vy (along a b l)) = edist x b * edist x b + (1 - l) * (L * (tau - L))).
      { rewrite <- V1, vlength_sq, <- TB. replace (L * (vx t * vx (vsub x b) + vy t * vy (vsub x b))) with (vx t * L * vx (vsub x b) + vy t * L * vy (vsub x b)) by ring. rewrite TX, TY. unfold vsub, along. cbn [vx vy]. ring. }
      rewrite O. assert (e * e <= edist x b * edist x b) by (apply Rmult_le_compat; lra). assert (L * - eps <= L * (tau - L)) by (apply Rmult_le_compat_l; lra). destruct (Rle_dec 0 (L * (tau - L))) as [Z|Z].
      * assert (0 <= (1 - l) * (L * (tau - L))) by (apply Rmult_le_pos; lra). assert (0 < W * S) by (apply Rmult_lt_0_compat; lra). lra.
      * assert ((1 - l) * - (L * (tau - L)) <= 1 * - (L * (tau - L))) by (apply Rmult_le_compat_r; lra). lra.
  - assert (Z : Rabs (e - Rabs p) <= eps) by (apply (geo_middle L tau p e LP AM RE eps EP); unfold eps; lra). apply Rabs_le_inv in Z. apply MAIN.
    + pose proof (Rabs_triang_inv2 (f_dot (rotate90 tw) q0) p) as N. apply Rabs_le_inv in N. pose proof K2 as K3. apply Rabs_le. unfold eps in Z. lra.
    + intros We WS. assert (PB : 19 * U * edist x a + 4 * T < Rabs p) by (unfold eps, W in *; lra). assert (PX : forall l, vx x - vx (along a b l) = vx (vsub x a) - l * (vx t * L) /\ vy x - vy (along a b l) = vy (vsub x a) - l * (vy t * L)) by (intros l; rewrite TX, TY; unfold vsub, along; cbn [vx vy]; split; ring).
      assert (DOT : forall l, - vy t * (vx x - vx (along a b l)) + vx t * (vy x - vy (along a b l)) = p) by (intros l; destruct (PX l) as [-> ->]; unfold p; ring).
      apply Rabs_le_inv in K2. unfold rsign. destruct (Rle_dec 0 p) as [SG|SG].
      * rewrite Rabs_pos_eq in PB by lra. rewrite (proj2 (Rltb_true 0 (f_dot (rotate90 tw) q0))) by lra. exists (V (- vy t) (vx t)). unfold f_scale. cbn [vx vy rotate90]. rewrite !Rmult_1_l. assert (F : fmt (vx tw) /\ fmt (vy tw)) by (split; apply rnd_fmt). destruct F as [F1 F2]. rewrite (rnd_id (vx tw)), (rnd_id (- vy tw)) by auto using generic_format_opp.
        split; [lra|]. split; [replace (- vy tw - - vy t) with (- (vy tw - vy t)) by ring; rewrite Rabs_Ropp; exact T2|]. split; [exact T1|]. intros p0 (l & Hl & ->). rewrite DOT. lra.
      * rewrite Rabs_left in PB by lra. rewrite (proj2 (Rltb_false 0 (f_dot (rotate90 tw) q0))) by lra. rewrite (proj2 (Rltb_true (f_dot (rotate90 tw) q0) 0)) by lra. exists (V (vy t) (- vx t)). unfold f_scale. cbn [vx vy rotate90]. assert (F : fmt (vx tw) /\ fmt (vy tw)) by (split; apply rnd_fmt). destruct F as [F1 F2].
        replace (-1 * vx tw) with (- vx tw) by ring. replace (-1 * - vy tw) with (vy tw) by ring. rewrite (rnd_id (vy tw)), (rnd_id (- vx tw)) by auto using generic_format_opp.
        split; [lra|]. split; [exact T2|]. split; [replace (- vx tw - - vx t) with (- (vx tw - vx t)) by ring; rewrite Rabs_Ropp; exact T1|]. intros p0 (l & Hl & ->). pose proof (DOT l). lra.
Qed.
