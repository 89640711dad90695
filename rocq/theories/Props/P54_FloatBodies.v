(** * Property C153: three-circle agents at walls in double precision *)
From Coq Require Import Reals ZArith List Lra Lia.
From Flocq Require Import Core.
From Verif Require Import Model.Floats Model.Distance Model.Interactions Proofs.VecLemmas Proofs.FloatProofs Proofs.FloatForcesProofs Proofs.FloatContact Proofs.FloatSamplingProofs.
From Verif Require Import Proofs.FloatDistance Props.P49_FloatWalls Props.P53_FloatDistance.
From Verif Require Import Model.FloatBodies.
Import ListNotations.
Open Scope R_scope.

(** Positions and radii are doubles, the wall is not of length zero (nearly). *)
Definition tri_doubles (x : tri vec) : Prop := forall i, (i < 3)%nat -> vdouble (tget x i).
(** What the program computes is what it computes for one of the circles, and not more than for the others. *)
Lemma scan hypot x r a b : exists i n, (i < 3)%nat /\ let h := fst (f_distance_circle_line hypot (tget x i) (tget r i) a b) in
  n = snd (f_distance_circle_line hypot (tget x i) (tget r i) a b) /\
  f_distance_three_circle_line hypot x r a b = Some (h, n, f_vsub (f_vsub (tget x i) (f_scale (tget r i) n)) (t_0 x)) /\
  forall k, (k < 3)%nat -> h <= fst (f_distance_circle_line hypot (tget x k) (tget r k) a b).
Proof.
  unfold f_distance_three_circle_line, idx3. cbn [fold_left]. unfold f_scan3_step.
  destruct (f_distance_circle_line hypot (tget x 0) (tget r 0) a b) as [h0 n0] eqn:E0. destruct (f_distance_circle_line hypot (tget x 1) (tget r 1) a b) as [h1 n1] eqn:E1. destruct (f_distance_circle_line hypot (tget x 2) (tget r 2) a b) as [h2 n2] eqn:E2.
  assert (K : forall h, h <= h0 -> h <= h1 -> h <= h2 -> forall k, (k < 3)%nat -> h <= fst (f_distance_circle_line hypot (tget x k) (tget r k) a b)).
  { intros h A B C [|[|[|k]]] Hk; [rewrite E0|rewrite E1|rewrite E2|lia]; assumption. }
  destruct (Rlt_bool_spec h1 h0) as [A|A].
  - destruct (Rlt_bool_spec h2 h1) as [B|B]; [exists 2%nat, n2; rewrite E2|exists 1%nat, n1; rewrite E1]; (split; [lia|]; split; [reflexivity|]; split; [reflexivity|]; cbn [fst]; apply K; lra).
  - destruct (Rlt_bool_spec h2 h0) as [B|B]; [exists 2%nat, n2; rewrite E2|exists 0%nat, n0; rewrite E0]; (split; [lia|]; split; [reflexivity|]; split; [reflexivity|]; cbn [fst]; apply K; lra).
Qed.
Lemma lever_near x y r n : fmt x -> fmt y -> Rabs (rnd (rnd (x - rnd (r * n)) - y) - (x - r * n - y)) <= 4 * U * (Rabs x + Rabs (r * n) + Rabs y) + 2 * T.
Proof.
  intros X Y. pose proof U_tiny. pose proof T_pos. set (q := r * n). pose proof (rnd_far q) as A. pose proof (plus_off x (- rnd q) X (generic_format_opp _ _ _ (rnd_fmt q))) as B. fold (x - rnd q) in B. pose proof (plus_off (rnd (x - rnd q)) (- y) (rnd_fmt _) (generic_format_opp _ _ _ Y)) as C. fold (rnd (x - rnd q) - y) in C.
  pose proof (Rabs_pos x). pose proof (Rabs_pos q). pose proof (Rabs_pos y). assert (UQ : 0 <= U * Rabs q <= / 1000000 * Rabs q) by (split; [apply Rmult_le_pos|apply Rmult_le_compat_r]; lra). assert (UX : 0 <= U * Rabs x <= / 1000000 * Rabs x) by (split; [apply Rmult_le_pos|apply Rmult_le_compat_r]; lra). assert (UY : 0 <= U * Rabs y) by (apply Rmult_le_pos; lra). assert (UTT : 0 <= U * T <= / 1000000 * T) by (split; [apply Rmult_le_pos|apply Rmult_le_compat_r]; lra).
  assert (Q : Rabs (rnd q) <= 1001/1000 * Rabs q + T) by (replace (rnd q) with ((rnd q - q) + q) by ring; eapply Rle_trans; [apply Rabs_triang|]; lra).
  assert (D : Rabs (x - rnd q) <= Rabs x + (1001/1000 * Rabs q + T)) by (eapply Rle_trans; [apply Rabs_triang|]; rewrite Rabs_Ropp; lra). assert (UD : U * Rabs (x - rnd q) <= U * (Rabs x + (1001/1000 * Rabs q + T))) by (apply Rmult_le_compat_l; lra).
  assert (D' : Rabs (rnd (x - rnd q)) <= 101/100 * (Rabs x + Rabs q + T)) by (replace (rnd (x - rnd q)) with ((rnd (x - rnd q) - (x - rnd q)) + (x - rnd q)) by ring; eapply Rle_trans; [apply Rabs_triang|]; lra).
  assert (E : Rabs (rnd (x - rnd q) - y) <= 101/100 * (Rabs x + Rabs q + T) + Rabs y) by (eapply Rle_trans; [apply Rabs_triang|]; rewrite Rabs_Ropp; lra). assert (UE : U * Rabs (rnd (x - rnd q) - y) <= U * (101/100 * (Rabs x + Rabs q + T) + Rabs y)) by (apply Rmult_le_compat_l; lra).
  apply Rabs_le_inv in A. apply Rabs_le_inv in B. apply Rabs_le_inv in C. apply Rabs_le. lra.
Qed.
Lemma f_vsub_x a b : vx (f_vsub a b) = rnd (vx a - vx b). Proof. reflexivity. Qed.
Lemma f_vsub_y a b : vy (f_vsub a b) = rnd (vy a - vy b). Proof. reflexivity. Qed.

(** The gap returned is the least of the gaps of the circles, with the normal and the lever arm of the circle
    that has it, up to rounding. *)
Theorem C153_distance : forall hypot x r a b e, good_hypot hypot -> tri_doubles x -> vdouble a -> vdouble b -> powerRZ 2 (-900) <= edist a b ->
  (forall i, (i < 3)%nat -> segment_distance a b (tget x i) (e i)) ->
  exists h n m i, f_distance_three_circle_line hypot x r a b = Some (h, n, m) /\ (i < 3)%nat /\
    Rabs (h - (e i - tget r i)) <= wall_error (tget x i) (tget r i) a b /\
    (forall k, (k < 3)%nat -> h <= e k - tget r k + wall_error (tget x k) (tget r k) a b) /\
    n = snd (f_distance_circle_line hypot (tget x i) (tget r i) a b) /\
    forall c, c = vx \/ c = vy -> Rabs (c m - (c (tget x i) - tget r i * c n - c (tget x 0))) <=
      powerRZ 2 (-51) * (Rabs (c (tget x i)) + Rabs (tget r i * c n) + Rabs (c (tget x 0))) + powerRZ 2 (-1074).
Proof.
  intros hypot x r a b e H X A B L SD. destruct (scan hypot x r a b) as (i & n & I & N & E & M). cbv zeta in *. do 4 eexists. split; [exact E|]. split; [exact I|]. split; [now apply C152_distance; auto|]. split; [|split; [exact N|]].
  - intros k K. specialize (M k K). pose proof (C152_distance hypot (tget x k) (tget r k) a b (e k) H (X k K) A B L (SD k K)) as D. apply Rabs_le_inv in D. lra.
  - intros c C. assert (V1 : powerRZ 2 (-51) = 4 * U) by (rewrite U_val, <- pow2; assert (V : bpow radix2 (-51) = / 2251799813685248) by reflexivity; rewrite V; lra).
    assert (V2 : powerRZ 2 (-1074) = 2 * T) by (unfold T; rewrite <- pow2; replace (bpow radix2 (-1074)) with (bpow radix2 1 * bpow radix2 (-1075)) by (rewrite <- bpow_plus; reflexivity); reflexivity).
    rewrite V1, V2. destruct (X i I) as [X1 X2]. destruct (X 0%nat ltac:(lia)) as [Y1 Y2]. apply double_fmt in X1, X2, Y1, Y2. destruct C as [-> | ->]; [rewrite !f_vsub_x|rewrite !f_vsub_y]; now apply lever_near.
Qed.
Print Assumptions C153_distance.

(** Clear of every wall with all three circles by more than the error: not pushed or turned, in any crowd and room. *)
Theorem C153_clear : forall hypot agents walls i a, good_hypot hypot -> nth_error agents i = Some a -> tri_doubles (xs_of a) ->
  (forall o, In o walls -> wall_doubles o /\ powerRZ 2 (-900) <= edist (p0 o) (p1 o) /\
     forall k, (k < 3)%nat -> exists e, segment_distance (p0 o) (p1 o) (tget (xs_of a) k) e /\
       tget (rs_of a) k + wall_error (tget (xs_of a) k) (tget (rs_of a) k) (p0 o) (p1 o) <= e) ->
  nth_error (f_agent_three_circle_obstacle hypot agents walls) i = Some a.
Proof.
  intros hypot agents walls i a H N X W. unfold f_agent_three_circle_obstacle. rewrite nth_error_map, N. cbn [option_map]. f_equal.
  induction walls as [|o walls IH]; cbn [fold_left]; auto. assert (E : f_obstacle_three_circle hypot a o = a); [|rewrite E; apply IH; intros o' I; apply W; now right].
  destruct (W o (or_introl eq_refl)) as ((A & B) & L & C). unfold f_obstacle_three_circle. destruct (scan hypot (xs_of a) (rs_of a) (p0 o) (p1 o)) as (k & n & K & _ & E & _). rewrite E.
  destruct (C k K) as (e & SD & G). pose proof (C152_distance hypot _ (tget (rs_of a) k) _ _ e H (X k K) A B L SD) as D. apply Rabs_le_inv in D. rewrite Rlt_bool_false by lra. reflexivity.
Qed.
Print Assumptions C153_clear.

(** Whoever overlaps a wall with one circle by more than the error gets the force of contact at the deepest circle (up
    to the error), and the torque of that force at the lever arm. *)
Theorem C153_overlap : forall hypot a o e k, good_hypot hypot -> tri_doubles (xs_of a) -> wall_doubles o -> powerRZ 2 (-900) <= edist (p0 o) (p1 o) ->
  (forall i, (i < 3)%nat -> segment_distance (p0 o) (p1 o) (tget (xs_of a) i) (e i)) ->
  (k < 3)%nat -> e k + wall_error (tget (xs_of a) k) (tget (rs_of a) k) (p0 o) (p1 o) < tget (rs_of a) k ->
  exists h n m, h < 0 /\ f_distance_three_circle_line hypot (xs_of a) (rs_of a) (p0 o) (p1 o) = Some (h, n, m) /\
    let f := f_force_contact h n (a_velocity a) (rotate270 n) (a_mu a) (a_kappa a) (a_damping a) in
    let a' := f_obstacle_three_circle hypot a o in
    a_force a' = f_vadd (a_force a) f /\ a_torque a' = rnd (a_torque a + f_cross m f) /\
    a_position a' = a_position a /\ a_velocity a' = a_velocity a /\
    Rabs (f_cross m f - cross m f) <= powerRZ 2 (-51) * (Rabs (vx m * vy f) + Rabs (vy m * vx f)) + powerRZ 2 (-1073).
Proof.
  intros hypot a o e k H X (A & B) L SD K OV. destruct (C153_distance hypot (xs_of a) (rs_of a) (p0 o) (p1 o) e H X A B L SD) as (h & n & m & i & E & _ & _ & LE & _). specialize (LE k K).
  exists h, n, m. split; [lra|]. split; [exact E|]. cbv zeta. unfold f_obstacle_three_circle. rewrite E, Rlt_bool_true by lra. set (f := f_force_contact h n (a_velocity a) (rotate270 n) (a_mu a) (a_kappa a) (a_damping a)).
  split; [destruct a; reflexivity|]. split; [destruct a; reflexivity|]. split; [destruct a; reflexivity|]. split; [destruct a; reflexivity|].
  assert (V1 : powerRZ 2 (-51) = 4 * U) by (rewrite U_val, <- pow2; assert (V : bpow radix2 (-51) = / 2251799813685248) by reflexivity; rewrite V; lra).
  assert (V2 : powerRZ 2 (-1073) = 4 * T) by (unfold T; rewrite <- pow2; replace (bpow radix2 (-1073)) with (bpow radix2 2 * bpow radix2 (-1075)) by (rewrite <- bpow_plus; reflexivity); reflexivity).
  rewrite V1, V2. pose proof U_tiny. pose proof T_pos. unfold f_cross, cross. set (p := vx m * vy f). set (q := vy m * vx f). pose proof (rnd_far p) as P. pose proof (rnd_far q) as Q. pose proof (rnd_far (rnd p - rnd q)) as S.
  pose proof (Rabs_pos p). pose proof (Rabs_pos q). assert (UP : 0 <= U * Rabs p <= / 1000000 * Rabs p) by (split; [apply Rmult_le_pos|apply Rmult_le_compat_r]; lra). assert (UQ : 0 <= U * Rabs q <= / 1000000 * Rabs q) by (split; [apply Rmult_le_pos|apply Rmult_le_compat_r]; lra). assert (UTT : 0 <= U * T <= / 1000000 * T) by (split; [apply Rmult_le_pos|apply Rmult_le_compat_r]; lra).
  assert (P' : Rabs (rnd p) <= 101/100 * Rabs p + T) by (replace (rnd p) with ((rnd p - p) + p) by ring; eapply Rle_trans; [apply Rabs_triang|]; lra). assert (Q' : Rabs (rnd q) <= 101/100 * Rabs q + T) by (replace (rnd q) with ((rnd q - q) + q) by ring; eapply Rle_trans; [apply Rabs_triang|]; lra).
  assert (D : Rabs (rnd p - rnd q) <= 101/100 * Rabs p + 101/100 * Rabs q + 2 * T) by (eapply Rle_trans; [apply Rabs_triang|]; rewrite Rabs_Ropp; lra). assert (UD : U * Rabs (rnd p - rnd q) <= U * (101/100 * Rabs p + 101/100 * Rabs q + 2 * T)) by (apply Rmult_le_compat_l; lra).
  apply Rabs_le_inv in P. apply Rabs_le_inv in Q. apply Rabs_le_inv in S. apply Rabs_le. lra.
Qed.
Print Assumptions C153_overlap.

(** A wall from (0,0) to (4,3) and a body whose torso overlaps it by a metre while the shoulders are clear of it. *)
Lemma seg_case x c : 0 <= c -> (forall k, edist x (along (V 0 0) (V 4 3) k) = sqrt (c * c + 25 * ((1 - k) * (1 - k)))) -> segment_distance (V 0 0) (V 4 3) x c.
Proof.
  intros C E. split.
  - exists (along (V 0 0) (V 4 3) 1). split; [exists 1; split; [lra|reflexivity]|]. rewrite E. replace (c * c + 25 * ((1 - 1) * (1 - 1))) with (c * c) by ring. now rewrite sqrt_square.
  - intros y (p & (k & Hk & ->) & ->). rewrite E. rewrite <- (sqrt_square c) at 1 by exact C. apply sqrt_le_1_alt. pose proof (Rle_0_sqr (1 - k)) as K. unfold Rsqr in K. lra.
Qed.
Definition body54 : agent := set_position_ls (V (-2) 11) (set_position_rs (V 7 (-1)) (set_r_t 6 (set_r_s 1 (set_position (V 1 7) zero_row)))).
Definition gaps54 (i : nat) : R := match i with 1%nat => 10 | _ => 5 end.
Example C153_case : tri_doubles (xs_of body54) /\ wall_doubles wall53 /\ powerRZ 2 (-900) <= edist (p0 wall53) (p1 wall53) /\
  (forall i, (i < 3)%nat -> segment_distance (p0 wall53) (p1 wall53) (tget (xs_of body54) i) (gaps54 i)) /\
  gaps54 0 + wall_error (tget (xs_of body54) 0) (tget (rs_of body54) 0) (p0 wall53) (p1 wall53) < tget (rs_of body54) 0.
Proof.
  destruct C152_push_case as (W & _ & _ & (OV & _) & _). destruct C152_case as (_ & _ & _ & _ & L & _).
  assert (D : forall n, (Z.abs n <= 16)%Z -> Spec.Doubles.double (IZR n)) by (intros n N; apply (dbl n 0); cbn; lia || lra).
  replace (xs_of body54) with (T3 (V 1 7) (V (-2) 11) (V 7 (-1))) by reflexivity. replace (rs_of body54) with (T3 6 1 1) by reflexivity.
  split; [intros [|[|[|i]]] I; try lia; split; apply D; lia|]. split; [exact W|]. split; [exact L|]. split; [|exact OV].
  intros [|[|[|i]]] I; try lia; apply seg_case; cbn [gaps54 tget t_0 t_1 t_2]; try lra; intros k; unfold edist, along; cbn [vx vy]; f_equal; ring.
Qed.
