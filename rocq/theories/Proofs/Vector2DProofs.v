From Coq Require Import Lra Lia Psatz.
From Verif Require Export Proofs.VecLemmas.
Open Scope R_scope.

(** ** wrap_to_pi *)
Lemma wrap_range rad : - PI <= wrap_to_pi rad <= PI.
Proof.
  unfold wrap_to_pi. pose proof PI_RGT_0.
  pose proof (fmod_range rad (2*PI) two_pi_pos).
  destruct (Rltb rad 0 && Reqb (fmod rad (2 * PI)) PI); [lra|].
  rcase; lra.
Qed.
Lemma wrap_turns rad : exists k : Z, wrap_to_pi rad = rad + 2 * PI * IZR k.
Proof.
  destruct (fmod_decomp rad (2*PI)) as [k Hk].
  unfold wrap_to_pi. destruct (Rltb_spec rad 0); cbn [andb].
  - destruct (Reqb_spec (fmod rad (2*PI)) PI) as [E|E].
    + exists (- k - 1)%Z. rewrite minus_IZR, opp_IZR. rewrite E in Hk. lra.
    + rcase.
      * exists (- k - 1)%Z. rewrite minus_IZR, opp_IZR. lra.
      * exists (-k)%Z. rewrite opp_IZR. lra.
  - rcase.
    + exists (- k - 1)%Z. rewrite minus_IZR, opp_IZR. lra.
    + exists (-k)%Z. rewrite opp_IZR. lra.
Qed.
Lemma wrap_id rad : - PI <= rad <= PI -> wrap_to_pi rad = rad.
Proof.
  intros H. pose proof PI_RGT_0. unfold wrap_to_pi.
  destruct (Rltb_spec rad 0); cbn [andb].
  - rewrite (fmod_unique rad (2*PI) (-1) (rad + 2*PI)) by lra.
    destruct (Reqb_spec (rad + 2*PI) PI); [lra|]. rcase; lra.
  - rewrite (fmod_unique rad (2*PI) 0 rad) by lra. rcase; lra.
Qed.
Lemma wrap_odd k : wrap_to_pi (IZR (2 * k + 1) * PI) = if (0 <=? k)%Z then PI else - PI.
Proof.
  pose proof PI_RGT_0. unfold wrap_to_pi.
  rewrite (fmod_unique (IZR (2*k+1) * PI) (2*PI) k PI) by (rewrite ?plus_IZR, ?mult_IZR; lra).
  replace (Reqb PI PI) with true by (symmetry; now apply Reqb_true).
  rewrite andb_true_r. destruct (Z.leb_spec 0 k) as [Hk|Hk].
  - apply IZR_le in Hk. rewrite plus_IZR, mult_IZR.
    replace (Rltb ((2 * IZR k + 1) * PI) 0) with false by (symmetry; apply Rltb_false; nra).
    rdec. reflexivity.
  - assert (IZR k <= -1) by (apply (IZR_le k (-1)); lia). rewrite plus_IZR, mult_IZR.
    replace (Rltb ((2 * IZR k + 1) * PI) 0) with true by (symmetry; apply Rltb_true; nra).
    reflexivity.
Qed.

(** ** rotations *)
Lemma rotate_inverse v : rotate270 (rotate90 v) = v /\ rotate90 (rotate270 v) = v.
Proof. split; veq; ring. Qed.
Lemma rotate90_length v : elen (rotate90 v) = elen v.
Proof. rewrite !elen_vlength. unfold vlength; cbn. f_equal; ring. Qed.
Lemma rotate270_length v : elen (rotate270 v) = elen v.
Proof. rewrite !elen_vlength. unfold vlength; cbn. f_equal; ring. Qed.
Lemma rotate90_outer v : outer v (rotate90 v) = inner v v /\ inner v (rotate90 v) = 0.
Proof. destruct v; vunfold; split; ring. Qed.
Lemma rotate270_outer v : outer v (rotate270 v) = - inner v v /\ inner v (rotate270 v) = 0.
Proof. destruct v; vunfold; split; ring. Qed.

(** ** normalize, truncate *)
Lemma normalize_zero : normalize vzero = vzero.
Proof.
  unfold normalize. assert (vlength vzero = 0) as -> by now apply vlength_zero.
  replace (Reqb 0 0) with true by (symmetry; now apply Reqb_true). reflexivity.
Qed.
Lemma normalize_nonzero v : v <> vzero -> normalize v = vscale (/ vlength v) v.
Proof.
  intros H. unfold normalize. pose proof (vlength_pos v H).
  destruct (Reqb_spec (vlength v) 0); [lra|]. cbn. veq; field; lra.
Qed.
Lemma normalize_unit v : v <> vzero -> vlength (normalize v) = 1.
Proof.
  intros H. rewrite normalize_nonzero by auto. pose proof (vlength_pos v H).
  rewrite vlength_scale, Rabs_pos_eq by (left; now apply Rinv_0_lt_compat).
  field; lra.
Qed.
Lemma truncate_le v l : vlength v <= l -> truncate v l = v.
Proof. intros H. unfold truncate. rcase; [lra|auto]. Qed.
Lemma truncate_gt v l : 0 <= l -> l < vlength v -> vlength (truncate v l) = l.
Proof.
  intros H0 H. unfold truncate. rcase; [|lra].
  rewrite vlength_scale, Rabs_pos_eq.
  - field. lra.
  - apply Rmult_le_pos; auto. left. apply Rinv_0_lt_compat; lra.
Qed.
Lemma truncate_bound v l : 0 <= l -> vlength (truncate v l) <= l.
Proof.
  intros H0. destruct (Rle_lt_dec (vlength v) l).
  - rewrite truncate_le; auto.
  - rewrite truncate_gt; auto. lra.
Qed.
Lemma truncate_scale v l : 0 < l -> v <> vzero -> same_direction v (truncate v l).
Proof.
  intros H0 Hv. unfold truncate. rcase.
  - exists (l / vlength v). split; [|reflexivity].
    apply Rmult_lt_0_compat; auto. apply Rinv_0_lt_compat; lra.
  - exists 1. split; [lra|]. veq; ring.
Qed.

(** ** angles *)
Lemma unit_vector_length phi : vlength (unit_vector phi) = 1.
Proof.
  apply vlength_eq; [lra|]. cbn. pose proof (sin2_cos2 phi). unfold Rsqr in *. lra.
Qed.
Lemma angle_range v : - PI < angle v <= PI.
Proof.
  unfold angle, arctan2. pose proof PI_RGT_0. pose proof (atan_bound (vy v / vx v)) as B.
  rcase. { lra. }
  rcase.
  - destruct (Rleb_spec 0 (vy v)) as [Hy|Hy]; [|].
    + assert (atan (vy v / vx v) <= 0).
      { rewrite <- atan_0. destruct (Rle_lt_or_eq_dec 0 (vy v) Hy) as [P|P].
        - left. apply atan_increasing. replace (vy v / vx v) with (- (vy v * / - vx v)) by (field; lra).
          assert (0 < / - vx v) by (apply Rinv_0_lt_compat; lra). nra.
        - right. f_equal. rewrite <- P. unfold Rdiv; ring. }
      lra.
    + assert (0 < atan (vy v / vx v)).
      { rewrite <- atan_0. apply atan_increasing.
        replace (vy v / vx v) with (- vy v * / - vx v) by (field; lra).
        assert (0 < / - vx v) by (apply Rinv_0_lt_compat; lra). nra. }
      lra.
  - rcase; [lra|]. rcase; lra.
Qed.
Lemma angle_unit phi : - PI < phi <= PI -> angle (unit_vector phi) = phi.
Proof.
  intros H. pose proof PI_RGT_0. unfold angle, arctan2, unit_vector; cbn [vx vy].
  destruct (Rlt_le_dec (- (PI/2)) phi) as [L|L]; [destruct (Rlt_le_dec phi (PI/2)) as [U|U]|].
  - assert (0 < cos phi) by (apply cos_gt_0; lra).
    rcase; [|lra]. apply atan_tan; lra.
  - destruct U as [U|U].
    + assert (cos phi < 0) by (apply cos_lt_0; lra).
      assert (0 <= sin phi) by (apply sin_ge_0; lra).
      rcase; [lra|]. rcase; [|lra]. rcase; [|lra].
      replace (sin phi / cos phi) with (tan (phi - PI)).
      * rewrite atan_tan by lra. lra.
      * unfold tan. rewrite sin_minus, cos_minus, cos_PI, sin_PI. field; lra.
    + subst phi. rewrite cos_PI2, sin_PI2. rdec. reflexivity.
  - destruct L as [L|L].
    + assert (cos phi < 0). { rewrite <- cos_neg. apply cos_lt_0; lra. }
      assert (sin phi < 0) by (apply sin_lt_0_var; lra).
      rcase; [lra|]. rcase; [|lra]. rcase; [lra|].
      replace (sin phi / cos phi) with (tan (phi + PI)).
      * rewrite atan_tan by lra. lra.
      * unfold tan. rewrite sin_plus, cos_plus, cos_PI, sin_PI. field; lra.
    + subst phi. rewrite cos_neg, sin_neg, cos_PI2, sin_PI2. rdec. reflexivity.
Qed.
Lemma sqrt_1_div x y : x <> 0 -> sqrt (1 + (y / x)²) = sqrt (x*x+y*y) / Rabs x.
Proof.
  intros Hx. assert (0 < Rabs x) by now apply Rabs_pos_lt.
  apply Rmult_eq_reg_r with (Rabs x); [|lra].
  unfold Rdiv at 2. rewrite Rmult_assoc, Rinv_l by lra. rewrite Rmult_1_r.
  rewrite <- (sqrt_Rsqr (Rabs x)) by lra.
  rewrite <- sqrt_mult_alt by (unfold Rsqr; nra).
  f_equal. rewrite <- Rsqr_abs. unfold Rsqr. field; auto.
Qed.
Lemma unit_vector_angle v : v <> vzero -> vscale (vlength v) (unit_vector (angle v)) = v.
Proof.
  intros Hv. pose proof (vlength_pos v Hv) as Hl. pose proof PI_RGT_0.
  unfold unit_vector, angle, arctan2.
  assert (A : vx v <> 0 ->
     cos (atan (vy v / vx v)) = Rabs (vx v) / vlength v /\
     sin (atan (vy v / vx v)) = (vy v / vx v) * (Rabs (vx v) / vlength v)).
  { intros Hx. rewrite cos_atan, sin_atan, sqrt_1_div by auto. fold (vlength v).
    assert (0 < Rabs (vx v)) by now apply Rabs_pos_lt.
    split; field; lra. }
  destruct (Rltb_spec 0 (vx v)) as [P|P].
  - destruct A as [-> ->]; [lra|]. rewrite Rabs_pos_eq by lra. veq; field; lra.
  - destruct (Rltb_spec (vx v) 0) as [N|N].
    + destruct A as [A B]; [lra|]. rewrite Rabs_left in A, B by lra.
      destruct (Rleb_spec 0 (vy v)).
      * rewrite neg_sin, neg_cos. rewrite A, B. veq; field; lra.
      * replace (atan (vy v / vx v) - PI) with (atan (vy v / vx v) + PI - 2 * PI) by ring.
        assert (S2 : forall x, sin (x - 2 * PI) = sin x).
        { intros x. rewrite sin_minus, sin_2PI, cos_2PI. ring. }
        assert (C2 : forall x, cos (x - 2 * PI) = cos x).
        { intros x. rewrite cos_minus, sin_2PI, cos_2PI. ring. }
        rewrite S2, C2, neg_sin, neg_cos, A, B. veq; field; lra.
    + assert (X : vx v = 0) by lra.
      assert (Y : vlength v = Rabs (vy v)).
      { apply vlength_eq; [apply Rabs_pos|]. rewrite X, <- Rabs_mult, Rabs_pos_eq by nra. ring. }
      destruct (Rltb_spec 0 (vy v)).
      * rewrite Y, cos_PI2, sin_PI2, Rabs_pos_eq by lra. veq; lra.
      * destruct (Rltb_spec (vy v) 0).
        -- rewrite Y, cos_neg, sin_neg, cos_PI2, sin_PI2, Rabs_left by lra. veq; lra.
        -- exfalso. apply Hv. veq; lra.
Qed.
