(** Proofs about the way of somebody alone. *)
From Coq Require Import Lra Lia.
From Verif Require Import Spec.Pace Proofs.VecLemmas Proofs.LoneProofs Proofs.SimulationMore.
Open Scope R_scope.

Lemma lone_row_position k d a : a_position (lone_row k d a) =
  vadd (a_position a) (vadd (vscale DT (a_velocity (lone_row k d a))) (vscale (DT * DT) (vdiv (vdiv (a_force_prev (lone_row k d a)) (a_mass a)) 2))).
Proof.
  unfold lone_row. set (c := adjusted_row k _). assert (M : a_mass c = a_mass a) by (unfold c; destruct k; reflexivity). assert (P : a_position c = a_position a) by (unfold c; destruct k; reflexivity). rewrite <- M, <- P. clearbody c. clear M P. destruct k; reflexivity.
Qed.

Section Way.
  Variables (tau B : R) (e g xi x : nat -> vec) (w : vec).
  Hypothesis Htau : DT <= tau.
  Hypothesis HB : 0 <= B.
  Hypothesis Hxi : forall n, vlength (xi n) <= B.
  Hypothesis g0 : g 0%nat = V 0 0.
  Hypothesis gS : forall n, g (S n) = vsub (xi n) (vscale (/ tau) (e n)).
  Hypothesis eS : forall n, e (S n) = vadd (e n) (vscale (DT / 2) (vadd (g n) (g (S n)))).
  Hypothesis xS : forall n, x (S n) = vadd (x n) (vadd (vscale DT (vadd w (e (S n)))) (vscale (DT * DT / 2) (g (S n)))).
  Fixpoint noise_sum (n : nat) : vec := match n with O => V 0 0 | S m => vadd (noise_sum m) (xi m) end.
  Lemma noise_sum_bound n : vlength (noise_sum n) <= INR n * B.
  Proof using Hxi.
    induction n as [|n IH]; [cbn [noise_sum INR]; rewrite (vlength_eq (V 0 0) 0) by (cbn; lra); lra|].
    cbn [noise_sum]. rewrite S_INR. pose proof (vlength_triangle (noise_sum n) (xi n)). specialize (Hxi n). lra.
  Qed.
  Lemma way n : vsub (x n) (vadd (x 0%nat) (vscale (INR n * DT) w)) =
    vadd (vscale (DT * tau) (noise_sum n)) (vadd (vscale (3 * DT / 2 - tau) (vsub (e n) (e 0%nat))) (vscale (DT * DT / 4 - DT * tau / 2) (g n))).
  Proof using Htau g0 gS eS xS.
    induction n as [|n IH].
    - rewrite g0. cbn [noise_sum INR]. destruct (x 0%nat), (e 0%nat), w. unfold vsub, vadd, vscale. cbn. f_equal; ring.
    - cbn [noise_sum]. rewrite xS, S_INR. pose proof (eS n) as E. pose proof (gS n) as G. set (gn := g (S n)) in *. set (en := e (S n)) in *.
      assert (Q : e n = vscale tau (vsub (xi n) gn)).
      { rewrite G. destruct (xi n), (e n). unfold vsub, vscale. cbn. f_equal; field; lra. }
      clearbody en gn. subst en. clear G. destruct (x n) as [x1 x2], (x 0%nat) as [y1 y2], w as [w1 w2], (noise_sum n) as [n1 n2], (xi n) as [f1 f2], (e 0%nat) as [o1 o2], (g n) as [g1 g2], gn as [h1 h2].
      rewrite Q in *. unfold vadd, vsub, vscale in *. cbn [vx vy] in *. injection IH as I1 I2. f_equal.
      + assert (K : x1 = y1 + INR n * DT * w1 + (DT * tau * n1 + ((3 * DT / 2 - tau) * (tau * (f1 - h1) - o1) + (DT * DT / 4 - DT * tau / 2) * g1))) by lra. rewrite K. field.
      + assert (K : x2 = y2 + INR n * DT * w2 + (DT * tau * n2 + ((3 * DT / 2 - tau) * (tau * (f2 - h2) - o2) + (DT * DT / 4 - DT * tau / 2) * g2))) by lra. rewrite K. field.
  Qed.
  Lemma way_bound n M : (forall m, vlength (e m) <= M) ->
    vlength (vsub (x n) (vadd (x 0%nat) (vscale (INR n * DT) w))) <= INR n * DT * (tau * B) + (tau * (vlength (e 0%nat) + M) + DT / 2 * (tau * B + M)).
  Proof using All.
    intros HM. rewrite way. assert (M0 : 0 <= M) by (pose proof (HM 0%nat); pose proof (vlength_nonneg (e 0%nat)); lra).
    assert (G : vlength (g n) <= B + M / tau).
    { assert (0 <= M / tau) by (apply Rmult_le_pos; [lra|left; apply Rinv_0_lt_compat; lra]). destruct n as [|m]; [rewrite g0, (vlength_eq (V 0 0) 0) by (cbn; lra); lra|]. rewrite gS.
      replace (vsub (xi m) (vscale (/ tau) (e m))) with (vadd (xi m) (vscale (- / tau) (e m))) by (destruct (xi m), (e m); unfold vadd, vsub, vscale; cbn; f_equal; ring).
      eapply Rle_trans; [apply vlength_triangle|]. rewrite vlength_scale, Rabs_Ropp, (Rabs_pos_eq (/ tau)) by (left; apply Rinv_0_lt_compat; lra).
      pose proof (Hxi m). pose proof (HM m). assert (0 < / tau) by (apply Rinv_0_lt_compat; lra). unfold Rdiv. nra. }
    assert (D : vlength (vsub (e n) (e 0%nat)) <= M + vlength (e 0%nat)).
    { replace (vsub (e n) (e 0%nat)) with (vadd (e n) (vscale (-1) (e 0%nat))) by (destruct (e n), (e 0%nat); unfold vadd, vsub, vscale; cbn; f_equal; ring).
      eapply Rle_trans; [apply vlength_triangle|]. rewrite vlength_scale, Rabs_left by lra. pose proof (HM n). lra. }
    pose proof (noise_sum_bound n) as NS. eapply Rle_trans; [apply vlength_triangle|]. eapply Rle_trans; [apply Rplus_le_compat_l, vlength_triangle|]. rewrite !vlength_scale.
    assert (A1 : Rabs (DT * tau) = DT * tau) by (apply Rabs_pos_eq; lra).
    assert (A2 : Rabs (3 * DT / 2 - tau) <= tau) by (apply Rabs_le; lra).
    assert (A3 : Rabs (DT * DT / 4 - DT * tau / 2) <= DT * tau / 2) by (apply Rabs_le; lra). rewrite A1.
    assert (DT * tau * vlength (noise_sum n) <= INR n * DT * (tau * B)) by (replace (INR n * DT * (tau * B)) with (DT * tau * (INR n * B)) by ring; apply Rmult_le_compat_l; lra).
    assert (Rabs (3 * DT / 2 - tau) * vlength (vsub (e n) (e 0%nat)) <= tau * (M + vlength (e 0%nat))) by (apply Rmult_le_compat; auto using Rabs_pos, vlength_nonneg).
    assert (Rabs (DT * DT / 4 - DT * tau / 2) * vlength (g n) <= DT * tau / 2 * (B + M / tau)) by (apply Rmult_le_compat; auto using Rabs_pos, vlength_nonneg).
    assert (DT * tau / 2 * (B + M / tau) = DT / 2 * (tau * B + M)) by (field; lra). lra.
  Qed.
End Way.
Lemma course_most tau b start n : DT <= tau -> 0 <= b -> 0 <= start -> course_bound tau b start n <= start + 2 * DT * b + tau * b * ((1 + DT / tau / 2) / (1 - DT / tau / 2)).
Proof.
  intros T B S. unfold course_bound. cbv zeta. pose proof (q_range tau T) as Q. set (h := DT / tau) in *.
  assert (RR : 0 < 1 - h + h ^ 2 / 2 < 1) by (split; nra). assert (P1 : (1 - h + h ^ 2 / 2) ^ (n / 3) <= 1) by (eapply Rle_trans; [apply (pow_incr _ 1); split; lra|rewrite pow1; lra]).
  assert (P0 : 0 <= (1 - h + h ^ 2 / 2) ^ (n / 3)) by (apply pow_le; lra). nra.
Qed.
Lemma lone_way k draws a : fit k a -> (forall n, 0 <= snd (fst (draws n)) <= 3) -> forall n,
  edist (a_position (lone k draws a n)) (wanted_place a (INR n / 100)) <= INR n / 100 * (a_tau_adj a * (3 * a_std_rand_force a)) + astray (a_tau_adj a) (3 * a_std_rand_force a) (off_course a).
Proof.
  intros FT Z n. pose proof FT as (F & P & M & T & S & K).
  assert (A : able k a) by (split; [exact F|split; [exact M|split; [exact T|exact K]]]).
  pose proof (lone_kept k draws a A) as KK. cbv zeta in KK.
  set (e := fun n => deviation (a_target_velocity a) (a_target_direction a) (a_velocity (lone k draws a n))).
  assert (E : forall n, off_course (lone k draws a n) = vlength (e n)).
  { intros i. unfold off_course. destruct (KK i) as (_ & _ & _ & _ & -> & ->). apply elen_vlength. }
  assert (E0 : off_course a = vlength (e 0%nat)) by apply (E 0%nat).
  set (w := vscale (a_target_velocity a) (a_target_direction a)).
  replace (wanted_place a (INR n / 100)) with (vadd (a_position a) (vscale (INR n * DT) w)) by (unfold wanted_place, w, vadd, vscale; cbn; f_equal; field).
  rewrite edist_vlength. replace (INR n / 100) with (INR n * DT) by field. unfold astray. cbv zeta. rewrite E0.
  apply (way_bound (a_tau_adj a) (3 * a_std_rand_force a) e (fun n => vdiv (a_force_prev (lone k draws a n)) (a_mass a)) (fun n => noise_of a (draws n)) (fun n => a_position (lone k draws a n)) w); auto.
  - lra.
  - intros i. apply noise_bound; auto.
  - cbn [lone]. rewrite P. veq; field; lra.
  - intros i. cbn [lone]. destruct (lone_row_spec k (draws i) (lone k draws a i)) as (_ & -> & _).
    destruct (KK i) as ((F' & _) & E1 & E2 & E3 & E4 & E5). unfold pull_of, noise_of, e, deviation, force_fluctuation1. rewrite F', E1, E2, E3, E4, E5.
    destruct (a_velocity (lone k draws a i)), (a_target_direction a). veq; field; lra.
  - intros i. unfold e. cbn [lone]. destruct (lone_row_spec k (draws i) (lone k draws a i)) as (-> & -> & _). destruct (KK i) as (_ & -> & _).
    unfold deviation. destruct (a_velocity (lone k draws a i)), (a_force_prev (lone k draws a i)), (pull_of (lone k draws a i) (draws i)), (a_target_direction a). veq; field; lra.
  - intros i. unfold e. cbn [lone]. rewrite lone_row_position. destruct (KK i) as (_ & -> & _). set (b := lone_row k (draws i) (lone k draws a i)).
    unfold deviation, w. destruct (a_velocity b), (a_force_prev b), (a_position (lone k draws a i)), (a_target_direction a). veq; field; lra.
  - intros m. rewrite <- E, <- E0. eapply Rle_trans; [apply lone_on_course; [exact FT|exact Z]|]. apply course_most; [lra|lra|]. unfold off_course. rewrite elen_vlength. apply vlength_nonneg.
Qed.
