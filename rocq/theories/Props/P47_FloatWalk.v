(** * Property C146: walking at the wanted speed in double precision *)
From Coq Require Import Reals ZArith List Lra Lia.
From Flocq Require Import Core.
From Verif Require Import Model.Floats Model.FloatSteps Spec.Doubles Proofs.FloatProofs Proofs.FloatSums.
From Verif Require Import Proofs.FloatWalkProofs.
Open Scope R_scope.

Lemma eta_small : 60 * eta <= powerRZ 2 (-1000) / 100.
Proof. rewrite <- pow2. replace (-1000)%Z with (-1075 + 75)%Z by lia. rewrite bpow_plus. change (bpow radix2 75) with 37778931862957161709568. pose proof eta_pos. lra. Qed.
(** Along each axis the velocity approaches [v0 e0] as fast as [1 - h/4] per step, [h] the
    step over the reaction time, up to some units in the last place over [h]. *)
Theorem C146_approach : forall mass tau v0 e0 dt s n, double (w_v s) -> 1 <= mass -> 0 < tau <= powerRZ 2 1000 -> 0 < dt <= 1 ->
  let h := dt / tau in let wanted := v0 * e0 in powerRZ 2 (-40) <= h <= / 2 ->
  Rabs (w_v (f_walk mass tau v0 e0 dt s n) - wanted) <=
    (1 - h / 4) ^ n * (Rabs (w_v s - wanted) + 2 * dt * Rabs (w_force_prev s / mass)) + 6 / h * (powerRZ 2 (-53) * Rabs wanted + powerRZ 2 (-1000)).
Proof.
  intros m tau v0 e0 dt s n F M T D h t H. apply double_fmt in F. rewrite <- pow2 in T. assert (H' : bpow radix2 (-40) <= dt / tau <= / 2) by (rewrite pow2; exact H).
  pose proof (walk_close m tau v0 e0 dt M T D H' s n F) as C. cbv zeta in C. pose proof (acc_bound m dt D s) as A. pose proof eta_small as T0. assert (PE := eta_pos). set (T1 := powerRZ 2 (-1000)) in *.
  assert (U1 : powerRZ 2 (-53) = k53) by (rewrite <- pow2; reflexivity). rewrite U1. fold t h in C. pose proof (off t) as O. set (w := rnd t) in *. set (s' := f_walk m tau v0 e0 dt s n) in *.
  pose proof (P_u (w_v s' - w) (acc m dt s')) as U0. assert (H0 : 0 < h) by (pose proof (powerRZ_lt 2 (-40) ltac:(lra)); lra).
  assert (W1 : Rabs w <= Rabs t + Rabs (w - t)) by (replace w with (t + (w - t)) at 1 by ring; apply Rabs_triang).
  assert (V1 : Rabs (w_v s' - t) <= Rabs (w_v s' - w) + Rabs (w - t)) by (replace (w_v s' - t) with ((w_v s' - w) + (w - t)) by ring; apply Rabs_triang).
  assert (V0 : Rabs (w_v s - w) <= Rabs (w_v s - t) + Rabs (w - t)) by (replace (w_v s - w) with ((w_v s - t) - (w - t)) by ring; eapply Rle_trans; [apply Rabs_triang|]; rewrite Rabs_Ropp; lra).
  assert (P0 : P (w_v s - w) (acc m dt s) <= Rabs (w_v s - w) + Rabs (acc m dt s)).
  { unfold P. assert (Rabs (w_v s - w + acc m dt s / 2) <= Rabs (w_v s - w) + Rabs (acc m dt s) / 2); [|lra]. eapply Rle_trans; [apply Rabs_triang|]. unfold Rdiv. rewrite (Rabs_mult (acc m dt s)), (Rabs_pos_eq (/ 2)) by lra. lra. }
  set (q := 2 * dt * Rabs (w_force_prev s / m)) in *. set (d := Rabs (w_v s - t)) in *. set (tt := Rabs t) in *. assert (0 <= tt) by apply Rabs_pos. assert (0 <= d) by apply Rabs_pos.
  assert (B : P (w_v s - w) (acc m dt s) <= (d + q) + (k53 * tt + 2 * eta)) by lra.
  set (g := (1 - h / 4) ^ n) in *. assert (G : 0 <= g <= 1) by (unfold g; split; [apply pow_le; lra|apply Rle_trans with (1 ^ n); [apply pow_incr; lra|rewrite pow1; lra]]).
  assert (B2 : g * P (w_v s - w) (acc m dt s) <= g * (d + q) + (k53 * tt + 2 * eta)).
  { eapply Rle_trans; [apply Rmult_le_compat_l; [apply G|exact B]|]. rewrite Rmult_plus_distr_l. apply Rplus_le_compat_l. rewrite <- (Rmult_1_l (k53 * tt + 2 * eta)) at 2. apply Rmult_le_compat_r; lra. }
  assert (K : 2 <= / h). { apply Rle_trans with (/ / 2); [rewrite Rinv_inv; lra|]. apply Rinv_le; lra. }
  assert (B3 : 4 / h * (k53 * Rabs w + 60 * eta) <= / h * (4 * (k53 * (tt + (k53 * tt + eta)) + T1 / 100))).
  { unfold Rdiv. rewrite (Rmult_comm 4 (/ h)), Rmult_assoc. apply Rmult_le_compat_l; lra. }
  assert (B4 : 2 * (k53 * tt + T1) <= / h * (k53 * tt + T1)) by (apply Rmult_le_compat_r; lra).
  replace (6 / h * (k53 * tt + T1)) with (/ h * (5 * (k53 * tt + T1)) + / h * (k53 * tt + T1)) by (field; lra).
  assert (B5 : / h * (4 * (k53 * (tt + (k53 * tt + eta)) + T1 / 100)) <= / h * (5 * (k53 * tt + T1))) by (apply Rmult_le_compat_l; lra). lra.
Qed.
Print Assumptions C146_approach.
(** In the end only this error is left. *)
Theorem C146_settles : forall mass tau v0 e0 dt s, double (w_v s) -> 1 <= mass -> 0 < tau <= powerRZ 2 1000 -> 0 < dt <= 1 ->
  let h := dt / tau in let wanted := v0 * e0 in powerRZ 2 (-40) <= h <= / 2 ->
  exists N, forall n, (N <= n)%nat -> Rabs (w_v (f_walk mass tau v0 e0 dt s n) - wanted) <= 7 / h * (powerRZ 2 (-53) * Rabs wanted + powerRZ 2 (-1000)).
Proof.
  intros m tau v0 e0 dt s F M T D h t H. assert (H0 : 0 < h) by (pose proof (powerRZ_lt 2 (-40) ltac:(lra)); lra). set (X := Rabs (w_v s - t) + 2 * dt * Rabs (w_force_prev s / m)).
  assert (X0 : 0 <= X) by (unfold X; pose proof (Rabs_pos (w_v s - t)); pose proof (Rabs_pos (w_force_prev s / m)); nra). set (E := powerRZ 2 (-53) * Rabs t + powerRZ 2 (-1000)). assert (E0 : 0 < E) by (unfold E; pose proof (Rabs_pos t); pose proof (powerRZ_lt 2 (-53) ltac:(lra)); pose proof (powerRZ_lt 2 (-1000) ltac:(lra)); nra).
  destruct (pow_lt_1_zero (1 - h / 4) ltac:(rewrite Rabs_pos_eq; lra) (/ h * E / (X + 1))) as [N HN]; [apply Rdiv_lt_0_compat; [|lra]; apply Rmult_lt_0_compat; auto; now apply Rinv_0_lt_compat|]. exists N. intros n L.
  eapply Rle_trans; [apply (C146_approach m tau v0 e0 dt s n); auto|]. fold t h X E. specialize (HN n L). rewrite Rabs_pos_eq in HN by (apply pow_le; lra).
  assert ((1 - h / 4) ^ n * X <= / h * E).
  { apply Rle_trans with (/ h * E / (X + 1) * X); [apply Rmult_le_compat_r; lra|]. assert (0 < / h * E) by (apply Rmult_lt_0_compat; auto; now apply Rinv_0_lt_compat). replace (/ h * E) with (/ h * E / (X + 1) * (X + 1)) at 2 by (field; lra). apply Rmult_le_compat_l; [|lra]. left. apply Rdiv_lt_0_compat; lra. }
  unfold Rdiv in *. lra.
Qed.
Print Assumptions C146_settles.
(** Whoever has the double nearest to the wanted velocity, and no force left over, keeps
    it. *)
Theorem C146_kept : forall mass tau v0 e0 dt x n, let wanted := rnd (v0 * e0) in
  nearest_double (v0 * e0) wanted /\ w_v (f_walk mass tau v0 e0 dt (Walk x wanted 0) n) = wanted.
Proof. intros m tau v0 e0 dt x n w. split; [apply rnd_nearest|]. destruct (walk_kept m tau v0 e0 dt x n) as (x' & E). fold w in E. now rewrite E. Qed.
Print Assumptions C146_kept.
(** This double need not be reached: one unit in the last place below it the velocity stays
    for ever, although the force never stops. *)
Lemma rnd_stall d : 0 <= d <= / 4 * k53 -> rnd (1 - k53 + d) = 1 - k53.
Proof.
  intros Hd. set (x := 1 - k53 + d). assert (X : / 2 <= x < 1) by (unfold x; lra).
  assert (C : cexp radix2 double_exp x = (-53)%Z). { unfold cexp. rewrite (mag_unique radix2 x 0); [reflexivity|]. rewrite Rabs_pos_eq by lra. cbn. lra. }
  unfold rnd, round. fold x. unfold F2R, scaled_mantissa. cbn [Fnum Fexp]. rewrite C. change (bpow radix2 (- -53)) with 9007199254740992.
  rewrite (Znearest_imp _ _ 9007199254740991); [change (bpow radix2 (-53)) with k53; lra|]. replace (x * 9007199254740992 - 9007199254740991) with (d * 9007199254740992) by (unfold x; field). rewrite Rabs_pos_eq; lra.
Qed.
Theorem C146_stalls : forall dt n, 0 < dt <= / 4 -> let v := 1 - powerRZ 2 (-53) in
  w_v (f_walk 1 1 1 1 dt (Walk 0 v (powerRZ 2 (-53))) n) = v /\ w_force_prev (f_walk 1 1 1 1 dt (Walk 0 v (powerRZ 2 (-53))) n) = powerRZ 2 (-53).
Proof.
  intros dt n D v. unfold v. assert (U1 : powerRZ 2 (-53) = k53) by (rewrite <- pow2; reflexivity). rewrite U1.
  assert (F1 : fmt 1) by (replace 1 with (IZR 1 * bpow radix2 0) by (cbn; lra); apply fmt_dyadic; lia). assert (FU : fmt k53) by (replace k53 with (IZR 1 * bpow radix2 (-53)) by (cbn; lra); apply fmt_dyadic; lia). assert (F2 : fmt (2 * k53)) by (replace (2 * k53) with (IZR 2 * bpow radix2 (-53)) by (cbn; lra); apply fmt_dyadic; lia).
  assert (FQ : fmt (/ 4 * k53)) by (replace (/ 4 * k53) with (IZR 1 * bpow radix2 (-55)) by (cbn; lra); apply fmt_dyadic; lia).
  induction n as [|n [IV IF]]; [split; reflexivity|]. cbn [f_walk]. unfold f_walk_step. rewrite IV, IF.
  assert (FA : f_force_adjust 1 1 1 1 (1 - k53) = k53). { unfold f_force_adjust. replace (1 / 1) with 1 by field. rewrite Rmult_1_l, (rnd_id 1 F1). replace (1 - (1 - k53)) with k53 by ring. now rewrite (rnd_id k53 FU), Rmult_1_l, (rnd_id k53 FU). }
  rewrite FA, Rplus_0_l, (rnd_id k53 FU). unfold f_verlet. cbn [w_v w_force_prev]. replace (k53 / 1) with k53 by field. rewrite (rnd_id k53 FU). replace (k53 + k53) with (2 * k53) by ring. rewrite (rnd_id _ F2). replace (2 * k53 / 2) with k53 by field. rewrite (rnd_id k53 FU).
  split; [|reflexivity]. apply rnd_stall. split; [apply rnd_above; [apply generic_format_0|]|apply rnd_below; [exact FQ|]]; lra.
Qed.
Print Assumptions C146_stalls.

(** ** Cases *)
(** 80 kg at 1.25 m/s from rest, half a second to react, 128 steps a second. *)
Example C146_case : let s := Walk 0 0 0 in let h := (/ 128) / (/ 2) in
  double (w_v s) /\ 1 <= 80 /\ 0 < / 2 <= powerRZ 2 1000 /\ 0 < / 128 <= 1 /\ powerRZ 2 (-40) <= h <= / 2 /\
  Rabs (w_v (f_walk 80 (/ 2) (5 / 4) 1 (/ 128) s 0) - 5 / 4 * 1) = 5 / 4.
Proof.
  cbv zeta. split; [exists 0%Z, 0%Z; repeat split; try lia; cbn; ring|]. split; [lra|]. split; [split; [lra|]|split; [lra|split]].
  - rewrite <- pow2. apply Rle_trans with (bpow radix2 0); [cbn; lra|apply bpow_le; lia].
  - rewrite <- pow2. change (bpow radix2 (-40)) with (/ 1099511627776). replace (/ 128 / / 2) with (/ 64) by field. lra.
  - cbn. rewrite Rminus_0_l, Rabs_Ropp, Rabs_pos_eq; lra.
Qed.
