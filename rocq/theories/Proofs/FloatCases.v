(** * Capacities and particular values in float64 *)
From Coq Require Import Reals ZArith Lra Lia List.
From Flocq Require Import Core Relative Plus_error.
From Verif Require Import Proofs.FloatProofs Proofs.FloatSums Proofs.FloatCells.
Open Scope R_scope.

Lemma rnd_at x e m : bpow radix2 (e - 1) <= Rabs x < bpow radix2 e -> Rabs (x * bpow radix2 (- Z.max (e - 53) (-1074)) - IZR m) < / 2 -> rnd x = IZR m * bpow radix2 (Z.max (e - 53) (-1074)).
Proof.
  intros B H. unfold Floats.rnd, round. unfold scaled_mantissa, cexp. rewrite (mag_unique radix2 x e B). unfold double_exp, FLT_exp. rewrite (Znearest_imp _ _ m H). reflexivity.
Qed.
Lemma capacity_simple d a coeff : fmt d -> fmt a -> 0 < a -> a <= d <= bpow radix2 49 * a ->
  exists n, (1 <= n)%Z /\ f_narrow_exit_capacity d a None coeff = rnd (coeff * IZR n) /\ IZR n * a <= d < (IZR n + 1) * a.
Proof.
  intros D A P [L U]. unfold f_narrow_exit_capacity. rewrite Rlt_bool_false by exact L. exists (Zfloor (d / a)). rewrite floordiv_exact; auto; [|rewrite Rabs_pos_eq; lra].
  assert (XA : d = d / a * a) by (field; lra). assert (1 <= d / a). { apply (Rmult_le_reg_r a); auto. lra. }
  pose proof (Zfloor_lb (d / a)). pose proof (Zfloor_ub (d / a)). split; [apply Zfloor_lub; lra|]. split; [reflexivity|]. rewrite XA at 2 3. split; [apply Rmult_le_compat_r; lra|apply Rmult_lt_compat_r; lra].
Qed.
Lemma capacity_same d a coeff : fmt d -> f_narrow_exit_capacity d a (Some a) coeff = f_narrow_exit_capacity d a None coeff.
Proof. intros D. unfold f_narrow_exit_capacity. replace (a - a) with 0 by ring. rewrite (rnd_id 0) by apply generic_format_0. rewrite Rminus_0_r, (rnd_id d D). reflexivity. Qed.

Definition d_1_2 : R := 5404319552844595 / 4503599627370496.
Definition d_0_4 : R := 7205759403792794 / 18014398509481984.
Lemma rnd_1_2 : rnd (6 / 5) = d_1_2.
Proof. rewrite (rnd_at _ 1 5404319552844595); [unfold d_1_2; cbn; lra|rewrite Rabs_pos_eq; cbn; lra|]. apply Rabs_def1; cbn; lra. Qed.
Lemma rnd_0_4 : rnd (2 / 5) = d_0_4.
Proof. rewrite (rnd_at _ (-1) 7205759403792794); [unfold d_0_4; cbn; lra|rewrite Rabs_pos_eq; cbn; lra|]. apply Rabs_def1; cbn; lra. Qed.
Lemma capacity_decimal : f_narrow_exit_capacity d_1_2 d_0_4 None 1 = 2.
Proof.
  destruct (capacity_simple d_1_2 d_0_4 1) as (n & N & E & A & B).
  - rewrite <- rnd_1_2. apply rnd_fmt.
  - rewrite <- rnd_0_4. apply rnd_fmt.
  - unfold d_0_4. lra.
  - assert (V : bpow radix2 49 = 562949953421312) by reflexivity. rewrite V. unfold d_0_4, d_1_2. lra.
  - rewrite E. assert (n = 2%Z) as ->. { unfold d_0_4, d_1_2 in *. assert (IZR n < 3) by lra. assert (1 < IZR n) by lra. apply lt_IZR in H. apply lt_IZR in H0. lia. }
    rewrite Rmult_1_l. apply rnd_id, fmt_int. lia.
Qed.

Definition exact_hypot (x y : R) : R := rnd (norm2 (x, y)).
Lemma exact_good : good_hypot exact_hypot.
Proof.
  intros x y D1 D2. unfold exact_hypot. destruct (norm2_comp (x, y)) as [C1 C2]. pose proof (norm2_pos (x, y)) as P. cbn [fst snd] in *. split; [apply double_fmt, rnd_fmt|]. split; [apply rnd_above; auto; apply generic_format_0|]. split.
  - split.
    + intros E. assert (A1 : Rabs x <= 0). { rewrite <- E. apply rnd_above; auto. apply generic_format_abs, double_fmt, D1. } assert (A2 : Rabs y <= 0). { rewrite <- E. apply rnd_above; auto. apply generic_format_abs, double_fmt, D2. }
      apply Rabs_le_inv in A1. apply Rabs_le_inv in A2. lra.
    + intros [-> ->]. unfold norm2; cbn [fst snd]. replace (0 * 0 + 0 * 0) with 0 by ring. rewrite sqrt_0. apply rnd_id, generic_format_0.
  - destruct (rnd_error (norm2 (x, y))) as (e & a & E & A & ->). replace (norm2 (x, y) * (1 + e) + a - norm2 (x, y)) with (norm2 (x, y) * e + a) by ring. eapply Rle_trans; [apply Rabs_triang|]. rewrite Rabs_mult, (Rabs_pos_eq _ P).
    rewrite <- !pow2. assert (H1 : bpow radix2 (-52) = 2 * u) by (change 2 with (bpow radix2 1) at 1; rewrite <- bpow_plus; reflexivity). assert (H2 : bpow radix2 (-1074) = 2 * bpow radix2 (-1075)) by (change 2 with (bpow radix2 1) at 1; rewrite <- bpow_plus; reflexivity).
    rewrite H1, H2. pose proof (Rmax_l (2 * u * norm2 (x, y)) (2 * bpow radix2 (-1075))). pose proof (Rmax_r (2 * u * norm2 (x, y)) (2 * bpow radix2 (-1075))). assert (norm2 (x, y) * Rabs e <= norm2 (x, y) * u) by (apply Rmult_le_compat_l; auto). lra.
Qed.
Notation tiny := (bpow radix2 (-1074)).
Lemma tiny_fmt : fmt tiny. Proof. replace tiny with (IZR 1 * tiny) by ring. apply fmt_dyadic; lia. Qed.
Lemma tiny_hypot : exact_hypot tiny tiny = tiny.
Proof.
  assert (P : 0 < tiny) by apply bpow_gt_0. assert (N : norm2 (tiny, tiny) = tiny * sqrt 2).
  { unfold norm2; cbn [fst snd]. replace (tiny * tiny + tiny * tiny) with (tiny * tiny * 2) by ring. rewrite sqrt_mult by nra. rewrite sqrt_square by lra. reflexivity. }
  assert (Q : sqrt 2 * sqrt 2 = 2) by (apply sqrt_sqrt; lra). assert (0 <= sqrt 2) by apply sqrt_pos. assert (S : 1.4 < sqrt 2 < 1.45) by nra.
  unfold exact_hypot. rewrite N. rewrite (rnd_at _ (-1073) 1).
  - change (Z.max (-1073 - 53) (-1074)) with (-1074)%Z. ring.
  - rewrite Rabs_pos_eq by nra. change (-1073 - 1)%Z with (-1074)%Z. assert (E : bpow radix2 (-1073) = 2 * tiny) by (change 2 with (bpow radix2 1) at 1; rewrite <- bpow_plus; reflexivity). rewrite E. nra.
  - change (Z.max (-1073 - 53) (-1074)) with (-1074)%Z. replace (tiny * sqrt 2 * bpow radix2 (- (-1074))) with (sqrt 2 * (tiny * bpow radix2 (- (-1074)))) by ring. rewrite <- bpow_plus. change (-1074 + - -1074)%Z with 0%Z. change (bpow radix2 0) with 1. apply Rabs_def1; lra.
Qed.
Lemma tiny_normalize : f_normalize exact_hypot (tiny, tiny) = (1, 1).
Proof.
  unfold f_normalize; cbn [fst snd]. rewrite tiny_hypot. assert (P : 0 < tiny) by apply bpow_gt_0. rewrite Req_bool_false by lra. cbn [negb]. replace (tiny / tiny) with 1 by (field; lra). rewrite (rnd_id 1); auto. apply (fmt_int 1). lia.
Qed.
