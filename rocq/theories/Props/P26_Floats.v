(** * Properties C113 to C117: double precision arithmetic *)
From Coq Require Import Reals ZArith Lra Lia List.
From Flocq Require Import Core.
From Verif Require Import Spec.Doubles Model.Floats Proofs.FloatProofs Proofs.FloatPi Proofs.FloatSums Proofs.FloatCells Proofs.FloatCases.
From Verif Require Model.Base.
Import ListNotations.
Open Scope R_scope.

(** Every operation of the model gives a nearest double. *)
Lemma rounding_is_nearest : forall x, nearest_double x (rnd x).
Proof. exact rnd_nearest. Qed.

Lemma pi_double x : double x -> Rabs x <= PI -> - f_pi <= x <= f_pi.
Proof.
  assert (G : forall x, fmt x -> x <= PI -> x <= f_pi).
  { intros y Y H. destruct (Rle_or_lt y f_pi) as [K|K]; auto. exfalso. pose proof pi_close as P. pose proof (succ_le_lt radix2 double_exp _ _ fmt_pi Y K) as S.
    pose proof pi_range as R1. rewrite succ_eq_pos in S by lra. assert (U : ulp radix2 double_exp f_pi = bpow radix2 (-51)).
    { rewrite ulp_neq_0 by lra. unfold cexp. rewrite (mag_unique radix2 f_pi 2); [reflexivity|]. rewrite Rabs_pos_eq by lra. cbn; lra. }
    rewrite U in S. cbn in S. lra. }
  intros D H. apply double_fmt in D. apply Rabs_le_inv in H. split; [|apply G; auto; lra]. enough (- x <= f_pi) by lra. apply G; [now apply generic_format_opp|lra].
Qed.

(** ** C113 *)
Theorem C113_range : forall rad, double rad -> double (f_wrap_to_pi rad) /\ Rabs (f_wrap_to_pi rad) < PI.
Proof.
  intros x D. apply double_fmt in D. destruct (wrap_range x D) as [F B]. split; [now apply double_fmt|]. pose proof pi_close. apply Rabs_def1; lra.
Qed.
Print Assumptions C113_range.
Theorem C113_turns : forall rad, double rad ->
  exists k : Z, Rabs (f_wrap_to_pi rad - (rad - 2 * IZR k * PI)) <= (1 + Rabs (IZR k)) * powerRZ 2 (-51).
Proof.
  intros x D. apply double_fmt in D. destruct (wrap_turns x D) as (k & H & _). exists k. pose proof pi_close as P. rewrite f_two_pi_eq in H. rewrite <- pow2.
  replace (f_wrap_to_pi x - (x - 2 * IZR k * PI)) with ((f_wrap_to_pi x - (x - IZR k * (2 * f_pi))) + IZR k * (2 * (PI - f_pi))) by ring.
  eapply Rle_trans; [apply Rabs_triang|]. rewrite (Rabs_mult (IZR k)), (Rabs_pos_eq (2 * (PI - f_pi))) by lra.
  assert (2 * (PI - f_pi) <= bpow radix2 (-51)) by (cbn; lra). assert (Rabs (IZR k) * (2 * (PI - f_pi)) <= Rabs (IZR k) * bpow radix2 (-51)) by (apply Rmult_le_compat_l; auto using Rabs_pos). lra.
Qed.
Print Assumptions C113_turns.
Theorem C113_idempotent : forall rad, double rad -> f_wrap_to_pi (f_wrap_to_pi rad) = f_wrap_to_pi rad.
Proof. intros x D. apply wrap_idempotent, double_fmt, D. Qed.
Print Assumptions C113_idempotent.
Theorem C113_in_range : forall rad, double rad -> Rabs rad <= PI ->
  (0 <= rad -> f_wrap_to_pi rad = rad) /\ Rabs (f_wrap_to_pi rad - rad) <= powerRZ 2 (-51).
Proof. intros x D H. pose proof (pi_double x D H) as B. destruct (wrap_near x (proj1 (double_fmt x) D) B) as [N E]. split; auto. now rewrite <- pow2. Qed.
Print Assumptions C113_in_range.
Theorem C113_odd_multiples : forall n, double (IZR (2 * n + 1) * f_pi) -> f_wrap_to_pi (IZR (2 * n + 1) * f_pi) = if Z.leb 0 n then f_pi else - f_pi.
Proof. intros n _. apply wrap_odd. Qed.
Print Assumptions C113_odd_multiples.
(** The idealised function keeps every angle of the range; in double precision a small
    negative one becomes zero. *)
Theorem C113_negative_refuted : ~ (forall rad, double rad -> Rabs rad <= PI -> f_wrap_to_pi rad = rad).
Proof.
  intros H. destruct wrap_tiny as [F E]. assert (B : bpow radix2 (-60) = / 1152921504606846976) by reflexivity. specialize (H _ (proj2 (double_fmt _) F)).
  rewrite E, B in H. assert (3 < PI) by (pose proof pi_close; pose proof pi_range; lra). rewrite Rabs_Ropp, Rabs_pos_eq in H by lra. specialize (H ltac:(lra)). lra.
Qed.
Print Assumptions C113_negative_refuted.
(** [np.pi], [3 * np.pi] and [-np.pi] satisfy the hypotheses. *)
Example C113_case : nearest_double PI f_pi /\ double (IZR (2 * 1 + 1) * f_pi) /\ f_wrap_to_pi (3 * f_pi) = f_pi /\ f_wrap_to_pi (- f_pi) = - f_pi.
Proof.
  split; [|split; [|split]].
  - split; [apply double_fmt, fmt_pi|]. intros z Z. pose proof pi_close as P. rewrite (Rabs_left (f_pi - PI)) by lra. destruct (Rle_or_lt z f_pi) as [K|K].
    + rewrite Rabs_left by lra. lra.
    + assert (PI < z). { destruct (Rlt_or_le PI z); auto. exfalso. destruct (pi_double z Z); [|lra]. apply Rabs_le. pose proof pi_range. lra. }
      apply double_fmt in Z. pose proof (succ_le_lt radix2 double_exp _ _ fmt_pi Z K) as S. pose proof pi_range as R1. rewrite succ_eq_pos in S by lra. assert (U : ulp radix2 double_exp f_pi = bpow radix2 (-51)).
      { rewrite ulp_neq_0 by lra. unfold cexp. rewrite (mag_unique radix2 f_pi 2); [reflexivity|]. rewrite Rabs_pos_eq by lra. cbn; lra. }
      rewrite U in S. cbn in S. rewrite Rabs_pos_eq by lra. lra.
  - apply double_fmt. replace (IZR (2 * 1 + 1) * f_pi) with (IZR 2652839157010665 * bpow radix2 (-48)) by (unfold f_pi; cbn; lra). apply fmt_dyadic; lia.
  - apply (wrap_odd 1).
  - replace (- f_pi) with (IZR (2 * -1 + 1) * f_pi) at 1 by (cbn; lra). apply wrap_odd.
Qed.

(** ** C114 *)
Theorem C114_error : forall dts, (forall dt, In dt dts -> double dt /\ 0 <= dt) ->
  double (f_clock dts) /\ Rabs (f_clock dts - total_of dts) <= ((1 + powerRZ 2 (-53)) ^ length dts - 1) * total_of dts.
Proof.
  intros dts H. destruct (clock_error dts) as [F E]. { intros d I. destruct (H d I). split; auto. now apply double_fmt. } split; [now apply double_fmt|]. rewrite <- pow2. exact E.
Qed.
Print Assumptions C114_error.
Theorem C114_error_linear : forall dts, (forall dt, In dt dts -> double dt /\ 0 <= dt) -> INR (length dts) <= powerRZ 2 52 ->
  Rabs (f_clock dts - total_of dts) <= INR (length dts) * powerRZ 2 (-52) * total_of dts.
Proof.
  intros dts H N. destruct (clock_error dts) as [F E]. { intros d I. destruct (H d I). split; auto. now apply double_fmt. }
  assert (P : 0 <= total_of dts). { clear - H. induction dts as [|d dts IH]; cbn; [lra|]. destruct (H d (or_introl eq_refl)). specialize (IH (fun x I => H x (or_intror I))). fold (total_of dts). lra. }
  eapply Rle_trans; [exact E|]. apply Rmult_le_compat_r; auto. eapply Rle_trans; [apply pow_small|].
  - rewrite <- pow2 in N. change (bpow radix2 52) with 4503599627370496 in N. rewrite u_val. lra.
  - right. rewrite <- pow2, u_val. change (bpow radix2 (-52)) with (/ 4503599627370496). lra.
Qed.
Print Assumptions C114_error_linear.
Theorem C114_never_back : forall dts dt, (forall dt, In dt dts -> double dt /\ 0 <= dt) -> double dt -> 0 <= dt ->
  f_clock dts <= f_clock (dts ++ [dt]) /\
  (0 < dt -> f_clock dts <= powerRZ 2 52 * dt -> f_clock dts < f_clock (dts ++ [dt])).
Proof.
  intros dts d H D P. destruct (clock_error dts) as [F _]. { intros x I. destruct (H x I). split; auto. now apply double_fmt. } apply double_fmt in D.
  assert (S : f_clock (dts ++ [d]) = rnd (f_clock dts + d)) by (unfold f_clock; rewrite fold_left_app; reflexivity). rewrite S. split; [now apply clock_next|].
  intros P' B. apply clock_advances; auto. split; [|rewrite pow2; exact B]. clear - H. assert (G : forall t, 0 <= t -> 0 <= fold_left (fun t dt => rnd (t + dt)) dts t); [|apply G; lra].
  induction dts as [|x dts IH]; intros t T; cbn; auto. apply IH; [intros y I; apply H; now right|]. destruct (H x (or_introl eq_refl)). apply rnd_above; [apply generic_format_0|lra].
Qed.
Print Assumptions C114_never_back.
(** The time step of the shipped simulations is 0.01 at most: the sum of the steps is
    unbounded, the clock is not. *)
Theorem C114_keeps_running_refuted : ~ (forall dt, double dt -> 0 < dt -> forall t, exists n, t < f_clock (repeat dt n)).
Proof.
  intros H. destruct (H hundredth (proj2 (double_fmt _) fmt_hundredth) ltac:(unfold hundredth; lra) (bpow radix2 47)) as (n & N). pose proof (clock_stuck n). lra.
Qed.
Print Assumptions C114_keeps_running_refuted.
Example C114_case : (forall dt, In dt (repeat hundredth 1000) -> double dt /\ 0 <= dt) /\ Rabs (f_clock (repeat hundredth 1000) - total_of (repeat hundredth 1000)) <= 1000 * powerRZ 2 (-52) * total_of (repeat hundredth 1000).
Proof.
  assert (A : forall dt, In dt (repeat hundredth 1000) -> double dt /\ 0 <= dt). { intros d I. apply repeat_spec in I. subst. split; [apply double_fmt, fmt_hundredth|unfold hundredth; lra]. }
  split; auto. pose proof (C114_error_linear _ A) as E. rewrite repeat_length in E. replace (INR 1000) with 1000 in E by (rewrite INR_IZR_INZ; reflexivity). apply E. rewrite <- pow2. cbn. lra.
Qed.

(** ** C115 *)
Theorem C115_normalize : forall hypot v, good_hypot hypot -> double (fst v) -> double (snd v) -> powerRZ 2 (-1022) <= norm2 v ->
  let w := f_normalize hypot v in
  double (fst w) /\ double (snd w) /\
  Rabs (fst w - fst v / norm2 v) <= powerRZ 2 (-51) /\ Rabs (snd w - snd v / norm2 v) <= powerRZ 2 (-51) /\
  Rabs (norm2 w - 1) <= powerRZ 2 (-50).
Proof.
  intros hypot v G D1 D2 N w. destruct (normalize_close hypot G v D1 D2 N) as (A & B & C & D & E). fold w in A, B, C, D, E. rewrite <- !pow2.
  assert (V1 : bpow radix2 (-51) = 2 * / 4503599627370496) by (cbn; lra). assert (V2 : bpow radix2 (-50) = 4 * / 4503599627370496) by (cbn; lra). rewrite V1, V2. auto.
Qed.
Print Assumptions C115_normalize.
Theorem C115_zero : forall hypot, good_hypot hypot -> f_normalize hypot (0, 0) = (0, 0).
Proof.
  intros hypot G. assert (D : double 0) by apply double_fmt, generic_format_0. destruct (G 0 0 D D) as (_ & _ & Z & _). unfold f_normalize; cbn [fst snd]. rewrite (proj2 Z) by auto. rewrite Req_bool_true; auto.
Qed.
Print Assumptions C115_zero.
Theorem C115_truncate : forall hypot v l, good_hypot hypot -> double (fst v) -> double (snd v) -> norm2 v <= powerRZ 2 1000 -> 1 <= l ->
  let w := f_truncate hypot v l in
  norm2 w <= l * (1 + powerRZ 2 (-49)) /\
  (norm2 v <= l * (1 - powerRZ 2 (-51)) -> w = v) /\
  (l * (1 + powerRZ 2 (-51)) <= norm2 v ->
   Rabs (fst w - fst v * (l / norm2 v)) <= powerRZ 2 (-50) * l /\ Rabs (snd w - snd v * (l / norm2 v)) <= powerRZ 2 (-50) * l).
Proof.
  intros hypot v l G D1 D2 M L w. destruct (truncate_close hypot G v l D1 D2 M L) as (A & B & C). fold w in A, B, C. rewrite <- !pow2.
  assert (V1 : bpow radix2 (-51) = 2 * / 4503599627370496) by (cbn; lra). assert (V2 : bpow radix2 (-50) = 4 * / 4503599627370496) by (cbn; lra). assert (V3 : bpow radix2 (-49) = 8 * / 4503599627370496) by (cbn; lra). rewrite V1, V2, V3. auto.
Qed.
Print Assumptions C115_truncate.
(** Vectors shorter than the smallest normal double are not scaled to length one. *)
Theorem C115_subnormal_refuted : ~ (forall hypot v, good_hypot hypot -> double (fst v) -> double (snd v) -> 0 < norm2 v -> Rabs (norm2 (f_normalize hypot v) - 1) <= 1 / 4).
Proof.
  intros H. specialize (H exact_hypot (bpow radix2 (-1074), bpow radix2 (-1074)) exact_good (proj2 (double_fmt _) tiny_fmt) (proj2 (double_fmt _) tiny_fmt)).
  rewrite tiny_normalize in H. assert (P : 0 < bpow radix2 (-1074)) by apply bpow_gt_0. assert (Q : 0 < norm2 (bpow radix2 (-1074), bpow radix2 (-1074))).
  { apply sqrt_lt_R0. cbn [fst snd]. nra. }
  specialize (H Q). unfold norm2 in H; cbn [fst snd] in H. replace (1 * 1 + 1 * 1) with 2 in H by ring. assert (S : sqrt 2 * sqrt 2 = 2) by (apply sqrt_sqrt; lra). assert (0 <= sqrt 2) by apply sqrt_pos. apply Rabs_le_inv in H. nra.
Qed.
Print Assumptions C115_subnormal_refuted.
(** A correctly rounded [hypot] is good; the vector (3, 4) satisfies the hypotheses. *)
Example C115_case : good_hypot exact_hypot /\ double 3 /\ double 4 /\ norm2 (3, 4) = 5 /\ powerRZ 2 (-1022) <= 5 <= powerRZ 2 1000.
Proof.
  split; [exact exact_good|]. split; [apply double_fmt, (fmt_int 3); lia|]. split; [apply double_fmt, (fmt_int 4); lia|]. split.
  - unfold norm2; cbn [fst snd]. replace (3 * 3 + 4 * 4) with (5 * 5) by ring. apply sqrt_square. lra.
  - rewrite <- !pow2. split; [apply Rle_trans with (bpow radix2 0); [apply bpow_le; lia|cbn; lra]|apply Rle_trans with (bpow radix2 3); [cbn; lra|apply bpow_le; lia]].
Qed.

(** ** C116 *)
Theorem C116_cells : forall x c, double x -> double c -> 0 < c -> Rabs x <= powerRZ 2 49 * c ->
  exists n : Z, f_floordiv x c = IZR n /\ IZR n * c <= x < (IZR n + 1) * c.
Proof.
  intros x c X C P B. apply double_fmt in X, C. exists (Zfloor (x / c)). rewrite <- pow2 in B. rewrite floordiv_exact by auto. split; auto. assert (XC : x = x / c * c) by (field; lra).
  pose proof (Zfloor_lb (x / c)). pose proof (Zfloor_ub (x / c)). rewrite XC at 2 3. split; [apply Rmult_le_compat_r; lra|apply Rmult_lt_compat_r; lra].
Qed.
Print Assumptions C116_cells.
(** Hence the keys of the block lists of C13 and C14, computed with real numbers there,
    are those computed in double precision. *)
Theorem C116_keys : forall x c, double x -> double c -> 0 < c -> Rabs x <= powerRZ 2 49 * c -> f_floordiv x c = IZR (Base.floordiv x c).
Proof.
  intros x c X C P B. apply double_fmt in X, C. rewrite <- pow2 in B. rewrite floordiv_exact by auto. reflexivity.
Qed.
Print Assumptions C116_keys.
Theorem C116_neighbours : forall x y c, double x -> double y -> double c -> 0 < c -> Rabs x <= powerRZ 2 49 * c -> Rabs y <= powerRZ 2 49 * c ->
  Rabs (x - y) <= c -> Rabs (f_floordiv x c - f_floordiv y c) <= 1.
Proof.
  intros x y c X Y C P BX BY D. destruct (C116_cells x c X C P BX) as (n & -> & N1 & N2). destruct (C116_cells y c Y C P BY) as (m & -> & M1 & M2). apply Rabs_le_inv in D.
  assert (A : (IZR n - IZR m) * c < 2 * c) by lra. assert (B : (IZR m - IZR n) * c < 2 * c) by lra. apply Rmult_lt_reg_r in A; auto. apply Rmult_lt_reg_r in B; auto.
  rewrite <- minus_IZR in *. apply lt_IZR in A. apply lt_IZR in B. rewrite <- abs_IZR. apply IZR_le. lia.
Qed.
Print Assumptions C116_neighbours.
(** Cells of 0.6 metres and positions of 1.2 and -0.4. *)
Example C116_case : double d_1_2 /\ double (- d_0_4) /\ f_floordiv d_1_2 (d_1_2 / 2) = 2 /\ f_floordiv (- d_0_4) (d_1_2 / 2) = -1.
Proof.
  assert (F1 : fmt d_1_2) by (rewrite <- rnd_1_2; apply rnd_fmt). assert (F2 : fmt (- d_0_4)) by (apply generic_format_opp; rewrite <- rnd_0_4; apply rnd_fmt).
  assert (F3 : fmt (d_1_2 / 2)) by (replace (d_1_2 / 2) with (IZR 5404319552844595 * bpow radix2 (-53)) by (unfold d_1_2; cbn; lra); apply fmt_dyadic; lia).
  assert (V : bpow radix2 49 = 562949953421312) by reflexivity.
  split; [now apply double_fmt|]. split; [now apply double_fmt|]. split.
  - rewrite floordiv_exact; auto; [|unfold d_1_2; lra|rewrite V, Rabs_pos_eq; unfold d_1_2; lra]. f_equal. apply Zfloor_imp. unfold d_1_2. cbn. lra.
  - rewrite floordiv_exact; auto; [|unfold d_1_2; lra|rewrite V, Rabs_Ropp, Rabs_pos_eq; unfold d_1_2, d_0_4; lra]. f_equal. apply Zfloor_imp. unfold d_1_2, d_0_4. cbn. lra.
Qed.

(** ** C117 *)
Theorem C117_capacity : forall d_door d_agent coeff, double d_door -> double d_agent -> 0 < d_agent -> d_door <= powerRZ 2 49 * d_agent ->
  (d_door < d_agent -> f_narrow_exit_capacity d_door d_agent None coeff = 0) /\
  (d_agent <= d_door -> exists n : Z, (1 <= n)%Z /\ IZR n * d_agent <= d_door < (IZR n + 1) * d_agent /\
     nearest_double (coeff * IZR n) (f_narrow_exit_capacity d_door d_agent None coeff)).
Proof.
  intros d a k D A P U. rewrite <- pow2 in U. split.
  - intros L. unfold f_narrow_exit_capacity. now rewrite Rlt_bool_true.
  - intros L. destruct (capacity_simple d a k) as (n & N & E & B); auto; try (now apply double_fmt). exists n. rewrite E. split; auto. split; auto. apply rnd_nearest.
Qed.
Print Assumptions C117_capacity.
Theorem C117_layer_as_wide_as_agent : forall d_door d_agent coeff, double d_door ->
  f_narrow_exit_capacity d_door d_agent (Some d_agent) coeff = f_narrow_exit_capacity d_door d_agent None coeff.
Proof. intros d a k D. apply capacity_same, double_fmt, D. Qed.
Print Assumptions C117_layer_as_wide_as_agent.
(** The widths are those of the doubles: a door of 1.2 metres written in decimals has
    room for two, not three, agents of 0.4 metres. *)
Theorem C117_decimal_refuted : ~ (forall door agent d_door d_agent n, 0 < agent -> nearest_double door d_door -> nearest_double agent d_agent ->
  IZR n * agent <= door < (IZR n + 1) * agent -> f_narrow_exit_capacity d_door d_agent None 1 = IZR n).
Proof.
  intros H. specialize (H (6 / 5) (2 / 5) d_1_2 d_0_4 3%Z ltac:(lra)). rewrite <- rnd_1_2, <- rnd_0_4 in H at 1. specialize (H (rnd_nearest _)).
  assert (E : nearest_double (2 / 5) d_0_4) by (rewrite <- rnd_0_4; apply rnd_nearest). rewrite capacity_decimal in H.
  assert (K : 2 = 3); [|lra]. apply H; [|lra]. try rewrite rnd_0_4; exact E.
Qed.
Print Assumptions C117_decimal_refuted.
Example C117_case : double d_1_2 /\ double d_0_4 /\ 0 < d_0_4 <= d_1_2 /\ f_narrow_exit_capacity d_1_2 d_0_4 None 1 = 2.
Proof.
  split; [apply double_fmt; rewrite <- rnd_1_2; apply rnd_fmt|]. split; [apply double_fmt; rewrite <- rnd_0_4; apply rnd_fmt|]. split; [unfold d_1_2, d_0_4; lra|exact capacity_decimal].
Qed.
