(** * Properties C128 to C131: overlaps, time steps, moves and grids in double precision *)
From Coq Require Import Reals ZArith Lra Lia List.
From Flocq Require Import Core.
From Verif Require Import Spec.Doubles Model.Floats Model.FloatSteps Proofs.FloatProofs Proofs.FloatSums Proofs.FloatCells Proofs.FloatCases Proofs.FloatOverlap Proofs.FloatMoves.
Import ListNotations.
Open Scope R_scope.

Lemma p49 : powerRZ 2 (-49) = 8 * W. Proof. rewrite <- pow2. cbn. lra. Qed.
Lemma p48 : powerRZ 2 (-48) = 16 * W. Proof. rewrite <- pow2. cbn. lra. Qed.
Lemma p50 : powerRZ 2 (-50) = 4 * W. Proof. rewrite <- pow2. cbn. lra. Qed.
Lemma p51 : powerRZ 2 (-51) = 2 * W. Proof. rewrite <- pow2. cbn. lra. Qed.
Lemma ptau k e : bpow radix2 k = IZR e -> powerRZ 2 (-1075 + k) = IZR e * tau.
Proof. intros H. rewrite <- pow2, bpow_plus, H. apply Rmult_comm. Qed.

(** ** C128 *)
Theorem C128_distance : forall hypot x0 r0 x1 r1, good_hypot hypot ->
  double (fst x0) -> double (snd x0) -> double (fst x1) -> double (snd x1) -> double r0 -> double r1 -> 0 <= r0 -> 0 <= r1 ->
  let d := norm2 (fst x0 - fst x1, snd x0 - snd x1) in
  Rabs (fst (f_distance_circles hypot x0 r0 x1 r1) - (d - (r0 + r1))) <= powerRZ 2 (-50) * (d + r0 + r1) + powerRZ 2 (-1073).
Proof. intros hypot x0 r0 x1 r1 G A B C D E F H I. cbv zeta. rewrite p50. exact (distance_close hypot G x0 r0 x1 r1 A B C D E F H I). Qed.
Print Assumptions C128_distance.
Theorem C128_normal : forall hypot x0 r0 x1 r1, good_hypot hypot ->
  double (fst x0) -> double (snd x0) -> double (fst x1) -> double (snd x1) ->
  let d := norm2 (fst x0 - fst x1, snd x0 - snd x1) in let n := snd (f_distance_circles hypot x0 r0 x1 r1) in
  powerRZ 2 (-1000) <= d ->
  Rabs (fst n - (fst x0 - fst x1) / d) <= powerRZ 2 (-50) /\ Rabs (snd n - (snd x0 - snd x1) / d) <= powerRZ 2 (-50).
Proof. intros hypot x0 r0 x1 r1 G A B C D d n H. rewrite p50. exact (normal_close hypot G x0 r0 x1 r1 A B C D H). Qed.
Print Assumptions C128_normal.
(** For a [hypot] that ignores signs, as every one does. *)
Theorem C128_swapped : forall hypot x0 r0 x1 r1, (forall a b, hypot (- a) (- b) = hypot a b) ->
  let p := f_distance_circles hypot x0 r0 x1 r1 in let q := f_distance_circles hypot x1 r1 x0 r0 in
  fst q = fst p /\ fst (snd q) = - fst (snd p) /\ snd (snd q) = - snd (snd p).
Proof. exact distance_swapped. Qed.
Print Assumptions C128_swapped.
Definition tested (agents : list ((R * R) * R)) (x : R * R) (r : R) : Prop :=
  double (fst x) /\ double (snd x) /\ double r /\
  forall a, In a agents -> double (fst (fst a)) /\ double (snd (fst a)) /\ double (snd a) /\ powerRZ 2 (-1000) <= snd a + r.
Theorem C128_accepted : forall hypot agents x r, good_hypot hypot -> tested agents x r ->
  f_overlapping_circles hypot agents x r = false ->
  forall a, In a agents -> (1 - powerRZ 2 (-50)) * (snd a + r) <= norm2 (fst (fst a) - fst x, snd (fst a) - snd x).
Proof.
  intros hypot agents x r G (X1 & X2 & R1 & T) F a I. destruct (T a I) as (A & B & C & D). rewrite p50, Rmult_comm. apply (overlap_close hypot G (fst a) (snd a) x r A B X1 X2 C R1 D).
  destruct (Rle_or_lt 0 (fst (f_distance_circles hypot (fst a) (snd a) x r))) as [K|K]; auto. assert (f_overlapping_circles hypot agents x r = true) by (apply f_overlapping_iff; eauto). congruence.
Qed.
Print Assumptions C128_accepted.
Theorem C128_rejected : forall hypot agents x r, good_hypot hypot -> tested agents x r ->
  f_overlapping_circles hypot agents x r = true ->
  exists a, In a agents /\ norm2 (fst (fst a) - fst x, snd (fst a) - snd x) < (1 + powerRZ 2 (-50)) * (snd a + r).
Proof.
  intros hypot agents x r G (X1 & X2 & R1 & T) F. apply f_overlapping_iff in F. destruct F as (a & I & K). exists a. split; auto. destruct (T a I) as (A & B & C & D). rewrite p50, Rmult_comm. now apply (overlap_close hypot G (fst a) (snd a) x r A B X1 X2 C R1 D).
Qed.
Print Assumptions C128_rejected.
Lemma norm2_axis x : 0 <= x -> norm2 (x, 0) = x.
Proof. intros H. unfold norm2; cbn [fst snd]. rewrite Rmult_0_l, Rplus_0_r. now apply sqrt_square. Qed.
Lemma hypot_axis x : 0 <= x -> fmt x -> exact_hypot x 0 = x.
Proof. intros H F. unfold exact_hypot. rewrite norm2_axis by auto. now apply rnd_id. Qed.
Lemma fmt_0 : fmt 0. Proof. apply generic_format_0. Qed.
Lemma fmt_1 : fmt 1. Proof. apply (fmt_int 1). lia. Qed.
Lemma fmt_quarters n : (Z.abs n < 2 ^ 53)%Z -> fmt (IZR n / 4).
Proof. intros H. replace (IZR n / 4) with (IZR n * bpow radix2 (-2)) by (cbn; lra). apply fmt_dyadic; [exact H|lia]. Qed.
(** The idealised test finds every overlap; in double precision a circle next to a much
    larger one is accepted. *)
Theorem C128_exact_refuted : ~ (forall hypot agents x r, good_hypot hypot -> tested agents x r ->
  (f_overlapping_circles hypot agents x r = true <-> exists a, In a agents /\ norm2 (fst (fst a) - fst x, snd (fst a) - snd x) < snd a + r)).
Proof.
  intros H. specialize (H exact_hypot [((1, 0), 1)] (0, 0) (bpow radix2 (-60)) exact_good). assert (T : 0 < bpow radix2 (-60) < / 1000000000000000000) by (cbn; lra).
  assert (F : fmt (bpow radix2 (-60))) by (replace (bpow radix2 (-60)) with (IZR 1 * bpow radix2 (-60)) by ring; apply fmt_dyadic; lia).
  destruct H as [_ H].
  { split; [apply double_fmt, fmt_0|]. split; [apply double_fmt, fmt_0|]. split; [apply double_fmt, F|]. intros a [<-|[]]. cbn [fst snd]. split; [apply double_fmt, fmt_1|]. split; [apply double_fmt, fmt_0|]. split; [apply double_fmt, fmt_1|].
    apply Rle_trans with 1; [|lra]. rewrite <- pow2. change 1 with (bpow radix2 0). apply bpow_le. lia. }
  assert (E : rnd (1 + bpow radix2 (-60)) = 1). { rewrite (rnd_at _ 1 4503599627370496); [cbn; lra|rewrite Rabs_pos_eq; cbn; lra|apply Rabs_def1; cbn; lra]. }
  assert (K : f_overlapping_circles exact_hypot [((1, 0), 1)] (0, 0) (bpow radix2 (-60)) = false).
  { unfold f_overlapping_circles, f_distance_circles; cbn [fst snd]. rewrite E, !Rminus_0_r, (rnd_id 1 fmt_1), (rnd_id 0 fmt_0), (hypot_axis 1) by (try lra; apply fmt_1). unfold Rminus. rewrite Rplus_opp_r, (rnd_id 0 fmt_0). rewrite Rlt_bool_false by lra. reflexivity. }
  rewrite K in H. discriminate H. exists ((1, 0), 1). split; [now left|]. cbn [fst snd]. rewrite !Rminus_0_r, norm2_axis by lra. lra.
Qed.
Print Assumptions C128_exact_refuted.
Example C128_case : let agents := [((3, 0), 1 / 4); ((0, 0), 1 / 4)] in
  good_hypot exact_hypot /\ (forall a b, exact_hypot (- a) (- b) = exact_hypot a b) /\ tested agents (1, 0) (1 / 4) /\
  f_overlapping_circles exact_hypot agents (1, 0) (1 / 4) = false /\ f_overlapping_circles exact_hypot agents (1 / 4, 0) (1 / 4) = true.
Proof.
  assert (F3 : fmt 3) by (apply (fmt_int 3); lia). assert (F2 : fmt 2) by (apply (fmt_int 2); lia). assert (F4 : fmt (1 / 4)) by (apply (fmt_quarters 1); lia). assert (F5 : fmt (2 / 4)) by (apply (fmt_quarters 2); lia). assert (F6 : fmt (11 / 4)) by (apply (fmt_quarters 11); lia).
  assert (F7 : fmt (6 / 4)) by (apply (fmt_quarters 6); lia). assert (F8 : fmt (9 / 4)) by (apply (fmt_quarters 9); lia). assert (F9 : fmt (-1 / 4)) by (apply (fmt_quarters (-1)); lia). pose proof fmt_1 as F1. pose proof fmt_0 as F0.
  assert (EV : forall a b, exact_hypot (- a) (- b) = exact_hypot a b) by (intros a b; unfold exact_hypot, norm2; cbn [fst snd]; f_equal; f_equal; ring).
  cbv zeta. split; [exact exact_good|]. split; [exact EV|]. assert (P : powerRZ 2 (-1000) <= / 4) by (rewrite <- pow2; change (/ 4) with (bpow radix2 (-2)); apply bpow_le; lia). split; [|split].
  - split; [now apply double_fmt|]. split; [now apply double_fmt|]. split; [now apply double_fmt|]. intros a [<-|[<-|[]]]; cbn [fst snd]; (split; [now apply double_fmt|split; [now apply double_fmt|split; [now apply double_fmt|lra]]]).
  - assert (N : exact_hypot (-1) 0 = 1) by (pose proof (EV 1 0) as Q; rewrite Ropp_0 in Q; replace (-1) with (- (1)) by lra; rewrite Q; apply hypot_axis; auto; lra).
    unfold f_overlapping_circles, f_distance_circles; cbn [fst snd]. replace (3 - 1) with 2 by lra. replace (0 - 0) with 0 by lra. replace (0 - 1) with (-1) by lra. replace (1 / 4 + 1 / 4) with (2 / 4) by lra. rewrite (rnd_id 2), (rnd_id 0), (rnd_id (2 / 4)), (rnd_id (-1)) by (auto; apply (fmt_int (-1)); lia).
    rewrite N, (hypot_axis 2) by (auto; lra). replace (2 - 2 / 4) with (6 / 4) by lra. replace (1 - 2 / 4) with (2 / 4) by lra. rewrite (rnd_id (6 / 4)), (rnd_id (2 / 4)) by auto. rewrite !Rlt_bool_false by lra. reflexivity.
  - assert (N : exact_hypot (-1 / 4) 0 = 1 / 4) by (pose proof (EV (1 / 4) 0) as Q; rewrite Ropp_0 in Q; replace (-1 / 4) with (- (1 / 4)) by lra; rewrite Q; apply hypot_axis; auto; lra).
    unfold f_overlapping_circles, f_distance_circles; cbn [fst snd]. replace (3 - 1 / 4) with (11 / 4) by lra. replace (0 - 0) with 0 by lra. replace (0 - 1 / 4) with (-1 / 4) by lra. replace (1 / 4 + 1 / 4) with (2 / 4) by lra. rewrite (rnd_id (11 / 4)), (rnd_id 0), (rnd_id (2 / 4)), (rnd_id (-1 / 4)) by auto.
    rewrite N, (hypot_axis (11 / 4)) by (auto; lra). replace (11 / 4 - 2 / 4) with (9 / 4) by lra. replace (1 / 4 - 2 / 4) with (-1 / 4) by lra. rewrite (rnd_id (9 / 4)), (rnd_id (-1 / 4)) by auto. rewrite Rlt_bool_false, Rlt_bool_true by lra. reflexivity.
Qed.

(** ** C129 *)
Theorem C129_range : forall hypot vs tmax dt_min dt_max, double dt_min -> double dt_max -> dt_min <= dt_max ->
  let dt := f_adaptive_timestep hypot vs tmax dt_min dt_max in double dt /\ dt_min <= dt <= dt_max.
Proof. intros. split; [now apply step_double|now apply step_range]. Qed.
Print Assumptions C129_range.
Theorem C129_longest_step : forall hypot vs tmax dt_min dt_max, good_hypot hypot ->
  (forall v, In v vs -> double (fst v) /\ double (snd v) /\ norm2 v <= powerRZ 2 300) ->
  powerRZ 2 (-300) <= tmax -> powerRZ 2 (-300) <= dt_max -> 0 <= dt_min <= dt_max ->
  let dt := f_adaptive_timestep hypot vs tmax dt_min dt_max in
  (dt <> dt_min -> forall v, In v vs -> norm2 v * dt <= 11 / 10 * tmax * dt_max * (1 + powerRZ 2 (-49))) /\
  (forall dt', dt * (1 + powerRZ 2 (-49)) < dt' <= dt_max -> exists v, In v vs /\ 11 / 10 * tmax * dt_max < norm2 v * dt').
Proof. intros hypot vs tmax dt_min dt_max G VS A B C. rewrite <- pow2 in A, B. cbv zeta. rewrite p49. apply (step_close hypot G vs tmax dt_min dt_max); auto. intros v I. rewrite pow2. now apply VS. Qed.
Print Assumptions C129_longest_step.
Theorem C129_nothing_moves : forall hypot vs tmax dt_min dt_max, good_hypot hypot -> (forall v, In v vs -> v = (0, 0)) ->
  f_adaptive_timestep hypot vs tmax dt_min dt_max = dt_max.
Proof.
  intros hypot vs tmax dt_min dt_max G H. unfold f_adaptive_timestep. assert (Z : hypot 0 0 = 0) by (apply (G 0 0); auto; apply double_fmt, fmt_0).
  assert (f_v_max hypot vs 0 = 0) as ->; [|rewrite Req_bool_true; auto]. destruct (v_max_spec hypot vs 0) as (_ & _ & [E|(v & I & E)]); auto. rewrite E, (H v I). exact Z.
Qed.
Print Assumptions C129_nothing_moves.
(** The idealised step keeps the bound exactly; the rounded one exceeds it. *)
Theorem C129_exact_bound_refuted : ~ (forall vs tmax dt_min dt_max,
  (forall v, In v vs -> double (fst v) /\ double (snd v) /\ norm2 v <= powerRZ 2 300) -> powerRZ 2 (-300) <= tmax -> powerRZ 2 (-300) <= dt_max -> 0 <= dt_min <= dt_max ->
  let dt := f_adaptive_timestep exact_hypot vs tmax dt_min dt_max in
  dt <> dt_min -> forall v, In v vs -> norm2 v * dt <= 11 / 10 * tmax * dt_max).
Proof.
  intros H. assert (F2 : fmt 2) by (apply (fmt_int 2); lia). specialize (H [(2, 0)] 1 0 1). assert (T : powerRZ 2 (-300) <= 1) by (rewrite <- pow2; change 1 with (bpow radix2 0); apply bpow_le; lia).
  assert (D : f_adaptive_timestep exact_hypot [(2, 0)] 1 0 1 = f_1_1 / 2).
  { unfold f_adaptive_timestep, f_v_max; cbn [fst snd]. rewrite (hypot_axis 2) by (auto; lra). rewrite Rlt_bool_true by lra. rewrite Req_bool_false by lra. rewrite !Rmult_1_r.
    assert (A : fmt f_1_1) by (replace f_1_1 with (IZR 4953959590107546 * bpow radix2 (-52)) by (unfold f_1_1; cbn; lra); apply fmt_dyadic; lia). assert (B : fmt (f_1_1 / 2)) by (replace (f_1_1 / 2) with (IZR 4953959590107546 * bpow radix2 (-53)) by (unfold f_1_1; cbn; lra); apply fmt_dyadic; lia).
    rewrite !(rnd_id f_1_1 A), (rnd_id _ B). rewrite !Rlt_bool_false by (unfold f_1_1; lra). reflexivity. }
  rewrite D in H. cbv zeta in H. specialize (H ltac:(intros v [<-|[]]; cbn [fst snd]; split; [now apply double_fmt|split; [apply double_fmt, fmt_0|rewrite norm2_axis by lra; rewrite <- pow2; change 2 with (bpow radix2 1); apply bpow_le; lia]]) T T ltac:(lra)).
  specialize (H ltac:(unfold f_1_1; lra) (2, 0) ltac:(now left)). rewrite norm2_axis in H by lra. unfold f_1_1 in H. lra.
Qed.
Print Assumptions C129_exact_bound_refuted.
Example C129_case : let vs := [(2, 0); (0, 0)] in good_hypot exact_hypot /\
  (forall v, In v vs -> double (fst v) /\ double (snd v) /\ norm2 v <= powerRZ 2 300) /\ powerRZ 2 (-300) <= 1 /\
  nearest_double (11 / 10) f_1_1 /\ f_adaptive_timestep exact_hypot vs 1 0 1 = f_1_1 / 2.
Proof.
  assert (F2 : fmt 2) by (apply (fmt_int 2); lia). cbv zeta. split; [exact exact_good|]. split; [|split; [|split]].
  - intros v [<-|[<-|[]]]; cbn [fst snd]; (split; [apply double_fmt; auto using fmt_0|split; [apply double_fmt, fmt_0|]]).
    + rewrite norm2_axis by lra. rewrite <- pow2. change 2 with (bpow radix2 1). apply bpow_le. lia.
    + rewrite norm2_axis by lra. rewrite <- pow2. apply bpow_ge_0.
  - rewrite <- pow2. change 1 with (bpow radix2 0). apply bpow_le. lia.
  - replace f_1_1 with (rnd (11 / 10)); [apply rnd_nearest|]. rewrite (rnd_at _ 1 4953959590107546); [unfold f_1_1; cbn; lra|rewrite Rabs_pos_eq; cbn; lra|apply Rabs_def1; cbn; lra].
  - unfold f_adaptive_timestep, f_v_max; cbn [fst snd]. rewrite (hypot_axis 2), (hypot_axis 0) by (auto using fmt_0; lra). rewrite (Rlt_bool_true 0 2) by lra. rewrite (Rlt_bool_false 2 0) by lra. rewrite Req_bool_false by lra. rewrite !Rmult_1_r.
    assert (A : fmt f_1_1) by (replace f_1_1 with (IZR 4953959590107546 * bpow radix2 (-52)) by (unfold f_1_1; cbn; lra); apply fmt_dyadic; lia). assert (B : fmt (f_1_1 / 2)) by (replace (f_1_1 / 2) with (IZR 4953959590107546 * bpow radix2 (-53)) by (unfold f_1_1; cbn; lra); apply fmt_dyadic; lia).
    rewrite !(rnd_id f_1_1 A), (rnd_id _ B). rewrite !Rlt_bool_false by (unfold f_1_1; lra). reflexivity.
Qed.

(** ** C130 *)
Theorem C130_euler : forall x v force mass dt, double x -> double v -> double dt -> 0 <= dt <= 1 ->
  let a := force / mass in
  Rabs (fst (f_euler x v force mass dt) - (x + (v * dt + a / 2 * (dt * dt)))) <=
    powerRZ 2 (-49) * (Rabs x + Rabs v * dt + Rabs a / 2 * (dt * dt)) + powerRZ 2 (-1069) * (1 + Rabs a) /\
  Rabs (snd (f_euler x v force mass dt) - (v + a * dt)) <= powerRZ 2 (-50) * (Rabs v + Rabs a * dt) + powerRZ 2 (-1072).
Proof.
  intros x v f m dt X V D B. apply double_fmt in X, V, D. cbv zeta. rewrite p49, p50. change (-1069)%Z with (-1075 + 6)%Z. change (-1072)%Z with (-1075 + 3)%Z. rewrite (ptau 6 64), (ptau 3 8) by reflexivity. exact (euler_close x v f m dt X V D B).
Qed.
Print Assumptions C130_euler.
Theorem C130_verlet : forall x v force_prev force mass dt, double x -> double v -> double dt -> 0 <= dt <= 1 ->
  let a' := force_prev / mass in let a := force / mass in let v1 := v + (a' + a) / 2 * dt in let m := Rabs v + (Rabs a' + Rabs a) / 2 * dt in
  Rabs (fst (f_verlet x v force_prev force mass dt) - (x + (v1 * dt + a / 2 * (dt * dt)))) <=
    powerRZ 2 (-48) * (Rabs x + m * dt + Rabs a / 2 * (dt * dt)) + powerRZ 2 (-1066) * (1 + Rabs a) /\
  Rabs (snd (f_verlet x v force_prev force mass dt) - v1) <= powerRZ 2 (-49) * m + powerRZ 2 (-1070).
Proof.
  intros x v f' f m dt X V D B. apply double_fmt in X, V, D. cbv zeta. rewrite p48, p49. change (-1066)%Z with (-1075 + 9)%Z. change (-1070)%Z with (-1075 + 5)%Z. rewrite (ptau 9 512), (ptau 5 32) by reflexivity. exact (verlet_close x v f' f m dt X V D B).
Qed.
Print Assumptions C130_verlet.
Theorem C130_standing : forall x mass dt, double x -> f_euler x 0 0 mass dt = (x, 0).
Proof. intros x m dt X. apply double_fmt in X. rewrite euler_coast by apply fmt_0. rewrite Rmult_0_l, (rnd_id 0 fmt_0), Rplus_0_r, (rnd_id x X). reflexivity. Qed.
Print Assumptions C130_standing.
Theorem C130_walking : forall x v mass dt n, double x -> double v -> INR n <= powerRZ 2 52 ->
  snd (f_coast x v mass dt n) = v /\
  Rabs (fst (f_coast x v mass dt n) - (x + INR n * (v * dt))) <= powerRZ 2 (-51) * INR n * (Rabs x + INR n * Rabs (v * dt)) + powerRZ 2 (-1074) * INR n.
Proof.
  intros x v m dt n X V N. apply double_fmt in X, V. rewrite <- pow2 in N. split; [apply (coast_close x v m dt n X V)|]. rewrite p51. change (-1074)%Z with (-1075 + 1)%Z. rewrite (ptau 1 2) by reflexivity. exact (coast_far x v m dt n X V N).
Qed.
Print Assumptions C130_walking.
(** Far from the origin a walking agent never gets anywhere. *)
Theorem C130_gets_anywhere_refuted : ~ (forall x v mass dt, double x -> double v -> double dt -> 0 < v -> 0 < dt -> 0 < mass -> exists n, x < fst (f_coast x v mass dt n)).
Proof.
  intros H. destruct (H (bpow radix2 53) 1 1 (1 / 2)) as [n N]; try lra; try apply double_fmt.
  - replace (bpow radix2 53) with (IZR 1 * bpow radix2 53) by ring. apply fmt_dyadic; lia.
  - apply fmt_1.
  - replace (1 / 2) with (2 / 4) by lra. apply (fmt_quarters 2). lia.
  - rewrite coast_stuck in N. lra.
Qed.
Print Assumptions C130_gets_anywhere_refuted.
Example C130_case : double 1 /\ double (1 / 2) /\ f_euler 1 1 4 2 (1 / 2) = (7 / 4, 2) /\ f_verlet 1 1 0 4 2 (1 / 2) = (2, 3 / 2) /\ fst (f_coast 1 1 1 (1 / 2) 2) = 2.
Proof.
  assert (F2 : fmt (1 / 2)) by (replace (1 / 2) with (2 / 4) by lra; apply (fmt_quarters 2); lia). pose proof fmt_1 as F1. pose proof fmt_0 as F0. assert (G2 : fmt 2) by (apply (fmt_int 2); lia). assert (F4 : fmt (1 / 4)) by (apply (fmt_quarters 1); lia). assert (F3 : fmt (3 / 4)) by (apply (fmt_quarters 3); lia).
  assert (F7 : fmt (7 / 4)) by (apply (fmt_quarters 7); lia). assert (F6 : fmt (3 / 2)) by (replace (3 / 2) with (6 / 4) by lra; apply (fmt_quarters 6); lia).
  split; [now apply double_fmt|]. split; [now apply double_fmt|]. split; [|split].
  - unfold f_euler. replace (4 / 2) with 2 by lra. rewrite (rnd_id 2 G2). replace (2 / 2) with 1 by lra. replace (2 * (1 / 2)) with 1 by lra. replace (1 / 2 * (1 / 2)) with (1 / 4) by lra. rewrite !Rmult_1_l, (rnd_id (1 / 2) F2), !(rnd_id 1 F1), (rnd_id (1 / 4) F4), !Rmult_1_l, (rnd_id (1 / 4) F4).
    replace (1 / 2 + 1 / 4) with (3 / 4) by lra. replace (1 + 1) with 2 by lra. rewrite (rnd_id (3 / 4) F3), (rnd_id 2 G2). replace (1 + 3 / 4) with (7 / 4) by lra. rewrite (rnd_id _ F7). reflexivity.
  - unfold f_verlet. replace (4 / 2) with 2 by lra. replace (0 / 2) with 0 by lra. rewrite (rnd_id 2 G2), (rnd_id 0 F0), Rplus_0_l, (rnd_id 2 G2). replace (2 / 2) with 1 by lra. rewrite !(rnd_id 1 F1), !Rmult_1_l, (rnd_id (1 / 2) F2). replace (1 + 1 / 2) with (3 / 2) by lra. rewrite (rnd_id _ F6).
    replace (3 / 2 * (1 / 2)) with (3 / 4) by lra. replace (1 / 2 * (1 / 2)) with (1 / 4) by lra. rewrite (rnd_id _ F3), !(rnd_id (1 / 4) F4). replace (3 / 4 + 1 / 4) with 1 by lra. rewrite (rnd_id 1 F1). replace (1 + 1) with 2 by lra. rewrite (rnd_id 2 G2). reflexivity.
  - cbn [f_coast fst snd]. rewrite !euler_coast; cbn [fst snd]; rewrite ?euler_coast; cbn [fst snd]; auto. rewrite !Rmult_1_l, (rnd_id (1 / 2) F2). replace (1 + 1 / 2) with (3 / 2) by lra. rewrite (rnd_id _ F6). replace (3 / 2 + 1 / 2) with 2 by lra. apply (rnd_id 2 G2).
Qed.

(** ** C131 *)
Theorem C131_index_in_grid : forall step minx maxx x, double step -> double minx -> double maxx -> double x ->
  0 < step -> minx <= x <= maxx -> Rabs minx <= powerRZ 2 45 * step -> Rabs maxx <= powerRZ 2 45 * step ->
  (0 <= f_grid_index step minx x < f_grid_length step minx maxx)%Z.
Proof. intros step minx maxx x A B C D P L M N. apply double_fmt in A, B, C, D. rewrite <- pow2 in M, N. exact (proj1 (grid_in_range step minx maxx x A B C D P L M N)). Qed.
Print Assumptions C131_index_in_grid.
(** The point is in the cell of its index, up to a sixteenth of a cell. *)
Theorem C131_cell : forall step minx maxx x, double step -> double minx -> double maxx -> double x ->
  0 < step -> minx <= x <= maxx -> Rabs minx <= powerRZ 2 45 * step -> Rabs maxx <= powerRZ 2 45 * step ->
  let i := IZR (f_grid_index step minx x) in
  minx + (i - / 16) * step <= x <= minx + (i + 1 + / 16) * step.
Proof.
  intros step minx maxx x A B C D P L M N. apply double_fmt in A, B, C, D. rewrite <- pow2 in M, N. destruct (grid_in_range step minx maxx x A B C D P L M N) as (_ & H & _). cbv zeta. apply Rabs_le_inv in H. lra.
Qed.
Print Assumptions C131_cell.
Theorem C131_extent : forall step minx maxx, double step -> double minx -> double maxx ->
  0 < step -> minx <= maxx -> Rabs minx <= powerRZ 2 45 * step -> Rabs maxx <= powerRZ 2 45 * step ->
  let n := IZR (f_grid_length step minx maxx) in
  maxx - / 8 * step <= minx + (n - 1) * step <= maxx + (1 + / 8) * step.
Proof.
  intros step minx maxx A B C P L M N. apply double_fmt in A, B, C. rewrite <- pow2 in M, N. destruct (grid_in_range step minx maxx minx A B C B P ltac:(lra) M N) as (_ & _ & H). cbv zeta. apply Rabs_le_inv in H. lra.
Qed.
Print Assumptions C131_extent.
(** Without the bound the corner of the domain gets an index outside of the grid. *)
Theorem C131_far_domain_refuted : ~ (forall step minx maxx x, double step -> double minx -> double maxx -> double x ->
  0 < step -> minx <= x <= maxx -> (f_grid_index step minx x < f_grid_length step minx maxx)%Z).
Proof.
  intros H. destruct grid_far as (A & B & C & D & E). specialize (H (1 / 2) (bpow radix2 53) (bpow radix2 53 + 4) (bpow radix2 53 + 4) (proj2 (double_fmt _) A) (proj2 (double_fmt _) B) (proj2 (double_fmt _) C) (proj2 (double_fmt _) C) ltac:(lra) ltac:(lra)).
  rewrite D, E in H. lia.
Qed.
Print Assumptions C131_far_domain_refuted.
Example C131_case : double (1 / 2) /\ double 0 /\ double 3 /\ double (11 / 4) /\ 3 <= powerRZ 2 45 * (1 / 2) /\ f_grid_index (1 / 2) 0 (11 / 4) = 5%Z /\ f_grid_length (1 / 2) 0 3 = 7%Z.
Proof.
  assert (F : fmt (1 / 2)) by (replace (1 / 2) with (2 / 4) by lra; apply (fmt_quarters 2); lia). assert (F3 : fmt 3) by (apply (fmt_int 3); lia). assert (F11 : fmt (11 / 4)) by (apply (fmt_quarters 11); lia). assert (F22 : fmt (22 / 4)) by (apply (fmt_quarters 22); lia). assert (F14 : fmt (14 / 4)) by (apply (fmt_quarters 14); lia). assert (F7 : fmt 7) by (apply (fmt_int 7); lia).
  split; [now apply double_fmt|]. split; [apply double_fmt, fmt_0|]. split; [now apply double_fmt|]. split; [now apply double_fmt|]. split; [rewrite <- pow2; cbn; lra|]. unfold f_grid_index, f_grid_length. rewrite !Rminus_0_r, (rnd_id _ F11). replace (11 / 4 / (1 / 2)) with (22 / 4) by lra. rewrite (rnd_id _ F22).
  replace (3 + 1 / 2) with (14 / 4) by lra. rewrite !(rnd_id _ F14). replace (14 / 4 / (1 / 2)) with 7 by lra. rewrite (rnd_id _ F7). split.
  - rewrite Ztrunc_floor by lra. apply Zfloor_imp. cbn. lra.
  - apply (Zceil_IZR 7).
Qed.
