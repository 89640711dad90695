(** Proofs about turning, and about the simulation Outdoor with one agent. *)
From Coq Require Import Lra Lia.
From Verif Require Import Proofs.InteractionProofs Proofs.IntegratorProofs Proofs.SimulationMore Proofs.CrowdProofs Proofs.CrowdExamples Proofs.CrowdApart.
From Verif Require Export Proofs.LoneProofs.
From Verif Require Import Spec.Straight.
Open Scope R_scope.

(** ** Updates are a function *)
Lemma updates_deterministic e x s dts s1 : updates e x s dts s1 -> forall dts' s2, updates e x s dts' s2 -> length dts = length dts' -> dts = dts' /\ s1 = s2.
Proof.
  induction 1 as [s|s t dts s1 H U IH]; intros dts' s2 U'; inversion U'; subst; cbn; try discriminate; auto.
  intros [= L]. match goal with Q : simulation_update e x s = (?v, None) |- _ => rewrite H in Q; injection Q as <- end.
  match goal with Q : updates e x t _ s2 |- _ => destruct (IH _ _ Q L) as (-> & ->) end. auto.
Qed.

(** ** Turning *)
Definition turning (a : agent) := (a_orientation a, a_angular_velocity a, (a_torque a, a_torque_prev a), a_inertia_rot a, a_tau_rot a, a_std_rand_torque a, a_target_angular_velocity a).
Lemma turning_eq x o w t tp i tr sd v : turning x = (o, w, (t, tp), i, tr, sd, v) ->
  a_orientation x = o /\ a_angular_velocity x = w /\ a_torque x = t /\ a_torque_prev x = tp /\ a_target_angular_velocity x = v.
Proof. unfold turning. intros H. repeat split; congruence. Qed.
Lemma turning_row d c : a_target_angular_velocity c = 0 -> turning (lone_row ThreeCircle d c) =
  let T := a_torque c + torque_fluctuation1 (a_inertia_rot c) (a_std_rand_torque c) (snd d) + a_inertia_rot c / a_tau_rot c * (0 - a_angular_velocity c) in
  let w := a_angular_velocity c + (a_torque_prev c / a_inertia_rot c + T / a_inertia_rot c) / 2 * DT in
  (wrap_to_pi (a_orientation c + (w * DT + T / a_inertia_rot c / 2 * (DT * DT))), w, (0, T), a_inertia_rot c, a_tau_rot c, a_std_rand_torque c, 0).
Proof.
  intros Z. destruct d as [[phi z] zt]. unfold turning, lone_row. cbn [fst snd].
  unfold faced_row, fluctuate_row, adjusted_row, turned_row, pulled_row, moved_row, reset_row. cbn. rewrite Z.
  replace (wrap_to_pi (angle (a_target_direction c) - a_orientation c) / PI * 0) with 0 by ring. reflexivity.
Qed.
Lemma turning_step d a b : a_target_angular_velocity a = 0 -> turning a = turning b -> turning (lone_row ThreeCircle d a) = turning (lone_row ThreeCircle d b).
Proof.
  intros Z E. unfold turning in E. injection E as E1 E2 E3 E4 E5 E6 E7 E8. rewrite !turning_row by congruence. rewrite E1, E2, E3, E4, E5, E6, E7. reflexivity.
Qed.
Lemma turning_lone draws a b : a_target_angular_velocity a = 0 -> turning a = turning b ->
  forall n, turning (lone ThreeCircle draws a n) = turning (lone ThreeCircle draws b n) /\ a_target_angular_velocity (lone ThreeCircle draws a n) = 0.
Proof.
  intros Z E. induction n as [|n (I & J)]; [cbn [lone]; auto|]. cbn [lone]. split; [apply turning_step; auto|].
  pose proof (turning_row (draws n) _ J) as Q. cbv zeta in Q. unfold turning in Q at 1. congruence.
Qed.
Lemma turning_still draws a : a_target_angular_velocity a = 0 -> a_angular_velocity a = 0 -> a_torque a = 0 -> a_torque_prev a = 0 ->
  - PI <= a_orientation a < PI -> (forall n, snd (draws n) = 0) ->
  forall n, let b := lone ThreeCircle draws a n in a_target_angular_velocity b = 0 /\ a_angular_velocity b = 0 /\ a_torque b = 0 /\ a_torque_prev b = 0 /\ a_orientation b = a_orientation a.
Proof.
  intros Z W T P O D n. cbv zeta. induction n as [|n (I1 & I2 & I3 & I4 & I5)]; [cbn [lone]; auto|]. cbn [lone].
  pose proof (turning_row (draws n) _ I1) as Q. cbv zeta in Q. apply turning_eq in Q. rewrite I2, I3, I4, I5, (D n) in Q.
  destruct Q as (Q1 & Q2 & Q3 & Q4 & Q5). unfold torque_fluctuation1 in *. set (c := lone ThreeCircle draws a n) in *.
  assert (E : 0 + a_inertia_rot c * (0 + a_std_rand_torque c * 0) + a_inertia_rot c / a_tau_rot c * (0 - 0) = 0) by ring. rewrite E in Q1, Q2, Q4. clear E.
  split; [exact Q5|]. split; [rewrite Q2; unfold Rdiv; ring|]. split; [exact Q3|]. split; [exact Q4|]. rewrite Q1.
  replace (a_orientation a + _) with (a_orientation a) by (unfold Rdiv; ring). apply wrap_id. lra.
Qed.

(** ** Outdoors, alone *)
Lemma ready_fit k a : ready k a -> fit k a.
Proof.
  intros (_ & _ & _ & F & P & D & A). unfold defaults in D. destruct D as (D1 & _ & _ & _ & _ & _ & D2 & _ & D3). destruct A as (_ & M & _ & _ & _ & _ & I).
  split; [exact F|]. split; [exact P|]. split; [lra|]. split; [lra|]. split; [lra|]. intros K. destruct (D3 K) as (R & _). split; lra.
Qed.
Lemma fit_able k a : fit k a -> able k a.
Proof. intros (F & _ & M & T & _ & K). split; [exact F|]. split; [exact M|]. split; [exact T|exact K]. Qed.
Lemma one_outdoors k rolled bodies spawn : fair_rolls rolled -> fair_bodies bodies -> endless (spawn 0 0)%nat ->
  exists st a, outdoor_crowd k rolled bodies spawn 1 = Ok st /\ ag_array st = [a] /\ complete st /\ ready k a /\ walks_somewhere k a.
Proof.
  intros Hr Hb He. destruct (outdoor_starts k rolled bodies spawn Hr Hb 1 ltac:(lia) He) as (st & E & L & I & F & _). change (Z.to_nat 1) with 1%nat in L.
  destruct (spawn 0 0 0)%nat as [x|] eqn:X; [|destruct (He _ X)]. pose proof E as E'.
  unfold outdoor_crowd in E'. rewrite int_trait_ok in E' by lia. cbn [rbind] in E'.
  eapply first_draw_taken in E'; [|constructor; [apply fair_one; exact Hb|constructor]|reflexivity|cbn; lia|exact X]. destruct E' as (a & N & _ & P).
  exists st, a. destruct (ag_array st) as [|b [|]] eqn:A; try discriminate L. injection N as ->. cbn in I. assert (Q : ag_index st = 1%nat) by lia.
  rewrite Q in F. apply Forall_inv in F. destruct F as (R & _ & _ & _ & W & _). unfold complete. rewrite A, Q. auto.
Qed.
Lemma off_course_dist b v d : a_target_velocity b = v -> a_target_direction b = d -> edist (a_velocity b) (V (v * vx d) (v * vy d)) = off_course b.
Proof.
  intros <- <-. unfold off_course, deviation, elen, edist. cbn [vx vy vzero]. now rewrite !Rminus_0_r.
Qed.
Lemma all_pairs_good ps c : good_enumeration ps c (all_pairs (length ps)).
Proof.
  split; [|split].
  - intros i j H. apply all_pairs_in in H. lia.
  - replace (map orient (all_pairs (length ps))) with (all_pairs (length ps)); [apply all_pairs_nodup|]. symmetry. rewrite <- (map_id (all_pairs (length ps))) at 2.
    apply map_ext_in. intros [i j] H. apply all_pairs_in in H. unfold orient. cbn [fst snd]. destruct (Nat.ltb_spec i j); [reflexivity|lia].
  - intros i j x y L X Y _. left. apply all_pairs_in. split; [exact L|]. apply nth_error_Some. congruence.
Qed.
