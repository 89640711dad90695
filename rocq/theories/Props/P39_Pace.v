(** * Property C138: somebody alone goes where they want at the pace they want *)
From Coq Require Import Lra Lia.
From Verif Require Import Model.Simulation Model.ExampleSims Spec.Pace Proofs.VecLemmas Proofs.PaceProofs Proofs.LoneProofs Proofs.TurnProofs.
From Verif Require Import Props.P20_Validation.
Open Scope R_scope.
Local Open Scope list_scope.

(** After [n] updates the person is where they would be at their wanted velocity, up to 0.15
    (with the default parameters) of the way per second and a fixed distance. *)
Theorem C138_pace : forall e a, (forall ps c, good_enumeration ps c (e_enum e ps c)) -> fair_draws (e_draws e) -> fit (e_kind e) a ->
  forall n, exists s b, updates e logic_outdoor (new_simulation [a]) (repeat (1/100) n) (s, n) /\ s_agents s = [b] /\
  edist (a_position b) (wanted_place a (INR n / 100)) <=
    INR n / 100 * (a_tau_adj a * (3 * a_std_rand_force a)) + astray (a_tau_adj a) (3 * a_std_rand_force a) (off_course a).
Proof.
  intros e a G D F n. destruct (lone_runs e a (good_lone e G) (fit_able _ a F) n) as (t & U & _). eexists. eexists. split; [exact U|]. split; [reflexivity|].
  apply lone_way; [exact F|]. intros m. apply D.
Qed.
Print Assumptions C138_pace.
Lemma some_INR r : exists n, r < INR n.
Proof.
  destruct (archimed r) as [H _]. exists (Z.to_nat (up r)). rewrite INR_IZR_INZ. destruct (Z.le_gt_cases 0 (up r)) as [L|L]; [rewrite Z2Nat.id by lia; lra|].
  apply IZR_lt in L. assert (0 <= IZR (Z.of_nat (Z.to_nat (up r)))) by (apply IZR_le; lia). lra.
Qed.
(** So whoever wants to walk faster than the random force can hold them back gets away from
    their start as far as one likes, whatever is drawn. *)
Theorem C138_gets_away : forall e a far, (forall ps c, good_enumeration ps c (e_enum e ps c)) -> fair_draws (e_draws e) -> fit (e_kind e) a ->
  elen (a_target_direction a) = 1 -> a_tau_adj a * (3 * a_std_rand_force a) < a_target_velocity a ->
  exists n0, forall n, (n0 <= n)%nat -> exists s b, updates e logic_outdoor (new_simulation [a]) (repeat (1/100) n) (s, n) /\ s_agents s = [b] /\
  far < edist (a_position b) (a_position a).
Proof.
  intros e a far G D F U V. set (c := astray (a_tau_adj a) (3 * a_std_rand_force a) (off_course a)). set (r := a_tau_adj a * (3 * a_std_rand_force a)) in *.
  destruct (some_INR (100 * ((c + far) / (a_target_velocity a - r)))) as (n0 & Hn0). exists n0. intros n Hn.
  destruct (C138_pace e a G D F n) as (s & b & S & B & P). exists s, b. split; [exact S|]. split; [exact B|]. fold c r in P.
  assert (W : edist (wanted_place a (INR n / 100)) (a_position a) = INR n / 100 * a_target_velocity a).
  { rewrite edist_vlength. replace (vsub _ _) with (vscale (INR n / 100 * a_target_velocity a) (a_target_direction a)) by (unfold wanted_place, vsub, vscale; cbn; f_equal; ring).
    rewrite elen_vlength in U. rewrite vlength_scale, U, Rmult_1_r. apply Rabs_pos_eq. assert (0 <= INR n) by apply pos_INR. destruct F as (_ & _ & _ & T & Z & _). apply Rmult_le_pos; [lra|]. unfold r in V. nra. }
  pose proof (edist_triangle (wanted_place a (INR n / 100)) (a_position b) (a_position a)) as X. rewrite (edist_sym _ (a_position b)), W in X.
  apply le_INR in Hn. assert (K : (c + far) / (a_target_velocity a - r) < INR n / 100) by lra.
  apply (Rmult_lt_compat_r (a_target_velocity a - r)) in K; [|lra]. unfold Rdiv at 1 in K. rewrite Rmult_assoc, Rinv_l, Rmult_1_r in K by lra. lra.
Qed.
Print Assumptions C138_gets_away.
(** The simulation Outdoor with one agent: after [n] updates, t = n/100, they are within
    0.15 t + 0.64 m of where they want to be, and at least 0.8 t - 0.64 m away from where they started. *)
Theorem C138_outdoor_alone : forall e rolled bodies spawn, (forall ps c, good_enumeration ps c (e_enum e ps c)) -> fair_draws (e_draws e) ->
  fair_rolls rolled -> fair_bodies bodies -> endless (spawn 0 0)%nat ->
  exists st a, outdoor_crowd (e_kind e) rolled bodies spawn 1 = Ok st /\ complete st /\ ag_array st = [a] /\
  forall n, exists s b, updates e logic_outdoor (new_simulation (ag_array st)) (repeat (1/100) n) (s, n) /\ s_agents s = [b] /\
  edist (a_position b) (wanted_place a (INR n / 100)) <= 15/100 * (INR n / 100) + 64/100 /\
  8/10 * (INR n / 100) - 64/100 <= edist (a_position b) (a_position a).
Proof.
  intros e rolled bodies spawn G D Hr Hb He. destruct (one_outdoors (e_kind e) rolled bodies spawn Hr Hb He) as (st & a & E & A & C & R & W).
  pose proof (ready_fit _ a R) as F. assert (Df : a_tau_adj a = 1/2 /\ a_std_rand_force a = 1/10) by (destruct R as (_ & _ & _ & _ & _ & Q & _); unfold defaults in Q; tauto).
  assert (TV : 95/100 <= a_target_velocity a <= 155/100) by (destruct R as (_ & _ & _ & _ & _ & _ & Q); unfold adult in Q; tauto).
  destruct Df as (D1 & D2). destruct W as (phi & _ & W1 & W2 & _). exists st, a. rewrite A. repeat match goal with |- _ /\ _ => split end; auto. intros n.
  destruct (C138_pace e a G D F n) as (s & b & S & B & P). exists s, b. split; [exact S|]. split; [exact B|].
  assert (U : vlength (V (cos phi) (sin phi)) = 1). { apply vlength_eq; [lra|]. cbn [vx vy]. pose proof (sin2_cos2 phi) as H. unfold Rsqr in H. lra. }
  assert (O : off_course a <= 55/100).
  { unfold off_course. rewrite elen_vlength, W1, W2. replace (deviation _ _ _) with (vscale (1 - a_target_velocity a) (V (cos phi) (sin phi))) by (unfold deviation, vscale; cbn; f_equal; ring).
    rewrite vlength_scale, U, Rmult_1_r. apply Rabs_le. lra. }
  assert (N : 0 <= INR n / 100) by (assert (0 <= INR n) by apply pos_INR; lra).
  assert (Q : edist (a_position b) (wanted_place a (INR n / 100)) <= 15/100 * (INR n / 100) + 64/100).
  { eapply Rle_trans; [exact P|]. unfold astray. cbv zeta. rewrite D1, D2. set (t := INR n / 100) in *. lra. }
  split; [exact Q|].
  assert (WW : edist (wanted_place a (INR n / 100)) (a_position a) = INR n / 100 * a_target_velocity a).
  { rewrite edist_vlength. replace (vsub _ _) with (vscale (INR n / 100 * a_target_velocity a) (a_target_direction a)) by (unfold wanted_place, vsub, vscale; cbn; f_equal; ring).
    rewrite vlength_scale, W2, U, Rmult_1_r. apply Rabs_pos_eq. apply Rmult_le_pos; lra. }
  pose proof (edist_triangle (wanted_place a (INR n / 100)) (a_position b) (a_position a)) as X. rewrite (edist_sym _ (a_position b)), WW in X. nra.
Qed.
Print Assumptions C138_outdoor_alone.
(** Somebody who starts from rest at the origin and wants to walk to the right. *)
Definition starter : agent := set_mass 80 (set_tau_adj (1/2) (set_std_rand_force (1/10) (set_target_velocity (125/100) (set_target_direction (V 1 0) zero_row)))).
Definition blank_env (draws : nat -> nat -> R * R * R) : env := Env Circular [] [] (fun _ _ _ _ => Err KeyError) (fun ps _ => all_pairs (length ps)) (fun _ => []) (fun _ => true) draws.
Example C138_case : forall draws, fair_draws draws -> exists s b, updates (blank_env draws) logic_outdoor (new_simulation [starter]) (repeat (1/100) 1000) (s, 1000%nat) /\ s_agents s = [b] /\
  edist (a_position b) (V (125/10) 0) <= 29/10.
Proof.
  intros draws H. destruct (C138_pace (blank_env draws) starter) with (n := 1000%nat) as (s & b & U & B & P).
  - intros ps c. apply all_pairs_good.
  - exact H.
  - repeat split; cbn; try lra; discriminate.
  - exists s, b. split; [exact U|]. split; [exact B|].
    assert (O : off_course starter = 125/100). { unfold off_course. rewrite elen_vlength. apply vlength_eq; [lra|]. cbn. lra. }
    replace (INR 1000 / 100) with 10 in P by (rewrite INR_IZR_INZ; cbn; lra). rewrite O in P.
    replace (wanted_place starter 10) with (V (125/10) 0) in P by (unfold wanted_place; cbn; f_equal; lra).
    eapply Rle_trans; [exact P|]. unfold astray. cbn [a_tau_adj a_std_rand_force starter set_mass set_tau_adj set_std_rand_force set_target_velocity set_target_direction zero_row]. lra.
Qed.
