(** * Properties C21-C27, C68: forces and torques on agents *)
From Coq Require Import Lra Lia.
From Verif Require Import Proofs.MotionProofs Proofs.PowerLaw3Proofs.
Open Scope R_scope.

(** C21: [force_adjust] vanishes exactly at the target velocity. *)
Theorem C21_zero_at_target_only : forall m tau v0 e0 v f, 0 < m -> force_adjust m tau v0 e0 v = Ok f ->
  (f = vzero <-> v = V (v0 * vx e0) (v0 * vy e0)).
Proof. exact force_adjust_zero. Qed.
Print Assumptions C21_zero_at_target_only.
(** It points from the velocity to the target velocity, with factor m / tau. *)
Theorem C21_force_value : forall m tau v0 e0 v f, force_adjust m tau v0 e0 v = Ok f ->
  f = V (- (m / tau) * vx (deviation v0 e0 v)) (- (m / tau) * vy (deviation v0 e0 v)).
Proof. exact force_adjust_pulls. Qed.
Print Assumptions C21_force_value.
(** Every agent gets its force, or the loop raises when some adjusting time is zero. *)
Theorem C21_all_agents : forall agents, (forall a, In a agents -> a_tau_adj a <> 0) ->
  force_adjust_agents agents = (None, map (fun a => set_force (vadd (a_force a)
     (vscale (a_mass a / a_tau_adj a) (vsub (vscale (a_target_velocity a) (a_target_direction a)) (a_velocity a)))) a) agents).
Proof. exact force_adjust_agents_ok. Qed.
Print Assumptions C21_all_agents.
Theorem C21_zero_adjusting_time_raises : forall agents a, In a agents -> a_tau_adj a = 0 ->
  fst (force_adjust_agents agents) = Some ZeroDivisionError.
Proof. exact force_adjust_agents_err. Qed.
Print Assumptions C21_zero_adjusting_time_raises.
(** Euler steps of at most the adjusting time: the deviation of every agent keeps
    its direction and shrinks geometrically. *)
Theorem C21_euler_converges : forall sd dt_min dt_max agents n, 0 < dt_min <= dt_max ->
  (forall a, In a agents -> 0 < a_mass a /\ 0 < a_tau_adj a /\ dt_max < a_tau_adj a) ->
  exists l, adjust_steps (fun l => euler_integrator Circular sd l dt_min dt_max) n agents = Some l /\
    Forall2 (fun a b => shrunk ((1 - dt_min / a_tau_adj a) ^ n)
      (deviation (a_target_velocity a) (a_target_direction a) (a_velocity a))
      (deviation (a_target_velocity a) (a_target_direction a) (a_velocity b))) agents l.
Proof. exact euler_converges. Qed.
Print Assumptions C21_euler_converges.
(** Velocity Verlet steps of at most a third of the adjusting time, from agents
    whose previous force is zero. *)
Theorem C21_verlet_converges : forall dt_min dt_max agents n, 0 < dt_min <= dt_max ->
  (forall a, In a agents -> 0 < a_mass a /\ 0 < a_tau_adj a /\ 3 * dt_max <= a_tau_adj a) ->
  (forall a, In a agents -> a_force_prev a = vzero) ->
  exists l, adjust_steps (fun l => velocity_verlet_integrator Circular l dt_min dt_max) n agents = Some l /\
    Forall2 (fun a b => shrunk ((1 - dt_min / (2 * a_tau_adj a)) ^ n)
      (deviation (a_target_velocity a) (a_target_direction a) (a_velocity a))
      (deviation (a_target_velocity a) (a_target_direction a) (a_velocity b))) agents l.
Proof. exact verlet_converges. Qed.
Print Assumptions C21_verlet_converges.
(** Progress at every single step. *)
Theorem C21_verlet_closer_every_step : forall dt_min dt_max agents n, 0 < dt_min <= dt_max ->
  (forall a, In a agents -> 0 < a_mass a /\ 0 < a_tau_adj a /\ 3 * dt_max <= a_tau_adj a) ->
  (forall a, In a agents -> a_force_prev a = vzero) ->
  exists l l', adjust_steps (fun l => velocity_verlet_integrator Circular l dt_min dt_max) n agents = Some l /\
    adjust_steps (fun l => velocity_verlet_integrator Circular l dt_min dt_max) (S n) agents = Some l' /\
    Forall2 (fun a b => shrunk (1 - dt_min / (2 * a_tau_adj a))
      (deviation (a_target_velocity a) (a_target_direction a) (a_velocity a))
      (deviation (a_target_velocity a) (a_target_direction a) (a_velocity b))) l l'.
Proof. exact verlet_closer. Qed.
Print Assumptions C21_verlet_closer_every_step.
(** What [shrunk] gives: strictly closer, and convergence. *)
Theorem C21_shrunk_is_closer : forall c v w, c < 1 -> v <> vzero -> shrunk c v w -> elen w < elen v.
Proof. exact shrunk_closer. Qed.
Print Assumptions C21_shrunk_is_closer.
Theorem C21_shrunk_converges : forall q v (w : nat -> vec), 0 <= q < 1 -> (forall n, shrunk (q ^ n) v (w n)) ->
  forall eps, 0 < eps -> exists N, forall n, (N <= n)%nat -> elen (w n) < eps.
Proof. exact shrunk_limit. Qed.
Print Assumptions C21_shrunk_converges.
Definition walker : agent :=
  set_mass 80 (set_tau_adj (1/2) (set_target_velocity (5/4) (set_target_direction (V 1 0) zero_row))).
Example C21_ex : In walker [walker] /\ (0 < a_mass walker /\ 0 < a_tau_adj walker /\ 3 * (1/100) <= a_tau_adj walker) /\
  a_force_prev walker = vzero /\ deviation (a_target_velocity walker) (a_target_direction walker) (a_velocity walker) = V (-5/4) 0.
Proof. cbn. repeat split; try lra; auto. unfold deviation. apply f_equal2; cbn; lra. Qed.

(** C22 *)
Theorem C22_torque_of_shortest_turn : forall I tau phi_0 phi w0 w, tau <> 0 ->
  exists delta, shortest_turn phi phi_0 delta /\ torque_adjust I tau phi_0 phi w0 w = Ok (I / tau * (delta / PI * w0 - w)).
Proof. exact torque_adjust_spec. Qed.
Print Assumptions C22_torque_of_shortest_turn.
Theorem C22_torque_at_rest : forall I tau phi_0 phi w0, 0 < I -> 0 < tau -> 0 < w0 ->
  exists delta t, shortest_turn phi phi_0 delta /\ torque_adjust I tau phi_0 phi w0 0 = Ok t /\
    (0 < t <-> 0 < delta) /\ (t < 0 <-> delta < 0) /\ (t = 0 <-> exists k : Z, phi = phi_0 + 2 * PI * IZR k) /\
    Rabs t <= I / tau * w0.
Proof. exact torque_at_rest. Qed.
Print Assumptions C22_torque_at_rest.
(** The shortest turn is unique except for opposite orientations. *)
Theorem C22_shortest_turn_unique : forall phi phi_0 d1 d2,
  shortest_turn phi phi_0 d1 -> shortest_turn phi phi_0 d2 -> Rabs d1 < PI -> d1 = d2.
Proof. exact shortest_unique. Qed.
Print Assumptions C22_shortest_turn_unique.
Theorem C22_all_agents : forall agents, (forall a, In a agents -> a_tau_rot a <> 0) ->
  exists l, torque_adjust_agents agents = (None, l) /\
  Forall2 (fun a b => exists delta, shortest_turn (a_orientation a) (a_target_orientation a) delta /\
     b = set_torque (a_torque a + a_inertia_rot a / a_tau_rot a *
       (delta / PI * a_target_angular_velocity a - a_angular_velocity a)) a) agents l.
Proof. exact torque_adjust_agents_ok. Qed.
Print Assumptions C22_all_agents.
Theorem C22_zero_adjusting_time_raises : forall agents a, In a agents -> a_tau_rot a = 0 ->
  fst (torque_adjust_agents agents) = Some ZeroDivisionError.
Proof. exact torque_adjust_agents_err. Qed.
Print Assumptions C22_zero_adjusting_time_raises.
(** From 3 to -3 the short way is the positive one. *)
Example C22_ex : exists t, torque_adjust 4 (1/5) (-3) 3 (4 * PI) 0 = Ok t /\ 0 < t.
Proof.
  destruct (C22_torque_at_rest 4 (1/5) (-3) 3 (4 * PI)) as (d & t & (T & S) & E & P & _); try lra.
  { pose proof PI_RGT_0; lra. }
  exists t. split; auto. apply P. pose proof PI_RGT_0. pose proof PI_4.
  assert (K : turn 3 (-3) (2 * PI - 6)) by (exists 1%Z; lra). apply S in K. destruct T as (k & Ek).
  assert (PI > 3) by (pose proof PI2_3_2; lra). rewrite (Rabs_right (2 * PI - 6)) in K by lra.
  destruct (Rlt_dec 0 d) as [|N]; auto. exfalso. rewrite Rabs_left1 in K by lra.
  assert (Q : (k < 1)%Z). { apply lt_IZR. nra. } assert (IZR k <= 0) by (apply IZR_le; lia). nra.
Qed.

(** C23: the normal component is elastic repulsion plus damping, the tangential
    component is friction. *)
Theorem C23_normal_and_tangential_part : forall h n v mu kappa damping, is_unit n ->
  let f := force_contact h n v (rotate270 n) mu kappa damping in
  inner f n = - h * mu + damping * inner v n /\ inner f (rotate270 n) = h * kappa * inner v (rotate270 n).
Proof. exact contact_parts. Qed.
Print Assumptions C23_normal_and_tangential_part.
(** Reversing normal, tangent and relative velocity reverses the force. *)
Theorem C23_third_law : forall h n v t mu kappa damping,
  force_contact h (vneg n) (vneg v) (vneg t) mu kappa damping = vneg (force_contact h n v t mu kappa damping).
Proof. exact contact_negate. Qed.
Print Assumptions C23_third_law.
(** Power of the friction part: never positive for overlapping bodies. *)
Theorem C23_friction_power : forall h n v t mu kappa damping,
  inner (vsub (force_contact h n v t mu kappa damping) (force_contact h n v t mu 0 damping)) v =
  h * kappa * (inner v t * inner v t).
Proof. exact contact_friction_power. Qed.
Print Assumptions C23_friction_power.
(** Power of the damping part: positive whenever the bodies move along the
    normal, so damping adds energy. *)
Theorem C23_damping_adds_energy_refuted : forall h n v t mu kappa damping, 0 < damping -> inner v n <> 0 ->
  0 < inner (vsub (force_contact h n v t mu kappa damping) (force_contact h n v t mu kappa 0)) v.
Proof.
  exact (fun h n v t mu kappa damping Hd Hv => eq_ind_r (fun x => 0 < x)
    (Rmult_lt_0_compat _ _ Hd (Rsqr_pos_lt _ Hv)) (contact_damping_power h n v t mu kappa damping)).
Qed.
Print Assumptions C23_damping_adds_energy_refuted.
Example C23_ex : let f := force_contact (-1/10) (V 1 0) (V (-1) 1) (rotate270 (V 1 0)) 100 10 5 in
  0 < 5 /\ inner (V (-1) 1) (V 1 0) <> 0 /\ vx f = 5 /\ vy f = -1.
Proof. unfold force_contact, inner, rotate270, vscale, vadd, vsub, dot. cbn. repeat split; lra. Qed.

(** C24: a value is returned exactly when the circles are apart and will overlap,
    and it is the first contact. *)
Theorem C24_first_contact : forall x v r tau, 0 <= r ->
  (fst (time_to_collision_circle_circle x v r) = Some tau <->
   on_collision_course x v r /\ first_contact x v r tau).
Proof. exact ttc_some. Qed.
Print Assumptions C24_first_contact.
Theorem C24_nan_otherwise : forall x v r, 0 <= r ->
  (fst (time_to_collision_circle_circle x v r) = None <-> ~ on_collision_course x v r).
Proof. exact ttc_none. Qed.
Print Assumptions C24_nan_otherwise.
Example C24_ex : on_collision_course (V (-3) 0) (V 1 0) 1 /\ first_contact (V (-3) 0) (V 1 0) 1 2.
Proof.
  assert (on_collision_course (V (-3) 0) (V 1 0) 1).
  { split; [apply elen_gt; [lra|unfold inner; cbn; lra]|]. exists 3. split; [lra|].
    apply elen_lt; [lra|]. unfold inner, moved; cbn; lra. }
  split; auto. split; [lra|]. split.
  - apply elen_is; [lra|]. unfold inner, moved; cbn; lra.
  - intros s Hs. apply elen_gt; [lra|]. unfold inner, moved; cbn. nra.
Qed.

(** C68: the second result is called the gradient of the time to collision.  The
    directional derivative of the first contact time along [u] is minus its
    inner product with [u]. *)
Theorem C68_gradient_is_negated_partial : forall x u v r T, 0 <= r -> on_collision_course x v r -> contact_time_along x u v r T ->
  derivable_pt_lim T 0 (- inner (snd (time_to_collision_circle_circle x v r)) u).
Proof. exact contact_time_derivative. Qed.
Print Assumptions C68_gradient_is_negated_partial.
(** The contact time is defined along every direction. *)
Theorem C68_contact_time_exists_partial : forall x u v r, 0 <= r -> on_collision_course x v r -> exists T, contact_time_along x u v r T.
Proof. exact contact_time_exists. Qed.
Print Assumptions C68_contact_time_exists_partial.
(** So it is not the gradient. *)
Definition head_on_not_gradient : exists x u v r T, 0 <= r /\ on_collision_course x v r /\ contact_time_along x u v r T /\
  ~ derivable_pt_lim T 0 (inner (snd (time_to_collision_circle_circle x v r)) u).
Proof.
  exists (V (-3) 0), (V 1 0), (V 1 0), 1. destruct C24_ex as [Hc _].
  destruct (contact_time_exists (V (-3) 0) (V 1 0) (V 1 0) 1 ltac:(lra) Hc) as (T & HT).
  exists T. split; [lra|]. split; auto. split; auto. intros D.
  pose proof (contact_time_derivative (V (-3) 0) (V 1 0) (V 1 0) 1 T ltac:(lra) Hc HT) as D'.
  pose proof (uniqueness_limite T 0 _ _ D D') as E.
  destruct (ttc_cases (V (-3) 0) (V 1 0) 1 ltac:(lra)) as [[_ K]|[K _]]; [|contradiction].
  rewrite K in E. cbn [snd] in E. revert E.
  assert (Q : qdisc (V (-3) 0) (V 1 0) 1 = 1 * 1) by (unfold qdisc, coeff_a, coeff_b, coeff_c, dot; cbn; ring).
  rewrite Q, sqrt_square by lra.
  unfold gradient_circle_circle, coeff_a, coeff_b, dot, inner, vdiv, vsub, vadd, vscale. cbn. lra.
Qed.
Theorem C68_not_the_gradient_refuted : exists x u v r T, 0 <= r /\ on_collision_course x v r /\ contact_time_along x u v r T /\
  ~ derivable_pt_lim T 0 (inner (snd (time_to_collision_circle_circle x v r)) u).
Proof. exact head_on_not_gradient. Qed.
Print Assumptions C68_not_the_gradient_refuted.

(** C25 *)
Theorem C25_no_collision_no_force : forall ai aj, 0 <= a_radius ai -> 0 <= a_radius aj ->
  (forall tau, first_contact (vsub (a_position ai) (a_position aj)) (vsub (a_velocity ai) (a_velocity aj))
     (a_radius ai + a_radius aj) tau -> 30 < tau) ->
  force_social_circular ai aj = Ok (vzero, vzero).
Proof. exact fsc_zero. Qed.
Print Assumptions C25_no_collision_no_force.
Theorem C25_capped : forall ai aj fi fj, 0 <= a_radius ai -> 0 <= a_radius aj ->
  force_social_circular ai aj = Ok (fi, fj) -> elen fi <= 2000 /\ elen fj <= 2000.
Proof. exact fsc_cap. Qed.
Print Assumptions C25_capped.
Theorem C25_opposite : forall ai aj fi fj, 0 <= a_radius ai -> 0 <= a_radius aj ->
  a_mass ai = a_mass aj -> a_k_soc ai = a_k_soc aj -> a_tau_0 ai = a_tau_0 aj ->
  force_social_circular ai aj = Ok (fi, fj) -> fj = vneg fi.
Proof. exact fsc_opposite. Qed.
Print Assumptions C25_opposite.
(** Below the cap the force on [i] is minus the gradient of the energy of [i] with
    respect to the relative position, and the force on [j] plus that of [j]. *)
Theorem C25_energy_gradient : forall ai aj fi fj u T, 0 <= a_radius ai -> 0 <= a_radius aj ->
  let x := vsub (a_position ai) (a_position aj) in
  let v := vsub (a_velocity ai) (a_velocity aj) in
  let r := a_radius ai + a_radius aj in
  force_social_circular ai aj = Ok (fi, fj) ->
  on_collision_course x v r -> contact_time_along x u v r T -> T 0 <= 30 ->
  (elen fi < 2000 ->
   derivable_pt_lim (fun s => interaction_energy (a_mass ai) (a_k_soc ai) (a_tau_0 ai) (T s)) 0 (- inner fi u)) /\
  (elen fj < 2000 ->
   derivable_pt_lim (fun s => interaction_energy (a_mass aj) (a_k_soc aj) (a_tau_0 aj) (T s)) 0 (inner fj u)).
Proof. exact fsc_gradient. Qed.
Print Assumptions C25_energy_gradient.
Theorem C25_returns : forall ai aj, a_tau_0 ai <> 0 -> a_tau_0 aj <> 0 -> 0 <= a_radius ai + a_radius aj ->
  exists f, force_social_circular ai aj = Ok f.
Proof. exact fsc_defined. Qed.
Print Assumptions C25_returns.
Theorem C25_swapped_agents : forall ai aj, force_social_circular aj ai = swap_res (force_social_circular ai aj).
Proof. exact fsc_swap. Qed.
Print Assumptions C25_swapped_agents.
Definition ped (x v : vec) : agent :=
  set_position x (set_velocity v (set_radius (1/4) (set_mass 80 (set_tau_0 3 (set_k_soc (3/2) zero_row))))).
Example C25_ex : let ai := ped (V (-3) 0) (V 1 0) in let aj := ped (V 0 0) (V 0 0) in
  on_collision_course (vsub (a_position ai) (a_position aj)) (vsub (a_velocity ai) (a_velocity aj)) (a_radius ai + a_radius aj) /\
  exists f, force_social_circular ai aj = Ok f.
Proof.
  cbv zeta. split.
  - cbn. split; [apply elen_gt; [lra|unfold inner, vsub; cbn; lra]|]. exists 3. split; [lra|].
    apply elen_lt; [lra|]. unfold inner, moved, vsub; cbn; lra.
  - apply C25_returns; cbn; lra.
Qed.

(** C26.  [circle_pairs] lists the nine pairs of circles, torso first. *)
Theorem C26_pairs_are_all_pairs : forall ai aj c d,
  In (c, d) (circle_pairs ai aj) <-> In c (body ThreeCircle ai) /\ In d (body ThreeCircle aj).
Proof. exact (fun ai aj c d => in_prod_iff (body ThreeCircle ai) (body ThreeCircle aj) c d). Qed.
Print Assumptions C26_pairs_are_all_pairs.
(** The force reacts to the earliest collision, provided that the first pair in the
    list whose circles overlap at any past or future time is on a collision course. *)
Theorem C26_reacts_to_earliest_partial : forall ai aj l1 p l2,
  0 <= a_r_t ai /\ 0 <= a_r_s ai -> 0 <= a_r_t aj /\ 0 <= a_r_s aj -> a_tau_0 ai <> 0 -> a_tau_0 aj <> 0 ->
  let v := vsub (a_velocity ai) (a_velocity aj) in
  circle_pairs ai aj = l1 ++ p :: l2 ->
  (forall q, In q l1 -> ~ paths_cross (pair_x q) v (pair_r q)) ->
  on_collision_course (pair_x p) v (pair_r p) ->
  exists q tau grad mi mj,
    In q (circle_pairs ai aj) /\ on_collision_course (pair_x q) v (pair_r q) /\
    first_contact (pair_x q) v (pair_r q) tau /\
    (forall q' tau', In q' (circle_pairs ai aj) -> on_collision_course (pair_x q') v (pair_r q') ->
       first_contact (pair_x q') v (pair_r q') tau' -> tau <= tau') /\
    magnitude tau (a_tau_0 ai) = Ok mi /\ magnitude tau (a_tau_0 aj) = Ok mj /\
    (shoulders_in_place ai -> shoulders_in_place aj ->
      grad = vadd (snd (time_to_collision_circle_circle (pair_x q) v (pair_r q)))
        (vscale (3 / - inner (moved (pair_x q) v tau) v)
           (vsub (pair_x q) (vsub (a_position ai) (a_position aj))))) /\
    force_social_three_circle ai aj =
      Ok (truncate (vscale mi (vscale (- a_mass ai * a_k_soc ai) grad)) 2000,
          truncate (vscale mj (vscale (a_mass aj * a_k_soc aj) grad)) 2000).
Proof. exact three_circle_earliest. Qed.
Print Assumptions C26_reacts_to_earliest_partial.
(** Otherwise there is no reaction at all, whatever the later pairs do. *)
Theorem C26_blocked_by_passed_pair_refuted : forall ai aj l1 p l2,
  0 <= a_r_t ai /\ 0 <= a_r_s ai -> 0 <= a_r_t aj /\ 0 <= a_r_s aj ->
  let v := vsub (a_velocity ai) (a_velocity aj) in
  circle_pairs ai aj = l1 ++ p :: l2 ->
  (forall q, In q l1 -> ~ paths_cross (pair_x q) v (pair_r q)) ->
  paths_cross (pair_x p) v (pair_r p) -> ~ on_collision_course (pair_x p) v (pair_r p) ->
  force_social_three_circle ai aj = Ok (vzero, vzero).
Proof. exact three_circle_blocked. Qed.
Print Assumptions C26_blocked_by_passed_pair_refuted.
(** Two disjoint bodies with their shoulders in place, a torso about to hit a
    shoulder, and no force. *)
Theorem C26_missed_collision_refuted : exists ai aj p,
  shoulders_in_place ai /\ shoulders_in_place aj /\ ~ bodies_overlap (body ThreeCircle ai) (body ThreeCircle aj) /\
  In p (circle_pairs ai aj) /\ on_collision_course (pair_x p) (vsub (a_velocity ai) (a_velocity aj)) (pair_r p) /\
  force_social_three_circle ai aj = Ok (vzero, vzero).
Proof.
  exact (ex_intro _ w3_i (ex_intro _ w3_j (ex_intro _ _
    (conj (proj1 w3_places) (conj (proj2 w3_places) (conj w3_apart
    (conj (or_intror (or_introl eq_refl)) (conj w3_course w3_no_force)))))))).
Qed.
Print Assumptions C26_missed_collision_refuted.
Theorem C26_no_crossing_no_force : forall ai aj,
  0 <= a_r_t ai /\ 0 <= a_r_s ai -> 0 <= a_r_t aj /\ 0 <= a_r_s aj ->
  (forall q, In q (circle_pairs ai aj) -> ~ paths_cross (pair_x q) (vsub (a_velocity ai) (a_velocity aj)) (pair_r q)) ->
  force_social_three_circle ai aj = Ok (vzero, vzero).
Proof. exact three_circle_none. Qed.
Print Assumptions C26_no_crossing_no_force.
Theorem C26_capped : forall ai aj fi fj, force_social_three_circle ai aj = Ok (fi, fj) -> elen fi <= 2000 /\ elen fj <= 2000.
Proof. exact three_circle_cap. Qed.
Print Assumptions C26_capped.
Theorem C26_opposite : forall ai aj fi fj,
  a_mass ai = a_mass aj -> a_k_soc ai = a_k_soc aj -> a_tau_0 ai = a_tau_0 aj ->
  force_social_three_circle ai aj = Ok (fi, fj) -> fj = vneg fi.
Proof. exact three_circle_opposite. Qed.
Print Assumptions C26_opposite.
(** Hypotheses of the partial theorem: two torsos on a collision course. *)
Example C26_ex : let ai := set_velocity (V 1 0) (set_position (V (-3) 0) w3_i) in
  on_collision_course (pair_x ((a_position ai, a_r_t ai), (a_position w3_j, a_r_t w3_j)))
    (vsub (a_velocity ai) (a_velocity w3_j)) (pair_r ((a_position ai, a_r_t ai), (a_position w3_j, a_r_t w3_j))).
Proof.
  cbn. unfold pair_x, pair_r. cbn. split; [apply elen_gt; [lra|unfold inner, vsub; cbn; lra]|]. exists (5/2). split; [lra|].
  apply elen_lt; [lra|]. unfold inner, moved, vsub; cbn; lra.
Qed.

(** C70: the force as a gradient of the interaction energy.  It is when the circles
    that touch first have the same displacement from their torsos. *)
Theorem C70_gradient_for_aligned_contact_partial : forall ai aj l1 p l2 fi fj,
  0 <= a_r_t ai /\ 0 <= a_r_s ai -> 0 <= a_r_t aj /\ 0 <= a_r_s aj -> a_tau_0 ai <> 0 -> a_tau_0 aj <> 0 ->
  shoulders_in_place ai -> shoulders_in_place aj ->
  let v := vsub (a_velocity ai) (a_velocity aj) in
  circle_pairs ai aj = l1 ++ p :: l2 ->
  (forall q, In q l1 -> ~ paths_cross (pair_x q) v (pair_r q)) ->
  on_collision_course (pair_x p) v (pair_r p) ->
  force_social_three_circle ai aj = Ok (fi, fj) ->
  exists q, In q (circle_pairs ai aj) /\ on_collision_course (pair_x q) v (pair_r q) /\
    (pair_x q = vsub (a_position ai) (a_position aj) -> forall u T, contact_time_along (pair_x q) u v (pair_r q) T ->
      (elen fi < 2000 -> derivable_pt_lim (fun s => interaction_energy (a_mass ai) (a_k_soc ai) (a_tau_0 ai) (T s)) 0 (- inner fi u)) /\
      (elen fj < 2000 -> derivable_pt_lim (fun s => interaction_energy (a_mass aj) (a_k_soc aj) (a_tau_0 aj) (T s)) 0 (inner fj u))).
Proof. exact three_circle_gradient. Qed.
Print Assumptions C70_gradient_for_aligned_contact_partial.
(** It is not for a right shoulder hitting a left shoulder. *)
Theorem C70_shoulder_contact_refuted : exists ai aj q, shoulders_in_place ai /\ shoulders_in_place aj /\ In q (circle_pairs ai aj) /\
  let v := vsub (a_velocity ai) (a_velocity aj) in
  on_collision_course (pair_x q) v (pair_r q) /\
  (forall q', In q' (circle_pairs ai aj) -> q' <> q -> ~ paths_cross (pair_x q') v (pair_r q')) /\
  exists fi fj T, force_social_three_circle ai aj = Ok (fi, fj) /\ elen fi < 2000 /\
    contact_time_along (pair_x q) (V 0 1) v (pair_r q) T /\
    ~ derivable_pt_lim (fun s => interaction_energy (a_mass ai) (a_k_soc ai) (a_tau_0 ai) (T s)) 0 (- inner fi (V 0 1)).
Proof.
  exact (ex_intro _ w4_i (ex_intro _ w4_j (ex_intro _ w4_pair
    (conj (proj1 w4_places) (conj (proj2 w4_places) (conj (nth_In (circle_pairs w4_i w4_j) w4_pair (n := 7) ltac:(repeat constructor))
    (conj w4_course (conj w4_others w4_not_gradient)))))))).
Qed.
Print Assumptions C70_shoulder_contact_refuted.

(** C27: any draws within the bounds of the truncated normal distribution. *)
Theorem C27_force_bounded : forall ms draws, length draws = length ms ->
  Forall (fun p => 0 <= fst p /\ 0 <= snd p) ms -> Forall (fun d => 0 <= snd d <= 3) draws ->
  Forall2 (fun p f => elen f <= 3 * fst p * snd p) ms (force_fluctuation ms draws).
Proof. exact force_fluctuation_bound. Qed.
Print Assumptions C27_force_bounded.
Theorem C27_torque_bounded : forall ms draws, length draws = length ms ->
  Forall (fun p => 0 <= fst p /\ 0 <= snd p) ms -> Forall (fun z => -3 <= z <= 3) draws ->
  Forall2 (fun p t => Rabs t <= 3 * fst p * snd p) ms (torque_fluctuation ms draws).
Proof. exact torque_fluctuation_bound. Qed.
Print Assumptions C27_torque_bounded.
(** The [Fluctuation] logic node adds them and changes nothing else. *)
Theorem C27_fluctuation_node : forall k a phi z zt, 0 <= a_mass a -> 0 <= a_std_rand_force a -> 0 <= z <= 3 ->
  0 <= a_inertia_rot a -> 0 <= a_std_rand_torque a -> -3 <= zt <= 3 ->
  exists f t, fluctuate_row k a phi z zt = set_torque (a_torque a + t) (set_force (vadd (a_force a) f) a) /\
    elen f <= 3 * a_mass a * a_std_rand_force a /\ Rabs t <= 3 * a_inertia_rot a * a_std_rand_torque a /\
    (k = Circular -> t = 0).
Proof. exact fluctuate_row_bound. Qed.
Print Assumptions C27_fluctuation_node.
Example C27_ex : Forall2 (fun p f => elen f <= 3 * fst p * snd p) [(80, 1/10); (60, 0)]
  (force_fluctuation [(80, 1/10); (60, 0)] [(1, 2); (2, 3)]).
Proof. apply C27_force_bounded; [reflexivity| |]; repeat constructor; cbn; lra. Qed.
