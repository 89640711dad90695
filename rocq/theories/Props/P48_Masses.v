(** * Property C147: the unit of mass is arbitrary *)
From Coq Require Import Lra Lia.
From Verif Require Import Proofs.VecLemmas Proofs.Vector2DProofs Proofs.PowerLawProofs Model.ExampleSims.
From Verif Require Import Proofs.MassProofs.
Open Scope R_scope.

(** One update of a simulation in which everything is [c] times heavier: the same update,
    everything [c] times heavier, with the same exception if there is one. *)
Theorem C147_update : forall c e x s i, 0 < c -> forces_first (written_order x) -> below_limit c (e_kind e) (s_agents s) ->
  simulation_update e x (heavier_sim c s, i) =
  let '((t, n), failure) := simulation_update e x (s, i) in ((heavier_sim c t, n), failure).
Proof. intros c e x s i C F B. rewrite (hv_update c C e x s i) by (left; auto). cbv zeta. now destruct (simulation_update e x (s, i)) as [[t n] o]. Qed.
Print Assumptions C147_update.
(** Any number of updates: everybody goes the same way, and the forces are [c] times as
    large. *)
Theorem C147_updates : forall c e x s i dts t n, 0 < c -> forces_first (written_order x) -> updates e x (s, i) dts (t, n) ->
  (forall dts1 dts2 u, dts = dts1 ++ dts2 -> dts2 <> [] -> updates e x (s, i) dts1 u -> below_limit c (e_kind e) (s_agents (fst u))) ->
  exists t', updates e x (heavier_sim c s, i) dts (t', n) /\
    Forall2 (fun a b => a_position b = a_position a /\ a_velocity b = a_velocity a /\ a_orientation b = a_orientation a /\
      a_angular_velocity b = a_angular_velocity a /\ a_target b = a_target a /\ a_active b = a_active a /\
      vx (a_force b) = c * vx (a_force a) /\ vy (a_force b) = c * vy (a_force a) /\ a_torque b = c * a_torque a) (s_agents t) (s_agents t') /\
    s_time t' = s_time t /\ s_inactive t' = s_inactive t.
Proof.
  intros c e x s i dts t n C F U B. exists (heavier_sim c t). split; [|split; [|auto]].
  - apply (hv_updates c C e x s i dts (t, n) U). intros d1 d2 u E D V. left. eauto.
  - cbn [heavier_sim s_agents]. induction (s_agents t) as [|a l IH]; constructor; auto. repeat split.
Qed.
Print Assumptions C147_updates.
(** Without forces between agents there is no condition. *)
Theorem C147_walls_only : forall c e x s i dts t n, 0 < c -> (forall traits, ~ In (AgentAgentInteractions traits) (written_order x)) ->
  (updates e x (s, i) dts (t, n) <-> updates e x (heavier_sim c s, i) dts (heavier_sim c t, n)).
Proof.
  intros c e x s i dts t n C N. assert (F : forall d u, fits d e (written_order x) u) by (intros d u; right; intros m M; destruct m; cbn; auto; intros _; now apply (N traits)).
  assert (back : forall u, heavier_sim (/ c) (heavier_sim c u) = u).
  { intros [l a b d g]. unfold heavier_sim. cbn [s_agents s_dt s_time s_inactive s_draws]. f_equal. rewrite map_map. rewrite <- (map_id l) at 2. apply map_ext. intros r. destruct r as [? ? ? ? ? ? ? ? ? ? ? ? ? ? ? ? ? ? [fx fy] [px py] ? ? ? ? ? ? ? ? ? ? ? ? ? ? ? ?]. unfold heavier. cbn. rewrite <- !Rmult_assoc, !Rinv_l, !Rmult_1_l by lra. reflexivity. }
  split; intros U.
  - apply (hv_updates c C e x s i dts (t, n) U). intros. apply F.
  - apply (hv_updates (/ c) (Rinv_0_lt_compat c C) e x _ i dts _) in U; [|intros; apply F]. cbn [fst snd] in U. now rewrite !back in U.
Qed.
Print Assumptions C147_walls_only.
(** The condition is needed: at the limit, twice the mass gets the same force, so half the
    acceleration. *)
Definition runner (m x v : R) : agent := set_tau_0 3 (set_k_soc 1 (set_mass m (set_radius 1 (set_velocity (V v 0) (set_position (V x 0) zero_row))))).
Lemma cut_same g b : 2000 < b * vlength g -> 0 < b -> truncate (vscale b g) 2000 = vscale (2000 / vlength g) g.
Proof.
  intros L B. assert (G : 0 <= vlength g) by apply sqrt_pos. assert (G0 : 0 < vlength g) by nra. unfold truncate. cbv zeta.
  assert (E : vlength (vscale b g) = b * vlength g) by (rewrite <- !elen_vlength; apply (elen_sc b B)). rewrite E. rewrite (proj2 (Rltb_true _ _)) by lra. veq; field; split; lra.
Qed.
Theorem C147_limit_matters : exists a b fa fb, fa <> vzero /\ social Circular a b = Ok (fa, fb) /\ social Circular (heavier 2 a) (heavier 2 b) = Ok (fa, fb).
Proof.
  pose (g := gradient_circle_circle (vsub (V (-3) 0) (V 0 0)) (vsub (V 1 0) (V 0 0)) 1 3 2). pose (q := (2 / 1 + 1 / 3) * exp (- (1) / 3) / (1 * 1)).
  assert (Q : 0 < q) by (unfold q; pose proof (exp_pos (- (1) / 3)); lra).
  assert (S : forall m, 0 < m -> social Circular (runner m (-3) 1) (runner m 0 0) = Ok (truncate (vadd vzero (vscale q (vscale (- m * 1) g))) F_SOC_MAX, truncate (vsub vzero (vscale q (vscale (- m * 1) g))) F_SOC_MAX)).
  { intros m M. cbn [social]. unfold force_social_circular. cbv zeta. cbn [runner a_position a_velocity a_radius set_tau_0 set_k_soc set_mass set_radius set_velocity set_position zero_row].
    assert (A : coeff_a (vsub (V 1 0) (V 0 0)) = 1) by (unfold coeff_a, vsub, dot; cbn; ring). assert (B : coeff_b (vsub (V (-3) 0) (V 0 0)) (vsub (V 1 0) (V 0 0)) = 3) by (unfold coeff_b, vsub, dot; cbn; ring).
    assert (D : coeff_d (vsub (V (-3) 0) (V 0 0)) (vsub (V 1 0) (V 0 0)) (1 + 1) = Some 2).
    { unfold coeff_d, coeff_a, coeff_b, coeff_c, vsub, dot, np_sqrt. cbn. match goal with |- context[sqrt ?y] => replace y with (2 * 2) by ring end. rewrite ?sqrt_square by lra. rdec. reflexivity. }
    rewrite A, B, D. fold g. rewrite (proj2 (Reqb_false 2 0)), (proj2 (Reqb_false 1 0)) by lra. cbn [orb]. replace ((3 - 2) / 1) with 1 by field. rewrite (proj2 (Rleb_false 1 0)), (proj2 (Rltb_false 30 1)) by lra. cbn [orb].
    unfold social_forces, magnitude. cbn [runner a_tau_0 a_mass a_k_soc set_tau_0 set_k_soc set_mass set_radius set_velocity set_position zero_row]. rewrite (proj2 (Reqb_false 3 0)) by lra. cbn [rbind]. reflexivity. }
  assert (G : g = V 1 0). { unfold g, gradient_circle_circle. veq; field. }
  assert (L : vlength g = 1) by (rewrite G; unfold vlength; cbn; replace (_ + _) with (1 * 1) by ring; apply sqrt_square; lra).
  pose (m := 4000 / q). assert (M : 0 < m) by (unfold m; apply Rdiv_lt_0_compat; lra).
  assert (K : forall m', m <= m' -> truncate (vadd vzero (vscale q (vscale (- m' * 1) g))) 2000 = vneg (vscale (2000 / vlength g) g) /\ truncate (vsub vzero (vscale q (vscale (- m' * 1) g))) 2000 = vscale (2000 / vlength g) g).
  { intros m' M'. assert (Bq : 2000 < q * m' * vlength g) by (rewrite L; assert (q * m <= q * m') by (apply Rmult_le_compat_l; lra); unfold m in *; replace (q * (4000 / q)) with 4000 in * by (field; lra); lra).
    split.
    - replace (vadd vzero _) with (vneg (vscale (q * m') g)) by (veq; ring). rewrite truncate_neg, cut_same by (auto; nra). reflexivity.
    - replace (vsub vzero _) with (vscale (q * m') g) by (veq; ring). apply cut_same; auto; nra. }
  exists (runner m (-3) 1), (runner m 0 0), (vneg (vscale (2000 / vlength g) g)), (vscale (2000 / vlength g) g). split; [|split].
  - rewrite L, G. unfold vneg, vscale, vzero. cbn. intros E. injection E. lra.
  - rewrite (S m M). unfold F_SOC_MAX. destruct (K m (Rle_refl _)) as [-> ->]. reflexivity.
  - assert (E : social Circular (heavier 2 (runner m (-3) 1)) (heavier 2 (runner m 0 0)) = social Circular (runner (2 * m) (-3) 1) (runner (2 * m) 0 0)) by reflexivity. rewrite E, (S (2 * m)) by lra. unfold F_SOC_MAX. destruct (K (2 * m)) as [-> ->]; [lra|reflexivity].
Qed.
Print Assumptions C147_limit_matters.

(** ** Cases *)
(** Somebody of 80 kg behind somebody of 60 kg who walks as fast, and the logic of the
    outdoor example. *)
Example C147_case : forces_first (written_order logic_outdoor) /\
  let s := Sim [runner 80 0 1; runner 60 3 1] 0 0 0 0 in below_limit 2 Circular (s_agents s) /\ map a_mass (s_agents (heavier_sim 2 s)) = [2 * 80; 2 * 60].
Proof.
  split.
  - exists [Fluctuation; Orientation; Adjusting; AgentAgentInteractions aa_node_default], [integrator; Reset]. repeat split; intros n N; cbn in N; repeat (destruct N as [<-|N]; [exact I|]); destruct N.
  - cbv zeta. split; [|reflexivity]. intros a b fa fb Ia Ib E. cbn [s_agents] in Ia, Ib.
    assert (Va : a_velocity a = V 1 0) by (destruct Ia as [<-|[<-|[]]]; reflexivity).
    assert (Vb : a_velocity b = V 1 0) by (destruct Ib as [<-|[<-|[]]]; reflexivity).
    assert (Z : (fa, fb) = (vzero, vzero)).
    { cbn [social] in E. unfold force_social_circular in E. cbv zeta in E. rewrite Va, Vb in E.
      assert (A : coeff_a (vsub (V 1 0) (V 1 0)) = 0) by (unfold coeff_a, vsub, dot; cbn; ring). rewrite A in E.
      rewrite (proj2 (Reqb_true 0 0) eq_refl) in E. destruct (coeff_d _ _ _); rewrite ?Bool.orb_true_r in E; congruence. }
    injection Z as -> ->. assert (L : elen vzero = 0) by (rewrite elen_vlength; unfold vlength; cbn; replace (0 * 0 + 0 * 0) with 0 by ring; apply sqrt_0). rewrite L. lra.
Qed.
