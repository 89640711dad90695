(** * The unit of mass *)
From Coq Require Import Lra Lia.
From Verif Require Import Proofs.VecLemmas Proofs.Vector2DProofs Proofs.PowerLawProofs Proofs.SimulationProofs Proofs.WrittenProofs Proofs.InteractionProofs.
From Verif Require Export Spec.Masses.
Open Scope R_scope.

Definition rmap {A B} (f : A -> B) (r : res A) : res B := match r with Ok x => Ok (f x) | Err x => Err x end.
Lemma map_combine_both {A B} (h : A -> A) (g : A -> B -> A) : (forall a x, g (h a) x = h (g a x)) -> forall l xs,
  map (fun '(a, x) => g a x) (combine (map h l) xs) = map h (map (fun '(a, x) => g a x) (combine l xs)).
Proof. intros H. induction l as [|a l IH]; intros [|x xs]; cbn; auto. now rewrite H, IH. Qed.

(** Columns that the social force between two three circle agents depends on. *)
Lemma scan_columns a b a' b' : a_velocity a' = a_velocity a -> a_velocity b' = a_velocity b -> xs_of a' = xs_of a -> xs_of b' = xs_of b -> rs_of a' = rs_of a -> rs_of b' = rs_of b ->
  three_circle_scan a' b' = three_circle_scan a b.
Proof. intros A B C D E F. unfold three_circle_scan. cbv zeta. rewrite A, B, C, D, E, F. reflexivity. Qed.
Lemma offset_columns i a a' : a_r_ts a' = a_r_ts a -> a_orientation a' = a_orientation a -> part_offset i a' = part_offset i a.
Proof. intros A B. unfold part_offset. rewrite A, B. reflexivity. Qed.

Section Mass.
  Variable c : R.
  Hypothesis Hc : 0 < c.
  Notation hv := (heavier c).
  Notation H := (map hv).
  Notation HS := (heavier_sim c).
  Notation sc := (vscale c).

  Lemma hv_force f a : set_force (sc f) (hv a) = hv (set_force f a). Proof. reflexivity. Qed.
  Lemma hv_force_prev f a : set_force_prev (sc f) (hv a) = hv (set_force_prev f a). Proof. reflexivity. Qed.
  Lemma hv_torque t a : set_torque (c * t) (hv a) = hv (set_torque t a). Proof. reflexivity. Qed.
  Lemma hv_torque_prev t a : set_torque_prev (c * t) (hv a) = hv (set_torque_prev t a). Proof. reflexivity. Qed.
  Lemma sc_zero : sc vzero = vzero. Proof. veq; ring. Qed.
  Lemma sc_add u v : sc (vadd u v) = vadd (sc u) (sc v). Proof. veq; ring. Qed.
  Lemma sc_sub u v : sc (vsub u v) = vsub (sc u) (sc v). Proof. veq; ring. Qed.
  Lemma c_zero x : Reqb (c * x) 0 = Reqb x 0.
  Proof using Hc.
    destruct (Reqb_spec (c * x) 0), (Reqb_spec x 0); auto; exfalso.
    - match goal with N : x <> 0, E : c * x = 0 |- _ => apply N; apply Rmult_integral in E as [E|E]; [lra|exact E] end.
    - match goal with N : c * x <> 0, E : x = 0 |- _ => apply N; rewrite E; ring end.
  Qed.
  Lemma c_div x y : c * x / (c * y) = x / y.
  Proof using Hc. unfold Rdiv. rewrite Rinv_mult. replace (c * x * (/ c * / y)) with (x * / y * (c * / c)) by ring. rewrite Rinv_r by lra. ring. Qed.
  Lemma sc_div f m : vdiv (sc f) (c * m) = vdiv f m.
  Proof using Hc. unfold vdiv, vscale. cbn [vx vy]. now rewrite !c_div. Qed.

  (** ** Rows *)
  Lemma hv_reset k a : reset_row k (hv a) = hv (reset_row k a).
  Proof.
    assert (E : set_force vzero (hv a) = hv (set_force vzero a)) by (rewrite <- hv_force, sc_zero; reflexivity).
    assert (T : forall b, set_torque 0 (hv b) = hv (set_torque 0 b)) by (intros b; rewrite <- hv_torque, Rmult_0_r; reflexivity).
    unfold reset_row. cbv zeta. rewrite E. destruct (is_model k ThreeCircle); [apply T|reflexivity].
  Qed.
  Lemma hv_verlet dt a : translational_verlet dt (hv a) = option_map hv (translational_verlet dt a).
  Proof using Hc.
    unfold translational_verlet. change (a_mass (hv a)) with (c * a_mass a). rewrite c_zero. destruct (Reqb (a_mass a) 0); [reflexivity|]. cbv zeta.
    change (a_force_prev (hv a)) with (sc (a_force_prev a)). change (a_force (hv a)) with (sc (a_force a)). rewrite !sc_div. reflexivity.
  Qed.
  Lemma hv_rotational dt a : rotational_verlet dt (hv a) = hv (rotational_verlet dt a).
  Proof using Hc.
    unfold rotational_verlet. cbv zeta. change (a_torque_prev (hv a)) with (c * a_torque_prev a). change (a_torque (hv a)) with (c * a_torque a). change (a_inertia_rot (hv a)) with (c * a_inertia_rot a). rewrite !c_div. reflexivity.
  Qed.
  Lemma hv_timestep l a b : adaptive_timestep (H l) a b = adaptive_timestep l a b.
  Proof.
    unfold adaptive_timestep. replace (v_max (H l)) with (v_max l). { now rewrite map_map. }
    unfold v_max. generalize 0. induction l as [|r l IH]; intros z; cbn; auto.
  Qed.
  Lemma hv_inertia l : needs_inertia (H l) = needs_inertia l.
  Proof using Hc. unfold needs_inertia. induction l as [|a l IH]; cbn [map existsb]; auto. change (a_inertia_rot (hv a)) with (c * a_inertia_rot a). now rewrite c_zero, IH. Qed.
  Lemma hv_integrator k l a b : velocity_verlet_integrator k (H l) a b = rmap (fun r => (fst r, map (option_map hv) (snd r))) (velocity_verlet_integrator k l a b).
  Proof using Hc.
    unfold velocity_verlet_integrator. rewrite hv_timestep, hv_inertia. destruct (adaptive_timestep l a b) as [dt|x]; cbn [rbind rmap]; [|reflexivity].
    assert (M : map (translational_verlet dt) (H l) = map (option_map hv) (map (translational_verlet dt) l)) by (rewrite !map_map; apply map_ext; intros r; apply hv_verlet).
    cbv zeta. rewrite M. destruct k; [reflexivity|]. destruct (needs_inertia l); cbn [rmap fst snd]; [reflexivity|]. do 2 f_equal. rewrite !map_map. apply map_ext. intros r. destruct (translational_verlet dt r) as [q|]; cbn [option_map]; [|reflexivity]. rewrite hv_rotational. reflexivity.
  Qed.
  Lemma hv_finite r : all_finite (map (option_map hv) r) = rmap H (all_finite r).
  Proof. induction r as [|[a|] r IH]; cbn [map option_map all_finite]; [reflexivity| |reflexivity]. rewrite IH. destruct (all_finite r); reflexivity. Qed.
  Lemma hv_fluctuate_row k a phi z zt : fluctuate_row k (hv a) phi z zt = hv (fluctuate_row k a phi z zt).
  Proof.
    unfold fluctuate_row. cbv zeta. assert (E : vadd (a_force (hv a)) (force_fluctuation1 (a_mass (hv a)) (a_std_rand_force (hv a)) phi z) = sc (vadd (a_force a) (force_fluctuation1 (a_mass a) (a_std_rand_force a) phi z))).
    { unfold force_fluctuation1. cbn [heavier a_force a_mass a_std_rand_force]. veq; ring. }
    rewrite E, hv_force. set (b := set_force _ a). destruct k; [reflexivity|]. rewrite <- hv_torque. f_equal. unfold torque_fluctuation1. cbn [heavier a_torque a_inertia_rot a_std_rand_torque]. ring.
  Qed.
  Lemma hv_fluctuate k d l : forall i, fluctuate k d i (H l) = H (fluctuate k d i l).
  Proof. induction l as [|a l IH]; intros i; cbn [map fluctuate]; [reflexivity|]. destruct (d i) as [[phi z] zt]. cbn [map]. now rewrite hv_fluctuate_row, IH. Qed.
  Lemma hv_loop f l : (forall a, f (hv a) = rmap hv (f a)) -> looped (loop_rows f (H l)) = rmap H (looped (loop_rows f l)).
  Proof.
    intros F. induction l as [|a l IH]; cbn [map loop_rows]; [reflexivity|]. rewrite F. destruct (f a); cbn [rmap]; [|reflexivity].
    destruct (loop_rows f (H l)) as [[x|] q], (loop_rows f l) as [[x'|] q']; cbn in IH |- *; congruence.
  Qed.
  Lemma hv_adjust_row a : force_adjust_row (hv a) = rmap hv (force_adjust_row a).
  Proof.
    unfold force_adjust_row, force_adjust. cbn [heavier a_tau_adj a_mass a_target_velocity a_target_direction a_velocity]. destruct (Reqb (a_tau_adj a) 0); cbn [rbind rmap]; [reflexivity|]. f_equal. rewrite <- hv_force. f_equal. cbn [heavier a_force]. veq; unfold Rdiv; ring.
  Qed.
  Lemma hv_torque_row a : torque_adjust_row (hv a) = rmap hv (torque_adjust_row a).
  Proof.
    unfold torque_adjust_row, torque_adjust. cbn [heavier a_tau_rot a_inertia_rot a_target_orientation a_orientation a_target_angular_velocity a_angular_velocity]. destruct (Reqb (a_tau_rot a) 0); cbn [rbind rmap]; [reflexivity|]. f_equal. rewrite <- hv_torque. f_equal. cbn [heavier a_torque]. unfold Rdiv. ring.
  Qed.
  Lemma hv_adjust k l : adjust k (H l) = rmap H (adjust k l).
  Proof.
    unfold adjust, force_adjust_agents, torque_adjust_agents. rewrite (hv_loop _ l hv_adjust_row). destruct (looped (loop_rows force_adjust_row l)) as [q|]; cbn [rbind rmap]; [|reflexivity]. destruct (is_model k ThreeCircle); [apply hv_loop, hv_torque_row|reflexivity].
  Qed.
  (** ** Contact *)
  Lemma hv_contact h n v t mu kappa damping : force_contact h n v t (c * mu) (c * kappa) (c * damping) = sc (force_contact h n v t mu kappa damping).
  Proof. unfold force_contact. veq; ring. Qed.
  Lemma hv_add_force f a : add_force (sc f) (hv a) = hv (add_force f a).
  Proof. unfold add_force. rewrite <- hv_force, sc_add. reflexivity. Qed.
  Lemma hv_add_torque t a : add_torque (c * t) (hv a) = hv (add_torque t a).
  Proof. unfold add_torque. rewrite <- hv_torque. f_equal. cbn [heavier a_torque]. ring. Qed.
  Lemma sc_cross m f : cross m (sc f) = c * cross m f. Proof. unfold cross. cbn. ring. Qed.
  Lemma hv_wall_circular a o : obstacle_circular (hv a) o = hv (obstacle_circular a o).
  Proof.
    unfold obstacle_circular. cbn [heavier a_position a_radius a_velocity a_mu a_kappa a_damping]. destruct (distance_circle_line _ _ _ _) as [[h n]|]; [|reflexivity]. destruct (Rltb h 0); [|reflexivity]. cbv zeta. rewrite hv_contact. apply hv_add_force.
  Qed.
  Lemma hv_wall_three a o : obstacle_three_circle (hv a) o = hv (obstacle_three_circle a o).
  Proof.
    unfold obstacle_three_circle. change (xs_of (hv a)) with (xs_of a). change (rs_of (hv a)) with (rs_of a). destruct (distance_three_circle_line _ _ _ _) as [[[h n] m]|]; [|reflexivity]. destruct (Rltb h 0); [|reflexivity]. cbv zeta.
    change (a_velocity (hv a)) with (a_velocity a). change (a_mu (hv a)) with (c * a_mu a). change (a_kappa (hv a)) with (c * a_kappa a). change (a_damping (hv a)) with (c * a_damping a). rewrite hv_contact, hv_add_force, sc_cross. apply hv_add_torque.
  Qed.
  Lemma hv_fold (f : agent -> obstacle -> agent) os : (forall a o, f (hv a) o = hv (f a o)) -> forall a, fold_left f os (hv a) = hv (fold_left f os a).
  Proof. intros F. induction os as [|o os IH]; intros a; cbn; [reflexivity|]. now rewrite F, IH. Qed.
  Lemma hv_obstacles k l os : agent_obstacle k (H l) os = H (agent_obstacle k l os).
  Proof. unfold agent_obstacle. destruct k; rewrite !map_map; apply map_ext; intros a; apply hv_fold; intros; [apply hv_wall_circular|apply hv_wall_three]. Qed.
  (** ** Social force *)
  Definition both (p : vec * vec) : vec * vec := (sc (fst p), sc (snd p)).
  Lemma elen_sc v : elen (sc v) = c * elen v.
  Proof using Hc. rewrite !elen_vlength. unfold vlength. cbn [vx vy vscale]. replace (c * vx v * (c * vx v) + c * vy v * (c * vy v)) with ((c * c) * (vx v * vx v + vy v * vy v)) by ring. rewrite sqrt_mult_alt by nra. now rewrite sqrt_square by lra. Qed.
  Lemma hv_truncate f : Rmax 1 c * elen (truncate f 2000) < 2000 -> truncate (sc f) 2000 = sc (truncate f 2000).
  Proof using Hc.
    intros B. assert (P : 0 <= elen (truncate f 2000)) by apply sqrt_pos. assert (L1 : elen (truncate f 2000) < 2000). { pose proof (Rmax_l 1 c). nra. }
    rewrite (truncate_below _ _ L1) in *. apply truncate_le. rewrite <- elen_vlength, elen_sc. pose proof (Rmax_r 1 c). nra.
  Qed.
  Lemma hv_social_forces a b g tau : (forall fa fb, social_forces a b g tau = Ok (fa, fb) -> Rmax 1 c * elen fa < 2000 /\ Rmax 1 c * elen fb < 2000) ->
    social_forces (hv a) (hv b) g tau = rmap both (social_forces a b g tau).
  Proof using Hc.
    unfold social_forces. change (a_tau_0 (hv ?a)) with (a_tau_0 a). change (a_mass (hv ?a)) with (c * a_mass a). change (a_k_soc (hv ?a)) with (a_k_soc a). destruct (magnitude tau (a_tau_0 a)) as [mi|x]; cbn [rbind rmap]; [|reflexivity]. destruct (magnitude tau (a_tau_0 b)) as [mj|x]; cbn [rbind rmap]; [|reflexivity].
    cbv zeta. intros B. destruct (B _ _ eq_refl) as [B1 B2]. unfold both. cbn [fst snd]. unfold F_SOC_MAX in *. rewrite <- (hv_truncate _ B1), <- (hv_truncate _ B2). do 3 f_equal; veq; ring.
  Qed.
  Lemma hv_social k a b : (forall fa fb, social k a b = Ok (fa, fb) -> Rmax 1 c * elen fa < 2000 /\ Rmax 1 c * elen fb < 2000) ->
    social k (hv a) (hv b) = rmap both (social k a b).
  Proof using Hc.
    assert (Z : both (vzero, vzero) = (vzero, vzero)) by (unfold both; cbn [fst snd]; now rewrite sc_zero). destruct k; cbn [social].
    - unfold force_social_circular. cbv zeta. cbn [heavier a_position a_velocity a_radius]. destruct (coeff_d _ _ _) as [d|]; [|intros _; cbn [rmap]; now rewrite Z]. destruct (_ || _)%bool; [intros _; cbn [rmap]; now rewrite Z|]. destruct (_ || _)%bool; [intros _; cbn [rmap]; now rewrite Z|]. apply hv_social_forces.
    - unfold force_social_three_circle. cbv zeta. change (a_position (hv ?a)) with (a_position a). change (a_velocity (hv ?a)) with (a_velocity a). rewrite (scan_columns a b (hv a) (hv b)) by reflexivity. set (sn := three_circle_scan a b). rewrite (offset_columns (ts_i sn) a (hv a)), (offset_columns (ts_j sn) b (hv b)) by reflexivity.
      destruct (Reqb _ 0); [intros _; cbn [rmap]; now rewrite Z|]. destruct (ts_best _) as [[[tau bm] dm]|]; [|intros _; cbn [rmap]; now rewrite Z]. destruct (Rleb tau 0); [intros _; cbn [rmap]; now rewrite Z|]. apply hv_social_forces.
  Qed.
  Lemma hv_with_contact h n a b fs : with_contact h n (hv a) (hv b) (both fs) = both (with_contact h n a b fs).
  Proof.
    unfold with_contact. destruct (Rltb h 0); [|reflexivity]. cbv zeta. change (a_velocity (hv ?a)) with (a_velocity a). change (a_mu (hv ?a)) with (c * a_mu a). change (a_kappa (hv ?a)) with (c * a_kappa a). change (a_damping (hv ?a)) with (c * a_damping a). rewrite !hv_contact. unfold both. cbn [fst snd]. now rewrite sc_add, sc_sub.
  Qed.
  Lemma hv_modify i f g l : (forall a, g (hv a) = hv (f a)) -> modify i g (H l) = H (modify i f l).
  Proof.
    intros F. unfold modify. rewrite nth_error_map. destruct (nth_error l i) as [a|] eqn:E; cbn [option_map]; [|reflexivity]. rewrite F. clear E. revert i. induction l as [|b l IH]; intros [|i]; cbn; auto. now rewrite IH.
  Qed.
  (** ** Columns the social force depends on *)
  Definition bare (a : agent) : agent :=
    set_force vzero (set_torque 0 (set_target 0%Z (set_index_leader 0%Z (set_target_direction vzero (set_is_follower false (set_target_orientation 0 (set_active false a))))))).
  Lemma social_bare k a b : social k a b = social k (bare a) (bare b).
  Proof.
    destruct k; cbn [social]; [reflexivity|]. unfold force_social_three_circle. cbv zeta. change (a_position (bare ?a)) with (a_position a). change (a_velocity (bare ?a)) with (a_velocity a).
    rewrite (scan_columns a b (bare a) (bare b)) by reflexivity. set (sn := three_circle_scan a b). rewrite (offset_columns (ts_i sn) a (bare a)), (offset_columns (ts_j sn) b (bare b)) by reflexivity.
    destruct (Reqb _ 0); [reflexivity|]. destruct (ts_best sn) as [[[tau bm] dm]|]; [|reflexivity]. destruct (Rleb tau 0); reflexivity.
  Qed.
  Lemma below_bare k l l' : map bare l' = map bare l -> below_limit c k l -> below_limit c k l'.
  Proof.
    intros E B a b fa fb Ia Ib S. assert (Q : forall y, In y l' -> exists z, In z l /\ bare z = bare y).
    { intros y Y. apply (in_map bare) in Y. rewrite E in Y. apply in_map_iff in Y as (z & Z1 & Z2). eauto. }
    destruct (Q a Ia) as (a' & A1 & A2). destruct (Q b Ib) as (b' & B1 & B2). rewrite social_bare, <- A2, <- B2, <- social_bare in S. eauto.
  Qed.
  Lemma bare_modify i f l : (forall a, bare (f a) = bare a) -> map bare (modify i f l) = map bare l.
  Proof.
    intros F. unfold modify. destruct (nth_error l i) as [a|] eqn:E; [|reflexivity]. revert i E. induction l as [|b l IH]; intros [|i] E; cbn in *; try discriminate; [injection E as ->; now rewrite F|]. f_equal. now apply IH.
  Qed.
  Lemma hv_pair k i j l : below_limit c k l ->
    match k with Circular => interaction_agent_agent_circular i j (H l) | ThreeCircle => interaction_agent_agent_three_circle i j (H l) end =
    rmap H (match k with Circular => interaction_agent_agent_circular i j l | ThreeCircle => interaction_agent_agent_three_circle i j l end).
  Proof using Hc.
    intros B. destruct k.
    - unfold interaction_agent_agent_circular. rewrite !nth_error_map. destruct (nth_error l i) as [a|] eqn:Ea, (nth_error l j) as [b|] eqn:Eb; cbn [option_map]; try reflexivity. apply nth_error_In in Ea, Eb.
      unfold pair_forces_circular. cbn [heavier a_position a_radius]. destruct (distance_circles _ _ _ _) as [h n]. destruct (Rltb h SIGTH_SOC); [|reflexivity].
      pose proof (hv_social Circular a b (fun fa fb => B a b fa fb Ea Eb)) as S. cbn [social] in S. rewrite S. destruct (force_social_circular a b) as [fs|x]; cbn [rbind rmap]; [|reflexivity]. rewrite hv_with_contact. destruct (with_contact h n a b fs) as [fi fj]. unfold both. cbn [fst snd rbind rmap]. f_equal.
      rewrite (hv_modify i (add_force fi)) by (intros; apply hv_add_force). apply hv_modify. intros. apply hv_add_force.
    - unfold interaction_agent_agent_three_circle. rewrite !nth_error_map. destruct (nth_error l i) as [a|] eqn:Ea, (nth_error l j) as [b|] eqn:Eb; cbn [option_map]; try reflexivity. apply nth_error_In in Ea, Eb.
      unfold pair_forces_three_circle. change (xs_of (hv ?a)) with (xs_of a). change (rs_of (hv ?a)) with (rs_of a). destruct (distance_three_circles _ _ _ _) as [[[[h|] n] mi] mj]; [|reflexivity]. destruct (Rltb h SIGTH_SOC); [|reflexivity].
      pose proof (hv_social ThreeCircle a b (fun fa fb => B a b fa fb Ea Eb)) as S. cbn [social] in S. rewrite S. destruct (force_social_three_circle a b) as [fs|x]; cbn [rbind rmap]; [|reflexivity]. rewrite hv_with_contact. destruct (with_contact h n a b fs) as [fi fj]. unfold both. cbn [fst snd rbind rmap]. f_equal.
      rewrite !sc_cross. rewrite (hv_modify i (add_force fi)) by (intros; apply hv_add_force). rewrite (hv_modify j (add_force fj)) by (intros; apply hv_add_force). rewrite (hv_modify i (add_torque (cross mi fi))) by (intros; apply hv_add_torque). apply hv_modify. intros. apply hv_add_torque.
  Qed.
  Lemma pair_bare k i j l l' : match k with Circular => interaction_agent_agent_circular i j l | ThreeCircle => interaction_agent_agent_three_circle i j l end = Ok l' -> map bare l' = map bare l.
  Proof.
    destruct k; [unfold interaction_agent_agent_circular|unfold interaction_agent_agent_three_circle]; destruct (nth_error l i) as [a|], (nth_error l j) as [b|]; try discriminate.
    - destruct (pair_forces_circular a b) as [[[fi fj]|]|]; cbn; try discriminate; intros [= <-]; [|reflexivity]. rewrite !bare_modify; auto.
    - destruct (pair_forces_three_circle a b) as [[[[[fi fj] mi] mj]|]|]; cbn; try discriminate; intros [= <-]; [|reflexivity]. rewrite !bare_modify; auto.
  Qed.
  Lemma hv_agent_agent k pairs : forall l, below_limit c k l -> agent_agent k pairs (H l) = rmap H (agent_agent k pairs l).
  Proof using Hc.
    unfold agent_agent. induction pairs as [|[i j] pairs IH]; intros l B; [destruct k; reflexivity|]. pose proof (hv_pair k i j l B) as S. pose proof (pair_bare k i j l) as Q.
    destruct k; cbn [over_pairs]; rewrite S; (match goal with |- context[rmap H ?r] => destruct r as [l'|x] end); cbn [rbind rmap]; auto; apply IH; apply (below_bare _ l); auto.
  Qed.
  (** ** Steering *)
  Lemma hv_masked t r : masked t (map (option_map hv) r) = H (masked t r).
  Proof. unfold masked. induction r as [|[a|] r IH]; cbn; auto. rewrite map_app, <- IH. destruct (Z.eqb (a_target a) t); reflexivity. Qed.
  Lemma hv_scatter t r : forall ds, scatter t (map (option_map hv) r) ds = map (option_map hv) (scatter t r ds).
  Proof.
    induction r as [|[a|] r IH]; intros ds; cbn [map option_map scatter]; [reflexivity| |now rewrite IH]. change (a_target (hv a)) with (a_target a). destruct (Z.eqb (a_target a) t); cbn [map option_map]; [|now rewrite IH]. destruct ds as [|d ds]; cbn [map option_map]; [reflexivity|]. rewrite IH. destruct d; reflexivity.
  Qed.
  Lemma hv_navigate nav ts : forall r, navigate_all nav ts (map (option_map hv) r) = rmap (map (option_map hv)) (navigate_all nav ts r).
  Proof.
    induction ts as [|t ts IH]; intros r; cbn [navigate_all]; [reflexivity|].
    assert (E : navigate_target nav t (map (option_map hv) r) = rmap (map (option_map hv)) (navigate_target nav t r)).
    { destruct r as [|a r]; [reflexivity|]. unfold navigate_target. cbn [map]. destruct (nav t) as [[m dir]|x]; cbn [rbind rmap]; [|reflexivity].
      change (option_map hv a :: map (option_map hv) r) with (map (option_map hv) (a :: r)). generalize (a :: r) as l. intros l. cbv zeta. rewrite hv_masked, !map_map. change (fun x => a_target_direction (hv x)) with a_target_direction. change (fun x => let '(c0, w) := indicer m (a_position (hv x)) in (w, c0)) with (fun x => let '(c0, w) := indicer m (a_position x) in (w, c0)).
      destruct (getdefault _ _ _) as [ds|x]; cbn [rbind rmap]; [|reflexivity]. now rewrite hv_scatter. }
    rewrite E. destruct (navigate_target nav t r) as [r'|x]; cbn [rbind rmap]; [apply IH|reflexivity].
  Qed.
  Lemma hv_navigation nav n l : navigation_node nav n (H l) = rmap (map (option_map hv)) (navigation_node nav n l).
  Proof. unfold navigation_node. rewrite <- hv_navigate, !map_map. reflexivity. Qed.
  Lemma hv_put l s : put_lf (H l) s = H (put_lf l s).
  Proof. unfold put_lf. apply (map_combine_both hv (fun a x => let '(t, q) := x in set_index_leader q (set_target t a))). intros a [t q]. reflexivity. Qed.
  Lemma hv_familiar l h : use_familiar (H l) h = H (use_familiar l h).
  Proof. unfold use_familiar. apply (map_combine_both hv (fun a (x : bool) => if negb x && a_is_follower a then set_target (a_familiar_exit a) a else a)). intros a x. change (a_is_follower (hv a)) with (a_is_follower a). destruct (_ && _)%bool; reflexivity. Qed.
  Lemma hv_directions l d : set_follower_directions (H l) d = H (set_follower_directions l d).
  Proof. unfold set_follower_directions. apply (map_combine_both hv (fun a x => if a_is_follower a then set_target_direction x a else a)). intros a x. change (a_is_follower (hv a)) with (a_is_follower a). destruct (a_is_follower a); reflexivity. Qed.
  Lemma hv_leader srt os sight l : leader_follower_node srt os sight (H l) = rmap H (leader_follower_node srt os sight l).
  Proof.
    unfold leader_follower_node, leader_follower_interaction. rewrite !map_map. change (fun x => a_is_follower (hv x)) with a_is_follower. change (fun x => a_is_leader (hv x)) with a_is_leader. change (fun x => a_position (hv x)) with a_position. change (fun x => a_velocity (hv x)) with a_velocity. change (fun x => a_target (hv x)) with a_target. change (fun x => a_index_leader (hv x)) with a_index_leader.
    destruct (leader_follower_interaction_brute _ _ _ _ _ _ _ _ _ _ _) as [s|x]; cbn [rbind rmap fst snd]; [|reflexivity]. now rewrite hv_put, hv_familiar, hv_directions.
  Qed.
  Lemma hv_herding srt enum os sight n l : leader_follower_with_herding_node srt enum os sight n (H l) = rmap H (leader_follower_with_herding_node srt enum os sight n l).
  Proof.
    unfold leader_follower_with_herding_node, leader_follower_with_herding_interaction. cbv zeta. rewrite !map_map. change (fun x => a_is_follower (hv x)) with a_is_follower. change (fun x => a_position (hv x)) with a_position. change (fun x => a_velocity (hv x)) with a_velocity.
    destruct (find_nearest_neighbors _ _ _ _ _) as [ns|x]; cbn [rbind rmap]; [|reflexivity]. set (herd := herding_interaction _ _ _ _ _ _).
    assert (E : map (fun '(a, (_, h)) => if (h : bool) then set_target NO_TARGET a else a) (combine (H l) herd) = H (map (fun '(a, (_, h)) => if (h : bool) then set_target NO_TARGET a else a) (combine l herd))).
    { apply (map_combine_both hv (fun a x => let '(_, h) := x in if (h : bool) then set_target NO_TARGET a else a)). intros a [v h]. now destruct h. }
    rewrite E. set (l1 := map (fun '(a, (_, h)) => if (h : bool) then set_target NO_TARGET a else a) (combine l herd)). rewrite !map_map. change (fun x => a_is_leader (hv x)) with a_is_leader. change (fun x => a_target (hv x)) with a_target. change (fun x => a_index_leader (hv x)) with a_index_leader.
    destruct (leader_follower_interaction_brute _ _ _ _ _ _ _ _ _ _ _) as [s|x]; cbn [rbind rmap fst snd]; [|reflexivity]. now rewrite hv_put, hv_familiar, hv_directions.
  Qed.
  Lemma hv_exits ts os range l : exit_detection_node ts os range (H l) = rmap H (exit_detection_node ts os range l).
  Proof.
    unfold exit_detection_node. destruct ts as [|t ts]; [reflexivity|]. cbv zeta. cbn [rmap]. f_equal. rewrite map_map. change (fun x => a_position (hv x)) with a_position.
    apply (map_combine_both hv (fun a x => let '(t, has) := x in if a_is_follower a && has then set_is_follower false (set_target t a) else a)). intros a [z h]. change (a_is_follower (hv a)) with (a_is_follower a). destruct (_ && _)%bool; reflexivity.
  Qed.
  Lemma hv_inside f l : inside_domain f (H l) = (H (fst (inside_domain f l)), snd (inside_domain f l)).
  Proof. unfold inside_domain. cbn [fst snd]. f_equal; [now rewrite !map_map|]. induction l as [|a l IH]; cbn [map filter]; [reflexivity|]. change (a_active (hv a)) with (a_active a). change (a_position (hv a)) with (a_position a). destruct (xorb _ _); cbn [length]; congruence. Qed.

  (** ** Nodes, updates *)
  Definition needs_limit (n : node) : Prop := match n with AgentAgentInteractions _ => True | _ => False end.
  Definition moves (n : node) : Prop := match n with Integrator _ _ => True | _ => False end.
  Lemma hv_node e n s : (needs_limit n -> below_limit c (e_kind e) (s_agents s)) -> run_node e n (HS s) = rmap HS (run_node e n s).
  Proof using Hc.
    intros B. destruct n; cbn [run_node]; cbv zeta; cbn [heavier_sim s_agents s_draws s_time s_inactive s_dt].
    - unfold with_agents, heavier_sim. cbn [rmap s_agents s_dt s_time s_inactive s_draws]. do 2 f_equal. rewrite !map_map. apply map_ext. intros a. apply hv_reset.
    - rewrite hv_integrator. destruct (velocity_verlet_integrator _ _ _ _) as [[dt r]|x]; cbn [rbind rmap fst snd]; [|reflexivity]. rewrite hv_finite. destruct (all_finite r); reflexivity.
    - rewrite hv_fluctuate. reflexivity.
    - rewrite hv_adjust. destruct (adjust _ _); reflexivity.
    - unfold aa_node_update, agent_agent_block_list. rewrite map_map. change (fun x => a_position (hv x)) with a_position. rewrite hv_agent_agent by (apply B; exact I). destruct (agent_agent _ _ _); reflexivity.
    - rewrite hv_obstacles. reflexivity.
    - rewrite hv_navigation. destruct (navigation_node _ _ _) as [r|x]; cbn [rbind rmap]; [|reflexivity]. rewrite hv_finite. destruct (all_finite r); reflexivity.
    - rewrite hv_leader. destruct (leader_follower_node _ _ _ _); reflexivity.
    - rewrite hv_herding. destruct (leader_follower_with_herding_node _ _ _ _ _ _); reflexivity.
    - rewrite hv_exits. destruct (exit_detection_node _ _ _ _); reflexivity.
    - unfold orientation_node, orient_towards_target_direction, with_agents, heavier_sim. cbn [rmap s_agents s_dt s_time s_inactive s_draws]. destruct (is_model _ _); [|reflexivity]. do 2 f_equal. rewrite !map_map. reflexivity.
    - rewrite hv_inside. destruct (inside_domain _ _) as [l q]. reflexivity.
  Qed.
  Lemma below_kept e n s s1 : ~ moves n -> run_node e n s = Ok s1 -> below_limit c (e_kind e) (s_agents s) -> below_limit c (e_kind e) (s_agents s1).
  Proof.
    intros M R. apply below_bare. apply (node_keeps bare e n s s1); auto. intros f F. destruct n; cbn in F; try (now destruct M); repeat (destruct F as [<-|F]; [intros ? ?; reflexivity|]); destruct F.
  Qed.
  Definition fits e (l : list node) (s : sim) : Prop := (forces_first l /\ below_limit c (e_kind e) (s_agents s)) \/ (forall n, In n l -> ~ needs_limit n).
  Lemma fits_step e n l s : fits e (n :: l) s -> (needs_limit n -> below_limit c (e_kind e) (s_agents s)) /\ (forall s1, run_node e n s = Ok s1 -> fits e l s1).
  Proof.
    intros [[(l1 & l2 & E & F1 & F2) B]|N].
    - split; [auto|]. intros s1 R. destruct l1 as [|m l1]; cbn in E.
      + right. intros q Q. specialize (F2 q). rewrite <- E in F2. specialize (F2 (or_intror Q)). now destruct q.
      + injection E as -> ->. left. split; [exists l1, l2; repeat split; auto; intros q Q; apply F1; now right|]. apply (below_kept e m s); auto. specialize (F1 m (or_introl eq_refl)). now destruct m.
    - split; [intros Q; now destruct (N n (or_introl eq_refl))|]. intros s1 _. right. intros q Q. apply N. now right.
  Qed.
  Lemma hv_update_nodes e ns is : forall l s, map (nth_error ns) is = map Some l -> fits e l s ->
    update_nodes (node_effect e ns) is (HS s) = (HS (fst (update_nodes (node_effect e ns) is s)), snd (update_nodes (node_effect e ns) is s)).
  Proof using Hc.
    induction is as [|i is IH]; intros [|n l] s M F; cbn in M; try discriminate; [reflexivity|]. injection M as M1 M2. cbn [update_nodes].
    assert (E1 : forall s0, node_effect e ns i s0 = match run_node e n s0 with Ok s2 => (s2, None) | Err y => (s0, Some y) end) by (intros; unfold node_effect; now rewrite M1).
    rewrite !E1. destruct (fits_step e n l s F) as [B K]. rewrite (hv_node e n s B). destruct (run_node e n s) as [s1|x] eqn:R; cbn [rmap]; [|reflexivity]. apply (IH l); auto.
  Qed.
  Lemma hv_update e x s i : fits e (written_order x) s ->
    simulation_update e x (HS s, i) = let r := simulation_update e x (s, i) in ((HS (fst (fst r)), snd (fst r)), snd r).
  Proof using Hc.
    intros F. unfold simulation_update, logic_of. destruct (construct_postorder class_name x no_nodes [] reach_start eq_refl) as (r & f & ns & -> & R & Hr & Er & M).
    cbv zeta. unfold update. rewrite Er. cbn [fst snd]. rewrite (hv_update_nodes e ns _ (written_order x) s M F). destruct (update_nodes (node_effect e ns) _ s) as [s1 [y|]]; reflexivity.
  Qed.
  Lemma hv_updates e x s i dts r : updates e x (s, i) dts r ->
    (forall dts1 dts2 u, dts = dts1 ++ dts2 -> dts2 <> [] -> updates e x (s, i) dts1 u -> fits e (written_order x) (fst u)) ->
    updates e x (HS s, i) dts (HS (fst r), snd r).
  Proof using Hc.
    intros U. remember (s, i) as si eqn:E. revert s i E. induction U as [si|si [s1 i1] dts r U1 U IH]; intros s i -> F; [constructor|].
    assert (F0 : fits e (written_order x) s) by (apply (F [] (s_dt s1 :: dts) (s, i)); [reflexivity|discriminate|constructor]).
    pose proof (hv_update e x s i F0) as Q. rewrite U1 in Q. cbn [fst snd] in Q. change (s_dt (fst (s1, i1))) with (s_dt (fst (HS s1, i1))). apply (updates_next e x (HS s, i) (HS s1, i1)); [exact Q|].
    apply (IH s1 i1 eq_refl). intros d1 d2 u -> D V. apply (F (s_dt s1 :: d1) d2 u); auto. now apply (updates_next e x (s, i) (s1, i1)).
  Qed.
End Mass.
