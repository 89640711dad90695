(** Time step, integrators, rotation. *)
From Coq Require Import Lra Lia.
From Verif Require Export Spec.Steps Proofs.MotionProofs Proofs.BodyProofs Proofs.AgentObjectProofs.
Open Scope R_scope.

(** ** Time step *)
Lemma fold_Rmax_ge l : forall x, x <= fold_left Rmax l x /\ forall y, In y l -> y <= fold_left Rmax l x.
Proof.
  induction l as [|z l IH]; intros x; cbn; [split; [lra|tauto]|]. destruct (IH (Rmax x z)) as [A B].
  pose proof (Rmax_l x z). pose proof (Rmax_r x z). split; [lra|]. intros y [->|H1]; auto. lra.
Qed.
Lemma fold_Rmax_in l : forall x, fold_left Rmax l x = x \/ In (fold_left Rmax l x) l.
Proof.
  induction l as [|z l IH]; intros x; cbn; auto. destruct (IH (Rmax x z)) as [E|H]; [|auto].
  rewrite E. unfold Rmax. destruct (Rle_dec x z); auto.
Qed.
Lemma np_max_greatest l m : np_max l = Some m -> is_greatest (fun x => In x l) m.
Proof.
  destruct l as [|x l]; [discriminate|]. cbn. intros [= <-]. split.
  - destruct (fold_Rmax_in l x) as [E|H]; [left; now rewrite E|now right].
  - destruct (fold_Rmax_ge l x) as [A B]. intros y [<-|H]; auto.
Qed.
Lemma np_max_some l : l <> [] -> exists m, np_max l = Some m.
Proof. destruct l; [tauto|]. cbn. eauto. Qed.
Lemma greatest_unique P m m' : is_greatest P m -> is_greatest P m' -> m = m'.
Proof. intros [A B] [C D]. apply Rle_antisym; auto. Qed.

Lemma timestep_still agents dt_min dt_max : (forall a, In a agents -> a_velocity a = vzero) ->
  adaptive_timestep agents dt_min dt_max = Ok dt_max.
Proof.
  intros H. unfold adaptive_timestep. assert (v_max agents = 0) as ->.
  { destruct (v_max_attained agents) as [E|(a & Ha & E)]; auto. rewrite E, H by auto. now apply vlength_zero. }
  rdec. reflexivity.
Qed.
Lemma timestep_spec agents dt_min dt_max m : dt_min <= dt_max -> 0 <= dt_max ->
  is_greatest (fun x => exists a, In a agents /\ x = a_target_velocity a) m -> 0 <= m ->
  exists dt, adaptive_timestep agents dt_min dt_max = Ok dt /\ dt_min <= dt <= dt_max /\
    (dt <> dt_min -> forall a, In a agents -> elen (a_velocity a) * dt <= 11 / 10 * m * dt_max) /\
    (forall dt', dt < dt' <= dt_max -> exists a, In a agents /\ 11 / 10 * m * dt_max < elen (a_velocity a) * dt').
Proof.
  intros H H0 G Hm. unfold adaptive_timestep. pose proof (v_max_nonneg agents) as Vn.
  assert (VB : forall a, In a agents -> elen (a_velocity a) <= v_max agents).
  { intros a Ha. rewrite elen_vlength. now apply v_max_bound. }
  destruct (Reqb_spec (v_max agents) 0) as [E|E].
  - exists dt_max. repeat split; try lra.
    + intros _ a Ha. pose proof (VB a Ha) as B. rewrite E in B. pose proof (vlength_nonneg (a_velocity a)) as N.
      rewrite elen_vlength in *. assert (vlength (a_velocity a) = 0) as -> by lra. nra.
    + intros dt' ?. lra.
  - assert (Hne : map a_target_velocity agents <> []).
    { intros K. apply E. destruct agents; [reflexivity|discriminate]. }
    destruct (np_max_some _ Hne) as (m' & Em). rewrite Em. pose proof (np_max_greatest _ _ Em) as G'.
    assert (m' = m).
    { apply (greatest_unique (fun x => exists a, In a agents /\ x = a_target_velocity a)); auto.
      destruct G' as [G1 G2]. split.
      - apply in_map_iff in G1 as (a & <- & Ha). eauto.
      - intros x (a & Ha & ->). apply G2. now apply in_map. }
    subst m'. cbv zeta. set (dx := 11 / 10 * m * dt_max). set (v := v_max agents) in *.
    assert (Hv : 0 < v) by lra. assert (Hdx : dx / v * v = dx) by (field; lra).
    assert (Hdx0 : 0 <= dx / v). { apply Rmult_le_pos; [unfold dx; nra|]. left. now apply Rinv_0_lt_compat. }
    destruct (v_max_attained agents) as [K|(f & Hf & Ef)]; [fold v in K; lra|]. fold v in Ef. rewrite <- elen_vlength in Ef.
    destruct (Rltb_spec dt_max (dx / v)) as [L|L].
    + exists dt_max. split; [reflexivity|]. split; [lra|]. split.
      * intros _ a Ha. pose proof (VB a Ha). apply Rle_trans with (v * dt_max); [nra|]. nra.
      * intros dt' ?; lra.
    + destruct (Rltb_spec (dx / v) dt_min) as [L'|L'].
      * exists dt_min. split; [reflexivity|]. split; [lra|]. split; [tauto|]. intros dt' Hd. exists f. split; auto. rewrite <- Ef. nra.
      * exists (dx / v). split; [reflexivity|]. split; [lra|]. split.
        -- intros _ a Ha. pose proof (VB a Ha). nra.
        -- intros dt' Hd. exists f. split; auto. rewrite <- Ef. nra.
Qed.
Lemma timestep_fixed agents dt : adaptive_timestep agents dt dt = Ok dt.
Proof.
  destruct (adaptive_ok agents dt dt) as (d & E & H); [lra|]. rewrite E. f_equal. lra.
Qed.

(** ** Rows after a step *)
Definition euler_row (k : kind) (sd : bool) (dt : R) (a : agent) : option agent :=
  match k with
  | ThreeCircle => if sd then option_map (fun a => shoulders_row (rotational_euler dt a)) (translational_euler dt a)
                   else translational_euler dt a
  | Circular => translational_euler dt a
  end.
Definition verlet_row' (k : kind) (dt : R) (a : agent) : option agent :=
  match k with
  | ThreeCircle => option_map (fun a => shoulders_row (rotational_verlet dt a)) (translational_verlet dt a)
  | Circular => translational_verlet dt a
  end.
Lemma needs_inertia_false agents : (forall a, In a agents -> a_inertia_rot a <> 0) -> needs_inertia agents = false.
Proof.
  intros H. apply not_true_iff_false. unfold needs_inertia. rewrite existsb_exists. intros (a & Ha & K).
  apply Reqb_true in K. now apply (H a).
Qed.
Lemma euler_rows k sd agents dt_min dt_max dt : rotatable k agents -> adaptive_timestep agents dt_min dt_max = Ok dt ->
  euler_integrator k sd agents dt_min dt_max = Ok (dt, map (euler_row k sd dt) agents).
Proof.
  intros HR E. unfold euler_integrator. rewrite E. cbn [rbind]. destruct k; [reflexivity|]. cbn [euler_row]. destruct sd; [|reflexivity].
  rewrite needs_inertia_false by (now apply HR). now rewrite map_map.
Qed.
Lemma verlet_rows' k agents dt_min dt_max dt : rotatable k agents -> adaptive_timestep agents dt_min dt_max = Ok dt ->
  velocity_verlet_integrator k agents dt_min dt_max = Ok (dt, map (verlet_row' k dt) agents).
Proof.
  intros HR E. unfold velocity_verlet_integrator. rewrite E. cbn [rbind]. destruct k; [reflexivity|]. cbn [verlet_row'].
  rewrite needs_inertia_false by (now apply HR). now rewrite map_map.
Qed.

Lemma kept_shoulders a : kept (shoulders_row a) = kept a. Proof. now destruct a. Qed.
Lemma kept_reuler dt a : kept (rotational_euler dt a) = kept a. Proof. now destruct a. Qed.
Lemma kept_rverlet dt a : kept (rotational_verlet dt a) = kept a. Proof. now destruct a. Qed.
Lemma pos_shoulders a : a_position (shoulders_row a) = a_position a. Proof. now destruct a. Qed.
Lemma vel_shoulders a : a_velocity (shoulders_row a) = a_velocity a. Proof. now destruct a. Qed.
Lemma fp_shoulders a : a_force_prev (shoulders_row a) = a_force_prev a. Proof. now destruct a. Qed.
Lemma tp_shoulders a : a_torque_prev (shoulders_row a) = a_torque_prev a. Proof. now destruct a. Qed.
Lemma or_shoulders a : a_orientation (shoulders_row a) = a_orientation a. Proof. now destruct a. Qed.
Lemma av_shoulders a : a_angular_velocity (shoulders_row a) = a_angular_velocity a. Proof. now destruct a. Qed.
Lemma rts_shoulders a : a_r_ts (shoulders_row a) = a_r_ts a. Proof. now destruct a. Qed.

Lemma same_angle_wrap x : same_angle (wrap_to_pi x) x.
Proof. destruct (wrap_turns x) as (k & E). exists k. exact E. Qed.
Lemma rot_euler dt a : let b := rotational_euler dt a in
  same_angle (a_orientation b) (uniform_angle (a_orientation a) (a_angular_velocity a) (angular_acceleration a) dt) /\
  a_angular_velocity b = a_angular_velocity a + angular_acceleration a * dt /\ a_torque_prev b = a_torque_prev a /\
  a_position b = a_position a /\ a_velocity b = a_velocity a /\ a_force_prev b = a_force_prev a.
Proof.
  cbv zeta. split; [|destruct a; repeat split; reflexivity].
  replace (a_orientation (rotational_euler dt a)) with
    (wrap_to_pi (a_orientation a + (a_angular_velocity a * dt + a_torque a / a_inertia_rot a / 2 * (dt * dt)))) by now destruct a.
  replace (a_orientation a + _) with (uniform_angle (a_orientation a) (a_angular_velocity a) (angular_acceleration a) dt).
  - apply same_angle_wrap.
  - unfold uniform_angle, angular_acceleration, Rdiv. ring.
Qed.
Lemma te_spec dt a : a_mass a <> 0 -> exists b, translational_euler dt a = Some b /\ kept b = kept a /\
  a_position b = uniform_position (a_position a) (a_velocity a) (acceleration a) dt /\
  a_velocity b = uniform_velocity (a_velocity a) (acceleration a) dt /\ a_force_prev b = a_force_prev a /\
  rotation_state b = rotation_state a.
Proof.
  intros H. unfold translational_euler. rewrite (proj2 (Reqb_false _ _)) by auto. eexists. split; [reflexivity|].
  repeat split; try (now destruct a).
  - transitivity (vadd (a_position a) (vadd (vscale dt (a_velocity a)) (vscale (dt * dt) (vdiv (vdiv (a_force a) (a_mass a)) 2)))); [now destruct a|].
    unfold uniform_position, acceleration. veq; field; auto.
  - transitivity (vadd (a_velocity a) (vscale dt (vdiv (a_force a) (a_mass a)))); [now destruct a|].
    unfold uniform_velocity, acceleration. veq; field; auto.
Qed.
Lemma euler_row_spec k sd dt a : a_mass a <> 0 -> exists b, euler_row k sd dt a = Some b /\ kept b = kept a /\
  a_position b = uniform_position (a_position a) (a_velocity a) (acceleration a) dt /\
  a_velocity b = uniform_velocity (a_velocity a) (acceleration a) dt /\ a_force_prev b = a_force_prev a /\
  match k, sd with
  | ThreeCircle, true =>
      same_angle (a_orientation b) (uniform_angle (a_orientation a) (a_angular_velocity a) (angular_acceleration a) dt) /\
      a_angular_velocity b = a_angular_velocity a + angular_acceleration a * dt /\ a_torque_prev b = a_torque_prev a
  | _, _ => rotation_state b = rotation_state a
  end.
Proof.
  intros H. destruct (te_spec dt a H) as (b & E & K & P & Vl & F & Rt). unfold euler_row. rewrite E.
  destruct k; [exists b; auto 10|]. destruct sd; [|exists b; auto 10]. cbn [option_map].
  exists (shoulders_row (rotational_euler dt b)). split; [reflexivity|].
  destruct (rot_euler dt b) as (A1 & A2 & A3 & A4 & A5 & A6).
  rewrite kept_shoulders, kept_reuler, pos_shoulders, vel_shoulders, fp_shoulders, or_shoulders, av_shoulders, tp_shoulders, A2, A3, A4, A5, A6.
  assert (KI : a_inertia_rot b = a_inertia_rot a /\ a_torque b = a_torque a) by (unfold kept in K; split; congruence).
  destruct KI as [KI KT]. unfold angular_acceleration in *. rewrite KI, KT in *. unfold rotation_state in Rt.
  injection Rt as R1 R2 R3 R4 R5. rewrite R1, R2 in *. auto 10.
Qed.
Lemma euler_step k sd agents dt_min dt_max : dt_min <= dt_max -> rotatable k agents -> (forall a, In a agents -> a_mass a <> 0) ->
  exists dt l, euler_integrator k sd agents dt_min dt_max = Ok (dt, l) /\ dt_min <= dt <= dt_max /\
  Forall2 (fun a r => exists b, r = Some b /\ kept b = kept a /\
    a_position b = uniform_position (a_position a) (a_velocity a) (acceleration a) dt /\
    a_velocity b = uniform_velocity (a_velocity a) (acceleration a) dt /\ a_force_prev b = a_force_prev a /\
    match k, sd with
    | ThreeCircle, true =>
        same_angle (a_orientation b) (uniform_angle (a_orientation a) (a_angular_velocity a) (angular_acceleration a) dt) /\
        a_angular_velocity b = a_angular_velocity a + angular_acceleration a * dt /\ a_torque_prev b = a_torque_prev a
    | _, _ => rotation_state b = rotation_state a
    end) agents l.
Proof.
  intros H HR HM. destruct (adaptive_ok agents dt_min dt_max H) as (dt & E & Hd).
  exists dt, (map (euler_row k sd dt) agents). split; [now apply euler_rows|]. split; auto.
  clear E HR. induction agents as [|a l IH]; cbn; constructor.
  - apply euler_row_spec. apply HM. now left.
  - apply IH. intros; apply HM; now right.
Qed.

(** ** Velocity Verlet *)
Lemma tv_spec dt a : a_mass a <> 0 -> exists b, translational_verlet dt a = Some b /\ kept b = kept a /\
  a_velocity b = uniform_velocity (a_velocity a)
     (V ((vx (a_force_prev a) / a_mass a + vx (acceleration a)) / 2) ((vy (a_force_prev a) / a_mass a + vy (acceleration a)) / 2)) dt /\
  a_position b = uniform_position (a_position a) (a_velocity b) (acceleration a) dt /\
  a_force_prev b = a_force a /\ rotation_state b = rotation_state a.
Proof.
  intros H. unfold translational_verlet. rewrite (proj2 (Reqb_false _ _)) by auto. eexists. split; [reflexivity|].
  repeat split; try (now destruct a).
  - transitivity (vadd (a_velocity a) (vscale dt (vdiv (vadd (vdiv (a_force_prev a) (a_mass a)) (vdiv (a_force a) (a_mass a))) 2))); [now destruct a|].
    unfold uniform_velocity, acceleration. veq; field; auto.
  - match goal with |- a_position ?b = _ => set (v := a_velocity b) end.
    transitivity (vadd (a_position a) (vadd (vscale dt v) (vscale (dt * dt) (vdiv (vdiv (a_force a) (a_mass a)) 2)))); [unfold v; now destruct a|].
    unfold uniform_position, acceleration. veq; field; auto.
Qed.
Lemma rot_verlet dt a : let b := rotational_verlet dt a in
  a_angular_velocity b = a_angular_velocity a + (a_torque_prev a / a_inertia_rot a + angular_acceleration a) / 2 * dt /\
  same_angle (a_orientation b) (uniform_angle (a_orientation a) (a_angular_velocity b) (angular_acceleration a) dt) /\
  a_torque_prev b = a_torque a /\
  a_position b = a_position a /\ a_velocity b = a_velocity a /\ a_force_prev b = a_force_prev a.
Proof.
  cbv zeta. split; [now destruct a|]. split; [|destruct a; repeat split; reflexivity].
  replace (a_orientation (rotational_verlet dt a)) with
    (wrap_to_pi (a_orientation a + (a_angular_velocity (rotational_verlet dt a) * dt + a_torque a / a_inertia_rot a / 2 * (dt * dt)))) by now destruct a.
  replace (a_orientation a + _) with (uniform_angle (a_orientation a) (a_angular_velocity (rotational_verlet dt a)) (angular_acceleration a) dt).
  - apply same_angle_wrap.
  - unfold uniform_angle, angular_acceleration, Rdiv. ring.
Qed.
Lemma verlet_row_spec k dt a : a_mass a <> 0 -> exists b, verlet_row' k dt a = Some b /\ kept b = kept a /\
  a_velocity b = uniform_velocity (a_velocity a)
     (V ((vx (a_force_prev a) / a_mass a + vx (acceleration a)) / 2) ((vy (a_force_prev a) / a_mass a + vy (acceleration a)) / 2)) dt /\
  a_position b = uniform_position (a_position a) (a_velocity b) (acceleration a) dt /\ a_force_prev b = a_force a /\
  match k with
  | ThreeCircle =>
      a_angular_velocity b = a_angular_velocity a + (a_torque_prev a / a_inertia_rot a + angular_acceleration a) / 2 * dt /\
      same_angle (a_orientation b) (uniform_angle (a_orientation a) (a_angular_velocity b) (angular_acceleration a) dt) /\
      a_torque_prev b = a_torque a
  | Circular => rotation_state b = rotation_state a
  end.
Proof.
  intros H. destruct (tv_spec dt a H) as (b & E & K & Vl & P & F & Rt). unfold verlet_row'. rewrite E.
  destruct k; [exists b; auto 10|]. cbn [option_map].
  exists (shoulders_row (rotational_verlet dt b)). split; [reflexivity|].
  destruct (rot_verlet dt b) as (A1 & A2 & A3 & A4 & A5 & A6).
  rewrite kept_shoulders, kept_rverlet, pos_shoulders, vel_shoulders, fp_shoulders, or_shoulders, av_shoulders, tp_shoulders, A3, A4, A5, A6.
  assert (KI : a_inertia_rot b = a_inertia_rot a /\ a_torque b = a_torque a) by (unfold kept in K; split; congruence).
  destruct KI as [KI KT]. unfold rotation_state in Rt. injection Rt as R1 R2 R3 R4 R5.
  unfold angular_acceleration in *. rewrite KI, KT in *. rewrite R2, R3 in A1. rewrite R1 in A2. auto 10.
Qed.
Lemma verlet_step k agents dt_min dt_max : dt_min <= dt_max -> rotatable k agents -> (forall a, In a agents -> a_mass a <> 0) ->
  exists dt l, velocity_verlet_integrator k agents dt_min dt_max = Ok (dt, l) /\ dt_min <= dt <= dt_max /\
  Forall2 (fun a r => exists b, r = Some b /\ kept b = kept a /\
    a_velocity b = uniform_velocity (a_velocity a)
       (V ((vx (a_force_prev a) / a_mass a + vx (acceleration a)) / 2) ((vy (a_force_prev a) / a_mass a + vy (acceleration a)) / 2)) dt /\
    a_position b = uniform_position (a_position a) (a_velocity b) (acceleration a) dt /\ a_force_prev b = a_force a /\
    match k with
    | ThreeCircle =>
        a_angular_velocity b = a_angular_velocity a + (a_torque_prev a / a_inertia_rot a + angular_acceleration a) / 2 * dt /\
        same_angle (a_orientation b) (uniform_angle (a_orientation a) (a_angular_velocity b) (angular_acceleration a) dt) /\
        a_torque_prev b = a_torque a
    | Circular => rotation_state b = rotation_state a
    end) agents l.
Proof.
  intros H HR HM. destruct (adaptive_ok agents dt_min dt_max H) as (dt & E & Hd).
  exists dt, (map (verlet_row' k dt) agents). split; [now apply verlet_rows'|]. split; auto.
  clear E HR. induction agents as [|a l IH]; cbn; constructor.
  - apply verlet_row_spec. apply HM. now left.
  - apply IH. intros; apply HM; now right.
Qed.

(** ** Many steps under constant force *)
Lemma all_numbers_map (f : agent -> option agent) g l : (forall a, In a l -> f a = Some (g a)) -> all_numbers (map f l) = Some (map g l).
Proof.
  induction l as [|a l IH]; intros H; cbn; auto. rewrite H by now left. rewrite IH; auto. intros; apply H; now right.
Qed.
Lemma iter_r {A} n (g : A -> A) a : Nat.iter n g (g a) = Nat.iter (S n) g a.
Proof. induction n; cbn; auto. f_equal. exact IHn. Qed.
Lemma run_rows (P : agent -> Prop) (integrate : list agent -> res (R * list (option agent))) (g : agent -> agent) :
  (forall l, (forall a, In a l -> P a) -> exists d, integrate l = Ok (d, map (fun a => Some (g a)) l)) ->
  (forall a, P a -> P (g a)) ->
  forall n l, (forall a, In a l -> P a) -> run_steps integrate n l = Some (map (fun a => Nat.iter n g a) l).
Proof.
  intros H1 H2. induction n as [|n IH]; intros l HP; cbn [run_steps].
  - now rewrite map_id.
  - destruct (H1 l HP) as (d & ->). rewrite (all_numbers_map _ g) by auto.
    rewrite IH by (intros a K; apply in_map_iff in K as (a' & <- & Ha); auto).
    rewrite map_map. f_equal. apply map_ext. intros a. apply (iter_r n g a).
Qed.
Definition get (a : agent) (r : option agent) : agent := match r with Some b => b | None => a end.
Lemma kept_movable k a b : kept b = kept a -> movable k a -> movable k b.
Proof. unfold kept, movable. intros E. assert (a_mass b = a_mass a /\ a_inertia_rot b = a_inertia_rot a) as [-> ->] by (split; congruence). auto. Qed.
Lemma kept_acc a b : kept b = kept a -> acceleration b = acceleration a /\ a_force b = a_force a /\ a_mass b = a_mass a.
Proof.
  unfold kept, acceleration. intros E. assert (a_mass b = a_mass a /\ a_force b = a_force a) as [-> ->] by (split; congruence). auto.
Qed.
Lemma euler_many k sd dt n agents : (forall a, In a agents -> movable k a) ->
  exists l, run_steps (fun l => euler_integrator k sd l dt dt) n agents = Some l /\
  Forall2 (fun a b => kept b = kept a /\
    a_position b = uniform_position (a_position a) (a_velocity a) (acceleration a) (INR n * dt) /\
    a_velocity b = uniform_velocity (a_velocity a) (acceleration a) (INR n * dt)) agents l.
Proof.
  intros HM. set (g := fun a => get a (euler_row k sd dt a)).
  assert (G : forall a, movable k a -> euler_row k sd dt a = Some (g a) /\ kept (g a) = kept a /\
     a_position (g a) = uniform_position (a_position a) (a_velocity a) (acceleration a) dt /\
     a_velocity (g a) = uniform_velocity (a_velocity a) (acceleration a) dt).
  { intros a [Hm _]. destruct (euler_row_spec k sd dt a Hm) as (b & E & K & P & Vl & _). unfold g. rewrite E. cbn. auto. }
  exists (map (fun a => Nat.iter n g a) agents). split.
  - apply (run_rows (movable k)); auto.
    + intros l Hl. exists dt. rewrite euler_rows with (dt := dt).
      * f_equal. f_equal. apply map_ext_in. intros a Ha. apply G; auto.
      * intros K a Ha. apply (Hl a Ha); auto.
      * apply timestep_fixed.
    + intros a Ha. apply (kept_movable k a); auto. now apply G.
  - induction agents as [|a l IH]; cbn [map]; constructor; [|apply IH; intros; apply HM; now right].
    specialize (HM a (or_introl eq_refl)). clear IH. induction n as [|n IH].
    + cbn. unfold uniform_position, uniform_velocity. destruct (a_position a), (a_velocity a). cbn. repeat split; f_equal; lra.
    + change (Nat.iter (S n) g a) with (g (Nat.iter n g a)). destruct IH as (K & P & Vl). destruct (G (Nat.iter n g a)) as (_ & K' & P' & V').
      { now apply (kept_movable k a). }
      rewrite K', P', V', P, Vl. destruct (kept_acc _ _ K) as (-> & _). rewrite S_INR.
      unfold uniform_position, uniform_velocity. cbn. repeat split; auto; f_equal; lra.
Qed.
Lemma verlet_many k dt n agents : (forall a, In a agents -> movable k a) -> (forall a, In a agents -> a_force_prev a = a_force a) ->
  exists l, run_steps (fun l => velocity_verlet_integrator k l dt dt) n agents = Some l /\
  Forall2 (fun a b => kept b = kept a /\
    a_velocity b = uniform_velocity (a_velocity a) (acceleration a) (INR n * dt) /\
    vx (a_position b) = vx (uniform_position (a_position a) (a_velocity a) (acceleration a) (INR n * dt)) + INR n * dt * dt * vx (acceleration a) /\
    vy (a_position b) = vy (uniform_position (a_position a) (a_velocity a) (acceleration a) (INR n * dt)) + INR n * dt * dt * vy (acceleration a)) agents l.
Proof.
  intros HM HF. set (g := fun a => get a (verlet_row' k dt a)).
  assert (G : forall a, movable k a /\ a_force_prev a = a_force a -> verlet_row' k dt a = Some (g a) /\ kept (g a) = kept a /\
     a_force_prev (g a) = a_force (g a) /\
     a_velocity (g a) = uniform_velocity (a_velocity a) (acceleration a) dt /\
     a_position (g a) = uniform_position (a_position a) (a_velocity (g a)) (acceleration a) dt).
  { intros a [[Hm _] Hf]. destruct (verlet_row_spec k dt a Hm) as (b & E & K & Vl & P & F & _). unfold g. rewrite E. cbn.
    destruct (kept_acc _ _ K) as (_ & E2 & _). rewrite E2. repeat split; auto. rewrite Vl, Hf. unfold uniform_velocity, acceleration. cbn. f_equal; field; auto. }
  exists (map (fun a => Nat.iter n g a) agents). split.
  - apply (run_rows (fun a => movable k a /\ a_force_prev a = a_force a)); auto.
    + intros l Hl. exists dt. rewrite verlet_rows' with (dt := dt).
      * f_equal. f_equal. apply map_ext_in. intros a Ha. apply G; auto.
      * intros K a Ha. apply (Hl a Ha); auto.
      * apply timestep_fixed.
    + intros a Ha. destruct (G a Ha) as (_ & K & F & _). split; auto. apply (kept_movable k a); auto. tauto.
  - induction agents as [|a l IH]; cbn [map]; constructor.
    2:{ apply IH; intros; [apply HM|apply HF]; now right. }
    specialize (HM a (or_introl eq_refl)). specialize (HF a (or_introl eq_refl)). clear IH.
    assert (X : a_force_prev (Nat.iter n g a) = a_force (Nat.iter n g a) /\ kept (Nat.iter n g a) = kept a /\
      a_velocity (Nat.iter n g a) = uniform_velocity (a_velocity a) (acceleration a) (INR n * dt) /\
      vx (a_position (Nat.iter n g a)) = vx (uniform_position (a_position a) (a_velocity a) (acceleration a) (INR n * dt)) + INR n * dt * dt * vx (acceleration a) /\
      vy (a_position (Nat.iter n g a)) = vy (uniform_position (a_position a) (a_velocity a) (acceleration a) (INR n * dt)) + INR n * dt * dt * vy (acceleration a)); [|tauto].
    induction n as [|n IH].
    + cbn. unfold uniform_position, uniform_velocity. destruct (a_position a), (a_velocity a). cbn. repeat split; auto; try f_equal; lra.
    + change (Nat.iter (S n) g a) with (g (Nat.iter n g a)). destruct IH as (F & K & Vl & Px & Py). destruct (G (Nat.iter n g a)) as (_ & K' & F' & V' & P').
      { split; auto. now apply (kept_movable k a). }
      rewrite F', K', P', V', Vl. destruct (kept_acc _ _ K) as (-> & _). rewrite S_INR.
      unfold uniform_position, uniform_velocity in *. cbn [vx vy] in *. rewrite Px, Py. repeat split; auto; [f_equal; lra|lra|lra].
Qed.

(** ** Orientation and shoulders *)
Lemma shoulders_row_in_place a : shoulders_in_place (shoulders_row a).
Proof.
  unfold shoulders_in_place. destruct a. unfold rotate270, unit_vector. cbn. split; f_equal; ring.
Qed.
Definition upright (a : agent) : Prop := - PI <= a_orientation a <= PI /\ shoulders_in_place a.
Lemma upright_euler dt a : upright (shoulders_row (rotational_euler dt a)).
Proof.
  split; [|apply shoulders_row_in_place]. rewrite or_shoulders.
  replace (a_orientation (rotational_euler dt a)) with
    (wrap_to_pi (a_orientation a + (a_angular_velocity a * dt + a_torque a / a_inertia_rot a / 2 * (dt * dt)))) by now destruct a.
  pose proof (wrap_range (a_orientation a + (a_angular_velocity a * dt + a_torque a / a_inertia_rot a / 2 * (dt * dt)))). lra.
Qed.
Lemma upright_init dt a : upright (shoulders_row (set_torque_prev (a_torque (rotational_euler dt a)) (rotational_euler dt a))).
Proof.
  split; [|apply shoulders_row_in_place]. rewrite or_shoulders.
  replace (a_orientation (set_torque_prev (a_torque (rotational_euler dt a)) (rotational_euler dt a))) with
    (wrap_to_pi (a_orientation a + (a_angular_velocity a * dt + a_torque a / a_inertia_rot a / 2 * (dt * dt)))) by now destruct a.
  pose proof (wrap_range (a_orientation a + (a_angular_velocity a * dt + a_torque a / a_inertia_rot a / 2 * (dt * dt)))). lra.
Qed.
Lemma upright_verlet dt a : upright (shoulders_row (rotational_verlet dt a)).
Proof.
  split; [|apply shoulders_row_in_place]. rewrite or_shoulders.
  set (x := a_orientation a + (a_angular_velocity (rotational_verlet dt a) * dt + a_torque a / a_inertia_rot a / 2 * (dt * dt))).
  replace (a_orientation (rotational_verlet dt a)) with (wrap_to_pi x) by (unfold x; now destruct a).
  pose proof (wrap_range x). lra.
Qed.
Lemma rows_upright (f : agent -> agent) (l : list (option agent)) : (forall a, upright (f a)) ->
  Forall (fun r => forall b, r = Some b -> upright b) (map (option_map f) l).
Proof. intros H. induction l as [|[a|] l IH]; cbn; constructor; auto; intros b [= <-]; auto. Qed.
Lemma verlet_upright agents dt_min dt_max dt l : velocity_verlet_integrator ThreeCircle agents dt_min dt_max = Ok (dt, l) ->
  length l = length agents /\ Forall (fun r => forall b, r = Some b -> - PI <= a_orientation b <= PI /\ shoulders_in_place b) l.
Proof.
  unfold velocity_verlet_integrator. destruct (adaptive_timestep _ _ _) as [d|]; [|discriminate]. cbn [rbind].
  destruct (needs_inertia agents); [discriminate|]. intros [= <- <-]. split; [now rewrite !map_length|].
  apply rows_upright. intros a. apply upright_verlet.
Qed.
Lemma verlet_init_upright agents dt_min dt_max dt l : velocity_verlet_integrator_init ThreeCircle agents dt_min dt_max = Ok (dt, l) ->
  length l = length agents /\ Forall (fun r => forall b, r = Some b -> - PI <= a_orientation b <= PI /\ shoulders_in_place b) l.
Proof.
  unfold velocity_verlet_integrator_init. destruct (adaptive_timestep _ _ _) as [d|]; [|discriminate]. cbn [rbind].
  destruct (needs_inertia agents); [discriminate|]. intros [= <- <-]. split; [now rewrite !map_length|].
  apply rows_upright. intros a. apply upright_init.
Qed.
Lemma euler_upright agents dt_min dt_max dt l : euler_integrator ThreeCircle true agents dt_min dt_max = Ok (dt, l) ->
  length l = length agents /\ Forall (fun r => forall b, r = Some b -> - PI <= a_orientation b <= PI /\ shoulders_in_place b) l.
Proof.
  unfold euler_integrator. destruct (adaptive_timestep _ _ _) as [d|]; [|discriminate]. cbn [rbind].
  destruct (needs_inertia agents); [discriminate|]. intros [= <- <-]. split; [now rewrite !map_length|].
  apply rows_upright. intros a. apply upright_euler.
Qed.
Lemma euler_init_row k agents dt_min dt_max : dt_min <= dt_max -> rotatable k agents -> (forall a, In a agents -> a_mass a <> 0) ->
  exists dt l, velocity_verlet_integrator_init k agents dt_min dt_max = Ok (dt, l) /\ dt_min <= dt <= dt_max /\
  Forall2 (fun a r => exists b, r = Some b /\ kept b = kept a /\
    a_position b = uniform_position (a_position a) (a_velocity a) (acceleration a) dt /\
    a_velocity b = uniform_velocity (a_velocity a) (acceleration a) dt /\ a_force_prev b = a_force a /\
    match k with
    | ThreeCircle =>
        same_angle (a_orientation b) (uniform_angle (a_orientation a) (a_angular_velocity a) (angular_acceleration a) dt) /\
        a_angular_velocity b = a_angular_velocity a + angular_acceleration a * dt /\ a_torque_prev b = a_torque a
    | Circular => rotation_state b = rotation_state a
    end) agents l.
Proof.
  intros H HR HM. destruct (adaptive_ok agents dt_min dt_max H) as (dt & E & Hd).
  unfold velocity_verlet_integrator_init. rewrite E. cbn [rbind].
  assert (SF : forall f b, kept (set_force_prev f b) = kept b /\ a_position (set_force_prev f b) = a_position b /\
     a_velocity (set_force_prev f b) = a_velocity b /\ a_force_prev (set_force_prev f b) = f /\
     rotation_state (set_force_prev f b) = rotation_state b) by (intros f b; destruct b; repeat split; reflexivity).
  assert (ST : forall f b, kept (set_torque_prev f b) = kept b /\ a_position (set_torque_prev f b) = a_position b /\
     a_velocity (set_torque_prev f b) = a_velocity b /\ a_force_prev (set_torque_prev f b) = a_force_prev b /\
     a_orientation (set_torque_prev f b) = a_orientation b /\ a_angular_velocity (set_torque_prev f b) = a_angular_velocity b /\
     a_torque_prev (set_torque_prev f b) = f) by (intros f b; destruct b; repeat split; reflexivity).
  destruct k.
  - eexists dt, _. split; [reflexivity|]. split; auto. clear E HR. induction agents as [|a l IH]; cbn [map]; constructor.
    + destruct (te_spec dt a (HM a (or_introl eq_refl))) as (b & -> & K & P & Vl & F & Rt). cbn [option_map].
      eexists. split; [reflexivity|]. destruct (SF (a_force b) b) as (S1 & S2 & S3 & S4 & S5). rewrite S1, S2, S3, S4, S5.
      destruct (kept_acc _ _ K) as (_ & -> & _). auto.
    + apply IH. intros; apply HM; now right.
  - rewrite needs_inertia_false by (now apply HR). eexists dt, _. split; [reflexivity|]. split; auto. clear E HR.
    induction agents as [|a l IH]; cbn [map]; constructor.
    + destruct (te_spec dt a (HM a (or_introl eq_refl))) as (b & -> & K & P & Vl & F & Rt). cbn [option_map].
      eexists. split; [reflexivity|]. destruct (SF (a_force b) b) as (S1 & S2 & S3 & S4 & S5).
      set (b' := set_force_prev (a_force b) b) in *. cbv zeta. destruct (rot_euler dt b') as (A1 & A2 & A3 & A4 & A5 & A6).
      set (c := rotational_euler dt b') in *. destruct (ST (a_torque c) c) as (T1 & T2 & T3 & T4 & T5 & T6 & T7).
      rewrite kept_shoulders, pos_shoulders, vel_shoulders, fp_shoulders, or_shoulders, av_shoulders, tp_shoulders.
      rewrite T1, T2, T3, T4, T5, T6, T7. assert (KC : kept c = kept a) by (unfold c; now rewrite kept_reuler, S1).
      rewrite KC, A2, A4, A5, A6, S2, S3, S4. destruct (kept_acc _ _ K) as (_ & -> & _).
      assert (KK : kept b' = kept a) by now rewrite S1.
      assert (EA : angular_acceleration b' = angular_acceleration a).
      { unfold angular_acceleration, kept in *. assert (a_torque b' = a_torque a /\ a_inertia_rot b' = a_inertia_rot a) as [-> ->] by (split; congruence). auto. }
      assert (ET : a_torque c = a_torque a) by (unfold kept in KC; congruence).
      assert (ER : a_orientation b' = a_orientation a /\ a_angular_velocity b' = a_angular_velocity a).
      { unfold rotation_state in *. split; congruence. }
      destruct ER as [ER1 ER2]. rewrite EA, ER1, ER2 in A1. rewrite EA, ET, ER2. auto 10.
    + apply IH. intros; apply HM; now right.
Qed.

(** Euler integrator on an array whose dtype is another object. *)
Definition walking : agent := set_mass 80 (set_inertia_rot 4 (set_r_ts (1/4) (set_velocity (V 1 0)
  (set_position_ls (V 0 (1/4)) (set_position_rs (V 0 (-1/4)) zero_row))))).
Lemma euler_other_dtype : shoulders_in_place walking /\
  exists dt b, euler_integrator ThreeCircle false [walking] (1/100) (1/100) = Ok (dt, [Some b]) /\ ~ shoulders_in_place b.
Proof.
  split.
  - unfold shoulders_in_place. cbn. rewrite cos_0, sin_0. split; f_equal; lra.
  - unfold euler_integrator. rewrite timestep_fixed. cbn [rbind map]. unfold translational_euler.
    change (a_mass walking) with 80. rdec. eexists _, _. split; [reflexivity|]. intros [H _]. revert H. cbn.
    rewrite cos_0, sin_0. intros [= H _]. lra.
Qed.

(** Inactive agents are moved like active ones. *)
Lemma inactive_moved k sd dt a : movable k a -> a_force a = vzero -> a_force_prev a = vzero ->
  (exists b, euler_integrator k sd [a] dt dt = Ok (dt, [Some b]) /\
     a_position b = V (vx (a_position a) + vx (a_velocity a) * dt) (vy (a_position a) + vy (a_velocity a) * dt)) /\
  (exists b, velocity_verlet_integrator k [a] dt dt = Ok (dt, [Some b]) /\
     a_position b = V (vx (a_position a) + vx (a_velocity a) * dt) (vy (a_position a) + vy (a_velocity a) * dt)).
Proof.
  intros [Hm Hi] HF HP. split.
  - destruct (euler_row_spec k sd dt a Hm) as (b & E & _ & P & _). exists b. split.
    + rewrite euler_rows with (dt := dt); [cbn [map]; now rewrite E| |apply timestep_fixed]. intros K a' [<-|[]]. auto.
    + rewrite P. unfold uniform_position, acceleration. rewrite HF. cbn. f_equal; field; auto.
  - destruct (verlet_row_spec k dt a Hm) as (b & E & _ & Vl & P & _). exists b. split.
    + rewrite verlet_rows' with (dt := dt); [cbn [map]; now rewrite E| |apply timestep_fixed]. intros K a' [<-|[]]. auto.
    + rewrite P, Vl. unfold uniform_position, uniform_velocity, acceleration. rewrite HF, HP. cbn. f_equal; field; auto.
Qed.

(** ** Turning of agents made from body types *)
Lemma tav_inertia b : b_target_angular_velocity (observe_inertia b) = b_target_angular_velocity b.
Proof. unfold observe_inertia. destruct (_ && _); auto. now destruct b. Qed.
Lemma tav_radius f b : b_target_angular_velocity (observe_radius f b) = b_target_angular_velocity b.
Proof. destruct b, f; cbn; auto; now destruct (Rltb _ _). Qed.
Lemma tav_put f v b : b_target_angular_velocity (bput f v b) = b_target_angular_velocity b.
Proof. now destruct b, f. Qed.
Lemma tav_drawn f v b : b_target_angular_velocity (snd (assign_drawn f v b)) = b_target_angular_velocity b.
Proof.
  unfold assign_drawn. destruct (bvalid f v); auto. destruct (Reqb _ _); auto. cbn [snd].
  destruct f; rewrite ?tav_inertia, ?tav_radius, ?tav_put; auto.
Qed.
Lemma tav_truncnorm zs f m s b : b_target_angular_velocity (snd (observe_truncnorm zs f m s b)) = b_target_angular_velocity b.
Proof. unfold observe_truncnorm. destruct (_ && _); auto. rewrite tav_drawn. now destruct b. Qed.
Lemma tav_assign zs f v b : b_target_angular_velocity (snd (assign zs f v b)) = b_target_angular_velocity b.
Proof.
  unfold assign. destruct (bvalid f v); auto. destruct (Reqb _ _); auto.
  destruct f; cbv zeta; cbn [snd]; rewrite ?tav_inertia, ?tav_radius, ?tav_truncnorm, ?tav_put; auto.
Qed.
Lemma tav_items zs items : forall b, b_target_angular_velocity (snd (assign_items zs items b)) = b_target_angular_velocity b.
Proof.
  induction items as [|[f v] l IH]; intros b; cbn [assign_items]; auto. pose proof (tav_assign zs f v b) as T.
  destruct (assign zs f v b) as [[e|] b']; cbn in *; auto. now rewrite IH.
Qed.
Lemma tav_step zs cfg b o : b_target_angular_velocity (snd (bstep zs cfg b o)) = b_target_angular_velocity b.
Proof.
  destruct o as [f v|s]; cbn [bstep]; [apply tav_assign|]. unfold assign_body_type. destruct (String.eqb s _); auto.
  destruct (String.eqb _ ""); cbn [snd]; [|now destruct b]. destruct (cfg s); cbn [snd]; [rewrite tav_items|]; now destruct b.
Qed.
Lemma tav_run zs cfg os : b_target_angular_velocity (brun zs cfg body0 os) = 0.
Proof.
  unfold brun. change 0 with (b_target_angular_velocity body0). generalize body0.
  induction os as [|o os IH]; intros b; cbn; auto. now rewrite IH, tav_step.
Qed.

Definition can_turn (a : agent) : Prop := a_mass a <> 0 /\ a_inertia_rot a <> 0 /\ a_tau_rot a <> 0.
Definition at_rest (a : agent) : Prop := a_angular_velocity a = 0 /\ a_torque_prev a = 0.
Lemma same_angle_trans x y z : same_angle x y -> same_angle y z -> same_angle x z.
Proof. intros (k & ->) (m & ->). exists (k + m)%Z. rewrite plus_IZR. ring. Qed.
Lemma no_turn dt_min dt_max n : forall agents, dt_min <= dt_max ->
  (forall a, In a agents -> can_turn a /\ at_rest a /\ a_target_angular_velocity a = 0) ->
  exists l, run_steps (turn_step dt_min dt_max) n agents = Some l /\
    Forall2 (fun a b => same_angle (a_orientation b) (a_orientation a) /\ a_angular_velocity b = 0) agents l.
Proof.
  induction n as [|n IH]; intros agents Hd H.
  - exists agents. split; auto. apply Forall2_same. intros a Ha. split; [exists 0%Z; lra|]. apply (H a Ha).
  - cbn [run_steps]. unfold turn_step at 1.
    set (l0 := map (set_torque 0) agents).
    assert (H0 : forall a, In a l0 -> can_turn a /\ at_rest a /\ a_target_angular_velocity a = 0 /\ a_torque a = 0).
    { intros a Ha. unfold l0 in Ha. apply in_map_iff in Ha as (b & <- & Hb). specialize (H b Hb). unfold can_turn, at_rest in *. destruct b. cbn in *. tauto. }
    assert (E : torque_adjust_agents l0 = (None, l0)).
    { unfold torque_adjust_agents. rewrite loop_rows_ok with (g := fun a => a); [now rewrite map_id|].
      intros a Ha. destruct (H0 a Ha) as ((_ & _ & Ht) & (Hw & _) & Hz & Hq). unfold torque_adjust_row, torque_adjust.
      rewrite (proj2 (Reqb_false _ _)) by auto. cbn [rbind]. f_equal. rewrite Hz, Hw, Hq.
      replace (0 + _) with 0 by ring. destruct a; cbn in *; now subst. }
    rewrite E.
    destruct (verlet_step ThreeCircle l0 dt_min dt_max Hd) as (dt & l & E1 & _ & F).
    { intros _ a Ha. apply (H0 a Ha). } { intros a Ha. apply (H0 a Ha). }
    rewrite E1.
    assert (X : exists l', all_numbers l = Some l' /\ Forall2 (fun a b => kept b = kept a /\
       same_angle (a_orientation b) (a_orientation a) /\ a_angular_velocity b = 0 /\ a_torque_prev b = 0) l0 l').
    { clear E E1. clearbody l0. induction F as [|a r l0' l' Hr F IHF]; [exists []; split; [reflexivity|constructor]|].
      destruct IHF as (l1 & E1 & F1); [intros; apply H0; now right|].
      destruct Hr as (b & -> & K & _ & _ & _ & A & S & T). cbn. rewrite E1. exists (b :: l1). split; auto. constructor; auto.
      destruct (H0 a (or_introl eq_refl)) as (_ & (Hw & Hp) & _ & Hq). unfold angular_acceleration in *. rewrite Hq, Hw, Hp in *.
      replace (0 + _) with 0 in A by (unfold Rdiv; ring). repeat split; auto; try lra.
      unfold uniform_angle in S. rewrite A in S. replace (a_orientation a + 0 * dt + _) with (a_orientation a) in S by (unfold Rdiv; ring). auto. }
    destruct X as (l' & -> & F'). destruct (IH l' Hd) as (l2 & E2 & F2).
    { intros b Hb. destruct (Forall2_in_r _ _ _ _ F' Hb) as (a & Ha & K & _ & W & T). destruct (H0 a Ha) as ((M & I & U) & _ & Z & _).
      unfold can_turn, at_rest, kept in *. assert (a_mass b = a_mass a /\ a_inertia_rot b = a_inertia_rot a /\ a_tau_rot b = a_tau_rot a /\
        a_target_angular_velocity b = a_target_angular_velocity a) as (-> & -> & -> & ->) by (repeat split; congruence). auto. }
    exists l2. split; auto.
    assert (F0 : Forall2 (fun a b => a_orientation b = a_orientation a) agents l0).
    { unfold l0. clear. induction agents; constructor; auto. }
    clear - F0 F' F2. revert l' F' l2 F2. induction F0 as [|a b l l0 Hab F0 IH]; intros l' F' l2 F2.
    + inversion F'; subst. inversion F2; subst. constructor.
    + inversion F' as [|? c ? l'' (K & S & W & T) F'']; subst. inversion F2 as [|? d ? l2' [S2 W2] F2']; subst. constructor; eauto.
      split; auto. rewrite <- Hab. eapply same_angle_trans; eauto.
Qed.
Lemma created_never_turns zs cfg os dt_min dt_max n k : dt_min <= dt_max ->
  let o := AObj (brun zs cfg body0 os) k in
  a_mass (obj_row o) <> 0 -> a_inertia_rot (obj_row o) <> 0 -> a_tau_rot k <> 0 -> a_angular_velocity k = 0 -> a_torque_prev k = 0 ->
  exists b, run_steps (turn_step dt_min dt_max) n [obj_row o] = Some [b] /\ same_angle (a_orientation b) (a_orientation k).
Proof.
  intros Hd o HM HI HT HW HP.
  destruct (no_turn dt_min dt_max n [obj_row o] Hd) as (l & E & F).
  - intros a [<-|[]]. unfold can_turn, at_rest. split; [auto|]. split; [auto|]. cbn. apply tav_run.
  - inversion F as [|? b ? l' [S _] F']; subst. inversion F'; subst. exists b. split; auto.
Qed.
