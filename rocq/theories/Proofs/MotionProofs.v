(** Adjusting, contact and fluctuation. *)
From Coq Require Import Lra Lia Psatz.
From Verif Require Export Model.Motion Model.Integrator Spec.Collide Spec.Approach Proofs.Vector2DProofs Proofs.ListLemmas.
Open Scope R_scope.

(** ** Loops over rows *)
Lemma loop_rows_ok f g agents : (forall a, In a agents -> f a = Ok (g a)) -> loop_rows f agents = (None, map g agents).
Proof.
  induction agents as [|a l IH]; intros H; cbn; auto.
  rewrite H by now left. rewrite IH; auto. intros; apply H; now right.
Qed.

(** ** Adjusting force *)
Lemma force_adjust_zero m tau v0 e0 v f : 0 < m -> force_adjust m tau v0 e0 v = Ok f ->
  (f = vzero <-> v = V (v0 * vx e0) (v0 * vy e0)).
Proof.
  intros Hm. unfold force_adjust. rcase; intros [= <-].
  split.
  - intros E. apply vec_eq_inv in E as [E1 E2]. cbn in E1, E2.
    assert (m / tau <> 0). { unfold Rdiv. apply Rmult_integral_contrapositive. split; [lra|]. now apply Rinv_neq_0_compat. }
    apply Rmult_integral in E1, E2. apply vec_eq; cbn; destruct E1, E2; try contradiction; lra.
  - intros ->. veq; ring.
Qed.
Lemma force_adjust_pulls m tau v0 e0 v f : force_adjust m tau v0 e0 v = Ok f ->
  f = V (- (m / tau) * vx (deviation v0 e0 v)) (- (m / tau) * vy (deviation v0 e0 v)).
Proof. unfold force_adjust. rcase; intros [= <-]. unfold deviation. veq; ring. Qed.
Lemma force_adjust_agents_ok agents : (forall a, In a agents -> a_tau_adj a <> 0) ->
  force_adjust_agents agents = (None, map (fun a => set_force (vadd (a_force a)
     (vscale (a_mass a / a_tau_adj a) (vsub (vscale (a_target_velocity a) (a_target_direction a)) (a_velocity a)))) a) agents).
Proof.
  intros H. apply loop_rows_ok. intros a Ha. unfold force_adjust_row, force_adjust.
  now rewrite (proj2 (Reqb_false _ _) (H a Ha)).
Qed.
Lemma force_adjust_agents_err agents a : In a agents -> a_tau_adj a = 0 -> fst (force_adjust_agents agents) = Some ZeroDivisionError.
Proof.
  unfold force_adjust_agents. induction agents as [|b l IH]; intros [] E; cbn [loop_rows].
  - subst b. unfold force_adjust_row, force_adjust. rewrite E. rdec. reflexivity.
  - unfold force_adjust_row at 1, force_adjust. destruct (Reqb (a_tau_adj b) 0); cbn [rbind]; auto.
    specialize (IH H E). destruct (loop_rows force_adjust_row l). auto.
Qed.

(** *** Repeated steps under the adjusting force alone *)
Fixpoint all_some {A} (l : list (option A)) : option (list A) :=
  match l with
  | [] => Some []
  | None :: _ => None
  | Some x :: l' => option_map (cons x) (all_some l')
  end.
(** One step: forces reset, adjusting force added, array integrated. *)
Definition adjust_step (integrate : list agent -> res (R * list (option agent))) (agents : list agent) : option (list agent) :=
  match force_adjust_agents (map (fun a => set_force vzero a) agents) with
  | (Some _, _) => None
  | (None, agents') =>
      match integrate agents' with
      | Err _ => None
      | Ok (_, moved) => all_some moved
      end
  end.
Fixpoint adjust_steps (integrate : list agent -> res (R * list (option agent))) (n : nat) (agents : list agent) : option (list agent) :=
  match n with
  | O => Some agents
  | S n => match adjust_steps integrate n agents with Some l => adjust_step integrate l | None => None end
  end.

Lemma all_some_map {A} (f : A -> option A) g l : (forall a, In a l -> f a = Some (g a)) -> all_some (map f l) = Some (map g l).
Proof.
  induction l as [|a l IH]; intros H; cbn; auto. rewrite H by now left. rewrite IH; auto. intros; apply H; now right.
Qed.
Lemma fold_max_le l : forall m, m <= fold_left (fun m a => let l := vlength (a_velocity a) in if Rltb m l then l else m) l m.
Proof.
  induction l as [|a l IH]; intros m; cbn [fold_left]; [lra|]. cbn zeta. rcase; [|apply IH]. eapply Rle_trans; [|apply IH]. lra.
Qed.
Lemma v_max_nonneg l : 0 <= v_max l. Proof. apply fold_max_le. Qed.
Lemma fold_max_bound l : forall m a, In a l -> vlength (a_velocity a) <= fold_left (fun m a => let l := vlength (a_velocity a) in if Rltb m l then l else m) l m.
Proof.
  induction l as [|b l IH]; intros m a []; cbn [fold_left].
  - subst b. cbn zeta. eapply Rle_trans; [|apply fold_max_le]. rcase; lra.
  - now apply IH.
Qed.
Lemma v_max_bound l a : In a l -> vlength (a_velocity a) <= v_max l. Proof. apply fold_max_bound. Qed.
Lemma fold_max_attained l : forall m, let r := fold_left (fun m a => let l := vlength (a_velocity a) in if Rltb m l then l else m) l m in
  r = m \/ exists a, In a l /\ r = vlength (a_velocity a).
Proof.
  induction l as [|a l IH]; intros m; cbn [fold_left]; [now left|]. cbn zeta in *.
  destruct (IH (if Rltb m (vlength (a_velocity a)) then vlength (a_velocity a) else m)) as [E|(b & Hb & E)].
  - rewrite E. rcase; [right; exists a; split; [now left|reflexivity]|now left].
  - right. exists b. split; [now right|exact E].
Qed.
Lemma v_max_attained l : v_max l = 0 \/ exists a, In a l /\ v_max l = vlength (a_velocity a).
Proof. apply (fold_max_attained l 0). Qed.
Lemma v_max_nil_or l : v_max l <> 0 -> l <> []. Proof. intros H ->. apply H. reflexivity. Qed.
Lemma adaptive_ok l dt_min dt_max : dt_min <= dt_max -> exists dt, adaptive_timestep l dt_min dt_max = Ok dt /\ dt_min <= dt <= dt_max.
Proof.
  intros H. unfold adaptive_timestep. destruct (Reqb_spec (v_max l) 0) as [|E]; [exists dt_max; split; auto; lra|].
  destruct (np_max (map a_target_velocity l)) as [m|] eqn:Em.
  - cbv zeta. set (dt := 11 / 10 * m * dt_max / v_max l). destruct (Rltb_spec dt_max dt); [exists dt_max; split; auto; lra|].
    destruct (Rltb_spec dt dt_min); [exists dt_min; split; auto; lra|]. exists dt. split; auto.
  - exfalso. destruct l; [now apply E|discriminate].
Qed.

(** Verlet: one row. *)
Definition adj (a : agent) : agent := set_force (vadd vzero
  (vscale (a_mass a / a_tau_adj a) (vsub (vscale (a_target_velocity a) (a_target_direction a)) (a_velocity a)))) a.
Lemma adjust_rows agents : (forall a, In a agents -> a_tau_adj a <> 0) ->
  force_adjust_agents (map (fun a => set_force vzero a) agents) = (None, map adj agents).
Proof.
  intros H. rewrite force_adjust_agents_ok.
  - f_equal. rewrite map_map. apply map_ext. now intros [].
  - intros a Ha. apply in_map_iff in Ha as (b & <- & Hb). destruct b; cbn. specialize (H _ Hb). exact H.
Qed.
Lemma adjust_row_mass a : a_mass (adj a) = a_mass a. Proof. now destruct a. Qed.

Definition dev (a : agent) : vec := deviation (a_target_velocity a) (a_target_direction a) (a_velocity a).
Definition vstep (dt : R) (a : agent) : agent :=
  match translational_verlet dt (adj a) with Some b => b | None => a end.
Definition estep (dt : R) (a : agent) : agent :=
  match translational_euler dt (adj a) with Some b => b | None => a end.
Definition same_target (a b : agent) : Prop :=
  a_mass b = a_mass a /\ a_tau_adj b = a_tau_adj a /\ a_target_velocity b = a_target_velocity a /\
  a_target_direction b = a_target_direction a.
Lemma estep_dev dt a : a_mass a <> 0 -> a_tau_adj a <> 0 ->
  translational_euler dt (adj a) = Some (estep dt a) /\ same_target a (estep dt a) /\
  dev (estep dt a) = vscale (1 - dt / a_tau_adj a) (dev a).
Proof.
  intros Hm Ht. unfold estep, translational_euler. rewrite adjust_row_mass, (proj2 (Reqb_false _ _) Hm).
  split; auto. destruct a; cbn in *. split; [repeat split|]. unfold dev, deviation. cbn. veq; field; auto.
Qed.
Lemma vstep_dev dt a : a_mass a <> 0 -> a_tau_adj a <> 0 ->
  translational_verlet dt (adj a) = Some (vstep dt a) /\ same_target a (vstep dt a) /\
  a_force_prev (vstep dt a) = vscale (- (a_mass a / a_tau_adj a)) (dev a) /\
  dev (vstep dt a) = vadd (dev a) (vscale (dt / 2 / a_mass a) (vsub (a_force_prev a) (vscale (a_mass a / a_tau_adj a) (dev a)))).
Proof.
  intros Hm Ht. unfold vstep, translational_verlet. rewrite adjust_row_mass, (proj2 (Reqb_false _ _) Hm).
  split; auto. destruct a; cbn in *. split; [repeat split|]. unfold dev, deviation. cbn. split; veq; field; auto.
Qed.

(** Contraction of one row over [n] steps: state kept for the Verlet scheme.
    [prev] is the deviation before the last step. *)
Definition verlet_row (a : agent) (prev : vec) : Prop := a_force_prev a = vscale (- (a_mass a / a_tau_adj a)) prev.
Lemma vstep_shrink dt a prev r : 0 < a_mass a -> 0 < a_tau_adj a -> 0 < dt -> 3 * dt <= a_tau_adj a ->
  verlet_row a prev -> (prev = vzero \/ (1 / 2 <= r <= 1 /\ dev a = vscale r prev)) ->
  exists r', 1 / 2 <= r' <= 1 - dt / (2 * a_tau_adj a) /\ dev (vstep dt a) = vscale r' (dev a) /\ verlet_row (vstep dt a) (dev a).
Proof.
  intros Hm Ht Hdt H3 Hp Hr. destruct (vstep_dev dt a) as (_ & (S1 & S2 & _) & Fp & D); [lra|lra|].
  set (q := dt / (2 * a_tau_adj a)).
  assert (Hq : 0 < q <= 1 / 6).
  { unfold q. split; [apply Rdiv_lt_0_compat; lra|]. apply (Rmult_le_reg_r (2 * a_tau_adj a)); [lra|].
    unfold Rdiv at 1. rewrite Rmult_assoc, Rinv_l by lra. lra. }
  assert (V2 : verlet_row (vstep dt a) (dev a)). { unfold verlet_row. now rewrite Fp, S1, S2. }
  rewrite Hp in D. destruct Hr as [Hz|(Hr & Hd)].
  - exists (1 - q). split; [split; lra|]. split; auto. rewrite D, Hz. unfold q. veq; field; lra.
  - exists (1 - q - q / r). 
    assert (Hrr : 1 <= / r <= 2). { split; [rewrite <- Rinv_1; apply Rinv_le_contravar; lra|].
      replace 2 with (/ (1 / 2)) by field. apply Rinv_le_contravar; lra. }
    assert (0 <= q / r <= 2 * q). { unfold Rdiv. nra. }
    split; [lra|]. split; auto. rewrite D.
    assert (E : prev = vscale (/ r) (dev a)). { rewrite Hd. veq; field; lra. }
    rewrite E. unfold q. veq; field; lra.
Qed.
Lemma vscale_vscale a b v : vscale a (vscale b v) = vscale (a * b) v. Proof. veq; ring. Qed.

(** Row invariant of [n] Verlet steps. *)
Record vrow (dt_min : R) (n : nat) (a0 a : agent) : Prop := {
  vr_same : same_target a0 a;
  vr_dev : exists c, 0 < c <= (1 - dt_min / (2 * a_tau_adj a0)) ^ n /\ dev a = vscale c (dev a0);
  vr_prev : exists prev r, verlet_row a prev /\ (prev = vzero \/ (1 / 2 <= r <= 1 /\ dev a = vscale r prev)) }.

Lemma vrow_step dt_min dt n a0 a : 0 < a_mass a0 -> 0 < a_tau_adj a0 -> 0 < dt_min <= dt -> 3 * dt <= a_tau_adj a0 ->
  vrow dt_min n a0 a -> vrow dt_min (S n) a0 (vstep dt a) /\
    exists k, 1 / 2 <= k <= 1 - dt / (2 * a_tau_adj a0) /\ dev (vstep dt a) = vscale k (dev a).
Proof.
  intros Hm Ht Hdt H3 [Hs (c & Hc & Ed) (prev & r & Hp & Hr)]. pose proof Hs as (S1 & S2 & S3 & S4).
  destruct (vstep_shrink dt a prev r) as (r' & Hr' & E & Hv); auto; try (rewrite ?S1, ?S2; lra).
  rewrite S2 in Hr'.
  assert (Hle : dt_min / (2 * a_tau_adj a0) <= dt / (2 * a_tau_adj a0)).
  { unfold Rdiv. apply Rmult_le_compat_r; [|lra]. apply Rlt_le, Rinv_0_lt_compat. lra. }
  assert (0 < dt / (2 * a_tau_adj a0)) by (apply Rdiv_lt_0_compat; lra).
  split; [|exists r'; split; [lra|exact E]].
  destruct (vstep_dev dt a) as (_ & Hs' & _); [rewrite S1; lra|rewrite S2; lra|].
  split.
  - destruct Hs' as (T1 & T2 & T3 & T4). repeat split; congruence.
  - exists (r' * c). split; [|now rewrite E, Ed, vscale_vscale]. cbn [pow].
    split; [apply Rmult_lt_0_compat; lra|]. apply Rmult_le_compat; lra.
  - exists (dev a), r'. split; auto. right. split; [lra|exact E].
Qed.
Lemma Forall2_map_r {A B} (P : A -> B -> Prop) (g : B -> B) l1 l2 : Forall2 (fun a b => P a (g b)) l1 l2 -> Forall2 P l1 (map g l2).
Proof. induction 1; cbn; constructor; auto. Qed.
Lemma Forall2_impl_in {A B} (P Q : A -> B -> Prop) l1 l2 :
  (forall a b, In a l1 -> In b l2 -> P a b -> Q a b) -> Forall2 P l1 l2 -> Forall2 Q l1 l2.
Proof. intros H F. induction F; constructor; [apply H; cbn; auto|]. apply IHF. intros; apply H; cbn; auto. Qed.
Lemma Forall2_same {A} (P : A -> A -> Prop) l : (forall a, In a l -> P a a) -> Forall2 P l l.
Proof. induction l; intros H; constructor; [apply H; now left|]. apply IHl. intros; apply H; now right. Qed.
Lemma Forall2_in_r {A B} (P : A -> B -> Prop) l1 l2 b : Forall2 P l1 l2 -> In b l2 -> exists a, In a l1 /\ P a b.
Proof. induction 1; intros []; [subst; exists x; split; [now left|auto]|]. destruct IHForall2 as (a & ? & ?); auto. exists a. split; [now right|auto]. Qed.

(** Agents that the adjusting force can move: positive mass and adjusting time. *)
Definition adjustable (dt_max : R) (a : agent) : Prop :=
  0 < a_mass a /\ 0 < a_tau_adj a /\ 3 * dt_max <= a_tau_adj a.

Lemma verlet_adjust_step dt_min dt_max l : 0 < dt_min <= dt_max -> (forall a, In a l -> 0 < a_mass a /\ 0 < a_tau_adj a) ->
  exists dt, dt_min <= dt <= dt_max /\
    adjust_step (fun l => velocity_verlet_integrator Circular l dt_min dt_max) l = Some (map (vstep dt) l).
Proof.
  intros Hdt H. unfold adjust_step. rewrite adjust_rows.
  2:{ intros a Ha. destruct (H a Ha). lra. }
  destruct (adaptive_ok (map adj l) dt_min dt_max) as (dt & E & Hd); [lra|].
  exists dt. split; auto. unfold velocity_verlet_integrator. rewrite E. cbn [rbind].
  rewrite map_map. apply all_some_map. intros a Ha. destruct (H a Ha). now destruct (vstep_dev dt a) as (-> & _); [lra|lra|].
Qed.
Lemma euler_adjust_step sd dt_min dt_max l : 0 < dt_min <= dt_max -> (forall a, In a l -> 0 < a_mass a /\ 0 < a_tau_adj a) ->
  exists dt, dt_min <= dt <= dt_max /\
    adjust_step (fun l => euler_integrator Circular sd l dt_min dt_max) l = Some (map (estep dt) l).
Proof.
  intros Hdt H. unfold adjust_step. rewrite adjust_rows.
  2:{ intros a Ha. destruct (H a Ha). lra. }
  destruct (adaptive_ok (map adj l) dt_min dt_max) as (dt & E & Hd); [lra|].
  exists dt. split; auto. unfold euler_integrator. rewrite E. cbn [rbind].
  rewrite map_map. apply all_some_map. intros a Ha. destruct (H a Ha). now destruct (estep_dev dt a) as (-> & _); [lra|lra|].
Qed.

Lemma vrow_start dt_min a : a_force_prev a = vzero -> vrow dt_min 0 a a.
Proof.
  intros H. split; [repeat split| |].
  - exists 1. split; [cbn; lra|]. veq; ring.
  - exists vzero, 1. split; [|now left]. unfold verlet_row. rewrite H. veq; ring.
Qed.

Lemma verlet_rows dt_min dt_max agents n : 0 < dt_min <= dt_max -> (forall a, In a agents -> adjustable dt_max a) ->
  (forall a, In a agents -> a_force_prev a = vzero) ->
  exists l, adjust_steps (fun l => velocity_verlet_integrator Circular l dt_min dt_max) n agents = Some l /\
    Forall2 (vrow dt_min n) agents l.
Proof.
  intros Hdt HA HF. induction n as [|n (l & E & F)].
  - exists agents. split; auto. apply Forall2_same. intros a Ha. apply vrow_start. auto.
  - cbn [adjust_steps]. rewrite E.
    destruct (verlet_adjust_step dt_min dt_max l) as (dt & Hd & E2); auto.
    { intros b Hb. destruct (Forall2_in_r _ _ _ _ F Hb) as (a & Ha & [(S1 & S2 & _) _ _]). rewrite S1, S2. destruct (HA a Ha). tauto. }
    exists (map (vstep dt) l). split; auto. apply Forall2_map_r. revert F. apply Forall2_impl_in.
    intros a b Ha _ Hab. destruct (HA a Ha) as (? & ? & ?). apply vrow_step; auto; lra.
Qed.

(** The theorems, in terms of [deviation]. *)
Lemma verlet_converges dt_min dt_max agents n : 0 < dt_min <= dt_max -> (forall a, In a agents -> adjustable dt_max a) ->
  (forall a, In a agents -> a_force_prev a = vzero) ->
  exists l, adjust_steps (fun l => velocity_verlet_integrator Circular l dt_min dt_max) n agents = Some l /\
    Forall2 (fun a b => shrunk ((1 - dt_min / (2 * a_tau_adj a)) ^ n)
      (deviation (a_target_velocity a) (a_target_direction a) (a_velocity a))
      (deviation (a_target_velocity a) (a_target_direction a) (a_velocity b))) agents l.
Proof.
  intros H1 H2 H3. destruct (verlet_rows dt_min dt_max agents n H1 H2 H3) as (l & E & F). exists l. split; auto.
  revert F. apply Forall2_impl_in. intros a b Ha Hb [(S1 & S2 & S3 & S4) (c & Hc & Ed) _]. exists c. split; auto.
  unfold dev in Ed. rewrite S3, S4 in Ed. exact Ed.
Qed.
Lemma verlet_closer dt_min dt_max agents n : 0 < dt_min <= dt_max -> (forall a, In a agents -> adjustable dt_max a) ->
  (forall a, In a agents -> a_force_prev a = vzero) ->
  exists l l', adjust_steps (fun l => velocity_verlet_integrator Circular l dt_min dt_max) n agents = Some l /\
    adjust_steps (fun l => velocity_verlet_integrator Circular l dt_min dt_max) (S n) agents = Some l' /\
    Forall2 (fun a b => shrunk (1 - dt_min / (2 * a_tau_adj a))
      (deviation (a_target_velocity a) (a_target_direction a) (a_velocity a))
      (deviation (a_target_velocity a) (a_target_direction a) (a_velocity b))) l l'.
Proof.
  intros H1 H2 H3. destruct (verlet_rows dt_min dt_max agents n H1 H2 H3) as (l & E & F). 
  destruct (verlet_adjust_step dt_min dt_max l) as (dt & Hd & E2); auto.
  { intros b Hb. destruct (Forall2_in_r _ _ _ _ F Hb) as (a & Ha & [(S1 & S2 & _) _ _]). rewrite S1, S2. destruct (H2 a Ha). tauto. }
  exists l, (map (vstep dt) l). split; auto. split. { cbn [adjust_steps]. now rewrite E. }
  apply Forall2_map_r. apply Forall2_same. intros b Hb. destruct (Forall2_in_r _ _ _ _ F Hb) as (a & Ha & Hab).
  destruct (H2 a Ha) as (Hm & Ht & H4). destruct (vrow_step dt_min dt n a b) as (_ & k & Hk & Ek); auto; try lra.
  pose proof (vr_same _ _ _ _ Hab) as (S1 & S2 & S3 & S4). rewrite S2.
  assert (dt_min / (2 * a_tau_adj a) <= dt / (2 * a_tau_adj a)).
  { unfold Rdiv. apply Rmult_le_compat_r; [|lra]. apply Rlt_le, Rinv_0_lt_compat. lra. }
  exists k. split; [lra|]. destruct (vstep_dev dt b) as (_ & (_ & _ & T3 & T4) & _); [rewrite S1; lra|rewrite S2; lra|].
  unfold dev in Ek. rewrite T3, T4 in Ek. exact Ek.
Qed.

Record erow (dt_min : R) (n : nat) (a0 a : agent) : Prop := {
  er_same : same_target a0 a;
  er_dev : exists c, 0 < c <= (1 - dt_min / a_tau_adj a0) ^ n /\ dev a = vscale c (dev a0) }.
Lemma erow_step dt_min dt n a0 a : 0 < a_mass a0 -> 0 < a_tau_adj a0 -> 0 < dt_min <= dt -> dt < a_tau_adj a0 ->
  erow dt_min n a0 a -> erow dt_min (S n) a0 (estep dt a).
Proof.
  intros Hm Ht Hdt H3 [Hs (c & Hc & Ed)]. pose proof Hs as (S1 & S2 & S3 & S4).
  destruct (estep_dev dt a) as (_ & Hs' & D); [rewrite S1; lra|rewrite S2; lra|]. rewrite S2 in D.
  assert (Hle : dt_min / a_tau_adj a0 <= dt / a_tau_adj a0).
  { unfold Rdiv. apply Rmult_le_compat_r; [|lra]. apply Rlt_le, Rinv_0_lt_compat. lra. }
  assert (dt / a_tau_adj a0 < 1).
  { apply (Rmult_lt_reg_r (a_tau_adj a0)); [lra|]. unfold Rdiv. rewrite Rmult_assoc, Rinv_l; lra. }
  split.
  - destruct Hs' as (T1 & T2 & T3 & T4). repeat split; congruence.
  - exists ((1 - dt / a_tau_adj a0) * c). split; [|now rewrite D, Ed, vscale_vscale]. cbn [pow].
    split; [apply Rmult_lt_0_compat; lra|]. apply Rmult_le_compat; lra.
Qed.
Lemma euler_converges sd dt_min dt_max agents n : 0 < dt_min <= dt_max ->
  (forall a, In a agents -> 0 < a_mass a /\ 0 < a_tau_adj a /\ dt_max < a_tau_adj a) ->
  exists l, adjust_steps (fun l => euler_integrator Circular sd l dt_min dt_max) n agents = Some l /\
    Forall2 (fun a b => shrunk ((1 - dt_min / a_tau_adj a) ^ n)
      (deviation (a_target_velocity a) (a_target_direction a) (a_velocity a))
      (deviation (a_target_velocity a) (a_target_direction a) (a_velocity b))) agents l.
Proof.
  intros Hdt HA.
  assert (K : exists l, adjust_steps (fun l => euler_integrator Circular sd l dt_min dt_max) n agents = Some l /\
    Forall2 (erow dt_min n) agents l).
  { induction n as [|n (l & E & F)].
    - exists agents. split; auto. apply Forall2_same. intros a Ha. split; [repeat split|]. exists 1. split; [cbn; lra|]. veq; ring.
    - cbn [adjust_steps]. rewrite E.
      destruct (euler_adjust_step sd dt_min dt_max l) as (dt & Hd & E2); auto.
      { intros b Hb. destruct (Forall2_in_r _ _ _ _ F Hb) as (a & Ha & [(S1 & S2 & _) _]). rewrite S1, S2. destruct (HA a Ha). tauto. }
      exists (map (estep dt) l). split; auto. apply Forall2_map_r. revert F. apply Forall2_impl_in.
      intros a b Ha _ Hab. destruct (HA a Ha) as (? & ? & ?). apply erow_step; auto; lra. }
  destruct K as (l & E & F). exists l. split; auto.
  revert F. apply Forall2_impl_in. intros a b Ha Hb [(S1 & S2 & S3 & S4) (c & Hc & Ed)]. exists c. split; auto.
  unfold dev in Ed. rewrite S3, S4 in Ed. exact Ed.
Qed.
(** Shrinking is strict progress and the bound tends to zero. *)
Lemma shrunk_closer c v w : c < 1 -> v <> vzero -> shrunk c v w -> elen w < elen v.
Proof.
  intros Hc Hv (k & Hk & ->). rewrite !elen_vlength.
  assert (0 < vlength v). { pose proof (vlength_nonneg v). destruct (Req_dec (vlength v) 0) as [E|]; [|lra]. now apply vlength_zero in E. }
  change (V (k * vx v) (k * vy v)) with (vscale k v). rewrite vlength_scale, Rabs_right by lra. nra.
Qed.
Lemma shrunk_limit q v (w : nat -> vec) : 0 <= q < 1 -> (forall n, shrunk (q ^ n) v (w n)) ->
  forall eps, 0 < eps -> exists N, forall n, (N <= n)%nat -> elen (w n) < eps.
Proof.
  intros Hq H eps He. destruct (pow_lt_1_zero q) with (y := eps / (elen v + 1)) as (N & HN).
  { rewrite Rabs_right; lra. }
  { apply Rdiv_lt_0_compat; auto. rewrite elen_vlength. pose proof (vlength_nonneg v). lra. }
  exists N. intros n Hn. specialize (HN n Hn). destruct (H n) as (k & Hk & ->).
  rewrite !elen_vlength in *. pose proof (vlength_nonneg v).
  change (V (k * vx v) (k * vy v)) with (vscale k v). rewrite vlength_scale, Rabs_right by lra.
  rewrite Rabs_right in HN by lra.
  apply Rle_lt_trans with (eps / (vlength v + 1) * vlength v).
  - apply Rmult_le_compat_r; lra.
  - apply (Rmult_lt_reg_r (vlength v + 1)); [lra|]. unfold Rdiv. field_simplify; [|lra]. nra.
Qed.

(** ** Adjusting torque *)
Lemma wrap_shortest phi phi_0 : shortest_turn phi phi_0 (wrap_to_pi (phi_0 - phi)).
Proof.
  pose proof PI_RGT_0. pose proof (wrap_range (phi_0 - phi)) as W. destruct (wrap_turns (phi_0 - phi)) as (k & E).
  split.
  - exists k. rewrite E. ring.
  - intros d (m & Hm). assert (D : wrap_to_pi (phi_0 - phi) = d + 2 * PI * IZR (k - m)) by (rewrite minus_IZR; lra).
    destruct (Z.eq_dec (k - m) 0) as [Z0|Z0].
    + rewrite Z0 in D. rewrite D. replace (d + 2 * PI * 0) with d by ring. lra.
    + apply Rle_trans with PI; [unfold Rabs; destruct (Rcase_abs _); lra|].
      assert (IZR (k - m) <= -1 \/ 1 <= IZR (k - m)) as [Q|Q].
      { destruct (Z_lt_le_dec (k - m) 0); [left|right]; apply IZR_le; lia. }
      * unfold Rabs. destruct (Rcase_abs d); nra.
      * unfold Rabs. destruct (Rcase_abs d); nra.
Qed.
Lemma torque_adjust_spec I tau phi_0 phi w0 w : tau <> 0 ->
  exists delta, shortest_turn phi phi_0 delta /\ torque_adjust I tau phi_0 phi w0 w = Ok (I / tau * (delta / PI * w0 - w)).
Proof.
  intros H. exists (wrap_to_pi (phi_0 - phi)). split; [apply wrap_shortest|].
  unfold torque_adjust. now rewrite (proj2 (Reqb_false _ _) H).
Qed.
Lemma shortest_zero phi phi_0 delta : shortest_turn phi phi_0 delta -> (delta = 0 <-> exists k : Z, phi = phi_0 + 2 * PI * IZR k).
Proof.
  intros ((k & E) & H). split.
  - intros ->. exists k. lra.
  - intros (m & Em). assert (K : turn phi phi_0 0) by (exists m; lra). apply H in K. rewrite Rabs_R0 in K.
    pose proof (Rabs_pos delta). apply Rabs_eq_0_inv || (destruct (Req_dec delta 0); auto; apply Rabs_pos_lt in H1; lra).
Qed.
Lemma shortest_bound phi phi_0 delta : shortest_turn phi phi_0 delta -> Rabs delta <= PI.
Proof.
  intros (_ & H). pose proof (wrap_range (phi_0 - phi)). destruct (wrap_shortest phi phi_0) as (T & _).
  apply Rle_trans with (1 := H _ T). apply Rabs_le. lra.
Qed.
Lemma torque_at_rest I tau phi_0 phi w0 : 0 < I -> 0 < tau -> 0 < w0 ->
  exists delta t, shortest_turn phi phi_0 delta /\ torque_adjust I tau phi_0 phi w0 0 = Ok t /\
    (0 < t <-> 0 < delta) /\ (t < 0 <-> delta < 0) /\ (t = 0 <-> exists k : Z, phi = phi_0 + 2 * PI * IZR k) /\
    Rabs t <= I / tau * w0.
Proof.
  intros HI Ht Hw. destruct (torque_adjust_spec I tau phi_0 phi w0 0) as (delta & Hd & E); [lra|].
  exists delta, (I / tau * (delta / PI * w0 - 0)). split; auto. split; auto.
  pose proof PI_RGT_0. set (c := I / tau * w0 / PI).
  assert (Hc : 0 < c). { unfold c. apply Rdiv_lt_0_compat; auto. apply Rmult_lt_0_compat; auto. apply Rdiv_lt_0_compat; auto. }
  replace (I / tau * (delta / PI * w0 - 0)) with (c * delta) by (unfold c; field; lra).
  split; [split; intros; nra|]. split; [split; intros; nra|]. split.
  - rewrite <- (shortest_zero phi phi_0 delta Hd). split; [intros; nra|intros ->; ring].
  - rewrite Rabs_mult, (Rabs_right c) by lra. pose proof (shortest_bound _ _ _ Hd).
    apply Rle_trans with (c * PI); [apply Rmult_le_compat_l; lra|]. unfold c. right. field. lra.
Qed.
(** At most [PI] apart in absolute value, the shortest turn is unique. *)
Lemma shortest_unique phi phi_0 d1 d2 : shortest_turn phi phi_0 d1 -> shortest_turn phi phi_0 d2 -> Rabs d1 < PI -> d1 = d2.
Proof.
  intros (T1 & H1) (T2 & H2) Hlt. pose proof PI_RGT_0. pose proof (H2 _ T1). destruct T1 as (k & E1), T2 as (m & E2).
  assert (D : d1 = d2 + 2 * PI * IZR (k - m)) by (rewrite minus_IZR; lra).
  destruct (Z.eq_dec (k - m) 0) as [Z0|Z0]; [rewrite Z0 in D; lra|].
  assert (IZR (k - m) <= -1 \/ 1 <= IZR (k - m)) as [Q|Q].
  { destruct (Z_lt_le_dec (k - m) 0); [left|right]; apply IZR_le; lia. }
  - exfalso. revert H0 Hlt. unfold Rabs. destruct (Rcase_abs d1), (Rcase_abs d2); intros; nra.
  - exfalso. revert H0 Hlt. unfold Rabs. destruct (Rcase_abs d1), (Rcase_abs d2); intros; nra.
Qed.
Lemma torque_adjust_agents_ok agents : (forall a, In a agents -> a_tau_rot a <> 0) ->
  exists l, torque_adjust_agents agents = (None, l) /\
  Forall2 (fun a b => exists delta, shortest_turn (a_orientation a) (a_target_orientation a) delta /\
     b = set_torque (a_torque a + a_inertia_rot a / a_tau_rot a *
       (delta / PI * a_target_angular_velocity a - a_angular_velocity a)) a) agents l.
Proof.
  intros H. eexists. split.
  - apply loop_rows_ok with (g := fun a => set_torque (a_torque a + a_inertia_rot a / a_tau_rot a *
       (wrap_to_pi (a_target_orientation a - a_orientation a) / PI * a_target_angular_velocity a - a_angular_velocity a)) a).
    intros a Ha. unfold torque_adjust_row, torque_adjust. now rewrite (proj2 (Reqb_false _ _) (H a Ha)).
  - clear H. induction agents; cbn; constructor; auto. eexists. split; [apply wrap_shortest|reflexivity].
Qed.
Lemma torque_adjust_agents_err agents a : In a agents -> a_tau_rot a = 0 -> fst (torque_adjust_agents agents) = Some ZeroDivisionError.
Proof.
  unfold torque_adjust_agents. induction agents as [|b l IH]; intros [] E; cbn [loop_rows].
  - subst b. unfold torque_adjust_row, torque_adjust. rewrite E. rdec. reflexivity.
  - unfold torque_adjust_row at 1, torque_adjust. destruct (Reqb (a_tau_rot b) 0); cbn [rbind]; auto.
    specialize (IH H E). destruct (loop_rows torque_adjust_row l). auto.
Qed.

(** ** Contact force *)
Lemma contact_parts h n v mu kappa damping : is_unit n ->
  let f := force_contact h n v (rotate270 n) mu kappa damping in
  inner f n = - h * mu + damping * inner v n /\ inner f (rotate270 n) = h * kappa * inner v (rotate270 n).
Proof.
  intros U. unfold is_unit in U. rewrite elen_vlength in U. pose proof (vlength_sq n) as S. rewrite U in S.
  unfold force_contact. destruct n as [a b], v as [c d]. vunfold. split.
  - transitivity ((- h * mu + damping * (c * a + d * b)) * (a * a + b * b)); [ring|]. rewrite <- S. ring.
  - transitivity (h * kappa * (c * b + d * - a) * (a * a + b * b)); [ring|]. rewrite <- S. ring.
Qed.
Lemma contact_negate h n v t mu kappa damping :
  force_contact h (vneg n) (vneg v) (vneg t) mu kappa damping = vneg (force_contact h n v t mu kappa damping).
Proof. unfold force_contact. destruct n, v, t. vunfold. veq; ring. Qed.
Lemma contact_damping_power h n v t mu kappa damping :
  inner (vsub (force_contact h n v t mu kappa damping) (force_contact h n v t mu kappa 0)) v =
  damping * (inner v n * inner v n).
Proof. unfold force_contact. destruct n, v, t. vunfold. ring. Qed.
Lemma contact_friction_power h n v t mu kappa damping :
  inner (vsub (force_contact h n v t mu kappa damping) (force_contact h n v t mu 0 damping)) v =
  h * kappa * (inner v t * inner v t).
Proof. unfold force_contact. destruct n, v, t. vunfold. ring. Qed.

(** ** Fluctuations *)
Lemma force_fluctuation1_len mass scale phi z : 0 <= mass -> 0 <= scale -> 0 <= z ->
  elen (force_fluctuation1 mass scale phi z) = mass * scale * z.
Proof.
  intros. rewrite elen_vlength. unfold force_fluctuation1. rewrite vlength_scale.
  replace (vlength (V (cos phi) (sin phi))) with 1.
  2:{ unfold vlength. cbn. pose proof (sin2_cos2 phi) as E. unfold Rsqr in E. rewrite Rplus_comm, E. now rewrite sqrt_1. }
  rewrite Rabs_right; [ring|]. apply Rle_ge. repeat apply Rmult_le_pos; auto. pose proof (Rmult_le_pos _ _ H0 H1). lra.
Qed.
Lemma force_fluctuation_bound ms draws : length draws = length ms ->
  Forall (fun p => 0 <= fst p /\ 0 <= snd p) ms -> Forall (fun d => 0 <= snd d <= 3) draws ->
  Forall2 (fun p f => elen f <= 3 * fst p * snd p) ms (force_fluctuation ms draws).
Proof.
  intros L Hm Hd. unfold force_fluctuation. revert draws L Hd. induction Hm as [|[m s] ms [H1 H2] Hm IH]; intros [|[p z] ds] L Hd;
    cbn in *; try discriminate; constructor.
  - inversion Hd; subst; cbn in *. rewrite force_fluctuation1_len by tauto. pose proof (Rmult_le_pos _ _ H1 H2). nra.
  - inversion Hd; subst. apply IH; auto.
Qed.
Lemma torque_fluctuation_bound ms draws : length draws = length ms ->
  Forall (fun p => 0 <= fst p /\ 0 <= snd p) ms -> Forall (fun z => -3 <= z <= 3) draws ->
  Forall2 (fun p t => Rabs t <= 3 * fst p * snd p) ms (torque_fluctuation ms draws).
Proof.
  intros L Hm Hd. unfold torque_fluctuation. revert draws L Hd. induction Hm as [|[m s] ms [H1 H2] Hm IH]; intros [|z ds] L Hd;
    cbn in *; try discriminate; constructor.
  - inversion Hd; subst; cbn in *. unfold torque_fluctuation1. pose proof (Rmult_le_pos _ _ H1 H2).
    apply Rabs_le. nra.
  - inversion Hd; subst. apply IH; auto.
Qed.
Lemma fluctuate_row_bound k a phi z zt : 0 <= a_mass a -> 0 <= a_std_rand_force a -> 0 <= z <= 3 ->
  0 <= a_inertia_rot a -> 0 <= a_std_rand_torque a -> -3 <= zt <= 3 ->
  exists f t, fluctuate_row k a phi z zt = set_torque (a_torque a + t) (set_force (vadd (a_force a) f) a) /\
    elen f <= 3 * a_mass a * a_std_rand_force a /\ Rabs t <= 3 * a_inertia_rot a * a_std_rand_torque a /\
    (k = Circular -> t = 0).
Proof.
  intros H1 H2 H3 H4 H5 H6.
  pose proof (Rmult_le_pos _ _ H1 H2). pose proof (Rmult_le_pos _ _ H4 H5).
  exists (force_fluctuation1 (a_mass a) (a_std_rand_force a) phi z),
    (match k with Circular => 0 | ThreeCircle => torque_fluctuation1 (a_inertia_rot a) (a_std_rand_torque a) zt end).
  split; [|split; [|split]].
  - destruct k; [|reflexivity]. rewrite Rplus_0_r. now destruct a.
  - rewrite force_fluctuation1_len by tauto. nra.
  - destruct k; [rewrite Rabs_R0; nra|]. unfold torque_fluctuation1. apply Rabs_le. nra.
  - now intros ->.
Qed.
