(** * Every scene has an image in every coordinate system *)
From Coq Require Import Lra Lia Classical.
From Verif Require Import Proofs.VecLemmas Proofs.Vector2DProofs.
From Verif Require Export Proofs.FrameRuns.
Open Scope R_scope.

Lemma Forall2_weaken {A B} (R S : A -> B -> Prop) l l' : (forall a b, R a b -> S a b) -> Forall2 R l l' -> Forall2 S l l'.
Proof. intros H G. induction G; constructor; auto. Qed.
(** The old coordinates of a place. *)
Definition back (F : frame) (p : vec) : vec :=
  let x := vx p - vx (f_shift F) in let y := vy p - vy (f_shift F) in
  V (f_cos F * x + f_sin F * y) (f_flip F * (f_cos F * y - f_sin F * x)).
Lemma back_point F p : proper F -> back F (point F p) = p.
Proof.
  intros [H G]. assert (G2 : f_flip F * f_flip F = 1) by (destruct G as [-> | ->]; ring). destruct p as [x y]. unfold back, point, vect. cbn [vx vy]. f_equal.
  - transitivity ((f_cos F ^ 2 + f_sin F ^ 2) * x); [ring|]. rewrite H. ring.
  - transitivity ((f_flip F * f_flip F) * (f_cos F ^ 2 + f_sin F ^ 2) * y); [ring|]. rewrite H, G2. ring.
Qed.
Lemma unit_image F a : proper F -> exists b, V (cos b) (sin b) = vect F (V (cos a) (sin a)).
Proof.
  intros HF. set (v := vect F (V (cos a) (sin a))). assert (L : vlength v = 1).
  { unfold v. rewrite vect_length by exact HF. unfold vlength. cbn [vx vy]. pose proof (sin2_cos2 a) as S. unfold Rsqr in S. replace (_ + _) with 1 by lra. apply sqrt_1. }
  exists (angle v). pose proof (unit_vector_angle v) as U. rewrite L in U. rewrite <- U at 3.
  - unfold vscale, unit_vector. cbn [vx vy]. f_equal; ring.
  - intros Z. rewrite Z in L. unfold vlength in L. cbn in L. rewrite Rmult_0_l, Rplus_0_l, sqrt_0 in L. lra.
Qed.
Definition image_ok (k : kind) (F : frame) (a : agent) : Prop := k = ThreeCircle -> f_flip F = 1 /\ (only_moved F \/ a_target_angular_velocity a = 0).
Definition image_row (F : frame) (o : R) (a : agent) : agent :=
  set_position (point F (a_position a)) (set_velocity (vect F (a_velocity a)) (set_target_direction (vect F (a_target_direction a))
   (set_force (vect F (a_force a)) (set_force_prev (vect F (a_force_prev a)) (set_orientation o
    (set_position_ls (point F (a_position_ls a)) (set_position_rs (point F (a_position_rs a)) a))))))).
Lemma image_agent k F a : proper F -> image_ok k F a -> exists b, seen k F a b.
Proof.
  intros HF H. assert (O : exists o, V (cos o) (sin o) = vect F (V (cos (a_orientation a)) (sin (a_orientation a))) /\ (only_moved F -> o = a_orientation a)).
  { destruct (classic (only_moved F)) as [M|M].
    - exists (a_orientation a). split; auto. destruct M as (C & S & E). unfold vect. rewrite C, S, E. cbn. f_equal; ring.
    - destruct (unit_image F (a_orientation a) HF) as (o & O). exists o. split; auto. tauto. }
  destruct O as (o & O1 & O2). exists (image_row F o a). constructor; try reflexivity. intros K. destruct (H K) as (E & W). split; [exact E|]. repeat split; auto.
Qed.
Lemma image_state k F s : proper F -> (forall a, In a (s_agents s) -> image_ok k F a) -> exists s', sim_seen k F s s'.
Proof.
  intros HF H. assert (A : exists l, Forall2 (seen k F) (s_agents s) l).
  { induction (s_agents s) as [|a l IH]; [exists []; constructor|]. destruct IH as (m & M); [intros; apply H; now right|]. destruct (image_agent k F a HF) as (b & B); [apply H; now left|].
    exists (b :: m). constructor; auto. }
  destruct A as (l & A). exists (Sim l (s_dt s) (s_time s) (s_inactive s) (s_draws s)). repeat split; auto.
Qed.
(** A mesh and its directions, moved. *)
Definition move_mesh (v : vec) (m : mesh) : mesh := Mesh (m_step m) (m_minx m + vx v) (m_miny m + vy v) (m_maxx m + vx v) (m_maxy m + vy v).
Lemma moved_answer F m dir p : only_moved F -> answer (move_mesh (f_shift F) m, dir) (point F p) = option_map (option_map (vect F)) (answer (m, dir) p).
Proof.
  intros (C & S & E). assert (I : forall v, vect F v = v) by (intros [x y]; unfold vect; rewrite C, S, E; cbn; f_equal; ring).
  unfold answer. replace (indicer (move_mesh (f_shift F) m) (point F p)) with (indicer m p).
  - destruct (indicer m p) as [c w]. destruct (is_inside _ _ _ _); [|reflexivity]. cbn [option_map]. f_equal. destruct (at_ dir _ _); [|reflexivity]. cbn. now rewrite I.
  - unfold indicer, point. rewrite I. cbn [move_mesh m_step m_minx m_miny vx vy]. f_equal; f_equal; f_equal; ring.
Qed.
Lemma image_env F e : proper F -> ~ In [] (e_targets e) ->
  (only_moved F \/ forall a b c t, exists x, e_nav e a b c t = Err x) -> exists e', env_seen F e e' /\ same_pairs F e e'.
Proof.
  intros HF T N.
  assert (NV : exists nav', forall step radius strength t, res_seen (fun md md' => forall p, answer md' (point F p) = option_map (option_map (vect F)) (answer md p))
             (e_nav e step radius strength t) (nav' step radius strength t)).
  { destruct N as [M|N].
    - exists (fun a b c t => match e_nav e a b c t with Ok (m, dir) => Ok (move_mesh (f_shift F) m, dir) | Err x => Err x end). intros a b c t.
      destruct (e_nav e a b c t) as [[m dir]|x]; cbn [res_seen]; [|reflexivity]. intros p. now apply moved_answer.
    - exists (e_nav e). intros a b c t. destruct (N a b c t) as (x & ->). reflexivity. }
  destruct NV as (nav' & NV).
  exists (Env (e_kind e) (map (wall F) (e_obstacles e)) (map (map (point F)) (e_targets e)) nav' (fun ps c => e_enum e (map (back F) ps) c) (e_argsort e) (fun p => e_inside e (back F p))
    (fun n i => let '(phi, z, zt) := e_draws e n i in (angle (vect F (V (cos phi) (sin phi))), z, zt))). split.
  - constructor; cbn; auto.
    + intros p. now rewrite back_point.
    + intros n i. destruct (e_draws e n i) as [[phi z] zt]. split; auto.
      destruct (unit_image F phi HF) as (o & O). rewrite <- O. pose proof (unit_vector_angle (V (cos o) (sin o))) as U.
      assert (L : vlength (V (cos o) (sin o)) = 1) by (unfold vlength; cbn [vx vy]; pose proof (sin2_cos2 o) as S; unfold Rsqr in S; replace (_ + _) with 1 by lra; apply sqrt_1).
      rewrite L in U. rewrite <- U at 3.
      * unfold vscale, unit_vector. cbn [vx vy]. f_equal; ring.
      * intros Z. injection Z as Z1 Z2. pose proof (sin2_cos2 o) as S. rewrite Z1, Z2 in S. unfold Rsqr in S. lra.
  - intros ps c. cbn. f_equal. rewrite map_map. rewrite <- (map_id ps) at 2. apply map_ext. intros p. now apply back_point.
Qed.

(** Every node keeps the radii. *)
Lemma radii_kept rmax e n s s1 : radii_below rmax (s_agents s) -> run_node e n s = Ok s1 -> radii_below rmax (s_agents s1).
Proof.
  intros H R. assert (E : map a_radius (s_agents s1) = map a_radius (s_agents s)).
  { apply (SimulationProofs.node_keeps a_radius e n); auto. intros f _. destruct f; now intros ? ?. }
  intros a Ha. assert (I : In (a_radius a) (map a_radius (s_agents s))) by (rewrite <- E; now apply in_map). apply in_map_iff in I as (b & <- & B). now apply H.
Qed.

(** ** An agent that stands with its back to its target *)
Definition quarter : frame := Frame 0 1 1 (V 0 0).
Definition back_turned (phi : R) (d : vec) : agent :=
  shoulders_row (set_orientation phi (set_target_direction d (set_target_angular_velocity 1 (set_tau_rot 1 (set_inertia_rot 1 (set_tau_adj 1 (set_mass 1 (set_r_ts 1 zero_row)))))))).
Definition no_env_with (phi : R) (k : kind) : env := Env k [] [] (fun _ _ _ _ => Err ValueError) (fun ps _ => all_pairs (length ps)) (fun _ => []) (fun _ => true) (fun _ _ => (phi, 0, 0)).
Definition no_env : kind -> env := no_env_with 0.
Lemma fmod_minus_pi : fmod (- PI) (2 * PI) = PI.
Proof. pose proof PI_RGT_0. apply (fmod_unique _ _ (-1)); [lra|lra|]. replace (IZR (-1)) with (-(1)) by reflexivity. ring. Qed.
Lemma wrap_minus_pi : wrap_to_pi (- PI) = - PI.
Proof. apply wrap_id. pose proof PI_RGT_0. lra. Qed.
Lemma wrap_pi : wrap_to_pi PI = PI.
Proof. apply wrap_id. pose proof PI_RGT_0. lra. Qed.
Lemma angle_left : angle (V (-1) 0) = PI.
Proof. unfold angle, arctan2. cbn [vx vy]. repeat rcase; try lra. replace (0 / -1) with 0 by field. rewrite atan_0. lra. Qed.
Lemma angle_down : angle (V 0 (-1)) = - (PI / 2).
Proof. unfold angle, arctan2. cbn [vx vy]. repeat rcase; lra. Qed.
Lemma adjust_one e a : e_kind e = ThreeCircle -> a_tau_adj a <> 0 -> a_tau_rot a <> 0 ->
  exists t b, run_node e Adjusting (Sim [a] 0 0 0 0) = Ok t /\ s_agents t = [b] /\
    a_torque b = a_torque a + a_inertia_rot a / a_tau_rot a * (wrap_to_pi (a_target_orientation a - a_orientation a) / PI * a_target_angular_velocity a - a_angular_velocity a).
Proof.
  intros K A B. cbn [run_node s_agents]. rewrite K. unfold adjust, force_adjust_agents, torque_adjust_agents. cbn [loop_rows]. unfold force_adjust_row, force_adjust.
  rewrite (proj2 (Reqb_false (a_tau_adj a) 0)) by exact A. cbn [rbind loop_rows looped is_model]. unfold torque_adjust_row, torque_adjust. cbn [a_tau_rot set_force].
  rewrite (proj2 (Reqb_false (a_tau_rot a) 0)) by exact B. cbn [rbind looped]. do 2 eexists. split; [reflexivity|]. split; reflexivity.
Qed.
Lemma turned e phi d : e_kind e = ThreeCircle -> angle d - phi = PI \/ angle d - phi = - PI ->
  exists m t a, run_node e Orientation (Sim [back_turned phi d] 0 0 0 0) = Ok m /\ run_node e Adjusting m = Ok t /\ s_agents t = [a] /\ a_torque a = (angle d - phi) / PI.
Proof.
  intros K H. destruct (adjust_one e (orient_row (back_turned phi d)) K) as (t & b & R & S & T); [cbn; lra|cbn; lra|].
  exists (Sim [orient_row (back_turned phi d)] 0 0 0 0), t, b. split; [cbn; now rewrite K|]. split; [exact R|]. split; [exact S|]. rewrite T.
  change (a_target_orientation (orient_row (back_turned phi d))) with (angle d). change (a_orientation (orient_row (back_turned phi d))) with phi.
  change (a_torque (orient_row (back_turned phi d))) with 0. change (a_inertia_rot (orient_row (back_turned phi d))) with 1. change (a_tau_rot (orient_row (back_turned phi d))) with 1.
  change (a_target_angular_velocity (orient_row (back_turned phi d))) with 1. change (a_angular_velocity (orient_row (back_turned phi d))) with 0.
  pose proof PI_RGT_0. destruct H as [E|E]; rewrite E, ?wrap_pi, ?wrap_minus_pi; field; lra.
Qed.
Lemma turned_refuted : exists F e e' a b m m' t t' a' b', proper F /\ f_flip F = 1 /\ e_kind e = ThreeCircle /\ env_seen F e e' /\ same_pairs F e e' /\
  seen Circular F a b /\ a_position_ls b = point F (a_position_ls a) /\ a_position_rs b = point F (a_position_rs a) /\
  V (cos (a_orientation b)) (sin (a_orientation b)) = vect F (V (cos (a_orientation a)) (sin (a_orientation a))) /\
  run_node e Orientation (Sim [a] 0 0 0 0) = Ok m /\ run_node e Adjusting m = Ok t /\ s_agents t = [a'] /\
  run_node e' Orientation (Sim [b] 0 0 0 0) = Ok m' /\ run_node e' Adjusting m' = Ok t' /\ s_agents t' = [b'] /\
  a_torque a' = 1 /\ a_torque b' = -1.
Proof.
  destruct (turned (no_env ThreeCircle) 0 (V (-1) 0) eq_refl) as (m & t & a' & A1 & A2 & A3 & A4); [left; rewrite angle_left; ring|].
  destruct (turned (no_env_with (PI / 2) ThreeCircle) (PI / 2) (V 0 (-1)) eq_refl) as (m' & t' & b' & B1 & B2 & B3 & B4); [right; rewrite angle_down; field|].
  exists quarter, (no_env ThreeCircle), (no_env_with (PI / 2) ThreeCircle), (back_turned 0 (V (-1) 0)), (back_turned (PI / 2) (V 0 (-1))), m, m', t, t', a', b'. pose proof PI_RGT_0 as PP.
  repeat match goal with |- _ /\ _ => split end; auto; try reflexivity.
  - split; cbn; [ring|auto].
  - constructor; try reflexivity; cbn; auto. intros n i. rewrite cos_PI2, sin_PI2, cos_0, sin_0. split; auto. unfold vect. cbn. f_equal; ring.
  - intros ps c. cbn. now rewrite map_length.
  - constructor; try reflexivity; try discriminate; cbn; unfold point, vect, vzero; cbn; f_equal; ring.
  - unfold back_turned, shoulders_row, point, vect, vsub, vadd, vscale, rotate270, unit_vector. cbn. rewrite cos_PI2, sin_PI2, cos_0, sin_0. f_equal; ring.
  - unfold back_turned, shoulders_row, point, vect, vsub, vadd, vscale, rotate270, unit_vector. cbn. rewrite cos_PI2, sin_PI2, cos_0, sin_0. f_equal; ring.
  - change (V (cos (PI / 2)) (sin (PI / 2)) = vect quarter (V (cos 0) (sin 0))). rewrite cos_PI2, sin_PI2, cos_0, sin_0. unfold vect. cbn. f_equal; ring.
  - rewrite A4, angle_left. field. lra.
  - rewrite B4, angle_down. field. lra.
Qed.
