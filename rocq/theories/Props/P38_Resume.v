(** * Properties C136 and C137: going on from a stored state; the same walls drawn in another way *)
From Coq Require Import Lra Lia Permutation.
From Verif Require Import Model.Simulation Spec.Resume Proofs.VecLemmas Proofs.InteractionProofs Proofs.ResumeProofs Proofs.WallProofs Proofs.SimulationProofs Proofs.HeldProofs Proofs.GoesOnProofs Proofs.LoneProofs Proofs.Witness11 Proofs.TurnProofs.
From Verif Require Import Props.P37_Held.
Open Scope R_scope.
Local Open Scope list_scope.

(** ** C136 *)
(** A simulation stopped after [n] updates, its agents put in a new simulation with the same
    surroundings and the same logic: whatever the old one would have done in the next [m]
    updates, the new one does with the same random numbers.  Its clock and its counters count
    from zero. *)
Theorem C136_goes_on : forall e x agents n m s k s' k',
  after e x n (new_simulation agents) (s, k) -> after e x m (s, k) (s', k') ->
  exists t, after (later (s_draws s) e) x m (new_simulation (s_agents s)) (t, m) /\
    s_agents t = s_agents s' /\ s_time s' = s_time s + s_time t /\ s_inactive s' = (s_inactive s + s_inactive t)%nat /\ s_draws s' = (s_draws s + s_draws t)%nat.
Proof.
  intros e x agents n m s k s' k' _ H. destruct (ahead_steps e (s_time s) (s_inactive s) (s_draws s) x m 0 s k s' k' H (Sim (s_agents s) 0 0 0 0) 0) as (t & S & A & T & C & D).
  { repeat split; cbn; [ring|lia|lia]. }
  exists t. split; [exact S|]. repeat split; auto.
Qed.
Print Assumptions C136_goes_on.
(** And the new one does nothing else. *)
Theorem C136_nothing_else : forall e x agents n m s k t j,
  after e x n (new_simulation agents) (s, k) -> after (later (s_draws s) e) x m (new_simulation (s_agents s)) (t, j) ->
  exists s', after e x (n + m) (new_simulation agents) (s', (k + m)%nat) /\
    s_agents t = s_agents s' /\ s_time s' = s_time s + s_time t /\ s_inactive s' = (s_inactive s + s_inactive t)%nat.
Proof.
  intros e x agents n m s k t j H0 H. destruct (ahead_back e (s_time s) (s_inactive s) (s_draws s) x m 0 (Sim (s_agents s) 0 0 0 0) 0 t j H s k) as (s' & S & A & T & C & D).
  { repeat split; cbn; [ring|lia|lia]. }
  exists s'. split; [exact (after_app e x n m _ _ _ H0 S)|]. repeat split; auto.
Qed.
Print Assumptions C136_nothing_else.
(** The next update of the new simulation raises exactly when that of the old one would, the
    same exception, and leaves the same agents behind. *)
Theorem C136_same_exceptions : forall e x agents n s k,
  after e x n (new_simulation agents) (s, k) ->
  let old := simulation_update e x (s, k) in let new := simulation_update (later (s_draws s) e) x (new_simulation (s_agents s)) in
  snd new = snd old /\ s_agents (fst (fst new)) = s_agents (fst (fst old)).
Proof.
  intros e x agents n s k _. destruct (ahead_update e (s_time s) (s_inactive s) (s_draws s) x s k (Sim (s_agents s) 0 0 0 0) 0) as ((A & _) & B & _).
  { repeat split; cbn; [ring|lia|lia]. }
  split; [symmetry; exact B|exact A].
Qed.
Print Assumptions C136_same_exceptions.

(** ** C137 *)
(** Walls given in another order, and with their ends exchanged: every update of every logic is
    the same, with the same exceptions, and so is every run. *)
Theorem C137_order_direction : forall e x l s, same_walls (e_obstacles e) l -> simulation_update (with_walls l e) x s = simulation_update e x s.
Proof. intros e x l s H. now apply same_walls_update. Qed.
Print Assumptions C137_order_direction.
(** A wall given in two pieces: whatever asks whether a wall is between two points gets the same
    answer. *)
Theorem C137_pieces_between : forall l1 o m l2 a b, inner_point o m -> is_obstacle_between_points a b (l1 ++ cut o m ++ l2) = is_obstacle_between_points a b (l1 ++ o :: l2).
Proof. intros l1 o m l2 a b H. now apply cut_sight. Qed.
Print Assumptions C137_pieces_between.
(** So the whole run is the same as long as nobody comes nearer to the joint than their radius.
    What is missing is the rest, which is false: see below. *)
Theorem C137_pieces_partial : forall range x e l1 o m l2 s dts s', In x (shipped_logics range) -> e_kind e = Circular -> e_obstacles e = l1 ++ o :: l2 ->
  inner_point o m -> p0 o <> p1 o -> updates e x s dts s' ->
  (forall dts1 t, (length dts1 < length dts)%nat -> updates e x s dts1 t -> forall a, In a (s_agents (fst t)) -> clear_of m a) ->
  updates (with_walls (l1 ++ cut o m ++ l2) e) x s dts s'.
Proof.
  intros range x e l1 o m l2 s dts s' Hx K W H N U C. destruct (shipped_walls_first range x Hx) as (pre & post & dmin & dmax & X & P & Q).
  apply (pieces_updates e l1 l2 o m K W H N x pre post dmin dmax X P Q s dts s' U). intros dts1 t L V. apply Forall_forall. eauto.
Qed.
Print Assumptions C137_pieces_partial.
(** Somebody who touches the wall right at the joint is pushed back with twice the force. *)
Theorem C137_joint_refuted :
  (forall a o m, inner_point o m -> p0 o <> p1 o -> inner (vsub (a_position a) m) (vsub (p1 o) (p0 o)) = 0 ->
     exists b b', agent_obstacle Circular [a] [o] = [b] /\ agent_obstacle Circular [a] (cut o m) = [b'] /\
       vsub (a_force b') (a_force a) = vscale 2 (vsub (a_force b) (a_force a))) /\
  exists a o m, inner_point o m /\ p0 o <> p1 o /\ a_mass a > 0 /\ agent_obstacle Circular [a] (cut o m) <> agent_obstacle Circular [a] [o].
Proof.
  assert (G : forall a o m, inner_point o m -> p0 o <> p1 o -> inner (vsub (a_position a) m) (vsub (p1 o) (p0 o)) = 0 ->
     exists b b', agent_obstacle Circular [a] [o] = [b] /\ agent_obstacle Circular [a] (cut o m) = [b'] /\
       vsub (a_force b') (a_force a) = vscale 2 (vsub (a_force b) (a_force a)) /\ vsub (a_force b) (a_force a) = fst (wall_push Circular a o)).
  { intros a o m H N J. rewrite !agent_obstacle_push. eexists _, _. split; [reflexivity|]. split; [reflexivity|]. rewrite !push_force. unfold walls_push, cut. cbn [fold_right]. rewrite !dadd_zero_r.
    destruct (cut_joint (a_position a) (a_radius a) o m H N J) as [E1 E2]. unfold wall_push at 1 2. cbn [p0 p1]. rewrite E1, E2. fold (wall_push Circular a o).
    destruct (wall_push Circular a o) as [[f1 f2] t]. destruct (a_force a) as [g1 g2]. unfold dadd, vadd, vsub, vscale. cbn. split; f_equal; ring. }
  split; [intros a o m H N J; destruct (G a o m H N J) as (b & b' & ? & ? & ? & _); eauto 6|].
  assert (I : inner_point great_wall (V 0 0)) by (exists (1/2); split; [lra|unfold great_wall; cbn; f_equal; lra]).
  assert (N : p0 great_wall <> p1 great_wall) by (unfold great_wall; cbn; intros [= Z]; lra).
  exists (set_position (V (-(1/10)) 0) stubborn), great_wall, (V 0 0). split; [exact I|]. split; [exact N|]. split; [cbn; lra|].
  set (a := set_position (V (-(1/10)) 0) stubborn). destruct (G a great_wall (V 0 0) I N) as (b & b' & E & E' & F & B). { unfold inner, great_wall. cbn. ring. }
  rewrite E, E'. intros [= Z]. subst b'. rewrite B in F.
  assert (D : distance_circle_line (a_position a) (a_radius a) (p0 great_wall) (p1 great_wall) = Some (1/10 - 255/1000, V (-1) 0)).
  { change (p1 great_wall) with (V 0 1000). replace (V 0 1000) with (go (p0 great_wall) (V 0 1) 2000) by (unfold go, great_wall; cbn; f_equal; ring).
    rewrite dcl_form by (unfold unit_dir, dot; cbn; lra). cbv zeta. change (a_radius a) with (255/1000). change (a_position a) with (V (-(1/10)) 0). unfold great_wall. cbn [p0].
    unfold dot, rotate90, vsub. cbn [vx vy]. rewrite (proj2 (Rltb_false _ 0)) by lra. rewrite (proj2 (Rltb_false 2000 _)) by lra.
    match goal with |- context [Rabs ?w] => replace w with (1/10) by ring end. rewrite Rabs_pos_eq by lra. unfold rsign, vscale. rewrite (proj2 (Rltb_true 0 (1/10))) by lra. cbn [vx vy].
    do 3 f_equal; ring. }
  revert F. unfold wall_push. rewrite D. rewrite (proj2 (Rltb_true _ 0)) by lra. cbn [fst]. unfold force_contact, vscale, vadd, vsub, dot, rotate270.
  change (a_velocity a) with (V 0 0). change (a_mu a) with 120000. change (a_kappa a) with 40000. change (a_damping a) with 500. cbn [vx vy]. intros [= F1 F2]. lra.
Qed.
Print Assumptions C137_joint_refuted.

(** ** Cases *)
(** The person of C135 before a wall, stopped after four updates out of ten. *)
Example C136_case : exists s k s' k' t, after walled logic_closed_room 4 (new_simulation [stubborn]) (s, k) /\ after walled logic_closed_room 6 (s, k) (s', k') /\
  after (later (s_draws s) walled) logic_closed_room 6 (new_simulation (s_agents s)) (t, 6%nat) /\ s_agents t = s_agents s'.
Proof.
  destruct (C135_case 10 ltac:(lia)) as (dts & [s' k'] & b & L & U & _). destruct (updates_split _ _ 4 _ _ _ U ltac:(lia)) as ([s k] & A & B). rewrite L in B.
  destruct (C136_goes_on walled logic_closed_room [stubborn] 4 6 s k s' k' A B) as (t & T & E & _). exists s, k, s', k', t. auto.
Qed.
(** Two walls drawn in the other order, one of them from its other end. *)
Example C137_case : same_walls [great_wall; Obs (V 3 0) (V 4 1)] [Obs (V 4 1) (V 3 0); great_wall].
Proof. exists [Obs (V 3 0) (V 4 1); great_wall]. split; [apply perm_swap|]. constructor; [right; split; reflexivity|]. constructor; [now left|constructor]. Qed.
(** The wall cut right in front of the person, who is a metre away. *)
Example C137_cut_case : exists dts s, length dts = 1%nat /\ updates (with_walls (cut great_wall (V 0 0)) walled) logic_closed_room (new_simulation [stubborn]) dts s.
Proof.
  destruct (C135_case 1 ltac:(lia)) as (dts & s & b & L & U & _). exists dts, s. split; auto.
  apply (C137_pieces_partial 10 logic_closed_room walled [] great_wall (V 0 0) []); auto.
  - cbn. auto 12.
  - exists (1/2). split; [lra|]. unfold great_wall. cbn. f_equal; lra.
  - unfold great_wall. cbn. intros [= Z]. lra.
  - intros dts1 t L1 V a Ha. rewrite L in L1. destruct dts1; [|cbn in L1; lia]. inversion V; subst. destruct Ha as [<-|[]]. unfold clear_of, edist. cbn.
    replace (_ + _) with (1 * 1) by ring. rewrite sqrt_square; lra.
Qed.
