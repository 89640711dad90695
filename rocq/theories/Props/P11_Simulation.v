(** * Properties C51 (time), C53-C55, C75-C77: whole updates of a simulation *)
From Coq Require Import Lra Lia.
From Coq Require String.
Import String.StringSyntax.
Delimit Scope string_scope with string.
From Verif Require Import Proofs.Witness11.
Open Scope R_scope.

(** C75: evaluating the expression attaches the operands as written, and an update runs
    exactly the written order; an exception leaves the iteration counter alone. *)
Theorem C75_written_tree : forall x, exists r f ns, logic_of x = Ok (r, f, ns) /\ reachable f /\ top_of f r r /\
  map (nth_error ns) (postorder f r) = map Some (written_order x).
Proof.
  intros x. destruct (construct_postorder class_name x no_nodes [] reach_start eq_refl) as (r & f & ns & H & R & Hr & Er & M).
  exists r, f, ns. split; auto. split; auto. split; auto. rewrite <- Er at 2. apply root_top; auto using reachable_wf.
Qed.
Print Assumptions C75_written_tree.
Theorem C75_update_runs_written_order : forall e x s k s' k',
  simulation_update e x (s, k) = ((s', k'), None) <-> k' = S k /\ exists log, runs e (written_order x) s log s'.
Proof. exact update_runs. Qed.
Print Assumptions C75_update_runs_written_order.
Theorem C75_exception_not_counted : forall e x s k s' k' ex, simulation_update e x (s, k) = ((s', k'), Some ex) ->
  k' = k /\ exists l1 n l2 log, written_order x = l1 ++ n :: l2 /\ runs e l1 s log s' /\ run_node e n s' = Err ex.
Proof. exact update_stops. Qed.
Print Assumptions C75_exception_not_counted.
(** What the shipped simulations do in one update, in order. *)
Theorem C75_shipped_orders : forall range, map written_order (shipped_logics range) =
  let fluctuation_and l := Fluctuation :: l ++ [Orientation; Adjusting; AgentAgentInteractions aa_node_default] in
  let walls := [AgentObstacleInteractions; Integrator (1/100) (1/100); Reset] in
  [fluctuation_and [] ++ [Integrator (1/100) (1/100); Reset];
   InsideDomain :: fluctuation_and [Navigation (1/10) (1/2) (3/10)] ++ walls;
   fluctuation_and [LeaderFollowerWithHerding 10 5] ++ [Integrator (1/100) (1/100); Reset];
   InsideDomain :: fluctuation_and [LeaderFollowerWithHerding 10 5; Navigation (1/10) (1/2) (3/10)] ++ walls;
   InsideDomain :: fluctuation_and [ExitDetection range; LeaderFollowerWithHerding 10 5; Navigation (1/10) (1/2) (3/10)] ++ walls;
   fluctuation_and [LeaderFollowerWithHerding 10 5] ++ walls;
   InsideDomain :: fluctuation_and [ExitDetection 20; LeaderFollower 20; Navigation (1/10) (1/2) (3/10)] ++ walls;
   [Integrator (1/100) (1/100); Adjusting; Orientation; Reset]].
Proof. reflexivity. Qed.
Print Assumptions C75_shipped_orders.
(** Nodes of the shipped simulations are found under the names of their classes. *)
Theorem C75_found_by_name : forall range x n item r f ns, In x (shipped_logics range) -> In n (written_order x) -> logic_of x = Ok (r, f, ns) ->
  match n with
  | Reset => item = "Reset" | Integrator _ _ => item = "Integrator" | Fluctuation => item = "Fluctuation" | Adjusting => item = "Adjusting"
  | AgentAgentInteractions _ => item = "AgentAgentInteractions" | AgentObstacleInteractions => item = "AgentObstacleInteractions"
  | Navigation _ _ _ => item = "Navigation" | LeaderFollower _ => item = "LeaderFollower"
  | LeaderFollowerWithHerding _ _ => item = "LeaderFollowerWithHerding" | ExitDetection _ => item = "ExitDetection"
  | Orientation => item = "Orientation" | InsideDomain => item = "InsideDomain"
  end%string ->
  exists i, getitem f r item = Ok i /\ nth_error ns i = Some n.
Proof.
  intros range x n item r f ns Hx Hn L Hi.
  repeat (destruct Hx as [<- | Hx]; [vm_compute in L; injection L as <- <- <-; cbn in Hn; repeat (destruct Hn as [<- | Hn]; [cbn in Hi; subst item; eexists; split; reflexivity|]); destruct Hn|]).
  destruct Hx.
Qed.
Print Assumptions C75_found_by_name.
Example C75_case : written_order logic_hallway =
  [InsideDomain; Fluctuation; navigation; Orientation; Adjusting; AgentAgentInteractions aa_node_default; AgentObstacleInteractions; integrator; Reset] /\
  exists s', simulation_update (plain_env everywhere) logic_outdoor (new_simulation [starter]) = ((s', 1%nat), None).
Proof. split; [reflexivity|exact outdoor_starts]. Qed.

(** C51: the clock, for trees with one integrator. *)
Theorem C51_time : forall e x l1 l2 dmin dmax, written_order x = l1 ++ Integrator dmin dmax :: l2 -> (forall n, In n (l1 ++ l2) -> plain n \/ n = Reset) ->
  forall agents dts s, updates e x (new_simulation agents) dts s -> s_time (fst s) = rsum dts /\ snd s = length dts.
Proof.
  intros e x l1 l2 dmin dmax Hx P agents dts s U. destruct (updates_time e x l1 l2 dmin dmax Hx P _ _ _ U) as [A B]. cbn in A, B. split; [lra|exact B].
Qed.
Print Assumptions C51_time.
Example C51_time_case : written_order logic_count = [InsideDomain] ++ Integrator 1 1 :: [Reset] /\
  exists s, updates (plain_env notched) logic_count (new_simulation [drifter 0 true]) [1; 1; 1] s.
Proof. split; [reflexivity|]. eexists. exact drift_thrice. Qed.

(** C53: for a tree whose order is [l1], the integrator, [l2], Reset, after any number
    of updates. [runs e l1 s log m]: [m] is the state the integrator sees. *)
Theorem C53_force_is_sum_of_contributions_partial : forall e x l1 l2 dmin dmax,
  written_order x = l1 ++ Integrator dmin dmax :: l2 ++ [Reset] -> (forall n, In n (l1 ++ l2) -> plain n) ->
  forall s0 dts s, updates e x s0 dts s -> at_rest_loads (e_kind e) (fst s0) ->
  forall log m, runs e l1 (fst s) log m ->
  forall i a, nth_error (s_agents m) i = Some a ->
    exists cs, Forall2 (fun p c => contributes e i (fst p) (snd p) (fst c) (snd c)) log cs /\
      a_force a = vsum (map fst cs) /\ (e_kind e = ThreeCircle -> a_torque a = rsum (map snd cs)).
Proof.
  intros e x l1 l2 dmin dmax Hx P s0 dts s U Z log m H. apply (forces_at_integrator e l1 (fun n Hn => P n (in_or_app l1 l2 n (or_introl Hn))) (fst s) log m); auto.
  apply (updates_clear e x l1 l2 dmin dmax Hx s0 dts); auto.
Qed.
Print Assumptions C53_force_is_sum_of_contributions_partial.
(** The second force the integrator uses is the sum of the update before. *)
Theorem C53_previous_force_partial : forall e x l1 l2 dmin dmax,
  written_order x = l1 ++ Integrator dmin dmax :: l2 ++ [Reset] -> (forall n, In n (l1 ++ l2) -> plain n) ->
  forall s k s' k', simulation_update e x (s, k) = ((s', k'), None) ->
  exists log m, runs e l1 s log m /\
    forall log' m', runs e l1 s' log' m' -> forall i a', nth_error (s_agents m') i = Some a' -> exists a, nth_error (s_agents m) i = Some a /\
      a_force_prev a' = a_force a /\ (e_kind e = ThreeCircle -> a_torque_prev a' = a_torque a).
Proof. exact previous_force_used. Qed.
Print Assumptions C53_previous_force_partial.
Theorem C53_steering_gives_no_force : forall e i n s force torque, ~ In Force (writes n) -> contributes e i n s force torque -> force = V 0 0 /\ torque = 0.
Proof. exact steering_contributes_nothing. Qed.
Print Assumptions C53_steering_gives_no_force.
(** All shipped trees but one have this form. *)
Theorem C53_shipped_trees_partial : forall range x, In x (shipped_logics range) -> x <> logic_test_movement ->
  exists l1 dmin dmax, written_order x = l1 ++ Integrator dmin dmax :: [] ++ [Reset] /\ (forall n, In n (l1 ++ []) -> plain n) /\ In Adjusting l1.
Proof. exact shipped_form. Qed.
Print Assumptions C53_shipped_trees_partial.
(** TestMovement runs the integrator first: the adjusting force is never used and no
    agent ever changes its velocity. *)
Theorem C53_test_movement_refuted :
  (forall e agents dts s, updates e logic_test_movement (new_simulation agents) dts s -> (forall a, In a agents -> a_force a = V 0 0 /\ a_force_prev a = V 0 0) ->
     map a_velocity (s_agents (fst s)) = map a_velocity agents) /\
  exists e agents f, (forall a, In a agents -> a_force a = V 0 0 /\ a_force_prev a = V 0 0) /\ contributes e 0 Adjusting (fst (new_simulation agents)) f 0 /\ f <> V 0 0.
Proof.
  split.
  - intros e agents dts s U Z. apply (movement_updates e _ dts s U). apply Forall_forall. exact Z.
  - destruct movement_stands as (A & B & _). exists (plain_env everywhere), [starter], (V 200 0). split; [intros a Ha; rewrite Forall_forall in A; exact (A a Ha)|]. split; [exact B|].
    intros E. injection E as E. lra.
Qed.
Print Assumptions C53_test_movement_refuted.
Example C53_case : at_rest_loads Circular (fst (new_simulation [starter])) /\ exists s', updates (plain_env everywhere) logic_outdoor (new_simulation [starter]) [s_dt (fst s')] s'.
Proof.
  split; [intros a [<-|[]]; split; [reflexivity|discriminate]|]. destruct outdoor_starts as [s' H]. exists (s', 1%nat). apply (updates_next _ _ _ (s', 1%nat) [] _ H). constructor.
Qed.

(** C54: InsideDomain marks exactly the agents inside as active and adds the number of
    changes of state, in either direction. *)
Theorem C54_marks_and_adds_changes_partial : forall e s s', run_node e InsideDomain s = Ok s' ->
  s_agents s' = map (fun a => set_active (e_inside e (a_position a)) a) (s_agents s) /\
  s_inactive s' = (s_inactive s + length (filter (fun a => xorb (a_active a) (e_inside e (a_position a))) (s_agents s)))%nat.
Proof. exact inside_node. Qed.
Print Assumptions C54_marks_and_adds_changes_partial.
(** The counter is right as long as no inactive agent is seen inside again. *)
Theorem C54_no_return_partial : forall e x s0 dts s, updates e x s0 dts s ->
  exists log, runs e (concat (repeat (written_order x) (length dts))) (fst s0) log (fst s) /\
    (s_inactive (fst s0) = outside_count (fst s0) ->
     (forall s1 a, In (InsideDomain, s1) log -> In a (s_agents s1) -> a_active a = false -> e_inside e (a_position a) = false) ->
     s_inactive (fst s) = outside_count (fst s)).
Proof. intros e x s0 dts s U. destruct (updates_run e x s0 dts s U) as [log H]. exists log. split; auto. exact (run_inactive e _ _ log _ H). Qed.
Print Assumptions C54_no_return_partial.
(** Out of the domain and back: counted twice although nobody is outside. *)
Theorem C54_return_counted_twice_refuted : exists e x agents dts s, updates e x (new_simulation agents) dts s /\
  (forall a, In a agents -> a_active a = true) /\ s_inactive (fst s) = 2%nat /\ outside_count (fst s) = 0%nat.
Proof.
  exists (plain_env notched), logic_count, [drifter 0 true]. do 2 eexists. split; [exact drift_thrice|]. split; [intros a [<-|[]]; reflexivity|]. split; reflexivity.
Qed.
Print Assumptions C54_return_counted_twice_refuted.
(** A slot that holds no agent counts too. *)
Theorem C54_empty_slot_refuted : exists e s s', (forall a, In a (s_agents s) -> a = zero_row) /\ run_node e InsideDomain s = Ok s' /\
  s_inactive s = 0%nat /\ s_inactive s' = 1%nat /\ outside_count s' = 0%nat.
Proof.
  exists (plain_env everywhere), (fst (new_simulation [zero_row])). eexists. split; [intros a [<-|[]]; reflexivity|]. split; [reflexivity|]. repeat split.
Qed.
Print Assumptions C54_empty_slot_refuted.

(** C55 *)
Theorem C55_never_constructed_refuted : forall str size targets, (exists ring, In (PolygonTarget ring) targets) -> target_reached_init str size 0 targets = Err KeyError.
Proof. intros. now apply target_init_fails. Qed.
Print Assumptions C55_never_constructed_refuted.
(** And with counters that were constructed the first update would raise. *)
Theorem C55_never_updated_refuted : forall c cs, target_reached_update (c :: cs) = Err ValueError.
Proof. reflexivity. Qed.
Print Assumptions C55_never_updated_refuted.
(** Filled with the keyword it was written for, the name would tell the target. *)
Theorem C55_names : forall s, format counter_prefix [] [("index"%string, s)] = Ok (String.append "target_" s).
Proof. intros s. cbn. do 2 f_equal. repeat f_equal. induction s as [|c s IH]; cbn; [reflexivity|now rewrite IH]. Qed.
Print Assumptions C55_names.
Theorem C55_no_polygon_partial : forall str size targets, (forall ring, ~ In (PolygonTarget ring) targets) ->
  target_reached_init str size 0 targets = Ok [] /\ target_reached_update [] = Ok [].
Proof. intros. split; [now apply target_init_idle|reflexivity]. Qed.
Print Assumptions C55_no_polygon_partial.
Example C55_case : (exists ring, In (PolygonTarget ring) [OtherTarget; PolygonTarget [V 0 0; V 1 0; V 0 1]]) /\
  format counter_prefix [] [("index"%string, "0"%string)] = Ok "target_0"%string.
Proof. split; [eexists; right; left; reflexivity|reflexivity]. Qed.

(** C76 *)
Theorem C76_nodes_write_their_columns_only : forall B (p : agent -> B) e n s s', run_node e n s = Ok s' ->
  (forall c, In c (writes n) -> unaffected c p) -> map p (s_agents s') = map p (s_agents s).
Proof. intros B p e n s s' H A. now apply (node_keeps p e n). Qed.
Print Assumptions C76_nodes_write_their_columns_only.
(** So only an integrator moves or turns anyone. *)
Theorem C76_only_integrators_move : forall e l s log s', runs e l s log s' -> (forall dmin dmax, ~ In (Integrator dmin dmax) l) ->
  map (fun a => (a_position a, a_velocity a, a_orientation a, a_angular_velocity a)) (s_agents s') =
  map (fun a => (a_position a, a_velocity a, a_orientation a, a_angular_velocity a)) (s_agents s).
Proof. exact only_integrators_move. Qed.
Print Assumptions C76_only_integrators_move.
(** And no update of any tree changes who the agents are. *)
Theorem C76_bodies_are_constant : forall e x s dts s', updates e x s dts s' ->
  map (fun a => (a_mass a, a_radius a, a_r_t a, a_r_s a, a_r_ts a, a_target_velocity a, a_is_leader a, a_familiar_exit a)) (s_agents (fst s')) =
  map (fun a => (a_mass a, a_radius a, a_r_t a, a_r_s a, a_r_ts a, a_target_velocity a, a_is_leader a, a_familiar_exit a)) (s_agents (fst s)).
Proof. exact bodies_constant. Qed.
Print Assumptions C76_bodies_are_constant.
Example C76_case : exists s', run_node (plain_env everywhere) Reset (fst (new_simulation [set_force (V 1 2) starter])) = Ok s' /\
  (forall c, In c (writes Reset) -> unaffected c a_position).
Proof. eexists. split; [reflexivity|]. intros c Hc. cbn in Hc. repeat (destruct Hc as [<-|Hc]; [now intros ? ?|]). destruct Hc. Qed.

(** C77 *)
Theorem C77_unset_adjusting_time : forall e x s, In Adjusting (written_order x) -> (exists a, In a (s_agents (fst s)) /\ a_tau_adj a = 0) ->
  exists s' ex, simulation_update e x s = (s', Some ex) /\ snd s' = snd s.
Proof. exact update_never_completes. Qed.
Print Assumptions C77_unset_adjusting_time.
(** After a placement that gave up: the first update of any tree with Adjusting raises. *)
Theorem C77_incomplete_placement : forall e x k cell st0 cs g gen obstacles,
  agents_new k cell = Ok st0 -> g_kind g = k ->
  let st' := state_of (add_non_overlapping_group (place_all st0 cs) g gen obstacles) in
  (ag_index st' < length (ag_array st'))%nat -> In Adjusting (written_order x) ->
  exists s' ex, simulation_update e x (new_simulation (ag_array st')) = (s', Some ex) /\ snd s' = 0%nat.
Proof. exact stalled_placement. Qed.
Print Assumptions C77_incomplete_placement.
Example C77_case : exists st0, agents_new Circular 1 = Ok st0 /\
  let st' := state_of (add_non_overlapping_group (place_all st0 []) (Group Circular 1 [Member starter None None]) (fun _ => None) None) in
  (ag_index st' < length (ag_array st'))%nat /\ In Adjusting (written_order logic_outdoor).
Proof. exact stalled_example. Qed.

(** C27: in an update, the [Fluctuation] node gives every agent its own draw, and the next
    run of the node takes the next draws. *)
Theorem C27_own_draws : forall e s s', run_node e Fluctuation s = Ok s' ->
  s_draws s' = S (s_draws s) /\
  forall i a, nth_error (s_agents s) i = Some a ->
  forall phi z zt, e_draws e (s_draws s) i = (phi, z, zt) ->
    nth_error (s_agents s') i = Some (fluctuate_row (e_kind e) a phi z zt).
Proof.
  intros e s s' [= <-]. split; [reflexivity|]. intros i a H phi z zt D. cbn [s_agents].
  rewrite (fluctuate_nth _ _ _ 0 i a H). cbn [Nat.add]. now rewrite D.
Qed.
Print Assumptions C27_own_draws.
