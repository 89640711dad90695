(** * Simulations that stand still or cannot run, and target counters *)
From Coq Require Import Lra Lia.
From Verif Require Export Proofs.SimulationProofs Model.TargetCount Proofs.PlacementProofs Proofs.MotionProofs.
Open Scope R_scope.

(** ** A node that raises *)
Lemma update_nodes_raises e ns is : forall l s, map (nth_error ns) is = map Some l -> (forall log s', ~ runs e l s log s') -> exists s' x, update_nodes (node_effect e ns) is s = (s', Some x).
Proof.
  intros l s M H. destruct (update_nodes (node_effect e ns) is s) as [s' [x|]] eqn:E; eauto. exfalso. apply (update_nodes_runs e ns is l s s' M) in E as [log R]. now apply (H log s').
Qed.
Lemma adjusting_raises e s a : In a (s_agents s) -> a_tau_adj a = 0 -> run_node e Adjusting s = Err ZeroDivisionError.
Proof.
  intros Ha Z. cbn [run_node]. unfold adjust. pose proof (force_adjust_agents_err (s_agents s) a Ha Z) as L.
  destruct (force_adjust_agents (s_agents s)) as [x l]. cbn [fst] in L. subst. reflexivity.
Qed.
Lemma runs_tau e l s log s' : runs e l s log s' -> map a_tau_adj (s_agents s') = map a_tau_adj (s_agents s).
Proof.
  intros H. apply (run_keeps a_tau_adj e l s log s' H). intros n c _ Hc. destruct n; cbn in Hc; repeat (destruct Hc as [<-|Hc]; [now intros ? ?|]); destruct Hc.
Qed.
Lemma no_run_past_adjusting e l s : In Adjusting l -> (exists a, In a (s_agents s) /\ a_tau_adj a = 0) -> forall log s', ~ runs e l s log s'.
Proof.
  intros Hl (a & Ha & Z) log s' H. apply in_split in Hl as (l1 & l2 & ->). apply runs_app in H as (log1 & m & log2 & -> & H1 & H2).
  inversion H2 as [|? ? ? m' log' ? H3 H4]; subst. pose proof (runs_tau _ _ _ _ _ H1) as K.
  assert (B : In 0 (map a_tau_adj (s_agents m))) by (rewrite K, <- Z; now apply in_map). apply in_map_iff in B as (b & Zb & Hb).
  rewrite (adjusting_raises e m b Hb Zb) in H3. discriminate.
Qed.
Lemma update_never_completes e x s : In Adjusting (written_order x) -> (exists a, In a (s_agents (fst s)) /\ a_tau_adj a = 0) ->
  exists s' ex, simulation_update e x s = (s', Some ex) /\ snd s' = snd s.
Proof.
  intros Hx Ha. destruct s as [s k]. cbn in *. destruct (simulation_update e x (s, k)) as [[s' k'] [ex|]] eqn:E.
  - exists (s', k'), ex. split; auto. cbn. revert E. unfold simulation_update. destruct (logic_of x) as [[[r f] ns]|]; [|now intros [= _ <-]].
    unfold update. destruct (update_nodes _ _ _) as [s1 [x1|]]; [|discriminate]. now intros [= _ <- _].
  - exfalso. apply update_runs in E as [_ [log H]]. now apply (no_run_past_adjusting e _ s Hx Ha log s').
Qed.

(** ** validation.py:43-44 *)
Definition no_loads (a : agent) : Prop := a_force a = vzero /\ a_force_prev a = vzero.
Lemma movement_update e s k s' k' : simulation_update e logic_test_movement (s, k) = ((s', k'), None) -> Forall no_loads (s_agents s) ->
  Forall no_loads (s_agents s') /\ map a_velocity (s_agents s') = map a_velocity (s_agents s).
Proof.
  intros H Z. apply update_runs in H as [_ [log H]]. change (written_order logic_test_movement) with [integrator; Adjusting; Orientation; Reset] in H.
  inversion H as [|? ? ? s1 log1 ? H1 R1]; subst. change [Adjusting; Orientation; Reset] with ([Adjusting; Orientation] ++ [Reset]) in R1.
  pose proof R1 as R2. apply runs_app in R2 as (log2 & m & log3 & _ & _ & R3). apply run_one in R3 as [R3 _]. pose proof (reset_clears _ _ _ R3) as C.
  assert (V1 : map (fun a => (a_velocity a, a_force_prev a)) (s_agents s') = map (fun a => (a_velocity a, a_force_prev a)) (s_agents s1)).
  { apply (run_keeps (fun a => (a_velocity a, a_force_prev a)) e _ _ _ _ R1). intros n c [<-|[<-|[<-|[]]]] Hc; cbn in Hc; repeat (destruct Hc as [<-|Hc]; [now intros ? ?|]); destruct Hc. }
  assert (V2 : map (fun a => (a_velocity a, a_force_prev a)) (s_agents s1) = map (fun a => (a_velocity a, vzero)) (s_agents s)).
  { clear - H1 Z. revert H1. unfold integrator. cbn [run_node]. unfold velocity_verlet_integrator. cbv zeta. destruct (adaptive_timestep _ _ _) as [dt|]; [|discriminate]. cbn [rbind].
    set (p := fun a => (a_velocity a, a_force_prev a)).
    assert (T : Forall2 (same_or_nan p) (map (translational_verlet dt) (s_agents s)) (map (fun a => (a_velocity a, vzero)) (s_agents s))).
    { induction Z as [|a l [Za Zb] Z IH]; cbn [map]; constructor; auto. unfold same_or_nan, translational_verlet. destruct (Reqb _ _) eqn:M; auto. apply Reqb_false in M.
      unfold p. cbn [a_velocity a_force_prev set_position set_velocity set_force_prev]. rewrite Za, Zb. f_equal. unfold vzero. veq; field; auto. }
    destruct (e_kind e).
    - cbn [rbind fst snd]. destruct (all_finite _) as [l|] eqn:E; [|discriminate]. cbn [rbind]. intros [= <-]. cbn [s_agents]. apply (finite_keeps p _ _ _ E T).
    - destruct (needs_inertia _); [discriminate|]. cbn [rbind fst snd]. destruct (all_finite _) as [l|] eqn:E; [|discriminate]. cbn [rbind]. intros [= <-]. cbn [s_agents].
      apply (finite_keeps p _ _ _ E). clear - T. induction T as [|r b rs bs H TT IH]; cbn [map]; constructor; auto. destruct r as [a|]; cbn in *; auto. }
  rewrite V2 in V1. split.
  - rewrite Forall_forall. intros a Ha. split; [apply (C a Ha)|]. apply (in_map (fun a => (a_velocity a, a_force_prev a))) in Ha. rewrite V1 in Ha. apply in_map_iff in Ha as (b & Eb & _). now injection Eb.
  - apply (f_equal (map fst)) in V1. rewrite !map_map in V1. exact V1.
Qed.
Lemma movement_updates e s dts s' : updates e logic_test_movement s dts s' -> Forall no_loads (s_agents (fst s)) -> map a_velocity (s_agents (fst s')) = map a_velocity (s_agents (fst s)).
Proof.
  induction 1 as [s|[s k] [s1 k1] dts s' H U IH]; auto. intros Z. destruct (movement_update _ _ _ _ _ H Z) as [Z1 V1]. now rewrite (IH Z1).
Qed.

(** ** Counters *)
Lemma target_init_fails str size targets : forall i, (exists ring, In (PolygonTarget ring) targets) -> target_reached_init str size i targets = Err KeyError.
Proof.
  induction targets as [|t l IH]; intros i [ring H]; [destruct H|]. destruct H as [->|H]; [reflexivity|]. destruct t; [reflexivity|]. cbn. eauto.
Qed.
Lemma target_init_idle str size targets : forall i, (forall ring, ~ In (PolygonTarget ring) targets) -> target_reached_init str size i targets = Ok [].
Proof.
  induction targets as [|t l IH]; intros i H; auto. destruct t; [exfalso; apply (H exterior); now left|]. cbn. apply IH. intros r Hr. apply (H r). now right.
Qed.

(** ** Where an update stops *)
Lemma update_nodes_stops e ns is : forall l s s' ex, map (nth_error ns) is = map Some l -> update_nodes (node_effect e ns) is s = (s', Some ex) ->
  exists l1 n l2 log, l = l1 ++ n :: l2 /\ runs e l1 s log s' /\ run_node e n s' = Err ex.
Proof.
  induction is as [|i is IH]; intros [|n l] s s' ex M; cbn in M; try discriminate. injection M as M1 M2. cbn [update_nodes]. unfold node_effect at 1. rewrite M1.
  destruct (run_node e n s) as [s1|x] eqn:R.
  - intros H. destruct (IH l s1 s' ex M2 H) as (l1 & n' & l2 & log & -> & H1 & H2). exists (n :: l1), n', l2, ((n, s) :: log). repeat split; auto. econstructor; eauto.
  - intros [= <- <-]. exists [], n, l, []. repeat split; auto. constructor.
Qed.
Lemma update_stops e x s k s' k' ex : simulation_update e x (s, k) = ((s', k'), Some ex) ->
  k' = k /\ exists l1 n l2 log, written_order x = l1 ++ n :: l2 /\ runs e l1 s log s' /\ run_node e n s' = Err ex.
Proof.
  unfold simulation_update, logic_of. destruct (construct_postorder class_name x no_nodes [] reach_start eq_refl) as (r & f & ns & -> & R & Hr & Er & M).
  unfold update. rewrite Er. cbn [fst snd]. destruct (update_nodes _ _ s) as [s1 [x1|]] eqn:U; [|discriminate]. intros [= <- <- <-]. split; auto.
  now apply (update_nodes_stops e ns _ _ s s1 x1 M).
Qed.
Lemma previous_force_used e x l1 l2 dmin dmax : written_order x = l1 ++ Integrator dmin dmax :: l2 ++ [Reset] -> (forall n, In n (l1 ++ l2) -> plain n) ->
  forall s k s' k', simulation_update e x (s, k) = ((s', k'), None) ->
  exists log m, runs e l1 s log m /\
    forall log' m', runs e l1 s' log' m' -> forall i a', nth_error (s_agents m') i = Some a' -> exists a, nth_error (s_agents m) i = Some a /\
      a_force_prev a' = a_force a /\ (e_kind e = ThreeCircle -> a_torque_prev a' = a_torque a).
Proof.
  intros Hx P s k s' k' H. assert (P1 : forall n, In n l1 -> plain n) by (intros; apply P, in_or_app; auto). assert (P2 : forall n, In n l2 -> plain n) by (intros; apply P, in_or_app; auto).
  destruct (previous_force e x l1 l2 dmin dmax Hx P2 s k s' k' H) as (log & m & R & K). exists log, m. split; auto. intros log' m' R' i a' Ha'.
  pose proof (previous_kept e l1 P1 s' log' m' R') as E. apply (f_equal (fun l => nth_error l i)) in E. rewrite !nth_error_map, Ha' in E.
  destruct (nth_error (s_agents s') i) as [b|] eqn:Hb; [|discriminate]. injection E as E1 E2. destruct (K i b Hb) as (a & Ha & F1 & F2). exists a. split; auto. split; [congruence|].
  intros T. rewrite E2. auto.
Qed.
Lemma shipped_form range x : In x (shipped_logics range) -> x <> logic_test_movement ->
  exists l1 dmin dmax, written_order x = l1 ++ Integrator dmin dmax :: [] ++ [Reset] /\ (forall n, In n (l1 ++ []) -> plain n) /\ In Adjusting l1.
Proof.
  assert (C : forall y, (exists l1, written_order y = l1 ++ Integrator (1/100) (1/100) :: [] ++ [Reset] /\ Forall plain l1 /\ In Adjusting l1) ->
    exists l1 dmin dmax, written_order y = l1 ++ Integrator dmin dmax :: [] ++ [Reset] /\ (forall n, In n (l1 ++ []) -> plain n) /\ In Adjusting l1).
  { intros y (l1 & E & F & A). exists l1, (1/100), (1/100). split; auto. split; auto. rewrite app_nil_r. rewrite Forall_forall in F. exact F. }
  intros [<-|[<-|[<-|[<-|[<-|[<-|[<-|[<-|[]]]]]]]]] N; try contradiction; apply C; clear C N;
    match goal with |- exists l1, written_order ?x = _ /\ _ =>
      let l := eval cbv [written_order flat_map app leaf integrator agent_agent_node navigation herding logic_outdoor logic_hallway logic_outdoor_herding logic_rounding logic_avoid_obstacle logic_closed_room logic_four_exits] in (removelast (removelast (written_order x))) in
      let l := eval cbn [removelast] in l in exists l end; (split; [reflexivity|]); (split; [repeat constructor|]); cbn; tauto.
Qed.
Lemma only_integrators_move e l s log s' : runs e l s log s' -> (forall dmin dmax, ~ In (Integrator dmin dmax) l) ->
  map (fun a => (a_position a, a_velocity a, a_orientation a, a_angular_velocity a)) (s_agents s') =
  map (fun a => (a_position a, a_velocity a, a_orientation a, a_angular_velocity a)) (s_agents s).
Proof.
  intros H N. apply (run_keeps (fun a => (a_position a, a_velocity a, a_orientation a, a_angular_velocity a)) e l s log s' H). intros n c Hn Hc.
  destruct n; cbn in Hc; try (exfalso; exact (N _ _ Hn)); repeat (destruct Hc as [<-|Hc]; [now intros ? ?|]); destruct Hc.
Qed.
Lemma bodies_constant e x s dts s' : updates e x s dts s' ->
  map (fun a => (a_mass a, a_radius a, a_r_t a, a_r_s a, a_r_ts a, a_target_velocity a, a_is_leader a, a_familiar_exit a)) (s_agents (fst s')) =
  map (fun a => (a_mass a, a_radius a, a_r_t a, a_r_s a, a_r_ts a, a_target_velocity a, a_is_leader a, a_familiar_exit a)) (s_agents (fst s)).
Proof.
  intros U. destruct (updates_run e x s dts s' U) as [log H].
  apply (run_keeps (fun a => (a_mass a, a_radius a, a_r_t a, a_r_s a, a_r_ts a, a_target_velocity a, a_is_leader a, a_familiar_exit a)) e _ _ log _ H). intros n c _ Hc.
  destruct n; cbn in Hc; repeat (destruct Hc as [<-|Hc]; [now intros ? ?|]); destruct Hc.
Qed.
(** ** Placement that gave up *)
Lemma stalled_placement e x k cell st0 cs g gen obstacles :
  agents_new k cell = Ok st0 -> g_kind g = k ->
  let st' := state_of (add_non_overlapping_group (place_all st0 cs) g gen obstacles) in
  (ag_index st' < length (ag_array st'))%nat -> In Adjusting (written_order x) ->
  exists s' ex, simulation_update e x (new_simulation (ag_array st')) = (s', Some ex) /\ snd s' = 0%nat.
Proof.
  intros H K st' L Hx. pose proof (call_frame k cell st0 cs g gen obstacles H K) as F. fold st' in F. destruct F as (_ & _ & _ & _ & _ & F & _).
  apply (update_never_completes e x (new_simulation (ag_array st')) Hx). exists zero_row. split; [|reflexivity].
  apply (nth_error_In _ (ag_index st')). apply F. lia.
Qed.

(** ** Draws *)
Lemma fluctuate_nth k d agents : forall i n a, nth_error agents n = Some a ->
  nth_error (fluctuate k d i agents) n = Some (let '(phi, z, zt) := d (i + n)%nat in fluctuate_row k a phi z zt).
Proof.
  induction agents as [|b agents IH]; intros i [|n] a H; cbn in H; try discriminate; cbn [fluctuate].
  - injection H as <-. rewrite Nat.add_0_r. destruct (d i) as [[phi z] zt]. reflexivity.
  - destruct (d i) as [[phi z] zt]. cbn [nth_error]. rewrite (IH (S i) n a H). f_equal. now rewrite Nat.add_succ_r.
Qed.
