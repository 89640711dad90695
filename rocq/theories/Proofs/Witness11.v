(** Concrete simulations for the properties of whole updates. *)
From Coq Require Import Lra Lia.
From Verif Require Export Proofs.SimulationMore Proofs.Witness6.
Open Scope R_scope.

(** Circular agents, no obstacles, no targets, no neighbours in reach. *)
Definition plain_env (inside : vec -> bool) : env :=
  Env Circular [] [] (fun _ _ _ _ => Err ValueError) (fun _ _ => []) (fun _ => []) inside (fun _ _ => (0, 1, 0)).
Definition everywhere : vec -> bool := fun _ => true.
(** Someone who wants to walk to the right, and the same with a fluctuation. *)
Definition starter : agent :=
  set_mass 80 (set_tau_adj (1/2) (set_target_velocity (5/4) (set_target_direction (V 1 0) (set_std_rand_force (1/10) (set_active true zero_row))))).

Lemma adjust_one a : a_tau_adj a <> 0 -> adjust Circular [a] =
  Ok [set_force (vadd (a_force a) (vscale (a_mass a / a_tau_adj a) (vsub (vscale (a_target_velocity a) (a_target_direction a)) (a_velocity a)))) a].
Proof.
  intros T. unfold adjust, force_adjust_agents, loop_rows. unfold force_adjust_row at 1, force_adjust. destruct (Reqb (a_tau_adj a) 0) eqn:E; [apply Reqb_true in E; contradiction|]. reflexivity.
Qed.
Lemma integrate_one inside a s dt : s_agents s = [a] -> a_mass a <> 0 -> exists b, translational_verlet dt a = Some b /\
  run_node (plain_env inside) (Integrator dt dt) s = Ok (Sim [b] dt (s_time s + dt) (s_inactive s) (s_draws s)).
Proof.
  intros E M. destruct (translational_verlet dt a) as [b|] eqn:B.
  - exists b. split; auto. unfold run_node, velocity_verlet_integrator. rewrite E, timestep_fixed. cbn [rbind e_kind plain_env map fst snd]. rewrite B. reflexivity.
  - unfold translational_verlet in B. destruct (Reqb (a_mass a) 0) eqn:Z; [apply Reqb_true in Z; contradiction|discriminate].
Qed.
Lemma outdoor_starts : exists s', simulation_update (plain_env everywhere) logic_outdoor (new_simulation [starter]) = ((s', 1%nat), None).
Proof.
  set (e := plain_env everywhere). set (a1 := fluctuate_row Circular starter 0 1 0).
  set (s1 := Sim [a1] 0 0 0 1).
  assert (T : a_tau_adj a1 <> 0) by (cbn; lra). pose proof (adjust_one a1 T) as A. set (a2 := set_force _ a1) in A. set (s2 := with_agents s1 [a2]).
  destruct (integrate_one everywhere a2 s2 (1/100) eq_refl) as (b & Hb & Hi); [cbn; lra|].
  set (s3 := Sim [b] _ _ _ _) in Hi. exists (with_agents s3 (map (reset_row Circular) [b])). apply (proj2 (update_runs e logic_outdoor _ _ _ _)). split; auto. eexists.
  change (written_order logic_outdoor) with [Fluctuation; Orientation; Adjusting; AgentAgentInteractions aa_node_default; integrator; Reset].
  apply (runs_next e Fluctuation _ _ s1); [reflexivity|]. apply (runs_next e Orientation _ _ s1); [reflexivity|].
  apply (runs_next e Adjusting _ _ s2); [cbn [run_node]; change (s_agents s1) with [a1]; change (e_kind e) with Circular; rewrite A; reflexivity|].
  eapply (runs_next e (AgentAgentInteractions aa_node_default) _ _ s2); [reflexivity|].
  apply (runs_next e integrator _ _ s3); [exact Hi|]. apply (runs_next e Reset _ _ (with_agents s3 (map (reset_row Circular) [b]))); [reflexivity|]. constructor.
Qed.

(** ** Through a notch of the domain *)
Definition notched : vec -> bool := fun p => Rltb (vx p) 1 || Rltb 2 (vx p).
Definition drifter (x : R) (inside : bool) : agent := set_position (V x 0) (set_active inside (set_velocity (V (3/2) 0) (set_mass 80 zero_row))).
Definition logic_count : expr node := Make Reset [[leaf InsideDomain]; [leaf (Integrator 1 1)]].
Lemma drift_once x act dt t c d k : simulation_update (plain_env notched) logic_count (Sim [drifter x act] dt t c d, k) =
  ((Sim [drifter (x + 3/2) (notched (V x 0))] 1 (t + 1) (c + if xorb act (notched (V x 0)) then 1 else 0) d, S k), None).
Proof.
  set (e := plain_env notched). set (n := notched (V x 0)). set (c' := (c + if xorb act n then 1 else 0)%nat). apply (proj2 (update_runs e logic_count _ _ _ _)). split; auto. eexists.
  change (written_order logic_count) with [InsideDomain; Integrator 1 1; Reset].
  apply (runs_next e InsideDomain _ _ (Sim [drifter x n] dt t c' d)).
  { cbn [run_node]. unfold inside_domain. cbn [s_agents s_dt s_time s_inactive s_draws map filter e_inside e plain_env]. change (a_position (drifter x act)) with (V x 0).
    change (a_active (drifter x act)) with act. fold n. change (set_active n (drifter x act)) with (drifter x n). unfold c'. destruct (xorb act n); reflexivity. }
  destruct (integrate_one notched (drifter x n) (Sim [drifter x n] dt t c' d) 1 eq_refl) as (b & Hb & Hi); [cbn; lra|].
  assert (b = drifter (x + 3/2) n) as ->.
  { unfold translational_verlet in Hb. change (a_mass (drifter x n)) with 80 in Hb. rewrite (proj2 (Reqb_false 80 0)) in Hb by lra. injection Hb as <-.
    change (a_force (drifter x n)) with vzero. change (a_force_prev (drifter x n)) with vzero. change (a_velocity (drifter x n)) with (V (3/2) 0). change (a_position (drifter x n)) with (V x 0).
    replace (vadd (V (3/2) 0) _) with (V (3/2) 0) by (veq; lra). replace (vadd (V x 0) _) with (V (x + 3/2) 0) by (veq; lra). reflexivity. }
  eapply (runs_next e (Integrator 1 1)); [exact Hi|]. eapply (runs_next e Reset); [reflexivity|]. cbn [s_time s_inactive s_draws]. apply runs_none.
Qed.
Lemma drift_thrice : updates (plain_env notched) logic_count (new_simulation [drifter 0 true]) [1; 1; 1]
  (Sim [drifter (0 + 3/2 + 3/2 + 3/2) true] 1 (0 + 1 + 1 + 1) 2 0, 3%nat).
Proof.
  assert (N0 : notched (V 0 0) = true) by (unfold notched; cbn [vx]; now rewrite (proj2 (Rltb_true 0 1)) by lra).
  assert (N1 : notched (V (0 + 3/2) 0) = false) by (unfold notched; cbn [vx]; now rewrite (proj2 (Rltb_false (0 + 3/2) 1)), (proj2 (Rltb_false 2 (0 + 3/2))) by lra).
  assert (N2 : notched (V (0 + 3/2 + 3/2) 0) = true) by (unfold notched; cbn [vx]; now rewrite (proj2 (Rltb_true 2 (0 + 3/2 + 3/2))), orb_true_r by lra).
  unfold new_simulation. pose proof (drift_once 0 true 0 0 0 0 0) as U1. rewrite N0 in U1. pose proof (drift_once (0 + 3/2) true 1 (0 + 1) 0 0 1) as U2. rewrite N1 in U2.
  pose proof (drift_once (0 + 3/2 + 3/2) false 1 (0 + 1 + 1) 1 0 2) as U3. rewrite N2 in U3.
  refine (updates_next _ _ _ _ _ _ U1 (updates_next _ _ _ _ _ _ U2 (updates_next _ _ _ _ _ _ U3 (updates_none _ _ _)))).
Qed.

(** ** validation.py *)
Lemma movement_stands : Forall no_loads [starter] /\ contributes (plain_env everywhere) 0 Adjusting (fst (new_simulation [starter])) (V 200 0) 0 /\ a_velocity starter = V 0 0.
Proof.
  split; [constructor; [split; reflexivity|constructor]|]. split; [|reflexivity].
  set (s := fst (new_simulation [starter])). pose proof (adjust_one (set_torque 0 (set_force vzero starter)) ltac:(cbn; lra)) as A. set (b := set_force _ _) in A at 2.
  exists (with_agents (unloaded s) [b]), b. repeat split.
  - cbn [run_node]. change (s_agents (unloaded s)) with [set_torque 0 (set_force vzero starter)]. change (e_kind _) with Circular. rewrite A. reflexivity.
  - unfold b. cbn [a_force set_force]. cbn. veq; field.
Qed.

(** ** A generator that is exhausted at once *)
Lemma stalled_example : exists st0, agents_new Circular 1 = Ok st0 /\
  let st' := state_of (add_non_overlapping_group (place_all st0 []) (Group Circular 1 [Member starter None None]) (fun _ => None) None) in
  (ag_index st' < length (ag_array st'))%nat /\ In Adjusting (written_order logic_outdoor).
Proof.
  unfold agents_new, bl_new. rewrite (proj2 (Rltb_true 0 1)) by lra. eexists. split; [reflexivity|]. cbn. split; [lia|tauto].
Qed.
