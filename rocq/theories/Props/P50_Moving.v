(** * Property C149: the ground may move *)
From Coq Require Import Lra Lia.
From Verif Require Import Proofs.VecLemmas Proofs.InteractionProofs Proofs.FrameImages Proofs.TurnProofs Spec.Straight Props.P40_Whole.
From Verif Require Import Proofs.MovingProofs.
Open Scope R_scope.

(** The forces between two agents depend on where and how fast they are relative to each
    other. *)
Theorem C149_pair : forall k u p a a' b b', carried k u p a a' -> carried k u p b b' ->
  match k with
  | Circular => pair_forces_circular a' b' = pair_forces_circular a b
  | ThreeCircle => pair_forces_three_circle a' b' = pair_forces_three_circle a b
  end.
Proof. intros [] u p a a' b b' A B; [now apply (c_circular Circular u p)|now apply (c_three ThreeCircle u p)]. Qed.
Print Assumptions C149_pair.
(** Any number of updates on moving ground, in either direction: the same run, carried
    along; here the cell lists give the same pairs wherever the crowd is. *)
Theorem C149_updates : forall e x u q s s' i dts, (forall n, In n (written_order x) -> no_ground (e_kind e) n) ->
  (forall p ps c, e_enum e (map (vadd p) ps) c = e_enum e ps c) -> carried_sim (e_kind e) u q s s' ->
  (forall t n, updates e x (s, i) dts (t, n) -> exists t', updates e x (s', i) dts (t', n) /\ carried_sim (e_kind e) u q t t') /\
  (forall t' n, updates e x (s', i) dts (t', n) -> exists t, updates e x (s, i) dts (t, n) /\ carried_sim (e_kind e) u q t t').
Proof.
  intros e x u q s s' i dts N E H.
  assert (ST : forall a b, carried_sim (e_kind e) u q a b -> s_dt b = s_dt a) by (intros a b C; apply C).
  assert (ND : forall n a b, In n (written_order x) -> True -> carried_sim (e_kind e) u q a b -> res_seen (carried_sim (e_kind e) u q) (run_node e n a) (run_node e n b)).
  { intros n a b I _ C. apply c_node; auto. intros traits ->. destruct C as (C & _). unfold aa_node_update, agent_agent_block_list. rewrite (c_positions e u _ _ _ C), E. now apply c_pairs. }
  split; intros t n U.
  - exact (lift_updates e e (fun _ => True) (carried_sim (e_kind e) u q) x ST (fun _ _ _ _ _ _ => I) ND s i dts (t, n) U s' I H).
  - exact (lift_updates_back e e (fun _ => True) (carried_sim (e_kind e) u q) x ST (fun _ _ _ _ _ _ => I) ND s' i dts (t, n) U s I H).
Qed.
Print Assumptions C149_updates.
(** Circular agents: any cell lists, as long as the cells are large enough. *)
Theorem C149_cells : forall e x u q s s' i dts rmax t n, e_kind e = Circular -> (forall m, In m (written_order x) -> no_ground Circular m /\ cells_fit rmax m) ->
  (forall ps c, good_enumeration ps c (e_enum e ps c)) -> radii_below rmax (s_agents s) -> carried_sim Circular u q s s' -> updates e x (s, i) dts (t, n) ->
  exists t', updates e x (s', i) dts (t', n) /\ s_time t' = s_time t /\
    Forall2 (fun a b => a_position b = vadd (vadd q (vscale (s_time t) u)) (a_position a) /\ a_velocity b = vadd u (a_velocity a) /\ a_force b = a_force a /\ a_active b = a_active a) (s_agents t) (s_agents t').
Proof.
  intros e x u q s s' i dts rmax t n K N G R H U.
  assert (ST : forall a b, carried_sim (e_kind e) u q a b -> s_dt b = s_dt a) by (intros a b C; apply C).
  assert (ND : forall n a b, In n (written_order x) -> radii_below rmax (s_agents a) -> carried_sim (e_kind e) u q a b -> res_seen (carried_sim (e_kind e) u q) (run_node e n a) (run_node e n b)).
  { intros m a b I O C. destruct (N m I) as [N1 N2]. apply c_node; auto; [now rewrite K|]. intros traits ->. cbn in N2. destruct C as (C & _). unfold aa_node_update, agent_agent_block_list.
    assert (O' : radii_below rmax (s_agents b)). { clear - C O. induction C as [|a1 b1 l l' A C IH]; auto. intros z [<-|Z]; [destruct (c_fields _ _ _ _ _ A) as (_ & -> & _); apply O; now left|apply IH; auto; intros y Y; apply O; now right]. }
    assert (L : length (s_agents b) = length (s_agents a)) by (clear - C; induction C; cbn; auto).
    assert (E1 : agent_agent (e_kind e) (e_enum e (map a_position (s_agents a)) (node_cell_size traits)) (s_agents a) = agent_agent (e_kind e) (all_pairs (length (s_agents a))) (s_agents a)) by (rewrite K; apply (cell_list_complete _ _ (node_cell_size traits) rmax); auto).
    assert (E2 : agent_agent (e_kind e) (e_enum e (map a_position (s_agents b)) (node_cell_size traits)) (s_agents b) = agent_agent (e_kind e) (all_pairs (length (s_agents b))) (s_agents b)) by (rewrite K; apply (cell_list_complete _ _ (node_cell_size traits) rmax); auto).
    rewrite E1, E2, L. now apply c_pairs. }
  rewrite <- K in H. destruct (lift_updates e e (fun a => radii_below rmax (s_agents a)) (carried_sim (e_kind e) u q) x ST (fun m a a1 _ => radii_kept rmax e m a a1) ND s i dts (t, n) U s' R H) as (t' & U' & (C & _ & T' & _)).
  exists t'. split; [exact U'|]. split; [exact T'|]. cbn [fst] in *. clear - C K. rewrite K in C. induction C as [|a b l l' A C IH]; constructor; auto. destruct A as (v & d & _ & ->). repeat split.
Qed.
Print Assumptions C149_cells.
(** Steps chosen by speed are not the same on moving ground. *)
Theorem C149_adaptive_steps_differ : exists a b u p, carried Circular u p a b /\ adaptive_timestep [a] 0 1 = Ok (11 / 20) /\ adaptive_timestep [b] 0 1 = Ok 0.
Proof.
  exists (set_target_velocity 1 (set_target_direction (V 1 0) (set_velocity (V 2 0) zero_row))), (set_target_velocity 0 (set_target_direction vzero (set_velocity (V 1 0) zero_row))), (V (-1) 0), vzero.
  assert (L : forall z, 0 <= z -> vlength (V z 0) = z) by (intros z Z; unfold vlength; cbn; replace (z * z + 0 * 0) with (z * z) by ring; now apply sqrt_square).
  split; [|split].
  - exists 0, vzero. split; [unfold vzero, vscale, vadd; cbn; f_equal; lra|]. cbn [a_velocity a_position set_target_velocity set_target_direction set_velocity zero_row]. replace (vadd (V (-1) 0) (V 2 0)) with (V 1 0) by (unfold vadd; cbn; f_equal; lra). replace (vadd vzero vzero) with vzero by (unfold vadd, vzero; cbn; f_equal; lra). reflexivity.
  - unfold adaptive_timestep, v_max. cbn [fold_left map np_max a_velocity a_target_velocity set_target_velocity set_target_direction set_velocity]. rewrite (L 2) by lra. rewrite (proj2 (Rltb_true 0 2)) by lra. rewrite (proj2 (Reqb_false 2 0)) by lra. cbn. rewrite (proj2 (Rltb_false _ _)) by lra. rewrite (proj2 (Rltb_false _ _)) by lra. f_equal. field.
  - unfold adaptive_timestep, v_max. cbn [fold_left map np_max a_velocity a_target_velocity set_target_velocity set_target_direction set_velocity]. rewrite (L 1) by lra. rewrite (proj2 (Rltb_true 0 1)) by lra. rewrite (proj2 (Reqb_false 1 0)) by lra. cbn. rewrite (proj2 (Rltb_false _ _)) by lra. rewrite (proj2 (Rltb_false _ _)) by lra. f_equal. field.
Qed.
Print Assumptions C149_adaptive_steps_differ.

(** The three people of C139 on a walkway that moves at one metre per second, 600 updates
    later: six metres further. *)
Definition on_walkway : list agent :=
  map (set_velocity (V 1 0)) [walker (-3) (25/100) 2 1; walker 0 (30/100) 1 1; walker 3 (27/100) 1 (-1)].
Example C149_case : forall draws, fair_draws draws -> exists s, updates (meeting draws) logic_outdoor (new_simulation on_walkway) (repeat (1/100) 600) (s, 600%nat) /\
  exists t, updates (meeting draws) logic_outdoor (new_simulation trio) (repeat (1/100) 600) (t, 600%nat) /\
  Forall2 (fun a b => a_position b = vadd (V (s_time t) 0) (a_position a) /\ a_velocity b = vadd (V 1 0) (a_velocity a)) (s_agents t) (s_agents s).
Proof.
  intros draws F. destruct (C139_case draws F) as (t & U & _).
  destruct (C149_cells (meeting draws) logic_outdoor (V 1 0) vzero (fst (new_simulation trio)) (fst (new_simulation on_walkway)) 0 (repeat (1/100) 600) (3/10) t 600%nat) as (s & U' & _ & P); auto.
  - intros n J. cbn in J. decompose [or] J; try contradiction; subst n; split; cbn; auto; unfold node_cell_size; cbn; lra.
  - intros ps c. apply all_pairs_good.
  - intros a J. cbn in J. decompose [or] J; try contradiction; subst a; cbn; lra.
  - split; [|repeat split]. cbn [fst new_simulation s_agents s_time]. unfold trio, on_walkway. cbn [map].
    assert (W : forall x r v d v' d', v' * d' = 1 + v * d -> carried Circular (V 1 0) (vadd vzero (vscale 0 (V 1 0))) (walker x r v d) (set_velocity (V 1 0) (walker x r v' d'))).
    { intros x r v d v' d' E. exists v', (V d' 0). split; [unfold vzero; cbn; unfold vscale, vadd; cbn; f_equal; lra|]. change (a_velocity (walker x r v d)) with vzero. change (a_position (walker x r v d)) with (V x 0). replace (vadd (V 1 0) vzero) with (V 1 0) by (unfold vadd, vzero; cbn; f_equal; lra). replace (vadd (vadd vzero (vscale 0 (V 1 0))) (V x 0)) with (V x 0) by (unfold vadd, vzero, vscale; cbn; f_equal; lra). reflexivity. }
    repeat constructor; apply W; lra.
  - exists s. split; [exact U'|]. exists t. split; [exact U|]. clear - P. induction P as [|a b l l' (P1 & P2 & _) P IH]; constructor; auto. split; auto. rewrite P1. unfold vzero, vadd, vscale. cbn. f_equal; ring.
Qed.
