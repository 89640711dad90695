(** * Property C110: the origin and the axes are arbitrary *)
From Coq Require Import Lra Lia.
From Verif Require Import Proofs.VecLemmas Proofs.Vector2DProofs Proofs.TurnProofs Proofs.FrameImages Spec.Frames.
Open Scope R_scope.

(** One update: the image of the state becomes the image of the next state; the same
    exception is raised, if any. *)
Theorem C110_update : forall F e e' x s s' i, proper F -> env_seen F e e' -> same_pairs F e e' -> sim_seen (e_kind e) F s s' ->
  outcome_seen (e_kind e) F (simulation_update e x (s, i)) (simulation_update e' x (s', i)).
Proof.
  intros F e e' x s s' i HF HE SP H. apply (update_seen F e e' (fun _ => True) x); auto. intros n t t' _ _ G. now apply (frame_node F e e' HF HE).
Qed.
Print Assumptions C110_update.
(** Any number of updates, in either direction. *)
Theorem C110_updates : forall F e e' x s s' i dts, proper F -> env_seen F e e' -> same_pairs F e e' -> sim_seen (e_kind e) F s s' ->
  (forall t n, updates e x (s, i) dts (t, n) -> exists t', updates e' x (s', i) dts (t', n) /\ sim_seen (e_kind e) F t t') /\
  (forall t' n, updates e' x (s', i) dts (t', n) -> exists t, updates e x (s, i) dts (t, n) /\ sim_seen (e_kind e) F t t').
Proof.
  intros F e e' x s s' i dts HF HE SP H.
  assert (N : forall n t t', In n (written_order x) -> True -> sim_seen (e_kind e) F t t' -> res_seen (sim_seen (e_kind e) F) (run_node e n t) (run_node e' n t')) by (intros; now apply (frame_node F e e' HF HE)).
  split; intros t n U.
  - exact (updates_seen F e e' (fun _ => True) x (fun _ _ _ _ _ _ => I) N s i dts (t, n) U s' I H).
  - exact (updates_seen_back F e e' (fun _ => True) x (fun _ _ _ _ _ _ => I) N s' i dts (t, n) U s I H).
Qed.
Print Assumptions C110_updates.
(** Whole runs: they stop after the same number of updates, in the same way. *)
Theorem C110_run : forall F e e' x s s' i stop stop' fuel, proper F -> env_seen F e e' -> same_pairs F e e' -> sim_seen (e_kind e) F s s' ->
  (forall n t t' j, sim_seen (e_kind e) F t t' -> stop' n (t', j) = stop n (t, j)) ->
  match run stop (simulation_update e x) fuel (s, i), run stop' (simulation_update e' x) fuel (s', i) with
  | Some r, Some r' => outcome_seen (e_kind e) F r r'
  | None, None => True
  | _, _ => False
  end.
Proof.
  intros F e e' x s s' i stop stop' fuel HF HE SP H ST. apply (run_seen F e e' (fun _ => True) x); auto. intros n t t' _ _ G. now apply (frame_node F e e' HF HE).
Qed.
Print Assumptions C110_run.
(** Circular agents without herding: the cell lists may differ, as long as the cells are
    large enough. *)
Theorem C110_cells : forall F e e' x s s' i dts rmax, proper F -> env_seen F e e' -> sim_seen (e_kind e) F s s' -> e_kind e = Circular ->
  (forall ps c, good_enumeration ps c (e_enum e ps c)) -> (forall ps c, good_enumeration ps c (e_enum e' ps c)) ->
  (forall n, In n (written_order x) -> cells_fit rmax n) -> radii_below rmax (s_agents s) ->
  outcome_seen (e_kind e) F (simulation_update e x (s, i)) (simulation_update e' x (s', i)) /\
  (forall t n, updates e x (s, i) dts (t, n) -> exists t', updates e' x (s', i) dts (t', n) /\ sim_seen (e_kind e) F t t') /\
  (forall t' n, updates e' x (s', i) dts (t', n) -> exists t, updates e x (s, i) dts (t, n) /\ sim_seen (e_kind e) F t t').
Proof.
  intros F e e' x s s' i dts rmax HF HE H K G G' C R.
  assert (Kp : forall n t t1, In n (written_order x) -> radii_below rmax (s_agents t) -> run_node e n t = Ok t1 -> radii_below rmax (s_agents t1)) by (intros n t t1 _; apply radii_kept).
  assert (N : forall n t t', In n (written_order x) -> radii_below rmax (s_agents t) -> sim_seen (e_kind e) F t t' -> res_seen (sim_seen (e_kind e) F) (run_node e n t) (run_node e' n t'))
    by (intros; apply (frame_circular_node F e e' HF HE rmax); auto).
  split; [|split].
  - apply (update_seen F e e' (fun t => radii_below rmax (s_agents t)) x); auto.
  - intros t n U. exact (updates_seen F e e' (fun t => radii_below rmax (s_agents t)) x Kp N s i dts (t, n) U s' R H).
  - intros t n U. exact (updates_seen_back F e e' (fun t => radii_below rmax (s_agents t)) x Kp N s' i dts (t, n) U s R H).
Qed.
Print Assumptions C110_cells.
(** What the image is, for a scene that is only moved: after any number of updates all
    agents are moved by the same vector and everything else is the same. *)
Theorem C110_moved : forall v e x s i dts t n, ~ In [] (e_targets e) -> updates e x (s, i) dts (t, n) ->
  exists e' s' t', e_obstacles e' = map (fun o => Obs (vadd v (p0 o)) (vadd v (p1 o))) (e_obstacles e) /\
    e_targets e' = map (map (vadd v)) (e_targets e) /\ (forall p, e_inside e' (vadd v p) = e_inside e p) /\
    Forall2 (fun a b => a_position b = vadd v (a_position a) /\ a_velocity b = a_velocity a) (s_agents s) (s_agents s') /\
    updates e' x (s', i) dts (t', n) /\
    Forall2 (fun a b => a_position b = vadd v (a_position a) /\ a_velocity b = a_velocity a /\ a_target b = a_target a /\ a_active b = a_active a /\
      (e_kind e = ThreeCircle -> a_orientation b = a_orientation a)) (s_agents t) (s_agents t').
Proof.
  intros v e x s i dts t n T U. set (F := Frame 1 0 1 v). assert (HF : proper F) by (split; cbn; [ring|auto]). assert (M : only_moved F) by (repeat split).
  assert (Q : forall p, point F p = vadd v p) by (intros [p1 p2]; unfold point, vect, F; cbn; unfold vadd; cbn; f_equal; ring).
  assert (L : forall p, vect F p = p) by (intros [p1 p2]; unfold vect, F; cbn; f_equal; ring).
  destruct (image_env F e HF T (or_introl M)) as (e' & HE & SP). destruct (image_state (e_kind e) F s HF) as (s' & S); [intros a _ _; auto|].
  destruct (C110_updates F e e' x s s' i dts HF HE SP S) as [A _]. destruct (A t n U) as (t' & U' & B). exists e', s', t'. split; [|split; [|split; [|split; [|split; [exact U'|]]]]].
  - rewrite (es_obstacles _ _ _ HE). apply map_ext. intros o. now rewrite !Q.
  - rewrite (es_targets _ _ _ HE). apply map_ext. intros o. apply map_ext. exact Q.
  - intros p. rewrite <- Q. apply (es_inside _ _ _ HE).
  - destruct S as [S _]. eapply Forall2_weaken; [|exact S]. intros a b G. rewrite (sn_position _ _ _ _ G), (sn_velocity _ _ _ _ G). auto.
  - destruct B as [B _]. eapply Forall2_weaken; [|exact B]. intros a b G. rewrite (sn_position _ _ _ _ G), (sn_velocity _ _ _ _ G), (sn_target _ _ _ _ G), (sn_active _ _ _ _ G).
    repeat split; auto. intros K. destruct (sn_body _ _ _ _ G K) as (_ & _ & _ & _ & _ & W). now apply W.
Qed.
Print Assumptions C110_moved.
(** Every scene has an image: for all coordinate systems without navigation maps, for all
    moved ones with them. *)
Theorem C110_images : forall F e s, proper F -> ~ In [] (e_targets e) ->
  (only_moved F \/ forall a b c t, exists x, e_nav e a b c t = Err x) ->
  (e_kind e = ThreeCircle -> f_flip F = 1 /\ (only_moved F \/ forall a, In a (s_agents s) -> a_target_angular_velocity a = 0)) ->
  exists e' s', env_seen F e e' /\ same_pairs F e e' /\ sim_seen (e_kind e) F s s'.
Proof.
  intros F e s HF T N K. destruct (image_env F e HF T N) as (e' & HE & SP). destruct (image_state (e_kind e) F s HF) as (s' & S); [|eauto].
  intros a Ha E. destruct (K E) as (A & B). split; auto. destruct B as [B|B]; auto.
Qed.
Print Assumptions C110_images.

(** Turned axes and three circle agents that aim at an orientation: an agent with its back
    to its target turns one way in one coordinate system, and the other way in another. *)
Theorem C110_turned_refuted : exists F e e' a b m m' t t' a' b', proper F /\ f_flip F = 1 /\ e_kind e = ThreeCircle /\ env_seen F e e' /\ same_pairs F e e' /\
  seen Circular F a b /\ a_position_ls b = point F (a_position_ls a) /\ a_position_rs b = point F (a_position_rs a) /\
  V (cos (a_orientation b)) (sin (a_orientation b)) = vect F (V (cos (a_orientation a)) (sin (a_orientation a))) /\
  run_node e Orientation (Sim [a] 0 0 0 0) = Ok m /\ run_node e Adjusting m = Ok t /\ s_agents t = [a'] /\
  run_node e' Orientation (Sim [b] 0 0 0 0) = Ok m' /\ run_node e' Adjusting m' = Ok t' /\ s_agents t' = [b'] /\
  a_torque a' = 1 /\ a_torque b' = -1.
Proof. exact turned_refuted. Qed.
Print Assumptions C110_turned_refuted.

(** ** Cases *)
(** Two agents outdoors, seen in mirrored and moved coordinates. *)
Example C110_case : exists e' s', proper (Frame 0 1 (-1) (V 5 7)) /\ env_seen (Frame 0 1 (-1) (V 5 7)) (no_env Circular) e' /\ same_pairs (Frame 0 1 (-1) (V 5 7)) (no_env Circular) e' /\
  sim_seen Circular (Frame 0 1 (-1) (V 5 7)) (Sim [set_velocity (V 1 0) (set_position (V 2 3) zero_row); zero_row] 0 0 0 0) s' /\
  map a_position (s_agents s') = [V 8 9; V 5 7] /\ map a_velocity (s_agents s') = [V 0 1; V 0 0].
Proof.
  set (F := Frame 0 1 (-1) (V 5 7)). assert (HF : proper F) by (split; cbn; [ring|auto]).
  destruct (C110_images F (no_env Circular) (Sim [set_velocity (V 1 0) (set_position (V 2 3) zero_row); zero_row] 0 0 0 0) HF) as (e' & s' & A & B & C); [intros []|right; eexists; reflexivity|discriminate|].
  exists e', s'. split; [exact HF|]. split; [exact A|]. split; [exact B|]. split; [exact C|]. split.
  - destruct C as [C _]. rewrite (frame_positions F Circular _ _ C). cbn. unfold point, vect. cbn. repeat f_equal; ring.
  - destruct C as [C _]. rewrite (frame_velocities F Circular _ _ C). cbn. unfold vect. cbn. repeat f_equal; ring.
Qed.
Example C110_cells_case : (forall ps c, good_enumeration ps c (e_enum (no_env Circular) ps c)) /\
  (forall n, In n (written_order logic_outdoor) -> cells_fit (3/10) n) /\ (forall n, In n (written_order logic_hallway) -> cells_fit (3/10) n).
Proof.
  split; [intros; apply all_pairs_good|]. split; intros n H; cbn in H; repeat (destruct H as [<-|H]; [cbn; unfold node_cell_size; cbn; lra|]); destruct H.
Qed.
