(** * Properties C111 and C112: groups far from each other, and the order of the agents *)
From Coq Require Import Lra Lia Permutation.
From Verif Require Import Proofs.VecLemmas Proofs.Vector2DProofs Proofs.SimulationProofs Proofs.InteractionProofs Proofs.TurnProofs Proofs.FrameImages Proofs.PartRuns Spec.Parts.
Open Scope R_scope.

(** ** C111 *)
(** The agents of a group move as if the others, never closer than three metres, did not
    exist.  Cell lists that give the same pairs of the group. *)
Theorem C111_updates : forall sel whole part x s t i dts r, same_world sel whole part -> same_pairs_of sel whole part ->
  (forall n, In n (written_order x) -> independent (length (s_agents t) = length (s_agents s)) n) -> forces_first (written_order x) ->
  part_of sel s t -> updates whole x (s, i) dts r ->
  (forall dts1 dts2 u, dts = dts1 ++ dts2 -> dts2 <> [] -> updates whole x (s, i) dts1 u -> apart (e_kind whole) sel (s_agents (fst u))) ->
  exists t', updates part x (t, i) dts (t', snd r) /\ part_of sel (fst r) t'.
Proof.
  intros sel whole part x s t i dts r W SP I F H U AP. apply (part_updates sel whole part (fun _ => True) x) with (s := s); auto.
  intros n u v u1 _ _ A J G E. apply (part_node sel whole part W n u v u1); auto.
Qed.
Print Assumptions C111_updates.
(** Circular agents: any correct cell lists, if the cells are large enough. *)
Theorem C111_circular : forall sel whole part x s t i dts r rmax, same_world sel whole part -> e_kind whole = Circular ->
  (forall ps c, good_enumeration ps c (e_enum whole ps c)) -> (forall ps c, good_enumeration ps c (e_enum part ps c)) ->
  (forall n, In n (written_order x) -> cells_fit rmax n) -> radii_below rmax (s_agents s) ->
  (forall n, In n (written_order x) -> independent (length (s_agents t) = length (s_agents s)) n) -> forces_first (written_order x) ->
  part_of sel s t -> updates whole x (s, i) dts r ->
  (forall dts1 dts2 u, dts = dts1 ++ dts2 -> dts2 <> [] -> updates whole x (s, i) dts1 u -> apart Circular sel (s_agents (fst u))) ->
  exists t', updates part x (t, i) dts (t', snd r) /\ part_of sel (fst r) t'.
Proof.
  intros sel whole part x s t i dts r rmax W K G G' C R I F H U AP. apply (part_updates sel whole part (fun u => radii_below rmax (s_agents u)) x) with (s := s); auto.
  - intros n u u1 Ru E. exact (radii_kept rmax whole n u u1 Ru E).
  - intros n u v u1 Hn Ru A J V E. apply (part_circular_node sel whole part W rmax n u v u1); auto.
  - now rewrite K.
Qed.
Print Assumptions C111_circular.
(** An agent that never has another within three metres moves as if it were alone. *)
Theorem C111_alone : forall j a whole x s i dts r rmax, e_kind whole = Circular ->
  (forall ps c, good_enumeration ps c (e_enum whole ps c)) -> (forall n, In n (written_order x) -> cells_fit rmax n) -> radii_below rmax (s_agents s) ->
  (forall n, In n (written_order x) -> independent False n) -> forces_first (written_order x) -> nth_error (s_agents s) j = Some a ->
  updates whole x (s, i) dts r ->
  (forall dts1 dts2 u m b c, dts = dts1 ++ dts2 -> dts2 <> [] -> updates whole x (s, i) dts1 u -> m <> j -> nth_error (s_agents (fst u)) j = Some b -> nth_error (s_agents (fst u)) m = Some c ->
    3 <= edist (a_position b) (a_position c) - (a_radius b + a_radius c)) ->
  exists t' b, updates (Env Circular (e_obstacles whole) (e_targets whole) (e_nav whole) (e_enum whole) (e_argsort whole) (e_inside whole) (fun n _ => e_draws whole n j)) x
      (Sim [a] (s_dt s) (s_time s) (s_inactive s) (s_draws s), i) dts (t', snd r) /\
    s_agents t' = [b] /\ nth_error (s_agents (fst r)) j = Some b.
Proof.
  intros j a whole x s i dts r rmax K G C R I F Ea U AP. set (part := Env Circular _ _ _ _ _ _ _). set (t := Sim [a] _ _ _ _).
  assert (W : same_world [j] whole part).
  { constructor; auto. intros n [|m] l E; cbn in E; [injection E as <-; reflexivity|destruct m; discriminate]. }
  destruct (C111_circular [j] whole part x s t i dts r rmax W K G G C R) as (t' & T1 & T2); auto.
  - intros n Hn. specialize (I n Hn). destruct n; auto. cbn in I |- *. tauto.
  - split; [split; [repeat constructor; intros []|cbn; repeat constructor; exact Ea]|repeat split; auto].
  - intros d1 d2 u E D V p q b c Hp Hq Eb Ec x0 y0 Hx Hy. destruct Hp as [<-|[]]. cbn in Hx, Hy. destruct Hx as [<-|[]], Hy as [<-|[]]. unfold gap. cbn [fst snd].
    apply (AP d1 d2 u q b c); auto. intros ->. apply Hq. now left.
  - destruct T2 as ((_ & P) & _). inversion P as [|? b ? l P1 P2 Q1 Q2]. subst. inversion P2. subst. exists t', b. split; [exact T1|]. auto.
Qed.
Print Assumptions C111_alone.
(** With a variable time step a far away agent matters: its speed shortens the step of all. *)
Definition walker (p v : vec) : agent := set_position p (set_velocity v (set_mass 1 (set_target_velocity 1 zero_row))).
Lemma walker_update l dt : adaptive_timestep l (1/100) (1/10) = Ok dt -> (forall a, In a l -> a_mass a = 1 /\ a_force a = V 0 0 /\ a_force_prev a = V 0 0) ->
  exists s1, simulation_update (no_env Circular) (leaf (Integrator (1/100) (1/10))) (Sim l 0 0 0 0, 0%nat) = ((s1, 1%nat), None) /\
    map a_position (s_agents s1) = map (fun a => vadd (a_position a) (vscale dt (a_velocity a))) l.
Proof.
  intros E H. set (g := fun a => set_position (vadd (a_position a) (vscale dt (a_velocity a))) (set_velocity (a_velocity a) (set_force_prev (a_force a) a))).
  exists (Sim (map g l) dt (0 + dt) 0 0). split; [|cbn [s_agents]; rewrite map_map; apply map_ext; now intros a].
  apply update_runs. split; auto. eexists. eapply runs_next; [|apply runs_none].
  change ((do r <- velocity_verlet_integrator Circular l (1/100) (1/10); do m <- all_finite (snd r); Ok (Sim m (fst r) (0 + fst r) 0 0)) = Ok (Sim (map g l) dt (0 + dt) 0 0)).
  unfold velocity_verlet_integrator. rewrite E. cbn [rbind fst snd].
  assert (Q : all_finite (map (translational_verlet dt) l) = Ok (map g l)).
  { apply finite_rows. rewrite map_map. apply map_ext_in. intros a Ha. destruct (H a Ha) as (Ma & Fa & Pa). unfold translational_verlet. rewrite (proj2 (Reqb_false _ _)) by lra.
    unfold g. rewrite Fa, Pa, Ma. destruct (a_velocity a) as [w1 w2], (a_position a) as [q1 q2]. do 2 f_equal.
    - unfold vadd, vscale, vdiv. cbn [vx vy]. f_equal; lra.
    - f_equal. unfold vadd, vscale, vdiv. cbn [vx vy]. f_equal; lra. }
  rewrite Q. reflexivity.
Qed.
Theorem C111_step_refuted : exists a b, let x := leaf (Integrator (1/100) (1/10)) in let e := no_env Circular in
  same_world [0%nat] e e /\ forces_first (written_order x) /\ (forall ps c, good_enumeration ps c (e_enum e ps c)) /\
  part_of [0%nat] (Sim [a; b] 0 0 0 0) (Sim [a] 0 0 0 0) /\ apart Circular [0%nat] [a; b] /\
  exists s1 t1 a1 a2, simulation_update e x (Sim [a; b] 0 0 0 0, 0%nat) = ((s1, 1%nat), None) /\ simulation_update e x (Sim [a] 0 0 0 0, 0%nat) = ((t1, 1%nat), None) /\
    nth_error (s_agents s1) 0 = Some a1 /\ nth_error (s_agents t1) 0 = Some a2 /\ a_position a1 = V (1/100) 0 /\ a_position a2 = V (1/10) 0.
Proof.
  exists (walker (V 0 0) (V 1 0)), (walker (V 100 0) (V 11 0)). cbv zeta.
  assert (L1 : vlength (V 1 0) = 1) by (unfold vlength; cbn; replace (_ + _) with 1 by ring; apply sqrt_1).
  assert (L2 : vlength (V 11 0) = 11) by (unfold vlength; cbn; replace (_ + _) with (11 * 11) by ring; apply sqrt_square; lra).
  split; [constructor; auto|].
  split; [exists [], [Integrator (1/100) (1/10)]; split; [reflexivity|split; intros n []; [subst; exact I|contradiction]]|].
  split; [intros; apply all_pairs_good|]. split; [split; [split; [repeat constructor; intros []|repeat constructor]|repeat split; discriminate]|]. split.
  { intros i j a b Hi Hj Ea Eb c d Hc Hd. destruct Hi as [<-|[]]. cbn in Ea. injection Ea as <-. destruct j as [|[|j]]; [elim Hj; now left| |destruct j; discriminate]. cbn in Eb. injection Eb as <-.
    cbn in Hc, Hd. destruct Hc as [<-|[]], Hd as [<-|[]]. unfold gap, edist. cbn. replace (_ + _ * _) with (100 * 100) by ring. rewrite sqrt_square by lra. lra. }
  assert (V1 : adaptive_timestep [walker (V 0 0) (V 1 0); walker (V 100 0) (V 11 0)] (1/100) (1/10) = Ok (1/100)).
  { unfold adaptive_timestep. assert (E : v_max [walker (V 0 0) (V 1 0); walker (V 100 0) (V 11 0)] = 11).
    { unfold v_max. cbn [fold_left a_velocity walker set_position set_velocity]. rewrite L1, L2. rewrite (proj2 (Rltb_true 0 1)) by lra. rewrite (proj2 (Rltb_true 1 11)) by lra. reflexivity. }
    rewrite E. rewrite (proj2 (Reqb_false 11 0)) by lra. cbn. rewrite Rmax_left by lra. rewrite (proj2 (Rltb_false _ _)) by lra. rewrite (proj2 (Rltb_false _ _)) by lra. f_equal. lra. }
  assert (V2 : adaptive_timestep [walker (V 0 0) (V 1 0)] (1/100) (1/10) = Ok (1/10)).
  { unfold adaptive_timestep. assert (E : v_max [walker (V 0 0) (V 1 0)] = 1).
    { unfold v_max. cbn [fold_left a_velocity walker set_position set_velocity]. rewrite L1. rewrite (proj2 (Rltb_true 0 1)) by lra. reflexivity. }
    rewrite E. rewrite (proj2 (Reqb_false 1 0)) by lra. cbn. rewrite (proj2 (Rltb_true _ _)) by lra. reflexivity. }
  destruct (walker_update _ _ V1) as (s1 & S1 & P1); [intros a [<-|[<-|[]]]; repeat split|]. destruct (walker_update _ _ V2) as (t1 & T1 & Q1); [intros a [<-|[]]; repeat split|].
  destruct (s_agents s1) as [|a1 l1] eqn:A1; [discriminate|]. destruct (s_agents t1) as [|a2 l2] eqn:A2; [discriminate|]. exists s1, t1, a1, a2.
  split; [exact S1|]. split; [exact T1|]. rewrite A1, A2. split; [reflexivity|]. split; [reflexivity|]. injection P1 as P1 _. injection Q1 as Q1 _. rewrite P1, Q1. unfold vadd, vscale. cbn. split; f_equal; lra.
Qed.
Print Assumptions C111_step_refuted.

(** ** C112 *)
(** The rows in another order: the simulation completes the same updates, with the rows of
    the result in that order. *)
Lemma everybody sel (all part : list agent) : picked sel all part -> length part = length all -> forall j a, nth_error all j = Some a -> In j sel.
Proof.
  intros (N & P) L j a E. assert (Q : Permutation sel (seq 0 (length all))).
  { apply NoDup_Permutation_bis; auto; [rewrite seq_length, <- L, (pick_length _ _ _ P); lia|]. intros i I. apply in_seq. pose proof (pick_bound _ _ _ _ P I). lia. }
  apply (Permutation_in _ (Permutation_sym Q)), in_seq. assert (j < length all)%nat by (apply nth_error_Some; congruence). lia.
Qed.
Theorem C112_updates : forall sel whole part x s t i dts r, same_world sel whole part -> same_pairs_of sel whole part ->
  (forall n, In n (written_order x) -> independent True n) -> part_of sel s t -> length (s_agents t) = length (s_agents s) ->
  updates whole x (s, i) dts r -> exists t', updates part x (t, i) dts (t', snd r) /\ part_of sel (fst r) t' /\ Permutation (s_agents t') (s_agents (fst r)) /\ s_inactive t' = s_inactive (fst r).
Proof.
  intros sel whole part x s t i dts r W SP I H L U. pose proof H as (Pk & _). pose proof Pk as (_ & P0).
  assert (AP : forall u, length (s_agents u) = length (s_agents s) -> apart (e_kind whole) sel (s_agents u)).
  { intros u Lu p q a b Hp Hq Ea Eb. exfalso. apply Hq. assert (Q : exists z, nth_error (s_agents s) q = Some z).
    { destruct (nth_error (s_agents s) q) eqn:Z; eauto. apply nth_error_None in Z. assert (q < length (s_agents u))%nat by (apply nth_error_Some; congruence). lia. }
    destruct Q as (z & Z). eapply everybody; eauto. }
  assert (UL : forall e y si d r0, updates e y si d r0 -> length (s_agents (fst r0)) = length (s_agents (fst si))).
  { intros e y si d r0 V. induction V as [|[s0 i0] [s1 i1] d r1 E V IH]; auto. rewrite IH. cbn. eapply update_length; eauto. }
  destruct (part_updates sel whole part (fun u => length (s_agents u) = length (s_agents s)) x) with (s := s) (t := t) (i := i) (dts := dts) (r := r) as (t' & T1 & T2); auto.
  - intros n u u1 E Ru. now rewrite (node_length _ _ _ _ Ru).
  - intros n u v u1 Hn E A J G Ru. apply (part_node sel whole part W n u v u1); auto.
  - intros n Hn. specialize (I n Hn). destruct n; auto. cbn in I |- *. tauto.
  - intros d1 d2 u _ _ V. apply AP. now apply UL in V.
  - exists t'. split; auto. split; auto. apply UL in U. apply UL in T1. cbn in U, T1. assert (Lf : length (s_agents t') = length (s_agents (fst r))) by lia.
    destruct T2 as ((N & P) & _ & _ & _ & Hi). split; auto. eapply pick_perm; eauto.
Qed.
Print Assumptions C112_updates.
(** Circular agents, any correct cell lists with cells large enough: in both directions. *)
Lemma inverse_order sel (all part : list agent) : picked sel all part -> length part = length all ->
  exists sel', picked sel' part all /\ forall m i, nth_error sel' m = Some i <-> nth_error sel i = Some m.
Proof.
  intros H L. pose proof H as (N & P). pose proof (pick_length _ _ _ P) as LP.
  assert (Q : exists sel', length sel' = length all /\ forall m, (m < length all)%nat -> exists i, nth_error sel' m = Some i /\ nth_error sel i = Some m).
  { assert (Z : forall n, (n <= length all)%nat -> exists sel', length sel' = n /\ forall m, (m < n)%nat -> exists i, nth_error sel' m = Some i /\ nth_error sel i = Some m).
    { induction n as [|n IH]; intros B; [exists []; split; [reflexivity|intros m M; lia]|]. destruct IH as (l & Ll & Hl); [lia|].
      assert (E : exists a, nth_error all n = Some a) by (destruct (nth_error all n) eqn:E; eauto; apply nth_error_None in E; lia). destruct E as (a & E).
      pose proof (everybody sel all part H L n a E) as I. apply In_nth_error in I as (p & Ip). exists (l ++ [p]). split; [rewrite app_length; cbn; lia|].
      intros m M. destruct (Nat.eq_dec m n) as [->|D].
      - exists p. split; auto. rewrite nth_error_app2 by lia. now rewrite Ll, Nat.sub_diag.
      - destruct (Hl m) as (q & Q1 & Q2); [lia|]. exists q. split; auto. rewrite nth_error_app1; auto. lia. }
    apply Z. lia. }
  destruct Q as (l & Ll & Hl). assert (IFF : forall m i, nth_error l m = Some i <-> nth_error sel i = Some m).
  { intros m i. split; intros E.
    - assert (M : (m < length all)%nat) by (rewrite <- Ll; apply nth_error_Some; congruence). destruct (Hl m M) as (q & Q1 & Q2). congruence.
    - assert (M : (m < length all)%nat) by (apply (pick_bound _ _ _ _ P); eapply nth_error_In; eauto). destruct (Hl m M) as (q & Q1 & Q2).
      rewrite (sel_inj sel i q m N E Q2). exact Q1. }
  exists l. split; [split|exact IFF].
  - apply NoDup_nth_error. intros m n B E. destruct (nth_error l m) as [i|] eqn:Em; [|apply nth_error_Some in B; congruence]. symmetry in E. apply IFF in Em. apply IFF in E. congruence.
  - change (pick l part all). apply pick_intro; [lia|]. intros m i E. apply IFF in E. destruct (pick_nth _ _ _ _ _ P E) as (a & E1 & E2). rewrite E1, E2. split; auto. discriminate.
Qed.
Lemma order_circular sel whole part x s t i dts r rmax : same_world sel whole part -> e_kind whole = Circular ->
  (forall ps c, good_enumeration ps c (e_enum whole ps c)) -> (forall ps c, good_enumeration ps c (e_enum part ps c)) ->
  (forall n, In n (written_order x) -> cells_fit rmax n) -> radii_below rmax (s_agents s) ->
  (forall n, In n (written_order x) -> independent True n) -> part_of sel s t -> length (s_agents t) = length (s_agents s) ->
  updates whole x (s, i) dts r -> exists t', updates part x (t, i) dts (t', snd r) /\ part_of sel (fst r) t'.
Proof.
  intros W K G G' C R I H L U. pose proof H as (Pk & _).
  assert (AP : forall u, length (s_agents u) = length (s_agents s) -> apart (e_kind whole) sel (s_agents u)).
  { intros u Lu p q a b Hp Hq Ea Eb. exfalso. apply Hq. assert (Q : exists z, nth_error (s_agents s) q = Some z).
    { destruct (nth_error (s_agents s) q) eqn:Z; eauto. apply nth_error_None in Z. assert (q < length (s_agents u))%nat by (apply nth_error_Some; congruence). lia. }
    destruct Q as (z & Z). eapply everybody; eauto. }
  assert (UL : forall e y si d r0, updates e y si d r0 -> length (s_agents (fst r0)) = length (s_agents (fst si))).
  { intros e y si d r0 V. induction V as [|[s0 i0] [s1 i1] d r1 E V IH]; auto. rewrite IH. cbn. eapply update_length; eauto. }
  apply (part_updates sel whole part (fun u => length (s_agents u) = length (s_agents s) /\ radii_below rmax (s_agents u)) x) with (s := s); auto.
  - intros n u u1 [E Ru] V. split; [now rewrite (node_length _ _ _ _ V)|exact (radii_kept rmax whole n u u1 Ru V)].
  - intros n u v u1 Hn [E Ru] A J V Eu. apply (part_circular_node sel whole part W rmax n u v u1); auto.
  - right. intros u [E _]. auto.
  - intros n Hn. specialize (I n Hn). destruct n; auto. cbn in I |- *. tauto.
  - intros d1 d2 u _ _ V. apply AP. now apply UL in V.
Qed.
Theorem C112_circular : forall sel whole part x s t i dts rmax, same_world sel whole part -> e_kind whole = Circular ->
  (forall ps c, good_enumeration ps c (e_enum whole ps c)) -> (forall ps c, good_enumeration ps c (e_enum part ps c)) ->
  (forall n, In n (written_order x) -> cells_fit rmax n) -> radii_below rmax (s_agents s) ->
  (forall n, In n (written_order x) -> independent True n) -> part_of sel s t -> length (s_agents t) = length (s_agents s) ->
  (forall s' n, updates whole x (s, i) dts (s', n) -> exists t', updates part x (t, i) dts (t', n) /\ part_of sel s' t') /\
  (forall t' n, updates part x (t, i) dts (t', n) -> exists s', updates whole x (s, i) dts (s', n) /\ part_of sel s' t').
Proof.
  intros sel whole part x s t i dts rmax W K G G' C R I H L. split; [intros s' n U; exact (order_circular sel whole part x s t i dts (s', n) rmax W K G G' C R I H L U)|].
  intros t' n U. pose proof H as (Pk & A1 & A2 & A3 & A4). destruct (inverse_order _ _ _ Pk L) as (l & Pl & IFF).
  assert (W' : same_world l part whole).
  { destruct W as [B1 B2 B3 B4 B5 B6]. constructor; auto. intros m p q E. symmetry. apply B6. now apply IFF. }
  assert (H' : part_of l t s) by (split; [exact Pl|repeat split; auto; intros; symmetry; auto]).
  assert (R' : radii_below rmax (s_agents t)) by (intros a Ha; apply R; destruct Pk as (_ & P); now apply (pick_in _ _ _ _ P)).
  destruct (order_circular l part whole x t s i dts (t', n) rmax W') as (s' & S1 & S2); auto; [now rewrite (sw_kind _ _ _ W)|].
  exists s'. split; [exact S1|]. destruct S2 as (Pl' & C1 & C2 & C3 & C4). cbn [fst] in *. 
  assert (UL : forall e y si d r0, updates e y si d r0 -> length (s_agents (fst r0)) = length (s_agents (fst si))).
  { intros e y si d r0 V. induction V as [|[s0 i0] [s1 i1] d r1 E V IH]; auto. rewrite IH. cbn. eapply update_length; eauto. }
  pose proof (UL _ _ _ _ _ U) as L1. pose proof (UL _ _ _ _ _ S1) as L2. cbn in L1, L2.
  split; [|repeat split; auto; intros; symmetry; apply C4; lia]. destruct (inverse_order _ _ _ Pl') as (l' & Pk' & IFF'); [lia|].
  replace sel with l'; [exact Pk'|]. apply nth_error_ext. intros m. destruct (nth_error l' m) as [p|] eqn:E.
  - symmetry. apply IFF, IFF'. exact E.
  - destruct (nth_error sel m) as [p|] eqn:E'; auto. apply IFF, IFF' in E'. congruence.
Qed.
Print Assumptions C112_circular.

(** ** Cases *)
(** The logics of the shipped simulations without followers qualify. *)
Example C111_shipped : forall x, In x [logic_outdoor; logic_hallway; logic_test_movement] ->
  forces_first (written_order x) /\ (forall n, In n (written_order x) -> independent False n) /\ (forall n, In n (written_order x) -> cells_fit (3/10) n).
Proof.
  intros x H. repeat (destruct H as [<-|H]; [|]); [..|destruct H]; (split; [|split; intros n N; cbn in N; repeat (destruct N as [<-|N]; [cbn; unfold node_cell_size; cbn; auto; try lra|]); destruct N]).
  - exists [Fluctuation; Orientation; Adjusting; AgentAgentInteractions aa_node_default], [integrator; Reset]. repeat split; intros n N; cbn in N; repeat (destruct N as [<-|N]; [exact I|]); destruct N.
  - exists [InsideDomain; Fluctuation; navigation; Orientation; Adjusting; AgentAgentInteractions aa_node_default; AgentObstacleInteractions], [integrator; Reset].
    repeat split; intros n N; cbn in N; repeat (destruct N as [<-|N]; [exact I|]); destruct N.
  - exists [], [integrator; Adjusting; Orientation; Reset]. repeat split; intros n N; cbn in N; repeat (destruct N as [<-|N]; [exact I|]); destruct N.
Qed.
(** The third and the first of three agents, far from the second. *)
Example C111_case : let a := walker (V 0 0) (V 1 0) in let b := walker (V 50 0) (V 1 0) in let c := walker (V 1 1) (V 0 1) in
  part_of [2%nat; 0%nat] (Sim [a; b; c] 0 0 0 0) (Sim [c; a] 0 0 0 0) /\ apart Circular [2%nat; 0%nat] [a; b; c] /\ same_world [2%nat; 0%nat] (no_env Circular) (no_env Circular).
Proof.
  cbv zeta. split; [split; [split; [repeat constructor; cbn; intuition discriminate|repeat constructor]|repeat split; discriminate]|]. split.
  - intros i j a b Hi Hj Ea Eb c d Hc Hd. destruct j as [|[|[|j]]]; [elim Hj; cbn; auto| |elim Hj; cbn; auto|destruct j; discriminate]. cbn in Eb. injection Eb as <-.
    cbn in Hd. destruct Hd as [<-|[]]. destruct Hi as [<-|[<-|[]]]; cbn in Ea; injection Ea as <-; cbn in Hc; destruct Hc as [<-|[]]; unfold gap, edist; cbn.
    + apply Rle_trans with (sqrt (40 * 40) - (0 + 0)); [rewrite sqrt_square by lra; lra|]. apply Rplus_le_compat_r, sqrt_le_1; lra.
    + apply Rle_trans with (sqrt (40 * 40) - (0 + 0)); [rewrite sqrt_square by lra; lra|]. apply Rplus_le_compat_r, sqrt_le_1; lra.
  - constructor; auto.
Qed.
Example C112_case : let a := walker (V 0 0) (V 1 0) in let b := walker (V 50 0) (V 1 0) in let c := walker (V 1 1) (V 0 1) in
  part_of [1%nat; 2%nat; 0%nat] (Sim [a; b; c] 0 0 0 0) (Sim [b; c; a] 0 0 0 0).
Proof. cbv zeta. split; [split; [repeat constructor; cbn; intuition discriminate|repeat constructor]|repeat split]. Qed.
Example C111_pairs_case : same_pairs_of [0%nat; 2%nat] (no_env ThreeCircle) (no_env ThreeCircle).
Proof.
  intros ps qs c H. assert (L : length qs = 2%nat) by (rewrite (Forall2_length2 _ _ _ H); reflexivity). 
  change (e_enum (no_env ThreeCircle) ps c) with (all_pairs (length ps)). change (e_enum (no_env ThreeCircle) qs c) with (all_pairs (length qs)).
  split; [intros i j J; apply all_pairs_in in J; lia|]. split; [intros i j J; apply all_pairs_in in J; lia|]. rewrite L.
  assert (N : NoDup [0%nat; 2%nat]) by (repeat constructor; cbn; intuition discriminate).
  exact (all_pairs_chosen [0%nat; 2%nat] (length ps) N (fun i => pick_bound _ _ _ i H)).
Qed.
