(** * Property C135: a wall holds a single walker *)
From Coq Require Import Lra Lia String.
From Verif Require Import Model.Simulation Model.LogicTree Model.Body Spec.Held Proofs.VecLemmas Proofs.ScatterProofs Proofs.HeldProofs Proofs.GoesOnProofs Proofs.LoneProofs Proofs.BodyProofs Proofs.Witness11 Proofs.TurnProofs Proofs.SteeringProofs.
Open Scope R_scope.
Local Open Scope list_scope.

Lemma shipped_at_wall range x : In x (shipped_logics range) -> In AgentObstacleInteractions (written_order x) -> exists pre steer,
  written_order x = pre ++ Fluctuation :: steer ++ Adjusting :: AgentAgentInteractions aa_node_default :: AgentObstacleInteractions :: [integrator; Reset] /\
  (forall n, In n pre -> quiet n) /\ (forall n, In n steer -> quiet n).
Proof.
  assert (T : forall l a b, Forall quiet a -> Forall quiet b -> l = a ++ Fluctuation :: b ++ Adjusting :: AgentAgentInteractions aa_node_default :: AgentObstacleInteractions :: [integrator; Reset] ->
    exists pre steer, l = pre ++ Fluctuation :: steer ++ Adjusting :: AgentAgentInteractions aa_node_default :: AgentObstacleInteractions :: [integrator; Reset] /\
      (forall n, In n pre -> quiet n) /\ (forall n, In n steer -> quiet n)).
  { intros l a b A B E. exists a, b. rewrite Forall_forall in A, B. auto. }
  assert (Q : forall l, (forall n, In n l -> quiet n) -> Forall quiet l) by (intros l; apply Forall_forall).
  intros [<-|[<-|[<-|[<-|[<-|[<-|[<-|[<-|[]]]]]]]]] N;
    try (exfalso; cbn in N; repeat (destruct N as [N|N]; [discriminate N|]); exact N).
  - apply (T _ [InsideDomain] [navigation; Orientation]); try reflexivity; auto; apply Q; qs.
  - apply (T _ [InsideDomain] [LeaderFollowerWithHerding 10 5; navigation; Orientation]); try reflexivity; auto; apply Q; qs.
  - apply (T _ [InsideDomain] [ExitDetection range; LeaderFollowerWithHerding 10 5; navigation; Orientation]); try reflexivity; auto; apply Q; qs.
  - apply (T _ [] [LeaderFollowerWithHerding 10 5; Orientation]); try reflexivity; auto; apply Q; qs.
  - apply (T _ [InsideDomain] [ExitDetection 20; LeaderFollower 20; navigation; Orientation]); try reflexivity; auto; apply Q; qs.
Qed.
Lemma headed_sound s : headed (s_agents s) -> sound s.
Proof. intros H. split; apply Forall_forall; intros a Ha; destruct (H a Ha) as [D R0]; auto. unfold directed. now rewrite <- elen_vlength. Qed.

(** In every shipped simulation with walls, a circular agent with the shipped traits starts clear
    of a wall, on one side of it ([side] is 1 or -1), at 1.8 m/s at most.  As long as nobody is
    within 3 m, no other wall is touched and the agent is beside the wall, the centre never comes
    nearer to the line of the wall than the radius less 14 cm. *)
Theorem C135_held : forall range x e agents i a o l1 l2 side dts s, In x (shipped_logics range) -> In AgentObstacleInteractions (written_order x) ->
  fair_world e -> headed agents -> e_kind e = Circular -> e_obstacles e = l1 ++ o :: l2 -> p0 o <> p1 o ->
  nth_error agents i = Some a -> walker Circular a -> pedestrian a -> elen (a_velocity a) <= 18/10 -> side = 1 \/ side = -1 -> a_radius a <= side * off o (a_position a) ->
  updates e x (new_simulation agents) dts s ->
  (forall dts' t, (length dts' < length dts)%nat -> updates e x (new_simulation agents) dts' t -> only_wall e i o (l1 ++ l2) (fst t)) ->
  exists b, nth_error (s_agents (fst s)) i = Some b /\ a_radius b = a_radius a /\ a_radius a - 14/100 < side * off o (a_position b).
Proof.
  intros range x e agents i a o l1 l2 sg dts s Hx HA (G & FD & M) HD K W Ho Ha (F & _) PD VA Hs R0 U OW. destruct (shipped_at_wall range x Hx HA) as (pre & steer & E & Q1 & Q2).
  destruct (wall_updates e x pre steer o l1 l2 sg E Q1 Q2 K G FD M W Ho Hs (new_simulation agents) dts s i U (headed_sound (fst (new_simulation agents)) HD) OW a Ha) as (b & Hb & AB & RB).
  { now apply wall_start. }
  exists b. split; auto. split; auto. destruct AB as (_ & _ & P & _). rewrite RB in P. lra.
Qed.
Print Assumptions C135_held.
(** The agent is on its side all the time and no step leads through the wall. *)
Theorem C135_not_crossed : forall range x e agents i a o l1 l2 side dts s1 s2, In x (shipped_logics range) -> In AgentObstacleInteractions (written_order x) ->
  fair_world e -> headed agents -> e_kind e = Circular -> e_obstacles e = l1 ++ o :: l2 -> p0 o <> p1 o ->
  nth_error agents i = Some a -> walker Circular a -> pedestrian a -> elen (a_velocity a) <= 18/10 -> side = 1 \/ side = -1 -> a_radius a <= side * off o (a_position a) ->
  updates e x (new_simulation agents) dts s1 -> simulation_update e x s1 = (s2, None) ->
  (forall dts' t, (length dts' <= length dts)%nat -> updates e x (new_simulation agents) dts' t -> only_wall e i o (l1 ++ l2) (fst t)) ->
  exists b c, nth_error (s_agents (fst s1)) i = Some b /\ nth_error (s_agents (fst s2)) i = Some c /\
    0 < side * off o (a_position b) /\ 0 < side * off o (a_position c) /\ ~ crosses o (a_position b) (a_position c).
Proof.
  intros range x e agents i a o l1 l2 sg dts s1 s2 Hx HA FW HD K W Ho Ha WA PD VA Hs R0 U U2 OW.
  destruct (C135_held range x e agents i a o l1 l2 sg dts s1 Hx HA FW HD K W Ho Ha WA PD VA Hs R0 U) as (b & Hb & _ & B). { intros dts' t L. apply OW. lia. }
  assert (US : exists dts2, length dts2 = S (length dts) /\ updates e x (new_simulation agents) dts2 s2).
  { clear - U U2. induction U as [s|s s' dts s'' H R IH]; [exists [s_dt (fst s2)]; split; auto; econstructor; eauto; constructor|].
    destruct (IH U2) as (d & L & X). exists (s_dt (fst s') :: d). split; [cbn; lia|]. econstructor; eauto. }
  destruct US as (dts2 & L2 & US).
  destruct (C135_held range x e agents i a o l1 l2 sg dts2 s2 Hx HA FW HD K W Ho Ha WA PD VA Hs R0 US) as (c & Hc & _ & C). { intros dts' t L. apply OW. lia. }
  exists b, c. assert (R15 : 15/100 <= a_radius a) by apply PD. assert (B0 : 0 < sg * off o (a_position b)) by lra. assert (C0 : 0 < sg * off o (a_position c)) by lra. repeat split; auto.
  intros (q & (t & T & ->) & (u & UU & E)). clear - B0 C0 T E Ho.
  destruct (wall_length o Ho) as [L _]. pose proof (off_normal o sg Ho) as ON. rewrite ON in B0, C0.
  assert (Z : dot (normal o sg) (vsub (along (a_position b) (a_position c) t) (p0 o)) = 0).
  { rewrite E. unfold normal. set (l := vlength _) in *. clearbody l. destruct (p0 o), (p1 o). unfold dot, along, vsub, vscale, rotate90, vdiv. cbn. field. lra. }
  assert (Z' : dot (normal o sg) (vsub (along (a_position b) (a_position c) t) (p0 o)) = (1 - t) * dot (normal o sg) (vsub (a_position b) (p0 o)) + t * dot (normal o sg) (vsub (a_position c) (p0 o))).
  { destruct (normal o sg), (a_position b), (a_position c), (p0 o). unfold dot, along, vsub. cbn. ring. }
  rewrite Z' in Z. assert (0 <= (1 - t) * dot (normal o sg) (vsub (a_position b) (p0 o))) by (apply Rmult_le_pos; lra). assert (0 <= t * dot (normal o sg) (vsub (a_position c) (p0 o))) by (apply Rmult_le_pos; lra).
  destruct (Req_dec t 0) as [->|N]; [lra|]. assert (0 < t * dot (normal o sg) (vsub (a_position c) (p0 o))) by (apply Rmult_lt_0_compat; lra). lra.
Qed.
Print Assumptions C135_not_crossed.
(** Alone with a wall that reaches far enough to both sides, nothing need be supposed of the
    way. *)
Theorem C135_long_wall : forall range x e a o side count dts s, In x (shipped_logics range) -> In AgentObstacleInteractions (written_order x) ->
  fair_world e -> headed [a] -> e_kind e = Circular -> e_obstacles e = [o] -> p0 o <> p1 o -> walker Circular a -> pedestrian a -> elen (a_velocity a) <= 18/10 ->
  side = 1 \/ side = -1 -> a_radius a <= side * off o (a_position a) -> well_beside o (slide (elen (a_velocity a)) count) (a_position a) ->
  updates e x (new_simulation [a]) dts s -> (length dts <= count)%nat ->
  exists b, s_agents (fst s) = [b] /\ a_radius b = a_radius a /\ a_radius a - 14/100 < side * off o (a_position b).
Proof.
  intros range x e a o sg count dts s Hx HA (G & FD & M) HD K W Ho (F & _) PD VA Hs R0 WB U L. destruct (shipped_at_wall range x Hx HA) as (pre & steer & E & Q1 & Q2).
  destruct (long_wall e x pre steer o [] [] sg E Q1 Q2 K G FD M W Ho Hs (elen (a_velocity a)) a count eq_refl eq_refl) with (s := new_simulation [a]) (dts := dts) (s' := s) (m := 0%nat) (b := a) as (b & Hb & AB & RB & _); auto.
  - rewrite elen_vlength. apply vlength_nonneg.
  - exact (headed_sound (fst (new_simulation [a])) HD).
  - now apply wall_start.
  - apply slid_start; auto. rewrite elen_vlength. lra.
  - exists b. split; auto. split; auto. destruct AB as (_ & _ & P & _). rewrite RB in P. lra.
Qed.
Print Assumptions C135_long_wall.
(** People of every shipped body type are as supposed. *)
Theorem C135_shipped_types : forall zs name values, (forall n, -3 <= zs n <= 3) -> In (name, values) shipped ->
  exists b, assign_body_type zs shipped_config name body0 = (None, b) /\ 50 <= b_mass b <= 90 /\ 0 <= b_target_velocity b <= 155/100 /\ 15/100 <= b_radius b.
Proof.
  intros zs name values Z H.
  assert (X : exists rt rs ts rm rsc tvm tvs mm ms, values = cfg_section rt rs ts rm rsc tvm tvs mm ms /\ 50 <= mm - ms /\ mm + ms <= 90 /\ tvm + tvs <= 155/100 /\ 15/100 <= rm - rsc).
  { cbn in H. repeat (destruct H as [H|H]; [injection H as <- <-; eexists _, _, _, _, _, _, _, _, _; split; [reflexivity|lra]|]). destruct H. }
  destruct X as (rt & rs & ts & rm & rsc & tvm & tvs & mm & ms & -> & X).
  destruct (shipped_body zs name rt rs ts rm rsc tvm tvs mm ms Z H) as (b & A & B1 & _ & B2 & B3 & B4 & _). exists b. split; auto. lra.
Qed.
Print Assumptions C135_shipped_types.
(** Somebody of average size, one metre from a wall, who wants to walk straight through it: ten
    seconds later it is still on its side. *)
Definition stubborn : agent :=
  set_mu 120000 (set_kappa 40000 (set_damping 500 (set_mass (735/10) (set_tau_adj (1/2) (set_tau_0 3 (set_active true (set_std_rand_force (1/10) (set_target_velocity (125/100)
    (set_target_direction (V 1 0) (set_radius (255/1000) (set_position (V (-1) 0) zero_row))))))))))).
Definition great_wall : obstacle := Obs (V 0 (-1000)) (V 0 1000).
Definition walled : env := Env Circular [great_wall] [] (fun _ _ _ _ => Err KeyError) (fun ps _ => all_pairs (length ps)) (fun _ => []) (fun _ => true) (fun _ _ => (0, 3, 0)).
Lemma great_length : edist (V 0 (-1000)) (V 0 1000) = 2000.
Proof. unfold edist. cbn. replace (_ + _) with (2000 * 2000) by ring. apply sqrt_square. lra. Qed.
Example C135_case : forall count, (count <= 1000)%nat -> exists dts s b, length dts = count /\ updates walled logic_closed_room (new_simulation [stubborn]) dts s /\
  s_agents (fst s) = [b] /\ vx (a_position b) < - (115/1000).
Proof.
  intros count HC. assert (Hx : In logic_closed_room (shipped_logics 10)) by (cbn; tauto).
  destruct (goes_on walled logic_closed_room) with (count := count) (s := fst (new_simulation [stubborn])) (i := 0%nat) as (dts & s & L & U & _).
  - intros ps c i j H. apply all_pairs_in in H. lia.
  - cbn. intros n H. repeat (destruct H as [<-|H]; [cbn; auto; lia|]). destruct H.
  - repeat constructor; try (cbn; lra); try discriminate; cbn; lia.
  - exists dts, (s, (0 + count)%nat).
    destruct (C135_long_wall 10 logic_closed_room walled stubborn great_wall 1 1000 dts (s, (0 + count)%nat)) as (b & Hb & _ & B); auto; try (lia || (now left)).
    + cbn. tauto.
    + split; [|split]. * intros ps c. apply all_pairs_good. * intros n i. cbn. lra. * intros ? ? ? ? ? ? H. discriminate H.
    + intros a [<-|[]]. split; [|cbn; lra]. change (a_target_direction stubborn) with (V 1 0). unfold elen, edist. cbn. replace (_ + _) with 1 by ring. rewrite sqrt_1. lra.
    + unfold great_wall. cbn. intros [= H]. lra.
    + split; [repeat split; try (cbn; lra); discriminate|cbn; lra].
    + unfold pedestrian. cbn. lra.
    + change (a_velocity stubborn) with (V 0 0). unfold elen. rewrite edist_refl. lra.
    + change (a_radius stubborn) with (255/1000). change (a_position stubborn) with (V (-1) 0). unfold off, great_wall. cbn [p0 p1 vx vy]. rewrite great_length. lra.
    + change (a_position stubborn) with (V (-1) 0). change (a_velocity stubborn) with (V 0 0). exists (V 0 0). unfold elen. rewrite edist_refl. unfold slide.
      replace (INR 1000) with 1000 by (rewrite INR_IZR_INZ; reflexivity). split; [exists (1/2); split; [lra|]; unfold along; cbn; f_equal; field|]. split; [cbn; ring|].
      cbn [great_wall p0 p1]. assert (X : forall z, z = 1000 \/ z = -1000 -> edist (V 0 0) (V 0 z) = 1000).
      { intros z Hz. unfold edist. cbn. replace (_ + _) with (1000 * 1000) by (destruct Hz as [-> | ->]; ring). apply sqrt_square. lra. }
      rewrite !X by auto. lra.
    + exists b. split; auto. split; [exact U|]. split; [exact Hb|]. change (a_radius stubborn) with (255/1000) in B. unfold off, great_wall in B. cbn [p0 p1 vx vy] in B. rewrite great_length in B. lra.
Qed.
