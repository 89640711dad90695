(** Proofs about agents that do not come near each other, and about walls not passed. *)
From Coq Require Import Lra Lia.
From Verif Require Import Proofs.IntegratorProofs Proofs.SimulationMore Proofs.PlacementProofs Proofs.DistanceProofs Proofs.Geom2DProofs.
From Verif Require Export Proofs.SpeedRuns.
From Verif Require Import Spec.Touches.
Open Scope R_scope.

(** ** Walls *)
Lemma on_segment_near x y q : on_segment x y q -> edist x q <= edist x y.
Proof.
  intros (t & T & ->). unfold edist, along. cbn [vx vy]. apply sqrt_le_1_alt.
  replace ((vx x - (vx x + t * (vx y - vx x))) * (vx x - (vx x + t * (vx y - vx x))) + (vy x - (vy x + t * (vy y - vy x))) * (vy x - (vy x + t * (vy y - vy x)))) with
    (t * t * ((vx x - vx y) * (vx x - vx y) + (vy x - vy y) * (vy x - vy y))) by ring.
  pose proof (Rle_0_sqr (vx x - vx y)) as S1. pose proof (Rle_0_sqr (vy x - vy y)) as S2. unfold Rsqr in S1, S2.
  set (d := (vx x - vx y) * (vx x - vx y) + (vy x - vy y) * (vy x - vy y)) in *. assert (0 <= d) by (unfold d; lra). assert (t * t <= 1) by nra. nra.
Qed.
Lemma no_crossing x y r o : (forall q, on_segment (p0 o) (p1 o) q -> r <= edist x q) -> edist x y < r -> ~ crosses o x y.
Proof. intros H L (q & Q1 & Q2). pose proof (H q Q2). pose proof (on_segment_near x y q Q1). lra. Qed.
Lemma no_crossing_sight x y obs : (forall o, In o obs -> p0 o <> p1 o -> ~ crosses o x y) -> is_obstacle_between_points x y obs = false.
Proof.
  intros H. destruct (is_obstacle_between_points x y obs) eqn:E; auto. apply between_iff in E as (o & Ho & E). apply line_intersect_iff in E as (N & p & P1 & P2). exfalso. apply (H o Ho); [|exists p; auto].
  intros Q. apply N. rewrite Q. apply parallel_outer. unfold outer. vunfold. ring.
Qed.

(** ** The shipped simulations *)
Ltac qs := let n := fresh in let H := fresh in let A := fresh in intros n H; cbn in H; repeat (destruct H as [<-|H]; [split; [exact I|cbn; intros A; repeat (destruct A as [A|A]; [discriminate A|]); exact A]|]); destruct H.
Lemma shipped_nodes range x : In x (shipped_logics range) -> x <> logic_test_movement -> exists pre steer post,
  written_order x = pre ++ Fluctuation :: steer ++ Adjusting :: AgentAgentInteractions aa_node_default :: post ++ [integrator; Reset] /\
  (forall n, In n pre -> quiet n) /\ (forall n, In n steer -> quiet n) /\ (forall n, In n post -> n = AgentObstacleInteractions).
Proof.
  assert (C : forall y, (exists pre steer post, written_order y = pre ++ Fluctuation :: steer ++ Adjusting :: AgentAgentInteractions aa_node_default :: post ++ [integrator; Reset] /\
    Forall quiet pre /\ Forall quiet steer /\ Forall (fun n => n = AgentObstacleInteractions) post) -> exists pre steer post,
    written_order y = pre ++ Fluctuation :: steer ++ Adjusting :: AgentAgentInteractions aa_node_default :: post ++ [integrator; Reset] /\
    (forall n, In n pre -> quiet n) /\ (forall n, In n steer -> quiet n) /\ (forall n, In n post -> n = AgentObstacleInteractions)).
  { intros y (a & b & c & E & F1 & F2 & F3). exists a, b, c. rewrite Forall_forall in *. auto. }
  assert (T : forall l a b c, Forall (fun n => n = AgentObstacleInteractions) c -> Forall quiet a -> Forall quiet b -> l = a ++ Fluctuation :: b ++ Adjusting :: AgentAgentInteractions aa_node_default :: c ++ [integrator; Reset] ->
    exists pre steer post, l = pre ++ Fluctuation :: steer ++ Adjusting :: AgentAgentInteractions aa_node_default :: post ++ [integrator; Reset] /\
      Forall quiet pre /\ Forall quiet steer /\ Forall (fun n => n = AgentObstacleInteractions) post) by (intros l a b c; intros; exists a, b, c; auto).
  assert (Q : forall l, (forall n, In n l -> quiet n) -> Forall quiet l) by (intros l; apply Forall_forall).
  intros [<-|[<-|[<-|[<-|[<-|[<-|[<-|[<-|[]]]]]]]]] N; try contradiction; apply C; clear C N.
  - apply (T _ [] [Orientation] []); try reflexivity; auto; apply Q; qs.
  - apply (T _ [InsideDomain] [navigation; Orientation] [AgentObstacleInteractions]); try reflexivity; auto; apply Q; qs.
  - apply (T _ [] [LeaderFollowerWithHerding 10 5; Orientation] []); try reflexivity; auto; apply Q; qs.
  - apply (T _ [InsideDomain] [LeaderFollowerWithHerding 10 5; navigation; Orientation] [AgentObstacleInteractions]); try reflexivity; auto; apply Q; qs.
  - apply (T _ [InsideDomain] [ExitDetection range; LeaderFollowerWithHerding 10 5; navigation; Orientation] [AgentObstacleInteractions]); try reflexivity; auto; apply Q; qs.
  - apply (T _ [] [LeaderFollowerWithHerding 10 5; Orientation] [AgentObstacleInteractions]); try reflexivity; auto; apply Q; qs.
  - apply (T _ [InsideDomain] [ExitDetection 20; LeaderFollower 20; navigation; Orientation] [AgentObstacleInteractions]); try reflexivity; auto; apply Q; qs.
Qed.

(** ** A crowd scattered widely *)
Lemma gap_far k a b rho c d g : body_within k a rho -> body_within k b rho -> g + 2 * rho <= edist (a_position a) (a_position b) -> In c (body k a) -> In d (body k b) -> g <= gap c d.
Proof.
  intros A B E C D. specialize (A c C). specialize (B d D). unfold gap. pose proof (edist_triangle (a_position a) (fst c) (a_position b)). pose proof (edist_triangle (fst c) (fst d) (a_position b)).
  rewrite (edist_sym (a_position a) (fst c)) in *. lra.
Qed.
Lemma wall_away k a rho w0 w1 : body_within k a rho -> (forall q, on_segment w0 w1 q -> rho <= edist (a_position a) q) -> ~ body_hits_wall (body k a) w0 w1.
Proof.
  intros A W (c & q & C & Q & L). specialize (A c C). specialize (W q Q). pose proof (edist_triangle (a_position a) (fst c) q). rewrite (edist_sym (a_position a) (fst c)) in *. lra.
Qed.
Lemma sized_within k rho a : sized k rho a -> body_within k a rho.
Proof.
  destruct k; cbn [sized].
  - intros H c C. pose proof (circular_within a c C). lra.
  - intros (S1 & S2 & S3 & S4). now apply three_within.
Qed.
Lemma updates_last e x s dts s' : updates e x s dts s' -> dts <> [] -> exists ds d s1, dts = ds ++ [d] /\ updates e x s ds s1 /\ simulation_update e x s1 = (s', None).
Proof.
  induction 1 as [s|s s1 dts s' U R IH]; intros N; [contradiction|]. destruct dts as [|d dts].
  - inversion R; subst. exists [], (s_dt (fst s')), s. repeat split; auto. constructor.
  - destruct IH as (ds & d' & s2 & -> & R2 & U2); [discriminate|]. exists (s_dt (fst s1) :: ds), d', s2. split; auto. split; auto. econstructor; eauto.
Qed.
Lemma update_shoulders e x l s s' : written_order x = l ++ [integrator; Reset] -> simulation_update e x s = (s', None) -> e_kind e = ThreeCircle ->
  forall i b, nth_error (s_agents (fst s')) i = Some b -> shoulders_in_place b.
Proof.
  intros E U K i b Hb. destruct s as [s k], s' as [s' k']. cbn [fst] in *. apply update_runs in U as [_ [log H]]. rewrite E in H.
  apply runs_app in H as (lg1 & s1 & lg & _ & R1 & H). inversion H as [|? ? ? s2 lg2 ? R2 H2]; subst. apply run_one in H2 as [R8 _].
  cbn [run_node] in R8. injection R8 as <-. cbn [s_agents with_agents] in Hb. rewrite nth_error_map in Hb. destruct (nth_error (s_agents s2) i) as [c|] eqn:Hc; [|discriminate]. injection Hb as <-.
  assert (L : length (s_agents s2) = length (s_agents s1)).
  { assert (KK : map a_mass (s_agents s2) = map a_mass (s_agents s1)) by (apply (node_keeps a_mass e integrator s1 s2); auto; intros w Hw; cbn in Hw; repeat (destruct Hw as [<-|Hw]; [now intros ? ?|]); destruct Hw).
    apply (f_equal (@length _)) in KK. now rewrite !map_length in KK. }
  destruct (nth_error (s_agents s1) i) as [a|] eqn:Ha; [|apply nth_error_None in Ha; assert (i < length (s_agents s2))%nat by (apply nth_error_Some; congruence); lia].
  destruct (integrator_at e s1 s2 i a R2 Ha) as (_ & N & _). rewrite Hc in N. injection N as ->. rewrite K. cbn [moved_row].
  assert (X : forall y, shoulders_in_place y -> shoulders_in_place (reset_row ThreeCircle y)) by (intros y SP; exact SP).
  apply X, shoulders_row_in_place.
Qed.
Section Scatter.
  Variables (e : env) (x : expr node) (pre steer post : list node).
  Hypothesis Hx : written_order x = pre ++ Fluctuation :: steer ++ Adjusting :: AgentAgentInteractions aa_node_default :: post ++ [integrator; Reset].
  Hypothesis Q1 : forall n, In n pre -> quiet n.
  Hypothesis Q2 : forall n, In n steer -> quiet n.
  Hypothesis Q3 : forall n, In n post -> n = AgentObstacleInteractions.
  Hypothesis G : forall ps c, good_enumeration ps c (e_enum e ps c).
  Hypothesis FD : fair_draws (e_draws e).
  Hypothesis M : maps_of_directions e.
  Variables (s : sim * nat) (rho S0 : R) (N : nat).
  Hypothesis SO : sound (fst s).
  Hypothesis W : forall a, In a (s_agents (fst s)) -> walker (e_kind e) a /\ sized (e_kind e) rho a /\ stride_limit a 0 <= S0.
  Hypothesis S0P : 0 <= S0.
  Hypothesis SC : scattered (s_agents (fst s)) (e_obstacles e) (3 + 2 * rho + 2 * (INR N * S0)) (rho + INR N * S0).
  Definition near (m : nat) (s' : sim * nat) : Prop :=
    forall i b, nth_error (s_agents (fst s')) i = Some b -> sized (e_kind e) rho b /\ exists a, nth_error (s_agents (fst s)) i = Some a /\ edist (a_position a) (a_position b) <= INR m * S0.
  Lemma near_free m s' : (m <= N)%nat -> near m s' -> forall i, free e i 0 (fst s').
  Proof.
    intros L NE i. assert (LR : INR m * S0 <= INR N * S0) by (apply Rmult_le_compat_r; auto; now apply le_INR). destruct SC as [SC1 SC2].
    assert (FAR : forall a j b c d, nth_error (s_agents (fst s')) i = Some a -> nth_error (s_agents (fst s')) j = Some b -> j <> i -> In c (body (e_kind e) a) -> In d (body (e_kind e) b) -> 3 <= gap c d).
    { intros a j b c d Ha Hb NJ C D. destruct (NE i a Ha) as (Sa & a0 & Ha0 & Ea). destruct (NE j b Hb) as (Sb & b0 & Hb0 & Eb).
      apply (gap_far (e_kind e) a b rho c d 3); auto using sized_within. pose proof (SC1 i j a0 b0 ltac:(auto) Ha0 Hb0).
      pose proof (edist_triangle (a_position a0) (a_position a) (a_position b0)). pose proof (edist_triangle (a_position a) (a_position b) (a_position b0)). rewrite (edist_sym (a_position b) (a_position b0)) in *. lra. }
    split; [|split].
    - intros a j b Ha Hb NJ (c & d & C & D & L0). pose proof (FAR a j b c d Ha Hb NJ C D). lra.
    - intros a o Ha Ho NO. destruct (NE i a Ha) as (Sa & a0 & Ha0 & Ea). apply (wall_away _ _ rho); auto using sized_within. intros q Q. pose proof (SC2 a0 o q (nth_error_In _ _ Ha0) Ho Q).
      pose proof (edist_triangle (a_position a0) (a_position a) q). lra.
    - intros js ND J. destruct js as [|j js]; [cbn; lia|]. destruct (J j (or_introl eq_refl)) as (NJ & a & b & c & d & Ha & Hb & C & D & L0). pose proof (FAR a j b c d Ha Hb NJ C D). lra.
  Qed.
  Lemma same_size dts s' : updates e x s dts s' -> forall i b, nth_error (s_agents (fst s')) i = Some b ->
    exists a, nth_error (s_agents (fst s)) i = Some a /\ a_radius b = a_radius a /\ a_r_t b = a_r_t a /\ a_r_s b = a_r_s a /\ a_r_ts b = a_r_ts a.
  Proof using.
    intros U i b Hb. pose proof (bodies_constant e x s dts s' U) as K. destruct (at_index _ _ _ i b (eq_sym K) Hb) as (a & Ha & E). exists a. split; auto. repeat split; congruence.
  Qed.
  Lemma stay_scattered : forall m dts s', length dts = m -> (m <= N)%nat -> updates e x s dts s' -> near m s'.
  Proof.
    intros m. induction m as [m IH] using (well_founded_induction lt_wf). intros dts s' E L U i b Hb.
    destruct m as [|m].
    { destruct dts; [|discriminate]. inversion U; subst. split; [apply (W b (nth_error_In _ _ Hb))|]. exists b. split; auto. rewrite edist_refl. cbn. lra. }
    destruct (updates_last e x s dts s' U) as (ds & d & s1 & -> & U1 & U2). { intros ->. discriminate. }
    rewrite app_length in E. cbn in E. assert (E1 : length ds = m) by lia.
    destruct (same_size _ _ U i b Hb) as (a & Ha & Z1 & Z2 & Z3 & Z4). destruct (W a (nth_error_In _ _ Ha)) as (Wa & Sa & La).
    split.
    { destruct (e_kind e) eqn:K; cbn [sized] in *; [lra|]. destruct Sa as (_ & ? & ? & ?). rewrite Z2, Z3, Z4. split; auto.
      apply (update_shoulders e x (pre ++ Fluctuation :: steer ++ Adjusting :: AgentAgentInteractions aa_node_default :: post) s1 s') with (i := i); auto.
      rewrite Hx. rewrite <- !app_assoc. cbn [app]. rewrite <- !app_assoc. reflexivity. }
    exists a. split; auto.
    destruct (stride e x pre steer post Hx Q1 Q2 Q3 G FD M s ds s1 s' i 0 a U1 U2 SO) as (b1 & c & Hb1 & Hc & _ & SL); auto.
    { intros dts' t L' T. apply (near_free (length dts')); [lia|]. apply (IH (length dts') ltac:(lia) dts' t eq_refl ltac:(lia) T). }
    rewrite Hb in Hc. injection Hc as <-. destruct (IH m ltac:(lia) ds s1 E1 ltac:(lia) U1 i b1 Hb1) as (_ & a' & Ha' & Ea). rewrite Ha in Ha'. injection Ha' as <-.
    rewrite S_INR. pose proof (edist_triangle (a_position a) (a_position b1) (a_position b)). lra.
  Qed.
End Scatter.
