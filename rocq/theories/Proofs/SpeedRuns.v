(** Proofs about how fast agents can get: updates and runs. *)
From Coq Require Import Lra Lia.
From Verif Require Import Proofs.IntegratorProofs Proofs.SimulationMore.
From Verif Require Export Proofs.SpeedProofs.
From Verif Require Import Spec.Touches.
Open Scope R_scope.

(** What the nodes before the integrator leave alone. *)
Definition still (a : agent) := ((a_position a, a_velocity a, a_force_prev a, (a_mass a, a_tau_adj a, a_std_rand_force a, a_target_velocity a)),
  (a_radius a, a_r_t a, a_r_s a, a_position_ls a, a_position_rs a)).
Lemma plain_still n c : plain n -> In c (writes n) -> unaffected c still.
Proof. intros P H. destruct n; cbn in *; try contradiction; repeat (destruct H as [<-|H]; [now intros ? ?|]); destruct H. Qed.
Lemma still_body k a b : still a = still b -> body k a = body k b.
Proof. unfold still. intros [= E1 _ _ _ _ _ _ E2 E3 E4 E5 E6]. destruct k; cbn [body]; congruence. Qed.
Lemma touch_same k l l' i : map still l' = map still l -> touches_nobody k l i -> touches_nobody k l' i.
Proof.
  intros M T a j b Ha Hb N. destruct (at_index still l' l i a (eq_sym M) Ha) as (a0 & Ha0 & Ea). destruct (at_index still l' l j b (eq_sym M) Hb) as (b0 & Hb0 & Eb).
  rewrite <- (still_body k a0 a Ea), <- (still_body k b0 b Eb). apply (T a0 j b0); auto.
Qed.
Lemma wall_same k walls l l' i : map still l' = map still l -> touches_no_wall k walls l i -> touches_no_wall k walls l' i.
Proof.
  intros M T a o Ha Ho N. destruct (at_index still l' l i a (eq_sym M) Ha) as (a0 & Ha0 & Ea). rewrite <- (still_body k a0 a Ea). apply (T a0 o); auto.
Qed.
Lemma company_same k l l' i n : map still l' = map still l -> company k l i n -> company k l' i n.
Proof.
  intros M C js N J. apply C; auto. intros j Hj. destruct (J j Hj) as (Nj & a & b & c & d & Ha & Hb & Hc & Hd & G). split; auto.
  destruct (at_index still l' l i a (eq_sym M) Ha) as (a0 & Ha0 & Ea). destruct (at_index still l' l j b (eq_sym M) Hb) as (b0 & Hb0 & Eb).
  exists a0, b0, c, d. rewrite (still_body k a0 a Ea), (still_body k b0 b Eb). auto 8.
Qed.
Lemma radii_same l l' : map still l' = map still l -> Forall (fun a => 0 <= a_radius a) l -> Forall (fun a => 0 <= a_radius a) l'.
Proof.
  intros M. rewrite !Forall_forall. intros F a Ha. apply (in_map still) in Ha. rewrite M in Ha. apply in_map_iff in Ha as (b & Eb & Hb).
  specialize (F b Hb). replace (a_radius a) with (a_radius b); auto. unfold still in Eb. congruence.
Qed.

(** Nodes that write no force. *)
Definition quiet (n : node) : Prop := plain n /\ ~ In Force (writes n).
Lemma quiet_run e l s log s' : (forall n, In n l -> quiet n) -> runs e l s log s' -> map (fun a => (still a, a_force a)) (s_agents s') = map (fun a => (still a, a_force a)) (s_agents s).
Proof.
  intros Q H. apply (run_keeps (fun a => (still a, a_force a)) e l s log s' H). intros n c Hn Hc. destruct (Q n Hn) as [P W].
  destruct n; cbn in *; try contradiction; try (exfalso; apply W; now left); repeat (destruct Hc as [<-|Hc]; [now intros ? ?|]); destruct Hc.
Qed.
Lemma run_directed e l s log s' : maps_of_directions e -> runs e l s log s' -> Forall directed (s_agents s) -> Forall directed (s_agents s').
Proof. intros M. induction 1 as [s|n l s s1 log s' H R IH]; auto. intros D. apply IH. exact (node_directed e n s s1 M H D). Qed.
Lemma walls_run e l i a : (forall n, In n l -> n = AgentObstacleInteractions) -> forall s log s', runs e l s log s' -> nth_error (s_agents s) i = Some a ->
  touches_no_wall (e_kind e) (e_obstacles e) (s_agents s) i -> nth_error (s_agents s') i = Some a.
Proof.
  induction l as [|n l IH]; intros A s log s' H Ha T; inversion H as [|? ? ? s1 log' ? H1 H2]; subst; auto.
  assert (N : n = AgentObstacleInteractions) by (apply A; now left). subst n.
  apply (IH (fun n Hn => A n (or_intror Hn)) s1 log' s' H2). - exact (walls_at e s s1 i a H1 Ha T).
  - apply (wall_same _ _ (s_agents s)); auto. apply (node_keeps still e AgentObstacleInteractions s s1); auto. intros c. now apply plain_still.
Qed.

Section Update.
  Variables (e : env) (x : expr node) (pre steer post : list node).
  Hypothesis Hx : written_order x = pre ++ Fluctuation :: steer ++ Adjusting :: AgentAgentInteractions aa_node_default :: post ++ [integrator; Reset].
  Hypothesis Q1 : forall n, In n pre -> quiet n.
  Hypothesis Q2 : forall n, In n steer -> quiet n.
  Hypothesis Q3 : forall n, In n post -> n = AgentObstacleInteractions.
  Hypothesis G : forall ps c, good_enumeration ps c (e_enum e ps c).
  Hypothesis FD : fair_draws (e_draws e).
  Hypothesis M : maps_of_directions e.
  Lemma update_row s k s' k' i a n : simulation_update e x (s, k) = ((s', k'), None) ->
    Forall directed (s_agents s) -> Forall (fun a => 0 <= a_radius a) (s_agents s) -> nth_error (s_agents s) i = Some a ->
    touches_nobody (e_kind e) (s_agents s) i -> touches_no_wall (e_kind e) (e_obstacles e) (s_agents s) i -> company (e_kind e) (s_agents s) i n ->
    0 < a_mass a -> 0 <= a_std_rand_force a -> a_force a = V 0 0 ->
    Forall directed (s_agents s') /\ Forall (fun a => 0 <= a_radius a) (s_agents s') /\ exists b xi, nth_error (s_agents s') i = Some b /\
      vlength xi <= 3 * a_std_rand_force a + INR n * 2000 / a_mass a /\
      let acc := vadd xi (vscale (/ a_tau_adj a) (vsub (vscale (a_target_velocity a) (a_target_direction b)) (a_velocity a))) in
      a_force_prev b = vscale (a_mass a) acc /\ a_force b = V 0 0 /\
      a_velocity b = vadd (a_velocity a) (vscale (DT / 2) (vadd (vdiv (a_force_prev a) (a_mass a)) acc)) /\
      a_position b = vadd (a_position a) (vadd (vscale DT (a_velocity b)) (vscale (DT ^ 2 / 2) acc)) /\
      a_mass b = a_mass a /\ a_tau_adj b = a_tau_adj a /\ a_std_rand_force b = a_std_rand_force a /\ a_target_velocity b = a_target_velocity a /\
      a_radius b = a_radius a /\ a_r_t b = a_r_t a.
  Proof.
    intros U D RR Ha TN TW C MP SP F0. apply update_runs in U as [_ [log H]].
    assert (DD : Forall directed (s_agents s')) by (exact (run_directed e _ _ _ _ M H D)).
    assert (RR' : Forall (fun a => 0 <= a_radius a) (s_agents s')).
    { assert (K : map a_radius (s_agents s') = map a_radius (s_agents s)).
      { apply (run_keeps a_radius e _ _ _ _ H). intros m c _ Hc. destruct m; cbn in Hc; repeat (destruct Hc as [<-|Hc]; [now intros ? ?|]); destruct Hc. }
      rewrite Forall_forall in *. intros b Hb. apply (in_map a_radius) in Hb. rewrite K in Hb. apply in_map_iff in Hb as (b0 & <- & Hb). auto. }
    split; auto. split; auto.
    rewrite Hx in H. apply runs_app in H as (lg1 & s1 & lg & _ & R1 & H). inversion H as [|? ? ? s2 lg2 ? R2 H2]; subst. clear H.
    apply runs_app in H2 as (lg3 & s3 & lg4 & _ & R3 & H). inversion H as [|? ? ? s4 lg5 ? R4 H4]; subst. clear H.
    inversion H4 as [|? ? ? s5 lg6 ? R5 H5]; subst. clear H4. apply runs_app in H5 as (lg7 & s6 & lg8 & _ & R6 & H).
    inversion H as [|? ? ? s7 lg9 ? R7 H7]; subst. clear H. apply run_one in H7 as [R8 _].
    pose proof (quiet_run e pre s lg1 s1 Q1 R1) as K1. pose proof (quiet_run e steer s2 lg3 s3 Q2 R3) as K3.
    assert (P1 : map still (s_agents s1) = map still (s_agents s)) by (apply (f_equal (map fst)) in K1; rewrite !map_map in K1; exact K1).
    assert (P2 : map still (s_agents s2) = map still (s_agents s1)) by (apply (node_keeps still e Fluctuation s1 s2); auto; intros c; now apply plain_still).
    assert (P3 : map still (s_agents s3) = map still (s_agents s2)) by (apply (f_equal (map fst)) in K3; rewrite !map_map in K3; exact K3).
    assert (P4 : map still (s_agents s4) = map still (s_agents s3)) by (apply (node_keeps still e Adjusting s3 s4); auto; intros c; now apply plain_still).
    assert (P5 : map still (s_agents s5) = map still (s_agents s4)) by (apply (node_keeps still e (AgentAgentInteractions aa_node_default) s4 s5); auto; intros c; now apply plain_still).
    assert (P6 : map still (s_agents s6) = map still (s_agents s5)).
    { apply (run_keeps still e post s5 lg7 s6 R6). intros m c Hm. rewrite (Q3 m Hm). now apply plain_still. }
    assert (B2 : map still (s_agents s2) = map still (s_agents s)) by congruence. assert (B4 : map still (s_agents s4) = map still (s_agents s)) by congruence.
    assert (B5 : map still (s_agents s5) = map still (s_agents s)) by congruence.
    destruct (at_index _ _ _ i a K1 Ha) as (a1 & N1 & E1).
    destruct (fluctuate_at e s1 s2 i a1 R2 N1) as (a2 & d & N2 & Ed & E2). destruct (at_index _ _ _ i a1 P2 N1) as (a2' & N2' & S2). rewrite N2 in N2'. injection N2' as <-.
    destruct (at_index _ _ _ i a2 K3 N2) as (a3 & N3 & E3).
    destruct (adjust_at e s3 s4 i a3 R4 N3) as (a4 & N4 & E4). destruct (at_index _ _ _ i a3 P4 N3) as (a4' & N4' & S4). rewrite N4 in N4'. injection N4' as <-.
    destruct (aa_at e s4 s5 i a4 n R5 G N4 (radii_same _ _ B4 RR) (touch_same _ _ _ _ B4 TN) (company_same _ _ _ _ _ B4 C)) as (a5 & f & N5 & E5 & L5).
    destruct (at_index _ _ _ i a4 P5 N4) as (a5' & N5' & S5). rewrite N5 in N5'. injection N5' as <-.
    pose proof (walls_run e post i a5 Q3 s5 lg7 s6 R6 N5 (wall_same _ _ _ _ _ B5 TW)) as N6.
    destruct (integrator_at e s6 s7 i a5 R7 N6) as (M5 & N7 & _).
    assert (N8 : nth_error (s_agents s') i = Some (reset_row (e_kind e) (moved_row (e_kind e) DT a5))).
    { cbn [run_node] in R8. injection R8 as <-. cbn [s_agents with_agents]. now rewrite nth_error_map, N7. }
    (* the direction at the time of adjusting is the one of the end *)
    assert (DIR : a_target_direction (reset_row (e_kind e) (moved_row (e_kind e) DT a5)) = a_target_direction a3).
    { assert (X : forall y, a_target_direction (reset_row (e_kind e) (moved_row (e_kind e) DT y)) = a_target_direction y) by (intros y; unfold reset_row, moved_row; destruct (e_kind e); reflexivity).
      rewrite X.
      assert (Y4 : map a_target_direction (s_agents s4) = map a_target_direction (s_agents s3)) by (apply (node_keeps a_target_direction e Adjusting s3 s4); auto; intros c Hc; cbn in Hc; repeat (destruct Hc as [<-|Hc]; [now intros ? ?|]); destruct Hc).
      assert (Y5 : map a_target_direction (s_agents s5) = map a_target_direction (s_agents s4)) by (apply (node_keeps a_target_direction e (AgentAgentInteractions aa_node_default) s4 s5); auto; intros c Hc; cbn in Hc; repeat (destruct Hc as [<-|Hc]; [now intros ? ?|]); destruct Hc).
      destruct (at_index _ _ _ i _ Y4 N3) as (z & Z4 & W4). rewrite N4 in Z4. injection Z4 as <-. destruct (at_index _ _ _ i _ Y5 N4) as (z & Z5 & W5). rewrite N5 in Z5. injection Z5 as <-. congruence. }
    unfold still in E1, E3, S2, S4, S5.
    injection E1 as Xa Va Fpa Ma Ta Sa Wa Ra Rta _ _ _ Fa. injection E3 as Xc Vc Fpc Mc Tc Sc Wc Rc Rtc _ _ _ Fc.
    injection S2 as Xb Vb Fpb Mb Tb Sb Wb Rb Rtb _ _ _. injection S4 as Xd Vd Fpd Md Td Sd Wd Rd Rtd _ _ _. injection S5 as X5 V5 Fp5 M5' T5 Sx5 W5 Rx5 Rt5 _ _ _.
    set (xi := vadd (noise_of a d) (vscale (/ a_mass a) f)).
    exists (reset_row (e_kind e) (moved_row (e_kind e) DT a5)), xi. split; [exact N8|]. split.
    { unfold xi. eapply Rle_trans; [apply vlength_triangle|]. apply Rplus_le_compat.
      - apply noise_bound; auto. rewrite Ed. apply FD.
      - rewrite vlength_scale, Rabs_pos_eq by (left; now apply Rinv_0_lt_compat). unfold Rdiv. rewrite (Rmult_comm (/ _)). apply Rmult_le_compat_r; auto. left. now apply Rinv_0_lt_compat. }
    cbv zeta. rewrite DIR.
    assert (FF : a_force a5 = vscale (a_mass a) (vadd xi (vscale (/ a_tau_adj a) (vsub (vscale (a_target_velocity a) (a_target_direction a3)) (a_velocity a))))).
    { rewrite E5, E4, Fc, E2, Fa, F0. unfold xi, noise_of, force_fluctuation1. replace (a_mass a3) with (a_mass a) by congruence. replace (a_tau_adj a3) with (a_tau_adj a) by congruence.
      replace (a_velocity a3) with (a_velocity a) by congruence. replace (a_target_velocity a3) with (a_target_velocity a) by congruence.
      rewrite Ma, Sa. unfold Rdiv. generalize (/ a_tau_adj a) as it. intros it. destruct f, (a_velocity a), (a_target_direction a3). veq; field; lra. }
    assert (MV : forall y, a_force_prev (reset_row (e_kind e) (moved_row (e_kind e) DT y)) = a_force y /\ a_force (reset_row (e_kind e) (moved_row (e_kind e) DT y)) = V 0 0 /\
      a_velocity (reset_row (e_kind e) (moved_row (e_kind e) DT y)) = vadd (a_velocity y) (vscale DT (vdiv (vadd (vdiv (a_force_prev y) (a_mass y)) (vdiv (a_force y) (a_mass y))) 2)) /\
      a_position (reset_row (e_kind e) (moved_row (e_kind e) DT y)) = vadd (a_position y) (vadd (vscale DT (a_velocity (reset_row (e_kind e) (moved_row (e_kind e) DT y)))) (vscale (DT * DT) (vdiv (vdiv (a_force y) (a_mass y)) 2))) /\
      a_mass (reset_row (e_kind e) (moved_row (e_kind e) DT y)) = a_mass y /\ a_tau_adj (reset_row (e_kind e) (moved_row (e_kind e) DT y)) = a_tau_adj y /\
      a_std_rand_force (reset_row (e_kind e) (moved_row (e_kind e) DT y)) = a_std_rand_force y /\ a_target_velocity (reset_row (e_kind e) (moved_row (e_kind e) DT y)) = a_target_velocity y /\
      a_radius (reset_row (e_kind e) (moved_row (e_kind e) DT y)) = a_radius y /\ a_r_t (reset_row (e_kind e) (moved_row (e_kind e) DT y)) = a_r_t y).
    { intros y. unfold reset_row, moved_row. destruct (e_kind e); repeat split. }
    specialize (MV a5). destruct MV as (V1 & V2 & V3 & V4 & V6 & V7 & V8 & V9 & V10 & V11).
    set (acc := vadd xi (vscale (/ a_tau_adj a) (vsub (vscale (a_target_velocity a) (a_target_direction a3)) (a_velocity a)))) in *.
    assert (M5a : a_mass a5 = a_mass a) by congruence.
    assert (AC : vdiv (a_force a5) (a_mass a5) = acc) by (rewrite FF, M5a; destruct acc; veq; field; lra).
    rewrite AC in V3, V4.
    split; [rewrite V1; exact FF|]. split; [exact V2|]. split.
    { rewrite V3. replace (a_velocity a5) with (a_velocity a) by congruence. replace (a_force_prev a5) with (a_force_prev a) by congruence. rewrite M5a.
      destruct acc, (a_velocity a), (a_force_prev a). veq; field; lra. }
    split. { rewrite V4. replace (a_position a5) with (a_position a) by congruence. destruct acc, (a_position a), (a_velocity (reset_row (e_kind e) (moved_row (e_kind e) DT a5))). veq; field. }
    repeat split; congruence.
  Qed.
End Update.

(** ** Runs *)
Section Track.
  Variable tau : R.
  Definition track1 (p : vec * vec) (xi : vec) : vec * vec :=
    let g := vsub xi (vscale (/ tau) (fst p)) in (vadd (fst p) (vscale (DT / 2) (vadd (snd p) g)), g).
  Fixpoint track (p : vec * vec) (xi : nat -> vec) (n : nat) : vec * vec :=
    match n with O => p | S n => track (track1 p (xi 0%nat)) (fun m => xi (S m)) n end.
  Lemma track_end n : forall p xi, track p xi (S n) = track1 (track p xi n) (xi n).
  Proof. induction n as [|n IH]; intros p xi; [reflexivity|]. cbn [track] in *. apply (IH (track1 p (xi 0%nat)) (fun m => xi (S m))). Qed.
  Lemma track_bound B v xi : DT <= tau -> 0 <= B -> (forall n, vlength (xi n) <= B) -> forall n,
    vlength (fst (track (v, V 0 0) xi n)) <= course_bound tau B (vlength v) n.
  Proof.
    intros T HB HX n.
    apply (stays_on_course tau B (fun n => fst (track (v, V 0 0) xi n)) (fun n => snd (track (v, V 0 0) xi n)) xi T HB HX); try reflexivity; intros m; rewrite track_end; reflexivity.
  Qed.
End Track.
Section Runs.
  Variables (e : env) (x : expr node) (pre steer post : list node).
  Hypothesis Hx : written_order x = pre ++ Fluctuation :: steer ++ Adjusting :: AgentAgentInteractions aa_node_default :: post ++ [integrator; Reset].
  Hypothesis Q1 : forall n, In n pre -> quiet n.
  Hypothesis Q2 : forall n, In n steer -> quiet n.
  Hypothesis Q3 : forall n, In n post -> n = AgentObstacleInteractions.
  Hypothesis G : forall ps c, good_enumeration ps c (e_enum e ps c).
  Hypothesis FD : fair_draws (e_draws e).
  Hypothesis M : maps_of_directions e.
  Definition free (i n : nat) (s : sim) : Prop :=
    touches_nobody (e_kind e) (s_agents s) i /\ touches_no_wall (e_kind e) (e_obstacles e) (s_agents s) i /\ company (e_kind e) (s_agents s) i n.
  Definition sound (s : sim) : Prop := Forall directed (s_agents s) /\ Forall (fun a => 0 <= a_radius a) (s_agents s).
  Definition same_person (a b : agent) : Prop :=
    a_mass b = a_mass a /\ a_tau_adj b = a_tau_adj a /\ a_std_rand_force b = a_std_rand_force a /\ a_target_velocity b = a_target_velocity a /\ a_radius b = a_radius a /\ a_r_t b = a_r_t a.
  Lemma same_limit a b n : same_person a b -> push_limit b n = push_limit a n.
  Proof. intros (E1 & E2 & E3 & E4 & _). unfold push_limit. now rewrite E1, E2, E3, E4. Qed.
  Lemma pull_bound a n xi d : 0 <= a_target_velocity a -> 0 < a_tau_adj a -> vlength d <= 1 -> vlength xi <= 3 * a_std_rand_force a + INR n * 2000 / a_mass a ->
    vlength (vadd xi (vscale (a_target_velocity a / a_tau_adj a) d)) <= push_limit a n.
  Proof.
    intros VP T D X. eapply Rle_trans; [apply vlength_triangle|]. rewrite vlength_scale. assert (0 <= a_target_velocity a / a_tau_adj a) by (apply Rmult_le_pos; [auto|left; now apply Rinv_0_lt_compat]).
    rewrite Rabs_pos_eq by auto. unfold push_limit. pose proof (vlength_nonneg d). nra.
  Qed.
  Lemma updates_track s dts s' i n : updates e x s dts s' -> sound (fst s) -> (forall dts' t, (length dts' < length dts)%nat -> updates e x s dts' t -> free i n (fst t)) ->
    forall a, nth_error (s_agents (fst s)) i = Some a -> 0 < a_mass a -> 0 < a_tau_adj a -> 0 <= a_std_rand_force a -> 0 <= a_target_velocity a -> a_force a = V 0 0 ->
    sound (fst s') /\ exists b xi, nth_error (s_agents (fst s')) i = Some b /\ a_force b = V 0 0 /\ same_person a b /\ (forall m, vlength (xi m) <= push_limit a n) /\
      (a_velocity b, vdiv (a_force_prev b) (a_mass b)) = track (a_tau_adj a) (a_velocity a, vdiv (a_force_prev a) (a_mass a)) xi (length dts).
  Proof.
    induction 1 as [s|[s k] [s1 k1] dts s' U R IH]; intros SO FR a Ha MP TP SP VP F0.
    { split; auto. exists a, (fun _ => V 0 0). repeat split; auto. intros _. replace (vlength (V 0 0)) with 0 by (symmetry; now apply vlength_zero).
      unfold push_limit. assert (0 < / a_tau_adj a) by now apply Rinv_0_lt_compat. assert (0 < / a_mass a) by now apply Rinv_0_lt_compat. pose proof (pos_INR n). 
      assert (0 <= a_target_velocity a / a_tau_adj a) by (apply Rmult_le_pos; lra). assert (0 <= INR n * 2000 / a_mass a) by (apply Rmult_le_pos; lra). lra. }
    cbn [fst length] in *. destruct (FR [] (s, k) ltac:(cbn; lia) (updates_none _ _ _)) as (F1 & F2 & F3). cbn [fst] in F1, F2, F3. destruct SO as [SD SR].
    destruct (update_row e x pre steer post Hx Q1 Q2 Q3 G FD M s k s1 k1 i a n U SD SR Ha F1 F2 F3 MP SP F0) as (D1 & R1 & b & xi & Hb & LX & PF & BF & BV & BP & B1 & B2 & B3 & B4 & B5 & B6).
    destruct (IH (conj D1 R1)) with (a := b) as (SO' & c & xs & Hc & CF & CS & CX & CT); auto; try congruence.
    { intros dts' t L T. apply (FR (s_dt s1 :: dts') t); [cbn; lia|]. change (s_dt s1) with (s_dt (fst (s1, k1))). econstructor; eauto. }
    split; auto. assert (SB : same_person a b) by (repeat split; auto).
    assert (DB : vlength (a_target_direction b) <= 1) by (rewrite Forall_forall in D1; apply (D1 b), (nth_error_In _ _ Hb)).
    exists c, (fun m => match m with O => vadd xi (vscale (a_target_velocity a / a_tau_adj a) (a_target_direction b)) | S m => xs m end).
    split; auto. split; auto. split. { destruct CS as (? & ? & ? & ? & ? & ?). repeat split; congruence. }
    split. { intros [|m]; [|rewrite <- (same_limit a b n SB); apply CX]. apply pull_bound; auto. }
    rewrite B2 in CT. rewrite CT. cbn [length track]. f_equal. unfold track1. cbn [fst snd].
    assert (GE : vdiv (a_force_prev b) (a_mass b) = vsub (vadd xi (vscale (a_target_velocity a / a_tau_adj a) (a_target_direction b))) (vscale (/ a_tau_adj a) (a_velocity a))).
    { rewrite PF, B1. destruct xi, (a_target_direction b), (a_velocity a). veq; field; lra. }
    rewrite GE. f_equal. rewrite BV. f_equal. f_equal. f_equal. destruct xi, (a_target_direction b), (a_velocity a). veq; field; lra.
  Qed.
  Lemma updates_limit s dts s' i n a : updates e x s dts s' -> sound (fst s) -> (forall dts' t, (length dts' < length dts)%nat -> updates e x s dts' t -> free i n (fst t)) ->
    nth_error (s_agents (fst s)) i = Some a -> walker (e_kind e) a ->
    sound (fst s') /\ exists b, nth_error (s_agents (fst s')) i = Some b /\ same_person a b /\ a_force b = V 0 0 /\
      elen (a_velocity b) <= course_bound (a_tau_adj a) (push_limit a n) (elen (a_velocity a)) (length dts).
  Proof.
    intros U SO FR Ha ((F & P & MP & T & SN & K) & VP & Rd).
    destruct (updates_track s dts s' i n U SO FR a Ha MP ltac:(lra) SN VP F) as (SO' & b & xi & Hb & BF & SP & X & E).
    split; auto. exists b. split; auto. split; auto. split; auto. rewrite !elen_vlength.
    replace (a_velocity b) with (fst (track (a_tau_adj a) (a_velocity a, V 0 0) xi (length dts))).
    - apply track_bound; auto. eapply Rle_trans; [|apply (X 0%nat)]. apply vlength_nonneg.
    - replace (V 0 0) with (vdiv (a_force_prev a) (a_mass a)) by (rewrite P; veq; field; lra). rewrite <- E. reflexivity.
  Qed.
  Lemma push_limit_nonneg a n : walker (e_kind e) a -> 0 <= push_limit a n.
  Proof.
    intros ((F & P & MP & T & SN & K) & VP & Rd). unfold push_limit. assert (0 < / a_tau_adj a) by (apply Rinv_0_lt_compat; lra). assert (0 < / a_mass a) by now apply Rinv_0_lt_compat. pose proof (pos_INR n). 
    assert (0 <= a_target_velocity a / a_tau_adj a) by (apply Rmult_le_pos; lra). assert (0 <= INR n * 2000 / a_mass a) by (apply Rmult_le_pos; lra). lra.
  Qed.
  Lemma course_below a n m : walker (e_kind e) a -> course_bound (a_tau_adj a) (push_limit a n) (elen (a_velocity a)) m <= speed_limit a n.
  Proof.
    intros W. pose proof (push_limit_nonneg a n W) as PL. destruct W as ((F & P & MP & T & SN & K) & VP & Rd). unfold course_bound, speed_limit. cbv zeta. apply Rplus_le_compat_r.
    pose proof (q_range (a_tau_adj a) T) as Q. pose proof (vlength_nonneg (a_velocity a)) as VN. rewrite <- elen_vlength in VN.
    set (h := DT / a_tau_adj a) in *. assert (0 <= 1 - h + h ^ 2 / 2 <= 1) by (split; nra).
    assert (0 <= (1 - h + h ^ 2 / 2) ^ (m / 3) <= 1). { split; [apply pow_le; lra|]. pose proof (pow_incr (1 - h + h ^ 2 / 2) 1 (m / 3) ltac:(lra)) as PI'. now rewrite pow1 in PI'. }
    assert (0 <= elen (a_velocity a) + 2 * DT * push_limit a n) by nra. nra.
  Qed.
  Lemma updates_snoc s dts s1 s2 : updates e x s dts s1 -> simulation_update e x s1 = (s2, None) -> updates e x s (dts ++ [s_dt (fst s2)]) s2.
  Proof using. induction 1 as [t|t t1 ds t' HU HR IH]; intros U; cbn [app]; [econstructor; eauto; constructor|econstructor; eauto]. Qed.
  (** A step within such a run. *)
  Lemma stride s dts s1 s2 i n a : updates e x s dts s1 -> simulation_update e x s1 = (s2, None) -> sound (fst s) ->
    (forall dts' t, (length dts' <= length dts)%nat -> updates e x s dts' t -> free i n (fst t)) ->
    nth_error (s_agents (fst s)) i = Some a -> walker (e_kind e) a ->
    exists b c, nth_error (s_agents (fst s1)) i = Some b /\ nth_error (s_agents (fst s2)) i = Some c /\ same_person a b /\ edist (a_position b) (a_position c) <= stride_limit a n.
  Proof.
    intros U U2 SO FR Ha W. pose proof (push_limit_nonneg a n W) as PL.
    destruct (updates_limit s dts s1 i n a U SO ltac:(intros; apply (FR dts'); auto; lia) Ha W) as ([D1 R1] & b & Hb & SP & BF & BV).
    destruct (updates_limit s (dts ++ [s_dt (fst s2)]) s2 i n a (updates_snoc s dts s1 s2 U U2) SO) as (_ & c & Hc & _ & _ & CV); auto.
    { intros dts' t L T. apply (FR dts'); auto. rewrite app_length in L. cbn in L. lia. }
    destruct s1 as [s1 k1], s2 as [s2 k2]. cbn [fst] in *. destruct (FR dts (s1, k1) (le_n _) U) as (F1 & F2 & F3). cbn [fst] in F1, F2, F3.
    assert (SP' := SP). destruct SP' as (E1 & E2 & E3 & E4 & _). assert (WW := W). destruct WW as ((F & P & MP & T & SN & K) & VP & Rd).
    destruct (update_row e x pre steer post Hx Q1 Q2 Q3 G FD M s1 k1 s2 k2 i b n U2 D1 R1 Hb F1 F2 F3) as (D2 & R2 & c' & xi & Hc' & LX & PF & CF & CV' & CP & _); try congruence.
    rewrite Hc in Hc'. injection Hc' as <-. exists b, c. split; auto. split; auto. split; auto.
    set (acc := vadd xi _) in *. pose proof (course_below a n (length dts) W) as L1. pose proof (course_below a n (length (dts ++ [s_dt s2])) W) as L2.
    assert (DB : vlength (a_target_direction c) <= 1) by (rewrite Forall_forall in D2; apply (D2 c), (nth_error_In _ _ Hc)).
    assert (IT : 0 < / a_tau_adj a) by (apply Rinv_0_lt_compat; lra).
    assert (AB : vlength acc <= push_limit a n + speed_limit a n / a_tau_adj a).
    { replace acc with (vadd (vadd xi (vscale (a_target_velocity b / a_tau_adj b) (a_target_direction c))) (vscale (- / a_tau_adj a) (a_velocity b))).
      - eapply Rle_trans; [apply vlength_triangle|]. apply Rplus_le_compat.
        + rewrite <- (same_limit a b n SP). apply pull_bound; auto; rewrite ?E2, ?E4; lra.
        + rewrite vlength_scale, Rabs_Ropp, Rabs_pos_eq by lra. rewrite <- elen_vlength. unfold Rdiv. rewrite Rmult_comm. apply Rmult_le_compat_r; lra.
      - unfold acc. rewrite E2. unfold Rdiv. generalize (/ a_tau_adj a). intros it. destruct xi, (a_target_direction c), (a_velocity b). veq; ring. }
    rewrite edist_sym. replace (edist (a_position c) (a_position b)) with (vlength (vadd (vscale DT (a_velocity c)) (vscale (DT ^ 2 / 2) acc))).
    - eapply Rle_trans; [apply vlength_triangle|]. rewrite !vlength_scale, !Rabs_pos_eq by lra. unfold stride_limit. rewrite elen_vlength in CV. apply Rplus_le_compat; apply Rmult_le_compat_l; lra.
    - rewrite CP. unfold edist, vlength. f_equal. destruct (a_position b), (a_velocity c), acc. vunfold. ring.
  Qed.
End Runs.
