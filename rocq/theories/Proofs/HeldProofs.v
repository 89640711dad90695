(** Proofs about a single walker at a wall. *)
From Coq Require Import Lra Lia Psatz.
From Verif Require Import Proofs.IntegratorProofs Proofs.InteractionProofs Proofs.SimulationMore Proofs.DistanceProofs.
From Verif Require Export Proofs.SpeedRuns Proofs.HeldStep Spec.Held.
From Verif Require Import Spec.Touches.
Open Scope R_scope.

(** ** The force of the wall *)
Lemma abs_between y z : Rabs y <= z -> - z <= y <= z.
Proof. unfold Rabs. destruct (Rcase_abs y); lra. Qed.
Section Wall.
  Variables (o : obstacle) (sg : R).
  Hypothesis Ho : p0 o <> p1 o.
  Hypothesis Hs : sg = 1 \/ sg = -1.
  (** The unit normal, towards the side [sg]. *)
  Definition normal : vec := vscale sg (rotate90 (vdiv (vsub (p1 o) (p0 o)) (vlength (vsub (p1 o) (p0 o))))).
  Lemma wall_length : 0 < vlength (vsub (p1 o) (p0 o)) /\ edist (p0 o) (p1 o) = vlength (vsub (p1 o) (p0 o)).
  Proof.
    split.
    - destruct (vlength_nonneg (vsub (p1 o) (p0 o))) as [H|H]; auto. symmetry in H. apply vlength_zero in H. exfalso. apply Ho.
      destruct (p0 o), (p1 o). unfold vsub in H. cbn in H. injection H as H1 H2. f_equal; lra.
    - rewrite edist_sym. unfold edist, vlength. f_equal.
  Qed.
  Lemma off_normal x : sg * off o x = dot normal (vsub x (p0 o)).
  Proof.
    destruct wall_length as [L E]. unfold off, normal. rewrite E. set (l := vlength _) in *. unfold dot. clearbody l. destruct (p0 o), (p1 o), x. cbn. field. lra.
  Qed.
  Lemma normal_unit : dot normal normal = 1.
  Proof.
    destruct wall_length as [L E]. unfold normal. pose proof (vlength_sq (vsub (p1 o) (p0 o))) as Q. set (l := vlength _) in *. unfold dot in *.
    assert (S2 : sg * sg = 1) by (destruct Hs as [->| ->]; ring).
    destruct (p0 o) as [x0 y0], (p1 o) as [x1 y1]. cbn in *. transitivity (sg * sg * ((x1 - x0) * (x1 - x0) + (y1 - y0) * (y1 - y0)) / (l * l)); [field; lra|]. rewrite S2.
    rewrite <- Q. field. lra.
  Qed.
  (** Beside the wall and on the side [sg], the distance is the one from the line. *)
  Lemma beside_distance x r : beside o x -> 0 < sg * off o x -> distance_circle_line x r (p0 o) (p1 o) = Some (sg * off o x - r, normal).
  Proof.
    intros (q & (t & T & ->) & PE) P. pose proof (off_normal x) as ON. destruct wall_length as [L E]. unfold distance_circle_line. cbv zeta.
    pose proof (vlength_sq (vsub (p1 o) (p0 o))) as Q.
    unfold normal in *. set (l := vlength (vsub (p1 o) (p0 o))) in *. rewrite (proj2 (Reqb_false l 0)) by lra.
    assert (LT : - dot (vdiv (vsub (p1 o) (p0 o)) l) (vsub x (p1 o)) - dot (vdiv (vsub (p1 o) (p0 o)) l) (vsub x (p0 o)) = l - 2 * t * l).
    { clearbody l. unfold along, dot in *. destruct (p0 o) as [x0 y0], (p1 o) as [x1 y1], x as [a b]. cbn in *.
      apply (Rmult_eq_reg_l l); [|lra]. transitivity (- ((x1 - x0) * (a - x1) + (y1 - y0) * (b - y1)) - ((x1 - x0) * (a - x0) + (y1 - y0) * (b - y0))); [field; lra|].
      replace (l * (l - 2 * t * l)) with ((1 - 2 * t) * (l * l)) by ring. rewrite Q. nra. }
    rewrite LT. rewrite (proj2 (Rltb_false l _)) by nra. rewrite (proj2 (Rltb_false _ (- l))) by nra.
    assert (D : dot (rotate90 (vdiv (vsub (p1 o) (p0 o)) l)) (vsub x (p0 o)) = sg * (sg * off o x)).
    { rewrite ON. destruct Hs as [->| ->]; unfold dot; cbn; ring. }
    rewrite D. f_equal. f_equal.
    - f_equal. destruct Hs as [-> | ->]; [rewrite Rabs_pos_eq by lra; ring|rewrite Rabs_left by lra; ring].
    - f_equal. unfold rsign. destruct Hs as [-> | ->].
      + now rewrite (proj2 (Rltb_true 0 _)) by lra.
      + rewrite (proj2 (Rltb_false 0 _)) by lra. now rewrite (proj2 (Rltb_true _ 0)) by lra.
  Qed.
  (** Its push along the normal. *)
  Lemma wall_normal a : beside o (a_position a) -> 0 < sg * off o (a_position a) ->
    dot normal (fst (wall_push Circular a o)) =
      if Rlt_dec 0 (a_radius a - sg * off o (a_position a)) then a_mu a * (a_radius a - sg * off o (a_position a)) + a_damping a * dot normal (a_velocity a) else 0.
  Proof.
    intros B P. unfold wall_push. rewrite beside_distance by auto. pose proof normal_unit as U. set (n := normal) in *. set (d := sg * off o (a_position a)) in *. clearbody n d.
    destruct (Rlt_dec 0 (a_radius a - d)) as [H|H].
    - rewrite (proj2 (Rltb_true _ 0)) by lra. cbn [fst]. unfold force_contact. destruct n as [n1 n2], (a_velocity a) as [v1 v2]. unfold dot, rotate270 in *. cbn in *.
      transitivity (- (d - a_radius a) * a_mu a * (n1 * n1 + n2 * n2) + a_damping a * (v1 * n1 + v2 * n2) * (n1 * n1 + n2 * n2)); [ring|]. rewrite U. ring.
    - rewrite (proj2 (Rltb_false _ 0)) by lra. cbn. unfold dot. cbn. ring.
  Qed.
  (** ... and along the wall. *)
  Definition tangent : vec := rotate270 normal.
  Lemma tangent_unit : dot tangent tangent = 1.
  Proof. pose proof normal_unit as U. unfold tangent. set (n := normal) in *. clearbody n. unfold rotate270, dot in *. destruct n. cbn in *. lra. Qed.
  Lemma wall_tangent a : beside o (a_position a) -> 0 < sg * off o (a_position a) ->
    dot tangent (fst (wall_push Circular a o)) =
      - (if Rlt_dec 0 (a_radius a - sg * off o (a_position a)) then a_kappa a * (a_radius a - sg * off o (a_position a)) else 0) * dot tangent (a_velocity a).
  Proof.
    intros B P. unfold wall_push. rewrite beside_distance by auto. pose proof normal_unit as U. unfold tangent. set (n := normal) in *. set (d := sg * off o (a_position a)) in *. clearbody n d.
    destruct (Rlt_dec 0 (a_radius a - d)) as [H|H].
    - rewrite (proj2 (Rltb_true _ 0)) by lra. cbn [fst]. unfold force_contact. destruct n as [n1 n2], (a_velocity a) as [v1 v2]. unfold dot, rotate270 in *. cbn in *.
      transitivity ((d - a_radius a) * a_kappa a * (v1 * n2 + v2 * - n1) * (n1 * n1 + n2 * n2)); [ring|]. rewrite U. ring.
    - rewrite (proj2 (Rltb_false _ 0)) by lra. cbn. unfold dot. cbn. ring.
  Qed.
  Lemma beside_moved D x y : well_beside o D x -> Rabs (dot tangent y - dot tangent x) <= D -> beside o y.
  Proof.
    intros (q & (t & T & ->) & PE & D0 & D1) A. apply abs_between in A. destruct wall_length as [L E].
    pose proof (vlength_sq (vsub (p1 o) (p0 o))) as Q. unfold tangent, normal in A. set (l := vlength (vsub (p1 o) (p0 o))) in *.
    assert (E0 : edist (along (p0 o) (p1 o) t) (p0 o) = t * l).
    { unfold l. rewrite <- (Rabs_pos_eq t) at 2 by lra. rewrite <- vlength_scale. unfold edist, vlength, along. destruct (p0 o), (p1 o). cbn. f_equal. ring. }
    assert (E1 : edist (along (p0 o) (p1 o) t) (p1 o) = (1 - t) * l).
    { unfold l. rewrite <- (Rabs_pos_eq (1 - t)) by lra. rewrite <- vlength_scale. unfold edist, vlength, along. destruct (p0 o), (p1 o). cbn. f_equal. ring. }
    rewrite E0 in D0. rewrite E1 in D1. clear E0 E1. clearbody l. unfold along in PE.
    set (m := ((vx y - vx x) * (vx (p1 o) - vx (p0 o)) + (vy y - vy x) * (vy (p1 o) - vy (p0 o))) / l).
    assert (MM : - D <= m <= D).
    { unfold m. clear - A L Hs. destruct (p0 o) as [x0 y0], (p1 o) as [x1 y1], x as [a b], y as [c d]. unfold dot, rotate270, rotate90, vscale, vdiv, vsub in A. cbn in *.
      replace (((c - a) * (x1 - x0) + (d - b) * (y1 - y0)) / l) with ((c - a) * ((x1 - x0) / l) + (d - b) * ((y1 - y0) / l)) by (field; lra).
      destruct Hs as [-> | ->]; lra. }
    exists (along (p0 o) (p1 o) (t + m / l)). split.
    - exists (t + m / l). split; auto. assert (X : m / l * l = m) by (field; lra). split.
      + apply (Rmult_le_reg_r l); auto. lra.
      + apply (Rmult_le_reg_r l); auto. lra.
    - assert (X : m * l = (vx y - vx x) * (vx (p1 o) - vx (p0 o)) + (vy y - vy x) * (vy (p1 o) - vy (p0 o))) by (unfold m; field; lra). clearbody m.
      assert (X' : m / l * (l * l) = m * l) by (field; lra). rewrite Q in X'. unfold along. destruct (p0 o) as [x0 y0], (p1 o) as [x1 y1], x as [a b], y as [c d]. cbn in *. lra.
  Qed.
End Wall.

(** ** One update *)
Definition traits (a : agent) := (a_mu a, a_kappa a, a_damping a).
Lemma traits_node e n s s' : run_node e n s = Ok s' -> map traits (s_agents s') = map traits (s_agents s).
Proof. intros H. apply (node_keeps traits e n s s'); auto. intros c Hc. destruct n; cbn in Hc; repeat (destruct Hc as [<-|Hc]; [now intros ? ?|]); destruct Hc. Qed.
Lemma traits_run e l s log s' : runs e l s log s' -> map traits (s_agents s') = map traits (s_agents s).
Proof. induction 1 as [|n l s s1 log s' H R IH]; auto. rewrite IH. exact (traits_node e n s s1 H). Qed.
Lemma walls_same a b obs : a_position a = a_position b -> a_velocity a = a_velocity b -> a_radius a = a_radius b -> traits a = traits b ->
  walls_push Circular a obs = walls_push Circular b obs.
Proof.
  unfold traits. intros E1 E2 E3 [= E4 E5 E6]. unfold walls_push. induction obs as [|o obs IH]; [reflexivity|]. cbn [fold_right]. rewrite IH. f_equal.
  unfold wall_push. now rewrite E1, E2, E3, E4, E5, E6.
Qed.
Lemma nobody_touches k l i : company k l i 0 -> touches_nobody k l i.
Proof.
  intros C a j b Ha Hb N (c & d & Hc & Hd & G). specialize (C [j]). cbn in C. assert (L : (1 <= 0)%nat); [|lia]. apply C.
  - constructor; [intros []|constructor].
  - intros j' [<-|[]]. split; auto. exists a, b, c, d. repeat split; auto. lra.
Qed.

Section Update.
  Variables (e : env) (x : expr node) (pre steer : list node).
  Hypothesis Hx : written_order x = pre ++ Fluctuation :: steer ++ Adjusting :: AgentAgentInteractions aa_node_default :: AgentObstacleInteractions :: [integrator; Reset].
  Hypothesis Q1 : forall n, In n pre -> quiet n.
  Hypothesis Q2 : forall n, In n steer -> quiet n.
  Hypothesis K : e_kind e = Circular.
  Hypothesis G : forall ps c, good_enumeration ps c (e_enum e ps c).
  Hypothesis FD : fair_draws (e_draws e).
  Hypothesis M : maps_of_directions e.
  Lemma update_at_wall s k s' k' i a : simulation_update e x (s, k) = ((s', k'), None) ->
    Forall directed (s_agents s) -> Forall (fun a => 0 <= a_radius a) (s_agents s) -> nth_error (s_agents s) i = Some a ->
    company (e_kind e) (s_agents s) i 0 -> 0 < a_mass a -> 0 <= a_std_rand_force a -> a_force a = V 0 0 ->
    Forall directed (s_agents s') /\ Forall (fun a => 0 <= a_radius a) (s_agents s') /\ exists b xi, nth_error (s_agents s') i = Some b /\
      vlength xi <= 3 * a_std_rand_force a /\
      let acc := vadd (vadd xi (vscale (/ a_mass a) (fst (walls_push Circular a (e_obstacles e)))))
                      (vscale (/ a_tau_adj a) (vsub (vscale (a_target_velocity a) (a_target_direction b)) (a_velocity a))) in
      a_force_prev b = vscale (a_mass a) acc /\ a_force b = V 0 0 /\
      a_velocity b = vadd (a_velocity a) (vscale (DT / 2) (vadd (vdiv (a_force_prev a) (a_mass a)) acc)) /\
      a_position b = vadd (a_position a) (vadd (vscale DT (a_velocity b)) (vscale (DT ^ 2 / 2) acc)) /\
      a_mass b = a_mass a /\ a_tau_adj b = a_tau_adj a /\ a_std_rand_force b = a_std_rand_force a /\ a_target_velocity b = a_target_velocity a /\
      a_radius b = a_radius a /\ traits b = traits a.
  Proof.
    intros U D RR Ha C MP SP F0. apply update_runs in U as [_ [log H]].
    assert (DD : Forall directed (s_agents s')) by (exact (run_directed e _ _ _ _ M H D)).
    assert (RR' : Forall (fun a => 0 <= a_radius a) (s_agents s')).
    { assert (Kr : map a_radius (s_agents s') = map a_radius (s_agents s)).
      { apply (run_keeps a_radius e _ _ _ _ H). intros m c _ Hc. destruct m; cbn in Hc; repeat (destruct Hc as [<-|Hc]; [now intros ? ?|]); destruct Hc. }
      rewrite Forall_forall in *. intros b Hb. apply (in_map a_radius) in Hb. rewrite Kr in Hb. apply in_map_iff in Hb as (b0 & <- & Hb). auto. }
    split; auto. split; auto. pose proof (traits_run e _ _ _ _ H) as TR.
    rewrite Hx in H. apply runs_app in H as (lg1 & s1 & lg & _ & R1 & H). inversion H as [|? ? ? s2 lg2 ? R2 H2]; subst. clear H.
    apply runs_app in H2 as (lg3 & s3 & lg4 & _ & R3 & H). inversion H as [|? ? ? s4 lg5 ? R4 H4]; subst. clear H.
    inversion H4 as [|? ? ? s5 lg6 ? R5 H5]; subst. clear H4. inversion H5 as [|? ? ? s6 lg7 ? R6 H]; subst. clear H5.
    inversion H as [|? ? ? s7 lg9 ? R7 H7]; subst. clear H. apply run_one in H7 as [R8 _].
    pose proof (quiet_run e pre s lg1 s1 Q1 R1) as K1. pose proof (quiet_run e steer s2 lg3 s3 Q2 R3) as K3.
    assert (P1 : map still (s_agents s1) = map still (s_agents s)) by (apply (f_equal (map fst)) in K1; rewrite !map_map in K1; exact K1).
    assert (P2 : map still (s_agents s2) = map still (s_agents s1)) by (apply (node_keeps still e Fluctuation s1 s2); auto; intros c; now apply plain_still).
    assert (P3 : map still (s_agents s3) = map still (s_agents s2)) by (apply (f_equal (map fst)) in K3; rewrite !map_map in K3; exact K3).
    assert (P4 : map still (s_agents s4) = map still (s_agents s3)) by (apply (node_keeps still e Adjusting s3 s4); auto; intros c; now apply plain_still).
    assert (P5 : map still (s_agents s5) = map still (s_agents s4)) by (apply (node_keeps still e (AgentAgentInteractions aa_node_default) s4 s5); auto; intros c; now apply plain_still).
    assert (B4 : map still (s_agents s4) = map still (s_agents s)) by congruence.
    assert (T5 : map traits (s_agents s5) = map traits (s_agents s)).
    { rewrite (traits_node e _ s4 s5 R5), (traits_node e _ s3 s4 R4), (traits_run e _ _ _ _ R3), (traits_node e _ s1 s2 R2). exact (traits_run e _ _ _ _ R1). }
    destruct (at_index _ _ _ i a K1 Ha) as (a1 & N1 & E1).
    destruct (fluctuate_at e s1 s2 i a1 R2 N1) as (a2 & d & N2 & Ed & E2). destruct (at_index _ _ _ i a1 P2 N1) as (a2' & N2' & S2). rewrite N2 in N2'. injection N2' as <-.
    destruct (at_index _ _ _ i a2 K3 N2) as (a3 & N3 & E3).
    destruct (adjust_at e s3 s4 i a3 R4 N3) as (a4 & N4 & E4). destruct (at_index _ _ _ i a3 P4 N3) as (a4' & N4' & S4). rewrite N4 in N4'. injection N4' as <-.
    destruct (aa_at e s4 s5 i a4 0 R5 G N4 (radii_same _ _ B4 RR) (touch_same _ _ _ _ B4 (nobody_touches _ _ _ C)) (company_same _ _ _ _ _ B4 C)) as (a5 & f & N5 & E5 & L5).
    destruct (at_index _ _ _ i a4 P5 N4) as (a5' & N5' & S5). rewrite N5 in N5'. injection N5' as <-.
    destruct (at_index _ _ _ i a T5 Ha) as (a5' & N5' & T5'). rewrite N5 in N5'. injection N5' as <-.
    assert (f0 : f = V 0 0). { apply vlength_zero. pose proof (vlength_nonneg f). cbn [INR] in L5. lra. } subst f.
    set (fo := fst (walls_push Circular a (e_obstacles e))).
    set (a6 := push (walls_push Circular a5 (e_obstacles e)) a5).
    assert (N6 : nth_error (s_agents s6) i = Some a6).
    { cbn [run_node] in R6. injection R6 as <-. cbn [s_agents with_agents]. rewrite K, agent_obstacle_push, nth_error_map, N5. reflexivity. }
    destruct (integrator_at e s6 s7 i a6 R7 N6) as (M5 & N7 & _).
    assert (N8 : nth_error (s_agents s') i = Some (reset_row (e_kind e) (moved_row (e_kind e) DT a6))).
    { cbn [run_node] in R8. injection R8 as <-. cbn [s_agents with_agents]. now rewrite nth_error_map, N7. }
    assert (MV : forall y, a_force_prev (reset_row (e_kind e) (moved_row (e_kind e) DT y)) = a_force y /\ a_force (reset_row (e_kind e) (moved_row (e_kind e) DT y)) = V 0 0 /\
      a_velocity (reset_row (e_kind e) (moved_row (e_kind e) DT y)) = vadd (a_velocity y) (vscale DT (vdiv (vadd (vdiv (a_force_prev y) (a_mass y)) (vdiv (a_force y) (a_mass y))) 2)) /\
      a_position (reset_row (e_kind e) (moved_row (e_kind e) DT y)) = vadd (a_position y) (vadd (vscale DT (a_velocity (reset_row (e_kind e) (moved_row (e_kind e) DT y)))) (vscale (DT * DT) (vdiv (vdiv (a_force y) (a_mass y)) 2))) /\
      a_mass (reset_row (e_kind e) (moved_row (e_kind e) DT y)) = a_mass y /\ a_tau_adj (reset_row (e_kind e) (moved_row (e_kind e) DT y)) = a_tau_adj y /\
      a_std_rand_force (reset_row (e_kind e) (moved_row (e_kind e) DT y)) = a_std_rand_force y /\ a_target_velocity (reset_row (e_kind e) (moved_row (e_kind e) DT y)) = a_target_velocity y /\
      a_radius (reset_row (e_kind e) (moved_row (e_kind e) DT y)) = a_radius y /\ a_target_direction (reset_row (e_kind e) (moved_row (e_kind e) DT y)) = a_target_direction y).
    { intros y. unfold reset_row, moved_row. destruct (e_kind e); repeat split. }
    assert (PU : forall q y, a_velocity (push q y) = a_velocity y /\ a_force_prev (push q y) = a_force_prev y /\ a_position (push q y) = a_position y /\ a_mass (push q y) = a_mass y /\
      a_tau_adj (push q y) = a_tau_adj y /\ a_std_rand_force (push q y) = a_std_rand_force y /\ a_target_velocity (push q y) = a_target_velocity y /\ a_radius (push q y) = a_radius y /\ a_target_direction (push q y) = a_target_direction y).
    { intros q y. rewrite push_unfold. repeat split. }
    specialize (MV a6). destruct MV as (V1 & V2 & V3 & V4 & V6 & V7 & V8 & V9 & V10 & DIR). specialize (PU (walls_push Circular a5 (e_obstacles e)) a5). fold a6 in PU.
    destruct PU as (U1 & U2 & U3 & U4 & U5 & U6 & U7 & U8 & U9). rewrite U4 in *. rewrite U9 in DIR.
    (* the direction at the time of adjusting is the one of the end *)
    assert (DIR' : a_target_direction a5 = a_target_direction a3).
    { assert (Y4 : map a_target_direction (s_agents s4) = map a_target_direction (s_agents s3)) by (apply (node_keeps a_target_direction e Adjusting s3 s4); auto; intros c Hc; cbn in Hc; repeat (destruct Hc as [<-|Hc]; [now intros ? ?|]); destruct Hc).
      assert (Y5 : map a_target_direction (s_agents s5) = map a_target_direction (s_agents s4)) by (apply (node_keeps a_target_direction e (AgentAgentInteractions aa_node_default) s4 s5); auto; intros c Hc; cbn in Hc; repeat (destruct Hc as [<-|Hc]; [now intros ? ?|]); destruct Hc).
      destruct (at_index _ _ _ i _ Y4 N3) as (z & Z4 & W4). rewrite N4 in Z4. injection Z4 as <-. destruct (at_index _ _ _ i _ Y5 N4) as (z & Z5 & W5). rewrite N5 in Z5. injection Z5 as <-. congruence. }
    rewrite DIR' in DIR.
    assert (TB : traits (reset_row (e_kind e) (moved_row (e_kind e) DT a6)) = traits a).
    { destruct (at_index _ _ _ i a TR Ha) as (z & Z1 & Z2). rewrite N8 in Z1. injection Z1 as <-. exact Z2. }
    unfold still in E1, E3, S2, S4, S5.
    injection E1 as Xa Va Fpa Ma Ta Sa Wa Ra Rta _ _ _ Fa. injection E3 as Xc Vc Fpc Mc Tc Sc Wc Rc Rtc _ _ _ Fc.
    injection S2 as Xb Vb Fpb Mb Tb Sb Wb Rb Rtb _ _ _. injection S4 as Xd Vd Fpd Md Td Sd Wd Rd Rtd _ _ _. injection S5 as X5 V5 Fp5 M5' T5x Sx5 W5 Rx5 Rt5 _ _ _.
    assert (FO : fst (walls_push Circular a5 (e_obstacles e)) = fo) by (unfold fo; f_equal; apply walls_same; congruence).
    exists (reset_row (e_kind e) (moved_row (e_kind e) DT a6)), (noise_of a d). split; [exact N8|]. split.
    { apply noise_bound; auto. rewrite Ed. apply FD. }
    cbv zeta. rewrite DIR. fold fo. set (b := reset_row (e_kind e) (moved_row (e_kind e) DT a6)) in *.
    set (acc := vadd (vadd (noise_of a d) (vscale (/ a_mass a) fo)) (vscale (/ a_tau_adj a) (vsub (vscale (a_target_velocity a) (a_target_direction a3)) (a_velocity a)))).
    assert (FF : a_force a6 = vscale (a_mass a) acc).
    { unfold a6. rewrite push_force, FO. rewrite E5, E4, Fc, E2, Fa, F0. unfold acc, noise_of, force_fluctuation1. replace (a_mass a3) with (a_mass a) by congruence. replace (a_tau_adj a3) with (a_tau_adj a) by congruence.
      replace (a_velocity a3) with (a_velocity a) by congruence. replace (a_target_velocity a3) with (a_target_velocity a) by congruence.
      rewrite Ma, Sa. unfold Rdiv. generalize (/ a_tau_adj a) as it. intros it. destruct fo, (a_velocity a), (a_target_direction a3). veq; field; lra. }
    assert (M5a : a_mass a5 = a_mass a) by congruence.
    assert (AC : vdiv (a_force a6) (a_mass a5) = acc) by (rewrite FF, M5a; destruct acc; veq; field; lra).
    rewrite AC in V3, V4. rewrite U1, U2, M5a in V3. rewrite U3 in V4.
    split; [rewrite V1; exact FF|]. split; [exact V2|]. split.
    { rewrite V3. replace (a_velocity a5) with (a_velocity a) by congruence. replace (a_force_prev a5) with (a_force_prev a) by congruence.
      destruct acc, (a_velocity a), (a_force_prev a). veq; field; lra. }
    split. { rewrite V4. replace (a_position a5) with (a_position a) by congruence. destruct acc, (a_position a), (a_velocity b). veq; field. }
    repeat split; congruence.
  Qed.
End Update.

(** ** Runs *)
Lemma walls_only a l1 o l2 : (forall w, In w (l1 ++ l2) -> p0 w <> p1 w -> ~ body_hits_wall (body Circular a) (p0 w) (p1 w)) ->
  walls_push Circular a (l1 ++ o :: l2) = wall_push Circular a o.
Proof.
  intros H. assert (X : forall l l', walls_push Circular a (l ++ l') = dadd (walls_push Circular a l) (walls_push Circular a l')).
  { intros l l'. unfold walls_push. induction l as [|w l IH]; cbn [app fold_right]; [now rewrite dadd_comm, dadd_zero|]. now rewrite IH, dadd_assoc. }
  rewrite X. rewrite walls_far by (intros; apply H; auto; apply in_or_app; auto). rewrite dadd_comm, dadd_zero.
  change (walls_push Circular a (o :: l2)) with (dadd (wall_push Circular a o) (walls_push Circular a l2)).
  rewrite walls_far by (intros; apply H; auto; apply in_or_app; auto). apply dadd_zero.
Qed.
Lemma dot_le u v : dot u u = 1 -> Rabs (dot u v) <= vlength v.
Proof.
  intros U. pose proof (vlength_nonneg v). pose proof (vlength_sq v) as Q. apply Rsqr_incr_0_var; auto. rewrite <- Rsqr_abs. unfold Rsqr. rewrite Q. unfold dot in *.
  destruct u as [a b], v as [p q]. cbn in *. assert (0 <= (a * q - b * p) * (a * q - b * p)) by apply Rle_0_sqr.
  replace (p * p + q * q) with ((a * a + b * b) * (p * p + q * q)) by (rewrite U; ring). nra.
Qed.
Lemma over_mass m : 50 <= m -> m <= 90 -> 50/9 <= 500 / m /\ 500 / m <= 10.
Proof.
  intros H1 H2. assert (E : 500 / m * m = 500) by (field; lra). split; apply (Rmult_le_reg_r m); try lra; rewrite E; lra.
Qed.
Section Runs.
  Variables (e : env) (x : expr node) (pre steer : list node) (o : obstacle) (l1 l2 : list obstacle) (sg : R).
  Hypothesis Hx : written_order x = pre ++ Fluctuation :: steer ++ Adjusting :: AgentAgentInteractions aa_node_default :: AgentObstacleInteractions :: [integrator; Reset].
  Hypothesis Q1 : forall n, In n pre -> quiet n.
  Hypothesis Q2 : forall n, In n steer -> quiet n.
  Hypothesis K : e_kind e = Circular.
  Hypothesis G : forall ps c, good_enumeration ps c (e_enum e ps c).
  Hypothesis FD : fair_draws (e_draws e).
  Hypothesis M : maps_of_directions e.
  Hypothesis W : e_obstacles e = l1 ++ o :: l2.
  Hypothesis Ho : p0 o <> p1 o.
  Hypothesis Hs : sg = 1 \/ sg = -1.
  (** What holds between updates. *)
  Definition at_wall (a : agent) : Prop :=
    a_force a = V 0 0 /\ pedestrian a /\
    let w := - dot (normal o sg) (a_velocity a) in let b := - dot (normal o sg) (a_force_prev a) / a_mass a / 200 in
    held (a_radius a - sg * off o (a_position a)) (w + b) (w - b).
  Definition gliding (d : R) (a : agent) : R := dot (tangent o sg) (a_velocity a) + d * (dot (tangent o sg) (a_force_prev a) / a_mass a / 200).
  Lemma wall_update s k s' k' i a : simulation_update e x (s, k) = ((s', k'), None) -> sound s -> nth_error (s_agents s) i = Some a -> at_wall a -> only_wall e i o (l1 ++ l2) s ->
    sound s' /\ exists b, nth_error (s_agents s') i = Some b /\ at_wall b /\ a_radius b = a_radius a /\
      gliding (-1) b = gliding 1 a /\ dot (tangent o sg) (a_position b) = dot (tangent o sg) (a_position a) + gliding 1 b / 100 /\
      Rabs (gliding 1 b) <= Rmax (Rabs (gliding 1 a)) (Rabs (gliding (-1) a)) + 34/1000.
  Proof.
    intros U [SD SR] Ha (F0 & PD & HE) (C & BE). destruct (BE a Ha) as [BS OT]. assert (PD' := PD). destruct PD' as ((M1 & M2) & (T1 & T2) & R15 & MU & KA & DA & TAU & (S1 & S2)).
    destruct (update_at_wall e x pre steer Hx Q1 Q2 K G FD M s k s' k' i a U SD SR Ha C ltac:(lra) S1 F0) as (D' & R' & b & xi & Hb & LX & FP & FB & VB & PB & B1 & B2 & B3 & B4 & B5 & B6).
    split; [split; auto|]. exists b. split; auto. unfold traits in B6. injection B6 as B6 B7 B8.
    rewrite K in OT. rewrite W, (walls_only a l1 o l2 OT) in *.
    assert (DB : vlength (a_target_direction b) <= 1) by (rewrite Forall_forall in D'; apply (D' b), (nth_error_In _ _ Hb)).
    assert (P0 : 0 < sg * off o (a_position a)). { destruct HE as (P & _). lra. }
    pose proof (wall_normal o sg Ho Hs a BS P0) as WN. pose proof (normal_unit o sg Ho Hs) as NU. pose proof (off_normal o sg Ho) as ON.
    pose proof (wall_tangent o sg Ho Hs a BS P0) as WT. pose proof (tangent_unit o sg Ho Hs) as TU.
    set (fo := fst (wall_push Circular a o)) in *. clearbody fo. cbv zeta in *.
    set (acc := vadd (vadd xi _) _) in *.
    assert (DAC : forall n, dot n acc = dot n xi + / a_mass a * dot n fo + 2 * (a_target_velocity a * dot n (a_target_direction b) - dot n (a_velocity a))).
    { intros n. unfold acc. rewrite TAU. unfold dot. destruct n, xi, fo, (a_target_direction b), (a_velocity a). cbn. field. lra. }
    assert (HG : forall n s, dot n n = 1 -> s = 1 \/ s = -1 -> Rabs (s * (dot n xi + 2 * a_target_velocity a * dot n (a_target_direction b))) <= 34/10).
    { intros n sn NN SN. pose proof (dot_le n xi NN) as X1. pose proof (dot_le n (a_target_direction b) NN) as X2.
      assert (X3 : Rabs (dot n xi) <= 3/10) by lra. assert (X4 : Rabs (dot n (a_target_direction b)) <= 1) by lra.
      apply Rabs_le. apply abs_between in X3. apply abs_between in X4. destruct SN as [-> | ->]; nra. }
    split.
    2:{ split; [exact B5|]. unfold gliding. set (n := tangent o sg) in *. clearbody n. split; [|split].
      - rewrite VB, FP, B1. unfold DT. destruct n, (a_velocity a), (a_force_prev a), acc. unfold dot, vadd, vscale, vdiv. cbn. field. lra.
      - rewrite PB, FP, B1. unfold DT. destruct n, (a_position a), (a_velocity b), acc. unfold dot, vadd, vscale. cbn. field. lra.
      - set (v := dot n (a_velocity a)) in *. set (bb := dot n (a_force_prev a) / a_mass a / 200) in *.
        set (p := a_radius a - sg * off o (a_position a)) in *.
        assert (PH : exists th, 0 <= th <= 110 /\ / a_mass a * dot n fo = - th * v).
        { rewrite WT, KA. destruct HE as (HP & _). fold p in HP. destruct (Rlt_dec 0 p) as [H|H].
          - exists (40000 * p / a_mass a). split; [|field; lra]. assert (X : 40000 * p / a_mass a * a_mass a = 40000 * p) by (field; lra). split; [apply (Rmult_le_reg_r (a_mass a)); lra|apply (Rmult_le_reg_r (a_mass a)); lra].
          - exists 0. split; [lra|]. ring. }
        destruct PH as (th & TH & ET). specialize (HG n 1 TU (or_introl eq_refl)). apply abs_between in HG.
        assert (YB : dot n (a_velocity b) + 1 * (dot n (a_force_prev b) / a_mass b / 200) = v + bb + dot n acc / 100).
        { rewrite VB, FP, B1. unfold v, bb, DT. destruct n, (a_velocity a), (a_force_prev a), acc. unfold dot, vadd, vscale, vdiv. cbn. field. lra. }
        rewrite YB, DAC, ET. pose proof (Rmax_l (Rabs (v + 1 * bb)) (Rabs (v + -1 * bb))) as M3. pose proof (Rmax_r (Rabs (v + 1 * bb)) (Rabs (v + -1 * bb))) as M4.
        set (mx := Rmax _ _) in *. apply abs_between in M3, M4. apply Rabs_le. fold v. clearbody v bb mx. clear - HG TH M3 M4.
        assert (- mx <= v <= mx) by lra. assert (0 <= mx) by lra.
        assert (X1 : 0 <= (1 - (th + 2) / 200) * (mx - (v + 1 * bb))) by (apply Rmult_le_pos; lra).
        assert (X2 : 0 <= (1 - (th + 2) / 200) * (mx + (v + 1 * bb))) by (apply Rmult_le_pos; lra).
        assert (X3 : 0 <= ((th + 2) / 200) * (mx - (v + -1 * bb))) by (apply Rmult_le_pos; lra).
        assert (X4 : 0 <= ((th + 2) / 200) * (mx + (v + -1 * bb))) by (apply Rmult_le_pos; lra). lra. }
    split; [exact FB|]. split; [unfold pedestrian; rewrite B1, B2, B3, B4, B5, B6, B7, B8; auto 12|]. clear WT TU.
    set (n := normal o sg) in *. clearbody n.
    set (g := - dot n xi - 2 * a_target_velocity a * dot n (a_target_direction b)).
    assert (HG' : Rabs g <= 34/10).
    { replace g with (-1 * (dot n xi + 2 * a_target_velocity a * dot n (a_target_direction b))) by (unfold g; ring). apply HG; auto. }
    set (w := - dot n (a_velocity a)) in *. set (bb := - dot n (a_force_prev a) / a_mass a / 200) in *. set (p := a_radius a - sg * off o (a_position a)) in *.
    assert (AC : - dot n acc = pushed (500 / a_mass a) p (w + bb) (w - bb) g).
    { rewrite DAC. unfold pushed, g. rewrite MU, DA in WN. rewrite WN. unfold w. destruct (Rlt_dec 0 p); field; lra. }
    destruct (over_mass (a_mass a) M1 M2) as [CA CB]. pose proof (held_step (500 / a_mass a) CA CB p (w + bb) (w - bb) g HE HG') as ST.
    rewrite <- AC in ST. cbv zeta in ST.
    assert (Y : w + bb + - dot n acc / 100 = - dot n (a_velocity b) + - dot n (a_force_prev b) / a_mass b / 200).
    { rewrite VB, FP, B1. unfold w, bb, DT. destruct n, (a_velocity a), (a_force_prev a), acc. unfold dot, vadd, vscale, vdiv. cbn. field. lra. }
    assert (YO : w + bb = - dot n (a_velocity b) - - dot n (a_force_prev b) / a_mass b / 200).
    { rewrite VB, FP, B1. unfold w, bb, DT. destruct n, (a_velocity a), (a_force_prev a), acc. unfold dot, vadd, vscale, vdiv. cbn. field. lra. }
    rewrite Y in ST. rewrite YO in ST. replace (p + (- dot n (a_velocity b) + - dot n (a_force_prev b) / a_mass b / 200) / 100) with (a_radius b - sg * off o (a_position b)) in ST; [exact ST|].
    rewrite B5, ON. unfold p. rewrite ON, PB, FP, B1. unfold DT. destruct n, (a_position a), (a_velocity b), acc, (p0 o). unfold dot, vadd, vsub, vscale. cbn. field. lra.
  Qed.
  Lemma wall_updates s dts s' i : updates e x s dts s' -> sound (fst s) -> (forall dts' t, (length dts' < length dts)%nat -> updates e x s dts' t -> only_wall e i o (l1 ++ l2) (fst t)) ->
    forall a, nth_error (s_agents (fst s)) i = Some a -> at_wall a -> exists b, nth_error (s_agents (fst s')) i = Some b /\ at_wall b /\ a_radius b = a_radius a.
  Proof.
    induction 1 as [s|[s k] [s1 k1] dts s' U R IH]; intros SO FR a Ha AW; [exists a; auto|]. cbn [fst length] in *.
    destruct (wall_update s k s1 k1 i a U SO Ha AW (FR [] (s, k) ltac:(cbn; lia) (updates_none _ _ _))) as (SO1 & b & Hb & AB & RB & _).
    destruct (IH SO1) with (a := b) as (c & Hc & AC & RC); auto.
    { intros dts' t L T. apply (FR (s_dt s1 :: dts') t); [cbn; lia|]. change (s_dt s1) with (s_dt (fst (s1, k1))). econstructor; eauto. }
    exists c. repeat split; try apply AC; auto. congruence.
  Qed.
  Lemma wall_start a : fit Circular a -> pedestrian a -> elen (a_velocity a) <= 18/10 -> a_radius a <= sg * off o (a_position a) -> at_wall a.
  Proof.
    intros (F0 & FP & _) PD V0 R0. split; auto. split; auto. cbv zeta. rewrite FP. rewrite elen_vlength in V0.
    pose proof (dot_le (normal o sg) (a_velocity a) (normal_unit o sg Ho Hs)) as X. set (w := dot (normal o sg) (a_velocity a)) in *.
    assert (X' : Rabs w <= 18/10) by lra. apply abs_between in X'.
    replace (dot (normal o sg) (V 0 0)) with 0 by (unfold dot; cbn; ring). replace (-0 / a_mass a / 200) with 0 by (unfold Rdiv; ring).
    unfold held, W0, W1, CL. set (p := a_radius a - _) in *. assert (p <= 0) by (unfold p; lra). repeat split; intros; lra.
  Qed.
  (** Along a long wall nothing need be supposed of the way. *)
  Definition slid (V0 : R) (a : agent) (m : nat) (b : agent) : Prop :=
    Rabs (gliding 1 b) <= V0 + 34/1000 * INR m /\ Rabs (gliding (-1) b) <= V0 + 34/1000 * INR m /\
    Rabs (dot (tangent o sg) (a_position b) - dot (tangent o sg) (a_position a)) <= slide V0 m.
  Lemma slide_grows V0 m n : 0 <= V0 -> (m <= n)%nat -> slide V0 m <= slide V0 n.
  Proof. intros H L. apply le_INR in L. pose proof (pos_INR m). unfold slide. nra. Qed.
  Lemma long_wall V0 a n : l1 = [] -> l2 = [] -> 0 <= V0 -> well_beside o (slide V0 n) (a_position a) ->
    forall s dts s', updates e x s dts s' -> forall m b, sound (fst s) -> s_agents (fst s) = [b] -> at_wall b -> slid V0 a m b -> (m + length dts <= n)%nat ->
    exists c, s_agents (fst s') = [c] /\ at_wall c /\ a_radius c = a_radius b /\ slid V0 a (m + length dts) c.
  Proof.
    intros N1 N2 HV WB. induction 1 as [s|[s k] [s1 k1] dts s' U R IH]; intros m b SO Hb AB SL LE.
    { exists b. rewrite Nat.add_0_r. auto. }
    cbn [fst length] in *.
    assert (OW : only_wall e 0 o (l1 ++ l2) s).
    { split.
      - intros js _ J. destruct js as [|j js]; [cbn; lia|]. destruct (J j (or_introl eq_refl)) as (N & p & q & _ & _ & _ & Hq & _). rewrite Hb in Hq. destruct j as [|[|]]; try discriminate. now contradiction N.
      - intros c Hc. rewrite Hb in Hc. injection Hc as <-. split; [|rewrite N1, N2; intros w []].
        apply (beside_moved o sg Ho Hs (slide V0 n) (a_position a)); auto. destruct SL as (_ & _ & SL). eapply Rle_trans; [exact SL|]. apply slide_grows; auto. lia. }
    destruct (wall_update s k s1 k1 0 b U SO) as (SO1 & c & Hc & AC & RC & G1 & G2 & G3); auto. { now rewrite Hb. }
    assert (LC : s_agents s1 = [c]).
    { assert (L1 : length (s_agents s1) = 1%nat).
      { pose proof U as U'. apply update_runs in U' as [_ [log H]]. pose proof (f_equal (@length _) (traits_run e _ _ _ _ H)) as X. rewrite !map_length, Hb in X. exact X. }
      destruct (s_agents s1) as [|c' [|]]; try discriminate. cbn in Hc. injection Hc as ->. reflexivity. }
    destruct (IH (S m) c SO1 LC AC) as (d & Hd & AD & RD & SD).
    - destruct SL as (S1 & S2 & S3). unfold slid. rewrite S_INR. rewrite G1, G2.
      assert (MX : Rmax (Rabs (gliding 1 b)) (Rabs (gliding (-1) b)) <= V0 + 34/1000 * INR m) by now apply Rmax_lub.
      split; [lra|]. split; [lra|]. pose proof (pos_INR m).
      replace (_ - _) with ((dot (tangent o sg) (a_position b) - dot (tangent o sg) (a_position a)) + gliding 1 c / 100) by ring.
      eapply Rle_trans; [apply Rabs_triang|]. assert (Q : Rabs (gliding 1 c / 100) <= (V0 + 34/1000 * (INR m + 1)) / 100).
      { unfold Rdiv. rewrite Rabs_mult, (Rabs_pos_eq (/ 100)) by lra. apply Rmult_le_compat_r; lra. }
      unfold slide in *. rewrite S_INR. nra.
    - lia.
    - exists d. split; auto. split; auto. split; [congruence|]. now rewrite <- plus_n_Sm.
  Qed.
  Lemma slid_start V0 a : fit Circular a -> vlength (a_velocity a) <= V0 -> slid V0 a 0 a.
  Proof.
    intros (_ & FP & _) HV. unfold slid, gliding, slide. rewrite FP. replace (dot (tangent o sg) (V 0 0)) with 0 by (unfold dot; cbn; ring).
    replace (0 / a_mass a / 200) with 0 by (unfold Rdiv; ring). pose proof (dot_le (tangent o sg) (a_velocity a) (tangent_unit o sg Ho Hs)). cbn [INR].
    replace (_ + 1 * 0) with (dot (tangent o sg) (a_velocity a)) by ring. replace (_ + -1 * 0) with (dot (tangent o sg) (a_velocity a)) by ring.
    split; [lra|]. split; [lra|]. replace (_ - _) with 0 by ring. rewrite Rabs_R0. lra.
  Qed.
End Runs.
