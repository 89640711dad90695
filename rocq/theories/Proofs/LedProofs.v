(** Proofs about somebody alone on a way that is marked and free. *)
From Coq Require Import Lra Lia.
From Verif Require Import Proofs.IntegratorProofs Proofs.SimulationMore Proofs.SteeringProofs Proofs.InteractionProofs Proofs.SpeedRuns.
From Verif Require Export Proofs.PaceProofs Proofs.LoneProofs Proofs.TurnProofs.
From Verif Require Import Spec.Led.
Open Scope R_scope.

Lemma set_direction_same a : set_target_direction (a_target_direction a) a = a.
Proof. destruct a; reflexivity. Qed.
Lemma set_active_same a : set_active (a_active a) a = a.
Proof. destruct a; reflexivity. Qed.

Lemma upright_within a rho : slim ThreeCircle a rho -> shoulders_in_place a -> body_within ThreeCircle a rho.
Proof.
  intros (T & S) (L & R) c. unfold body. 
  assert (D : forall p s, Rabs s = 1 -> vsub p (a_position a) = V (s * - a_r_ts a * sin (a_orientation a)) (s * a_r_ts a * cos (a_orientation a)) -> edist p (a_position a) = Rabs (a_r_ts a)).
  { intros p s Hs E. rewrite edist_vlength, E. replace (V _ _) with (vscale (s * a_r_ts a) (V (- sin (a_orientation a)) (cos (a_orientation a)))) by (unfold vscale; cbn; f_equal; ring).
    rewrite vlength_scale, Rabs_mult, Hs. rewrite (vlength_eq _ 1); [ring|lra|]. cbn. pose proof (sin2_cos2 (a_orientation a)) as Q. unfold Rsqr in Q. lra. }
  intros [<-|[<-|[<-|[]]]]; cbn [fst snd].
  - rewrite edist_vlength, (vlength_eq _ 0); [lra|lra|]. cbn. ring.
  - rewrite (D (a_position_ls a) 1); [lra|apply Rabs_R1|]. cbn [vx vy] in L. unfold vsub. rewrite L. f_equal; ring.
  - rewrite (D (a_position_rs a) (-1)); [lra|rewrite Rabs_left; lra|]. cbn [vx vy] in R. unfold vsub. rewrite R. f_equal; ring.
Qed.
Lemma within_clear k a rho walls : body_within k a rho -> clear_of_walls walls rho (a_position a) ->
  forall o, In o walls -> ~ body_hits_wall (body k a) (p0 o) (p1 o).
Proof.
  intros W C o Ho (c & q & Hc & Hq & D). specialize (W c Hc). specialize (C o q Ho Hq). pose proof (edist_triangle (a_position a) (fst c) q) as T.
  rewrite (edist_sym (a_position a) (fst c)) in T. lra.
Qed.
Lemma not_pushed k a walls : (forall o, In o walls -> ~ body_hits_wall (body k a) (p0 o) (p1 o)) -> agent_obstacle k [a] walls = [a].
Proof.
  intros H. pose proof (agent_obstacle_rows k [a] walls) as F. inversion F as [|x y l l' (_ & Q) F' E1 E2]. subst. inversion F'. subst. rewrite Q; auto.
Qed.
Lemma told e a u : (forall t, (0 <= t < Z.of_nat (length (e_targets e)))%Z -> exists md, e_nav e (1/10) (1/2) (3/10) t = Ok md) ->
  (0 <= a_target a < Z.of_nat (length (e_targets e)))%Z -> says e (a_target a) u (a_position a) ->
  navigation_node (e_nav e (1/10) (1/2) (3/10)) (length (e_targets e)) [a] = Ok [Some (set_target_direction u a)].
Proof.
  intros M T (m & dir & E & S).
  set (maps := fun t => match e_nav e (1/10) (1/2) (3/10) t with Ok md => md | Err _ => (m, dir) end).
  assert (H : forall t, (0 <= t < Z.of_nat (length (e_targets e)))%Z -> e_nav e (1/10) (1/2) (3/10) t = Ok (maps t)).
  { intros t Ht. unfold maps. destruct (M t Ht) as (md & ->). reflexivity. }
  destruct (navigation_node_ok _ _ maps [a] H) as (out & -> & L & N). specialize (N 0%nat a eq_refl). cbv zeta in N.
  assert (Em : maps (a_target a) = (m, dir)) by (unfold maps; rewrite E; reflexivity). rewrite Em in N. cbn [fst snd] in N.
  destruct (indicer m (a_position a)) as [c w]. destruct S as (W & C & A).
  assert (I : (Z.leb 0 (a_target a) && Z.ltb (a_target a) (Z.of_nat (length (e_targets e))) && is_inside w c (rows dir) (cols dir))%bool = true).
  { unfold is_inside. repeat (apply andb_true_iff; split); try apply Z.leb_le; try apply Z.ltb_lt; lia. }
  rewrite I, A in N. cbn [option_map] in N. destruct out as [|o [|? ?]]; cbn in L; try discriminate. cbn in N. injection N as ->. reflexivity.
Qed.
(** One update. *)
Lemma led_update e a u rho dt t c d n : lone_enum e -> able (e_kind e) a ->
  (forall t, (0 <= t < Z.of_nat (length (e_targets e)))%Z -> exists md, e_nav e (1/10) (1/2) (3/10) t = Ok md) ->
  (0 <= a_target a < Z.of_nat (length (e_targets e)))%Z -> says e (a_target a) u (a_position a) ->
  body_within (e_kind e) a rho -> clear_of_walls (e_obstacles e) rho (a_position a) ->
  exists c', simulation_update e logic_hallway (Sim [a] dt t c d, n) =
    ((Sim [lone_row (e_kind e) (e_draws e d 0) (set_target_direction u (set_active (e_inside e (a_position a)) a))] DT (t + DT) c' (S d), S n), None).
Proof.
  intros N (_ & M & T & K) Maps Ht Says Within Clear. exists (c + snd (inside_domain (e_inside e) [a]))%nat. apply (proj2 (update_runs e logic_hallway _ _ _ _)). split; auto.
  change (written_order logic_hallway) with [InsideDomain; Fluctuation; navigation; Orientation; Adjusting; AgentAgentInteractions aa_node_default; AgentObstacleInteractions; integrator; Reset]. set (k := e_kind e) in *.
  unfold lone_row. destruct (e_draws e d 0) as [[phi z] zt] eqn:D. cbn [fst snd]. eexists.
  set (b := set_active (e_inside e (a_position a)) a). set (f := fluctuate_row k b phi z zt).
  set (a0 := set_target_direction u b). set (a1 := fluctuate_row k a0 phi z zt). set (a2 := faced_row k a1). set (a3 := adjusted_row k a2). set (a4 := moved_row k DT a3).
  eapply (runs_next e InsideDomain _ _). { cbn [run_node s_agents inside_domain map]. fold b. reflexivity. }
  eapply (runs_next e Fluctuation _ _). { cbn [run_node s_agents s_dt s_time s_inactive s_draws fluctuate]. fold k. rewrite D. fold f. reflexivity. }
  eapply (runs_next e navigation _ _).
  { unfold navigation. cbn [run_node s_agents s_dt s_time s_inactive s_draws]. rewrite (told e f u); [cbn [rbind all_finite]; reflexivity|exact Maps| |].
    - unfold f, fluctuate_row, b. destruct k; exact Ht.
    - unfold f, fluctuate_row, b. destruct k; exact Says. }
  replace (set_target_direction u f) with a1 by (unfold a1, a0, f, fluctuate_row; destruct k; reflexivity).
  eapply (runs_next e Orientation _ _). { cbn [with_agents run_node s_agents s_dt s_time s_inactive s_draws]. fold k. rewrite facing_map. cbn [map]. fold a2. reflexivity. }
  eapply (runs_next e Adjusting _ _).
  { cbn [with_agents run_node s_agents s_dt s_time s_inactive s_draws]. fold k. rewrite adjust_ok; [cbn [rbind map]; fold a3; reflexivity|]. intros x [<-|[]]. unfold a2, a1, a0, b, faced_row, fluctuate_row. destruct k; cbn; (split; [lra|]); [discriminate|intros _; apply (K eq_refl)]. }
  eapply (runs_next e (AgentAgentInteractions aa_node_default) _ _).
  { cbn [with_agents run_node s_agents s_dt s_time s_inactive s_draws]. unfold aa_node_update, agent_agent_block_list. replace (node_cell_size aa_node_default) with (36/10) by (cbn; lra).
    cbn [map]. rewrite N. unfold agent_agent. cbn [rbind]. instantiate (1 := Sim [a3] _ _ _ _). destruct (e_kind e); reflexivity. }
  eapply (runs_next e AgentObstacleInteractions _ _).
  { cbn [with_agents run_node s_agents s_dt s_time s_inactive s_draws]. fold k. rewrite (not_pushed k a3); [reflexivity|].
    replace (body k a3) with (body k a) by (unfold a3, a2, a1, a0, b, adjusted_row, turned_row, pulled_row, faced_row, orient_row, fluctuate_row, body; destruct k; reflexivity).
    apply (within_clear k a rho); assumption. }
  eapply (runs_next e integrator _ _).
  { unfold integrator. cbn [with_agents run_node s_agents s_dt s_time s_inactive s_draws]. fold k. rewrite verlet_ok.
    - cbn [map rbind fst snd all_finite]. fold a4. reflexivity.
    - intros x [<-|[]]. unfold a3, a2, a1, a0, b, faced_row, fluctuate_row, adjusted_row, turned_row, pulled_row. destruct k; cbn; (split; [lra|]); [discriminate|intros _; apply (K eq_refl)]. }
  eapply (runs_next e Reset); [reflexivity|]. cbn [s_agents map with_agents]. fold k. apply runs_none.
Qed.

(** All updates. *)
Lemma lone_row_frame k d a : let b := lone_row k d a in
  a_target b = a_target a /\ a_radius b = a_radius a /\ a_r_t b = a_r_t a /\ a_r_s b = a_r_s a /\ a_r_ts b = a_r_ts a /\ (k = ThreeCircle -> shoulders_in_place b).
Proof.
  intros b. unfold b, lone_row. set (a1 := fluctuate_row k a _ _ _).
  assert (E1 : a_target a1 = a_target a /\ a_radius a1 = a_radius a /\ a_r_t a1 = a_r_t a /\ a_r_s a1 = a_r_s a /\ a_r_ts a1 = a_r_ts a) by (unfold a1, fluctuate_row; destruct k; repeat split).
  clearbody a1. set (a2 := faced_row k a1). assert (E2 : a_target a2 = a_target a1 /\ a_radius a2 = a_radius a1 /\ a_r_t a2 = a_r_t a1 /\ a_r_s a2 = a_r_s a1 /\ a_r_ts a2 = a_r_ts a1) by (unfold a2, faced_row, orient_row; destruct k; repeat split).
  clearbody a2. set (a3 := adjusted_row k a2). assert (E3 : a_target a3 = a_target a2 /\ a_radius a3 = a_radius a2 /\ a_r_t a3 = a_r_t a2 /\ a_r_s a3 = a_r_s a2 /\ a_r_ts a3 = a_r_ts a2) by (unfold a3, adjusted_row, turned_row, pulled_row; destruct k; repeat split).
  clearbody a3. destruct E1 as (<- & <- & <- & <- & <-), E2 as (<- & <- & <- & <- & <-), E3 as (<- & <- & <- & <- & <-).
  set (m := moved_row k DT a3).
  assert (F : a_target m = a_target a3 /\ a_radius m = a_radius a3 /\ a_r_t m = a_r_t a3 /\ a_r_s m = a_r_s a3 /\ a_r_ts m = a_r_ts a3).
  { unfold m. set (v := verlet_row DT a3). assert (G : a_target v = a_target a3 /\ a_radius v = a_radius a3 /\ a_r_t v = a_r_t a3 /\ a_r_s v = a_r_s a3 /\ a_r_ts v = a_r_ts a3) by repeat split.
    destruct k; cbn [moved_row]; fold v; [exact G|]. clearbody v. destruct G as (<- & <- & <- & <- & <-).
    set (w := rotational_verlet DT v). assert (G : a_target w = a_target v /\ a_radius w = a_radius v /\ a_r_t w = a_r_t v /\ a_r_s w = a_r_s v /\ a_r_ts w = a_r_ts v) by repeat split.
    clearbody w. destruct G as (<- & <- & <- & <- & <-). repeat split. }
  assert (G : k = ThreeCircle -> shoulders_in_place m) by (unfold m; intros ->; apply shoulders_row_in_place).
  clearbody m. destruct F as (<- & <- & <- & <- & <-). destruct k; repeat split; try discriminate; apply (G eq_refl).
Qed.
Lemma set_active_lone k d f a : set_active f (lone_row k d a) = lone_row k d (set_active f a).
Proof.
  unfold lone_row. replace (fluctuate_row k (set_active f a) (fst (fst d)) (snd (fst d)) (snd d)) with (set_active f (fluctuate_row k a (fst (fst d)) (snd (fst d)) (snd d))) by (unfold fluctuate_row; destruct k; reflexivity).
  generalize (fluctuate_row k a (fst (fst d)) (snd (fst d)) (snd d)). intros a1.
  replace (faced_row k (set_active f a1)) with (set_active f (faced_row k a1)) by (unfold faced_row, orient_row; destruct k; reflexivity). generalize (faced_row k a1). intros a2.
  replace (adjusted_row k (set_active f a2)) with (set_active f (adjusted_row k a2)) by (unfold adjusted_row, turned_row, pulled_row; destruct k; reflexivity). generalize (adjusted_row k a2). intros a3.
  assert (V : verlet_row DT (set_active f a3) = set_active f (verlet_row DT a3)) by reflexivity.
  destruct k; cbn [moved_row]; rewrite V; generalize (verlet_row DT a3); intros a4; [reflexivity|].
  assert (W : rotational_verlet DT (set_active f a4) = set_active f (rotational_verlet DT a4)) by reflexivity.
  rewrite W. generalize (rotational_verlet DT a4). intros a5. assert (X : shoulders_row (set_active f a5) = set_active f (shoulders_row a5)) by reflexivity.
  rewrite X. generalize (shoulders_row a5). reflexivity.
Qed.
Definition led_slim (k : kind) (a : agent) (rho : R) : Prop := slim k a rho /\ (k = ThreeCircle -> shoulders_in_place a).
Lemma led_within k a rho : led_slim k a rho -> body_within k a rho.
Proof.
  intros (S & P). destruct k.
  - intros c [<-|[]]. cbn [fst snd]. cbn in S. rewrite edist_vlength, (vlength_eq _ 0); [lra|lra|]. cbn. ring.
  - apply upright_within; auto.
Qed.
Lemma led_runs e a u rho N : lone_enum e -> able (e_kind e) a -> led_slim (e_kind e) a rho ->
  (forall t, (0 <= t < Z.of_nat (length (e_targets e)))%Z -> exists md, e_nav e (1/10) (1/2) (3/10) t = Ok md) ->
  (0 <= a_target a < Z.of_nat (length (e_targets e)))%Z ->
  (forall i, (i < N)%nat -> let p := a_position (lone (e_kind e) (fun i => e_draws e i 0) (set_target_direction u a) i) in says e (a_target a) u p /\ clear_of_walls (e_obstacles e) rho p) ->
  forall n, (n <= N)%nat -> exists c f b, let l := lone (e_kind e) (fun i => e_draws e i 0) (set_target_direction u a) n in
  updates e logic_hallway (new_simulation [a]) (repeat DT n) (Sim [b] (if n then 0 else DT) (INR n / 100) c n, n) /\
  set_target_direction u b = set_active f l /\ led_slim (e_kind e) b rho.
Proof.
  intros Ne A L Maps Ht Way n Hn. set (k := e_kind e) in *. set (draws := fun i => e_draws e i 0) in *. set (a' := set_target_direction u a) in *.
  assert (A' : able k a') by exact A.
  induction n as [|n IH].
  - exists 0%nat, (a_active a), a. cbv zeta. split; [|split; [change (a_active a) with (a_active a'); rewrite set_active_same; reflexivity|exact L]].
    replace (INR 0 / 100) with 0 by (cbn; lra). cbn [repeat]. constructor.
  - destruct (IH ltac:(lia)) as (c & f & b & U & E & Sl). cbv zeta in *. set (l := lone k draws a' n) in *.
    destruct (lone_kept k draws a' A' n) as (Al & _ & _ & _ & _ & El). fold l in Al, El.
    assert (P : a_position b = a_position l) by (change (a_position b) with (a_position (set_target_direction u b)); rewrite E; reflexivity).
    assert (T : a_target b = a_target a).
    { change (a_target b) with (a_target (set_target_direction u b)). rewrite E. change (a_target (set_active f l)) with (a_target l). unfold l. clear. induction n as [|n IHn]; [reflexivity|]. cbn [lone]. destruct (lone_row_frame k (draws n) (lone k draws a' n)) as (-> & _). exact IHn. }
    assert (Ab : able k b).
    { assert (Q : able k (set_target_direction u b)) by (rewrite E; exact Al). exact Q. }
    destruct (Way n ltac:(lia)) as (Says & Clear). fold l in Says, Clear. rewrite <- P in Says, Clear. rewrite <- T in Says, Ht.
    destruct (led_update e b u rho (if n then 0 else DT) (INR n / 100) c n n Ne Ab Maps Ht Says (led_within _ _ _ Sl) Clear) as (c' & H).
    set (g := e_inside e (a_position b)) in *. fold k in H. fold (draws n) in H.
    exists c', g, (lone_row k (draws n) (set_target_direction u (set_active g b))).
    assert (R : set_target_direction u (set_active g b) = set_active g l).
    { change (set_target_direction u (set_active g b)) with (set_active g (set_target_direction u b)). rewrite E. reflexivity. }
    split; [|split].
    + replace (INR (S n) / 100) with (INR n / 100 + DT) by (rewrite S_INR; lra). replace (repeat DT (S n)) with (repeat DT n ++ [DT])%list by (rewrite <- repeat_cons; reflexivity).
      exact (updates_snoc e logic_hallway _ _ _ _ U H).
    + rewrite R. cbn [lone]. fold l. rewrite set_active_lone. rewrite <- (set_direction_same (lone_row k (draws n) (set_active g l))) at 2. f_equal.
      destruct (lone_row_spec k (draws n) (set_active g l)) as (_ & _ & _ & _ & _ & _ & _ & -> & _). symmetry. exact El.
    + destruct Sl as (S1 & S2). destruct (lone_row_frame k (draws n) (set_target_direction u (set_active g b))) as (_ & F1 & F2 & F3 & F4 & F5). split; [|exact F5].
      unfold slim in *. rewrite F1, F2, F3, F4. exact S1.
Qed.

(** With the bound on the way. *)
Lemma led_way e a u rho N : lone_enum e -> fair_draws (e_draws e) -> fit (e_kind e) a -> led_slim (e_kind e) a rho ->
  (forall t, (0 <= t < Z.of_nat (length (e_targets e)))%Z -> exists md, e_nav e (1/10) (1/2) (3/10) t = Ok md) ->
  (0 <= a_target a < Z.of_nat (length (e_targets e)))%Z ->
  (forall i p, (i < N)%nat -> edist p (walked (a_position a) u (a_target_velocity a) (INR i / 100)) <= leeway (a_tau_adj a) (a_std_rand_force a) (off_told a u) (INR i / 100) ->
     says e (a_target a) u p /\ clear_of_walls (e_obstacles e) rho p) ->
  forall n, (n <= N)%nat -> exists s b, updates e logic_hallway (new_simulation [a]) (repeat DT n) (s, n) /\ s_agents s = [b] /\ s_time s = INR n / 100 /\
  edist (a_position b) (walked (a_position a) u (a_target_velocity a) (INR n / 100)) <= leeway (a_tau_adj a) (a_std_rand_force a) (off_told a u) (INR n / 100).
Proof.
  intros Ne D F Sl Maps Ht Way n Hn. set (k := e_kind e) in *. set (draws := fun i => e_draws e i 0). set (a' := set_target_direction u a).
  assert (F' : fit k a') by exact F.
  assert (B : forall i, edist (a_position (lone k draws a' i)) (walked (a_position a) u (a_target_velocity a) (INR i / 100)) <= leeway (a_tau_adj a) (a_std_rand_force a) (off_told a u) (INR i / 100)).
  { intros i. exact (lone_way k draws a' F' (fun m => D m 0%nat) i). }
  destruct (led_runs e a u rho N Ne (fit_able _ a F) Sl Maps Ht) with (n := n) as (c & f & b & U & E & _); [|exact Hn|].
  { intros i Hi. cbv zeta. apply (Way i); [exact Hi|]. apply B. }
  eexists. exists b. split; [exact U|]. split; [reflexivity|]. split; [reflexivity|]. 
  replace (a_position b) with (a_position (lone k draws a' n)); [apply B|]. change (a_position b) with (a_position (set_target_direction u b)). rewrite E. reflexivity.
Qed.
(** Places near the way. *)
Lemma near_way p u v t q r : elen u = 1 -> edist q (walked p u v t) <= r -> t * v - r <= progress p u q <= t * v + r /\ beside p u q <= r.
Proof.
  intros U D. rewrite elen_vlength in U. rewrite edist_vlength in D. set (d := vsub q (walked p u v t)) in *.
  assert (UU : vx u * vx u + vy u * vy u = 1). { pose proof (vlength_sq u) as Q. rewrite U in Q. lra. }
  assert (Rr : 0 <= r) by (pose proof (vlength_nonneg d); lra).
  assert (DD : vx d * vx d + vy d * vy d <= r * r). { pose proof (vlength_sq d) as Q. pose proof (vlength_nonneg d). nra. }
  assert (E1 : progress p u q = t * v + (vx d * vx u + vy d * vy u)).
  { unfold progress. replace (vx q) with (vx d + (vx p + t * (v * vx u))) by (unfold d, walked; cbn; ring). replace (vy q) with (vy d + (vy p + t * (v * vy u))) by (unfold d, walked; cbn; ring).
    replace (t * v) with (t * v * (vx u * vx u + vy u * vy u)) by (rewrite UU; ring). ring. }
  assert (E2 : beside p u q = Rabs (vx d * vy u - vy d * vx u)).
  { unfold beside. f_equal. unfold d, walked. cbn. ring. }
  assert (Sum : (vx d * vx u + vy d * vy u) ^ 2 + (vx d * vy u - vy d * vx u) ^ 2 <= r ^ 2).
  { replace (_ + _) with ((vx d * vx d + vy d * vy d) * (vx u * vx u + vy u * vy u)) by ring. rewrite UU. lra. }
  rewrite E1, E2. set (x := vx d * vx u + vy d * vy u) in *. set (y := vx d * vy u - vy d * vx u) in *. clearbody x y.
  assert (X : - r <= x <= r) by (pose proof (pow2_ge_0 y); split; nra). assert (Y : - r <= y <= r) by (pose proof (pow2_ge_0 x); split; nra).
  split; [lra|]. apply Rabs_le. exact Y.
Qed.
Lemma first_reach (f : nat -> R) L n : (exists m, (m <= n)%nat /\ L <= f m) -> exists m, (m <= n)%nat /\ L <= f m /\ forall i, (i < m)%nat -> f i < L.
Proof.
  intros (m & Hm & H). revert n Hm. induction m as [m IH] using lt_wf_ind. intros n Hm.
  assert (C : (forall i, (i < m)%nat -> f i < L) \/ exists i, (i < m)%nat /\ L <= f i).
  { clear. induction m as [|m [IH|(i & Hi & E)]]; [left; intros; lia| |right; exists i; split; [lia|exact E]]. destruct (Rlt_le_dec (f m) L) as [Q|Q].
    - left. intros i Hi. assert (i = m \/ i < m)%nat as [->|] by lia; auto.
    - right. exists m. split; [lia|exact Q]. }
  destruct C as [C|(i & Hi & E)]; [exists m; auto|]. apply (IH i Hi E). lia.
Qed.
