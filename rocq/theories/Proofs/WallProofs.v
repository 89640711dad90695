(** * Walls in another order, drawn the other way and in pieces *)
From Coq Require Import Lra Lia Permutation FunctionalExtensionality.
From Verif Require Import Spec.Resume Proofs.VecLemmas Proofs.SimulationProofs Proofs.InteractionProofs.
Open Scope R_scope.

Definition go (q u : vec) (c : R) : vec := V (vx q + c * vx u) (vy q + c * vy u).
Definition unit_dir (u : vec) : Prop := vx u * vx u + vy u * vy u = 1.
Lemma go_length q u c : unit_dir u -> 0 <= c -> vlength (vsub (go q u c) q) = c.
Proof. intros U C. apply vlength_eq; auto. unfold unit_dir in U. destruct q as [q1 q2], u as [u1 u2]. cbn in *. replace ((_ * _) + _) with (c * c * (u1 * u1 + u2 * u2)) by ring. rewrite U. ring. Qed.
Lemma dir_of q0 q1 : q0 <> q1 -> exists u len, unit_dir u /\ 0 < len /\ q1 = go q0 u len.
Proof.
  intros N. assert (L : 0 < vlength (vsub q1 q0)). { apply vlength_pos. intros E. apply N. destruct q0, q1. unfold vsub, vzero in E. cbn in E. injection E as E1 E2. f_equal; lra. }
  exists (vdiv (vsub q1 q0) (vlength (vsub q1 q0))), (vlength (vsub q1 q0)). split; [|split; auto].
  - unfold unit_dir. pose proof (vlength_sq (vsub q1 q0)) as Q. destruct q0 as [a b], q1 as [c d]. set (l := vlength _) in *. clearbody l. cbn in *. replace (_ + _) with (((c - a) * (c - a) + (d - b) * (d - b)) / (l * l)) by (field; lra). rewrite <- Q. field. lra.
  - destruct q0, q1. set (l := vlength _) in *. clearbody l. unfold go. cbn. f_equal; field; lra.
Qed.
(** The distance in coordinates along the wall. *)
Lemma dcl_form x r q u len : unit_dir u -> 0 < len ->
  distance_circle_line x r q (go q u len) =
  let s := dot u (vsub x q) in let w := dot (rotate90 u) (vsub x q) in
  Some (if Rltb s 0 then (vlength (vsub x q) - r, vdiv (vsub x q) (vlength (vsub x q)))
        else if Rltb len s then (vlength (vsub x (go q u len)) - r, vdiv (vsub x (go q u len)) (vlength (vsub x (go q u len))))
        else (Rabs w - r, vscale (rsign w) (rotate90 u))).
Proof.
  intros U L. unfold distance_circle_line. rewrite go_length by (auto; lra). rewrite (proj2 (Reqb_false len 0)) by lra.
  assert (T : vdiv (vsub (go q u len) q) len = u). { destruct q, u. unfold go, vsub, vdiv. cbn. f_equal; field; lra. }
  rewrite T. cbv zeta. assert (S : - dot u (vsub x (go q u len)) - dot u (vsub x q) = len - 2 * dot u (vsub x q)).
  { unfold unit_dir in U. destruct q as [a b], u as [u1 u2], x as [c d]. unfold go, vsub, dot. cbn in *. replace len with (len * (u1 * u1 + u2 * u2)) at 3 by (rewrite U; ring). ring. }
  rewrite S. set (s := dot u (vsub x q)). f_equal.
  destruct (Rltb_spec len (len - 2 * s)), (Rltb_spec s 0); try (exfalso; lra); [reflexivity|].
  destruct (Rltb_spec (len - 2 * s) (- len)), (Rltb_spec len s); try (exfalso; lra); reflexivity.
Qed.
Lemma rsign_neg x : rsign (- x) = - rsign x.
Proof. unfold rsign. destruct (Rltb_spec 0 (- x)), (Rltb_spec x 0), (Rltb_spec (- x) 0), (Rltb_spec 0 x); lra. Qed.
Lemma dcl_flip x r q0 q1 : distance_circle_line x r q1 q0 = distance_circle_line x r q0 q1.
Proof.
  destruct (veqb q0 q1) eqn:E; [apply veqb_true in E; now subst|]. assert (N : q0 <> q1) by (intros ->; assert (veqb q1 q1 = true) by (now apply veqb_true); congruence).
  destruct (dir_of q0 q1 N) as (u & len & U & L & ->).
  assert (U' : unit_dir (vneg u)) by (unfold unit_dir in *; destruct u; cbn in *; lra).
  assert (B : q0 = go (go q0 u len) (vneg u) len) by (destruct q0, u; unfold go; cbn; f_equal; ring).
  rewrite B at 2. rewrite (dcl_form x r (go q0 u len) (vneg u) len U' L), (dcl_form x r q0 u len U L). rewrite <- B. cbv zeta.
  assert (S : dot (vneg u) (vsub x (go q0 u len)) = len - dot u (vsub x q0)).
  { unfold unit_dir in U. destruct q0 as [a b], u as [u1 u2], x as [c d]. unfold go, vsub, dot. cbn in *. replace len with (len * (u1 * u1 + u2 * u2)) at 3 by (rewrite U; ring). ring. }
  assert (W : dot (rotate90 (vneg u)) (vsub x (go q0 u len)) = - dot (rotate90 u) (vsub x q0)) by (destruct q0, u, x; unfold go, vsub, dot; cbn; ring).
  rewrite S, W, Rabs_Ropp, rsign_neg. set (s := dot u (vsub x q0)). set (w := dot (rotate90 u) (vsub x q0)). f_equal.
  destruct (Rltb_spec (len - s) 0), (Rltb_spec len s), (Rltb_spec s 0), (Rltb_spec len (len - s)); try (exfalso; lra); try reflexivity.
  f_equal. destruct u. unfold vscale. cbn. f_equal; ring.
Qed.

(** ** The same force from either direction, in any order *)
Lemma scan3_flip x r q0 q1 : scan3_step x r q1 q0 = scan3_step x r q0 q1.
Proof. apply functional_extensionality. intros s. apply functional_extensionality. intros i. unfold scan3_step. now rewrite dcl_flip. Qed.
Lemma wall_push_flip k a o o' : either_way o o' -> wall_push k a o' = wall_push k a o.
Proof. intros [-> | [E1 E2]]; auto. unfold wall_push, distance_three_circle_line. now rewrite E1, E2, dcl_flip, scan3_flip. Qed.
Lemma obstacle_flip k agents l l' : Forall2 either_way l l' -> agent_obstacle k agents l' = agent_obstacle k agents l.
Proof.
  intros H. rewrite !agent_obstacle_push. apply map_ext. intros a. f_equal. unfold walls_push. induction H as [|o o' l l' E H IH]; cbn; auto. now rewrite IH, (wall_push_flip k a o o' E).
Qed.
Lemma between_existsb a b l : is_obstacle_between_points a b l = existsb (fun o => line_intersect a b (p0 o) (p1 o)) l.
Proof. induction l as [|o l IH]; cbn; auto. rewrite IH. now destruct (line_intersect a b (p0 o) (p1 o)). Qed.
Lemma intersect_flip a b q0 q1 : line_intersect a b q1 q0 = line_intersect a b q0 q1.
Proof.
  unfold line_intersect. cbv zeta. destruct a as [a1 a2], b as [b1 b2], q0 as [c1 c2], q1 as [d1 d2]. cbn.
  set (D := (b1 - a1) * (d2 - c2) - (b2 - a2) * (d1 - c1)). replace ((b1 - a1) * (c2 - d2) - (b2 - a2) * (c1 - d1)) with (- D) by (unfold D; ring).
  destruct (Reqb_spec D 0) as [E|E]; [rewrite (proj2 (Reqb_true (- D) 0)) by lra; reflexivity|]. rewrite (proj2 (Reqb_false (- D) 0)) by lra.
  set (t0 := (c1 - a1) * (d2 - c2) - (c2 - a2) * (d1 - c1)). set (t1 := (c1 - a1) * (b2 - a2) - (c2 - a2) * (b1 - a1)).
  replace (((d1 - a1) * (c2 - d2) - (d2 - a2) * (c1 - d1)) / - D) with (t0 / D) by (unfold t0; field; auto).
  replace (((d1 - a1) * (b2 - a2) - (d2 - a2) * (b1 - a1)) / - D) with (1 - t1 / D) by (unfold t1; unfold D in *; field; auto).
  f_equal. destruct (Rleb_spec 0 (1 - t1 / D)), (Rleb_spec (1 - t1 / D) 1), (Rleb_spec 0 (t1 / D)), (Rleb_spec (t1 / D) 1); auto; exfalso; lra.
Qed.
Lemma existsb_perm {A} (f : A -> bool) l l' : Permutation l l' -> existsb f l = existsb f l'.
Proof. induction 1 as [|x l l' H IH|x y l|l l' l'' H IH H' IH']; cbn; auto; [now rewrite IH|now rewrite Bool.orb_assoc, (Bool.orb_comm (f y)), <- Bool.orb_assoc|congruence]. Qed.
Lemma sight_same a b l l' : same_walls l l' -> is_obstacle_between_points a b l' = is_obstacle_between_points a b l.
Proof.
  intros (m & P & F). rewrite !between_existsb, (existsb_perm _ _ _ P). clear P. induction F as [|o o' m l' E F IH]; cbn; auto. rewrite IH. f_equal.
  destruct E as [-> | [-> ->]]; auto. apply intersect_flip.
Qed.

(** ** Nodes that see walls *)
Definition same_sight (l l' : list obstacle) : Prop := forall a b, is_obstacle_between_points a b l' = is_obstacle_between_points a b l.
Section Sight.
  Variables (l l' : list obstacle) (SS : same_sight l l').
  Lemma neighbor_sight position pairs : forall rows, neighbor_loop position l' pairs rows = neighbor_loop position l pairs rows.
  Proof.
    induction pairs as [|[i j] pairs IH]; intros rows; cbn [neighbor_loop]; auto. destruct (nth_error position i), (nth_error position j); auto. rewrite SS, IH.
    destruct (is_obstacle_between_points _ _ l); auto. cbv zeta. destruct (offer i j _ rows) as [r1|]; cbn [rbind]; auto. destruct (offer j i _ r1) as [r2|]; cbn [rbind]; auto.
  Qed.
  Lemma choose_sight position velocity phi sight i remembered leaders d order :
    choose_leader position velocity phi l' sight i remembered leaders d order = choose_leader position velocity phi l sight i remembered leaders d order.
  Proof. induction order as [|k order IH]; cbn [choose_leader]; auto. rewrite IH. destruct (Rltb sight (d k)); auto. destruct (nth_error leaders k); auto. cbv zeta. now rewrite SS. Qed.
  Lemma brute_sight argsort isf isl position velocity w phi target il sight :
    leader_follower_interaction_brute argsort isf isl position velocity w phi target il l' sight = leader_follower_interaction_brute argsort isf isl position velocity w phi target il l sight.
  Proof.
    unfold leader_follower_interaction_brute. f_equal. apply functional_extensionality. intros i. apply functional_extensionality. intros s.
    unfold follow_one. cbv zeta. now rewrite choose_sight.
  Qed.
  Lemma detect_sight x : forall cs c st, detect c cs x l' st = detect c cs x l st.
  Proof. induction cs as [|p cs IH]; intros c st; cbn [detect]; auto. now rewrite SS, IH. Qed.
  Lemma node_sight e n s : e_obstacles e = l -> n <> AgentObstacleInteractions -> run_node (with_walls l' e) n s = run_node e n s.
  Proof.
    intros E N. destruct n; try congruence; try reflexivity; cbn [run_node with_walls e_kind e_obstacles e_targets e_nav e_enum e_argsort e_inside e_draws]; rewrite E.
    - unfold leader_follower_node, leader_follower_interaction. now rewrite brute_sight.
    - unfold leader_follower_with_herding_node, leader_follower_with_herding_interaction, find_nearest_neighbors. cbv zeta. rewrite neighbor_sight.
      destruct (neighbor_loop _ l _ _) as [rows|]; cbn [rbind]; auto. now rewrite brute_sight.
    - unfold exit_detection_node, exit_detection. destruct (e_targets e); auto. do 3 f_equal. f_equal. apply map_ext. intros x. now rewrite detect_sight.
  Qed.
End Sight.
Lemma same_walls_node e l' n s : same_walls (e_obstacles e) l' -> run_node (with_walls l' e) n s = run_node e n s.
Proof.
  intros H. assert (D : n = AgentObstacleInteractions \/ n <> AgentObstacleInteractions) by (destruct n; auto; right; discriminate). destruct D as [-> | N].
  - cbn [run_node with_walls e_kind e_obstacles]. destruct H as (m & P & F). now rewrite (obstacle_flip _ _ _ _ F), (obstacle_order _ _ _ _ P).
  - apply (node_sight (e_obstacles e) l'); auto. intros a b. now apply sight_same.
Qed.
Lemma same_walls_update e l' x s : same_walls (e_obstacles e) l' -> simulation_update (with_walls l' e) x s = simulation_update e x s.
Proof.
  intros H. unfold simulation_update. assert (E : forall ns, node_effect (with_walls l' e) ns = node_effect e ns).
  { intros ns. apply functional_extensionality. intros i. apply functional_extensionality. intros t. unfold node_effect. destruct (nth_error ns i); auto. now rewrite same_walls_node. }
  destruct (logic_of x) as [[[r f] ns]|]; auto. now rewrite E.
Qed.

(** ** Walls in pieces *)
Lemma cut_form o m : inner_point o m -> p0 o <> p1 o -> exists u c len, unit_dir u /\ 0 < c < len /\ m = go (p0 o) u c /\ p1 o = go (p0 o) u len /\ p1 o = go m u (len - c).
Proof.
  intros (t & T & ->) N. destruct (dir_of _ _ N) as (u & len & U & L & E). exists u, (t * len), len. rewrite E. split; auto.
  assert (0 < t * len) by (apply Rmult_lt_0_compat; lra). assert (0 < (1 - t) * len) by (apply Rmult_lt_0_compat; lra). split; [lra|].
  destruct (p0 o), u. unfold go. cbn. repeat split; f_equal; ring.
Qed.
Lemma cut_intersect a b o m : inner_point o m -> line_intersect a b (p0 o) (p1 o) = (line_intersect a b (p0 o) m || line_intersect a b m (p1 o))%bool.
Proof.
  intros (t & T & ->). destruct o as [[c1 c2] [d1 d2]], a as [a1 a2], b as [b1 b2]. unfold line_intersect. cbn [p0 p1]. cbv zeta. cbn [vx vy vsub].
  set (D := (b1 - a1) * (d2 - c2) - (b2 - a2) * (d1 - c1)).
  replace ((b1 - a1) * (c2 + t * (d2 - c2) - c2) - (b2 - a2) * (c1 + t * (d1 - c1) - c1)) with (t * D) by (unfold D; ring).
  replace ((b1 - a1) * (d2 - (c2 + t * (d2 - c2))) - (b2 - a2) * (d1 - (c1 + t * (d1 - c1)))) with ((1 - t) * D) by (unfold D; ring).
  destruct (Reqb_spec D 0) as [E|E].
  { rewrite E, !Rmult_0_r. rewrite (proj2 (Reqb_true 0 0)) by auto. reflexivity. }
  assert (t * D <> 0) by (apply Rmult_integral_contrapositive; split; lra). assert ((1 - t) * D <> 0) by (apply Rmult_integral_contrapositive; split; lra).
  rewrite (proj2 (Reqb_false (t * D) 0)), (proj2 (Reqb_false ((1 - t) * D) 0)) by auto.
  set (t0 := (c1 - a1) * (d2 - c2) - (c2 - a2) * (d1 - c1)). set (t1 := (c1 - a1) * (b2 - a2) - (c2 - a2) * (b1 - a1)).
  replace (((c1 - a1) * (c2 + t * (d2 - c2) - c2) - (c2 - a2) * (c1 + t * (d1 - c1) - c1)) / (t * D)) with (t0 / D) by (unfold t0; field; lra).
  replace (((c1 + t * (d1 - c1) - a1) * (d2 - (c2 + t * (d2 - c2))) - (c2 + t * (d2 - c2) - a2) * (d1 - (c1 + t * (d1 - c1)))) / ((1 - t) * D)) with (t0 / D) by (unfold t0; field; split; [auto|lra]).
  assert (K1 : t1 / (t * D) = t1 / D / t) by (field; split; [auto|lra]).
  replace (((c1 + t * (d1 - c1) - a1) * (b2 - a2) - (c2 + t * (d2 - c2) - a2) * (b1 - a1)) / ((1 - t) * D)) with ((t1 / D - t) / (1 - t)) by (unfold t1, D in *; field; split; [auto|lra]).
  rewrite K1. set (y := t1 / D). destruct ((Rleb 0 (t0 / D) && Rleb (t0 / D) 1)%bool); cbn [andb orb]; auto.
  assert (A1 : Rleb 0 (y / t) = Rleb 0 y). { destruct (Rleb_spec 0 (y / t)), (Rleb_spec 0 y); auto; exfalso; assert (y = t * (y / t)) by (field; lra); [assert (0 <= t * (y / t)) by (apply Rmult_le_pos; lra)|assert (0 <= y / t) by (apply Rmult_le_pos; [lra|apply Rlt_le, Rinv_0_lt_compat; lra])]; lra. }
  assert (A2 : Rleb (y / t) 1 = Rleb y t). { destruct (Rleb_spec (y / t) 1), (Rleb_spec y t); auto; exfalso; assert (Q : y = t * (y / t)) by (field; lra); [assert (t * (y / t) <= t * 1) by (apply Rmult_le_compat_l; lra)|assert (t * 1 < t * (y / t)) by (apply Rmult_lt_compat_l; lra)]; lra. }
  assert (A3 : Rleb 0 ((y - t) / (1 - t)) = Rleb t y). { destruct (Rleb_spec 0 ((y - t) / (1 - t))), (Rleb_spec t y); auto; exfalso; assert (Q : y - t = (1 - t) * ((y - t) / (1 - t))) by (field; lra); [assert (0 <= (1 - t) * ((y - t) / (1 - t))) by (apply Rmult_le_pos; lra)|assert (0 <= (y - t) / (1 - t)) by (apply Rmult_le_pos; [lra|apply Rlt_le, Rinv_0_lt_compat; lra])]; lra. }
  assert (A4 : Rleb ((y - t) / (1 - t)) 1 = Rleb y 1). { destruct (Rleb_spec ((y - t) / (1 - t)) 1), (Rleb_spec y 1); auto; exfalso; assert (Q : y - t = (1 - t) * ((y - t) / (1 - t))) by (field; lra); [assert ((1 - t) * ((y - t) / (1 - t)) <= (1 - t) * 1) by (apply Rmult_le_compat_l; lra)|assert ((1 - t) * 1 < (1 - t) * ((y - t) / (1 - t))) by (apply Rmult_lt_compat_l; lra)]; lra. }
  rewrite A1, A2, A3, A4. destruct (Rleb_spec 0 y), (Rleb_spec y 1), (Rleb_spec y t), (Rleb_spec t y); cbn; auto; exfalso; lra.
Qed.
Lemma cut_sight l1 o m l2 : inner_point o m -> same_sight (l1 ++ o :: l2) (l1 ++ cut o m ++ l2).
Proof.
  intros H a b. rewrite !between_existsb, !existsb_app. f_equal. cbn. rewrite (cut_intersect a b o m H). destruct (line_intersect a b (p0 o) m), (line_intersect a b m (p1 o)); reflexivity.
Qed.
Lemma cut_coordinates x q u c : unit_dir u -> dot u (vsub x (go q u c)) = dot u (vsub x q) - c /\ dot (rotate90 u) (vsub x (go q u c)) = dot (rotate90 u) (vsub x q).
Proof.
  intros U. unfold unit_dir in U. destruct x as [x1 x2], q as [q1 q2], u as [u1 u2]. unfold go, vsub, dot. cbn in *. split; [|ring].
  replace (u1 * (x1 - (q1 + c * u1)) + u2 * (x2 - (q2 + c * u2))) with (u1 * (x1 - q1) + u2 * (x2 - q2) - c * (u1 * u1 + u2 * u2)) by ring. rewrite U. ring.
Qed.
Lemma foot_distance u y : unit_dir u -> dot u y = 0 -> vlength y = Rabs (dot (rotate90 u) y).
Proof.
  intros U Z. apply vlength_eq; [apply Rabs_pos|]. rewrite <- Rabs_mult, Rabs_pos_eq by nra. unfold unit_dir, dot in *. destruct u as [u1 u2], y as [y1 y2]. cbn in *.
  transitivity ((u1 * y1 + u2 * y2) * (u1 * y1 + u2 * y2) + (- u2 * y1 + u1 * y2) * (- u2 * y1 + u1 * y2)); [rewrite Z; ring|].
  replace (_ + _) with ((u1 * u1 + u2 * u2) * (y1 * y1 + y2 * y2)) by ring. rewrite U. ring.
Qed.
Lemma piece_form x r q u c0 c1 : unit_dir u -> c0 < c1 ->
  distance_circle_line x r (go q u c0) (go q u c1) =
  let s := dot u (vsub x q) in let w := dot (rotate90 u) (vsub x q) in
  Some (if Rltb s c0 then (vlength (vsub x (go q u c0)) - r, vdiv (vsub x (go q u c0)) (vlength (vsub x (go q u c0))))
        else if Rltb c1 s then (vlength (vsub x (go q u c1)) - r, vdiv (vsub x (go q u c1)) (vlength (vsub x (go q u c1))))
        else (Rabs w - r, vscale (rsign w) (rotate90 u))).
Proof.
  intros U L. assert (G : go q u c1 = go (go q u c0) u (c1 - c0)) by (destruct q, u; unfold go; cbn; f_equal; ring).
  rewrite G at 1. rewrite (dcl_form x r (go q u c0) u (c1 - c0) U) by lra. rewrite <- G. cbv zeta. destruct (cut_coordinates x q u c0 U) as [-> ->]. set (s := dot u (vsub x q)). f_equal.
  destruct (Rltb_spec (s - c0) 0), (Rltb_spec s c0); try (exfalso; lra); auto. destruct (Rltb_spec (c1 - c0) (s - c0)), (Rltb_spec c1 s); try (exfalso; lra); auto.
Qed.
Lemma cut_ends o m : inner_point o m -> p0 o <> p1 o -> exists u c len, unit_dir u /\ 0 < c < len /\ p0 o = go (p0 o) u 0 /\ m = go (p0 o) u c /\ p1 o = go (p0 o) u len.
Proof. intros H N. destruct (cut_form o m H N) as (u & c & len & U & L & E1 & E2 & E3). exists u, c, len. repeat split; auto; try apply L. destruct (p0 o), u. unfold go. cbn. f_equal; ring. Qed.
Lemma dadd_zero_r d : dadd d dzero = d.
Proof. rewrite dadd_comm. destruct d as [[f1 f2] t]. unfold dadd, dzero, vadd, vzero. cbn. f_equal; [f_equal|]; ring. Qed.
Lemma dadd_zero_l d : dadd dzero d = d.
Proof. rewrite dadd_comm. apply dadd_zero_r. Qed.
Definition beyond (d : option (R * vec)) : Prop := exists h n, d = Some (h, n) /\ 0 <= h.
Lemma beyond_push a o : beyond (distance_circle_line (a_position a) (a_radius a) (p0 o) (p1 o)) -> wall_push Circular a o = dzero.
Proof. intros (h & n & E & L). unfold wall_push. rewrite E. now rewrite (proj2 (Rltb_false h 0)). Qed.
Section Cut.
  Variables (x : vec) (r : R) (o : obstacle) (m : vec) (H : inner_point o m) (N : p0 o <> p1 o).
  Lemma cut_distance : r <= edist x m ->
    (distance_circle_line x r (p0 o) m = distance_circle_line x r (p0 o) (p1 o) /\ beyond (distance_circle_line x r m (p1 o))) \/
    (distance_circle_line x r m (p1 o) = distance_circle_line x r (p0 o) (p1 o) /\ beyond (distance_circle_line x r (p0 o) m)).
  Proof.
    intros C. destruct (cut_ends o m H N) as (u & c & len & U & L & E0 & E1 & E2). rewrite edist_vlength in C.
    set (q := p0 o) in *. rewrite E0, E1, E2. rewrite !piece_form by (auto; lra). cbv zeta. rewrite <- E1.
    destruct (cut_coordinates x q u c U) as [S W]. rewrite <- E1 in S, W. pose proof (foot_distance u (vsub x m) U) as FD. rewrite S, W in FD.
    set (s := dot u (vsub x q)) in *. set (w := dot (rotate90 u) (vsub x q)) in *. destruct (Rle_or_lt s c) as [Hs|Hs].
    - left. split.
      + destruct (Rltb_spec s 0); auto. destruct (Rltb_spec c s), (Rltb_spec len s); try (exfalso; lra); auto.
      + destruct (Rltb_spec s c); [eexists _, _; split; [reflexivity|lra]|]. destruct (Rltb_spec len s); [exfalso; lra|]. eexists _, _; split; [reflexivity|]. rewrite FD in C by lra. lra.
    - right. split.
      + destruct (Rltb_spec s c), (Rltb_spec s 0); try (exfalso; lra); auto.
      + destruct (Rltb_spec s 0), (Rltb_spec c s); try (exfalso; lra). eexists _, _; split; [reflexivity|lra].
  Qed.
  (** Right at the joint both pieces are touched like the whole wall. *)
  Lemma cut_joint : inner (vsub x m) (vsub (p1 o) (p0 o)) = 0 ->
    distance_circle_line x r (p0 o) m = distance_circle_line x r (p0 o) (p1 o) /\ distance_circle_line x r m (p1 o) = distance_circle_line x r (p0 o) (p1 o).
  Proof.
    intros C. destruct (cut_ends o m H N) as (u & c & len & U & L & E0 & E1 & E2).
    assert (Z : dot u (vsub x m) = 0).
    { rewrite E2 in C. clear - C L. destruct (p0 o) as [q1 q2], u as [u1 u2], x as [x1 x2], m as [m1 m2]. unfold inner, dot, go, vsub in *. cbn in *.
      assert (K : len * (u1 * (x1 - m1) + u2 * (x2 - m2)) = 0) by (rewrite <- C; ring). apply Rmult_integral in K as [K|K]; [lra|exact K]. }
    set (q := p0 o) in *. rewrite E0, E1, E2. rewrite !piece_form by (auto; lra). cbv zeta.
    destruct (cut_coordinates x q u c U) as [S W]. rewrite <- E1 in S, W. rewrite S in Z. set (s := dot u (vsub x q)) in *.
    destruct (Rltb_spec s 0), (Rltb_spec c s), (Rltb_spec len s), (Rltb_spec s c); try (exfalso; lra); auto.
  Qed.
End Cut.
Lemma cut_push a o m : inner_point o m -> p0 o <> p1 o -> clear_of m a -> dadd (wall_push Circular a (Obs (p0 o) m)) (wall_push Circular a (Obs m (p1 o))) = wall_push Circular a o.
Proof.
  intros H N C. destruct (cut_distance (a_position a) (a_radius a) o m H N C) as [[E B]|[E B]].
  - rewrite (beyond_push a (Obs m (p1 o)) B), dadd_zero_r. unfold wall_push. cbn [p0 p1]. now rewrite E.
  - rewrite (beyond_push a (Obs (p0 o) m) B), dadd_zero_l. unfold wall_push. cbn [p0 p1]. now rewrite E.
Qed.
Lemma walls_push_app k a l l' : walls_push k a (l ++ l') = dadd (walls_push k a l) (walls_push k a l').
Proof.
  unfold walls_push. induction l as [|o l IH]; cbn [app fold_right]; [now rewrite dadd_zero_l|]. now rewrite IH, dadd_assoc.
Qed.
Lemma cut_obstacle agents l1 o m l2 : inner_point o m -> p0 o <> p1 o -> Forall (clear_of m) agents ->
  agent_obstacle Circular agents (l1 ++ cut o m ++ l2) = agent_obstacle Circular agents (l1 ++ o :: l2).
Proof.
  intros H N C. rewrite !agent_obstacle_push. apply map_ext_in. intros a Ha. f_equal. rewrite !walls_push_app. f_equal. change (o :: l2) with ([o] ++ l2). rewrite walls_push_app. f_equal.
  unfold walls_push, cut. cbn [fold_right]. rewrite !dadd_zero_r. rewrite Forall_forall in C. now apply cut_push, C.
Qed.
Lemma runs_log e l s log s' n st : runs e l s log s' -> In (n, st) log -> exists la lb loga, l = la ++ n :: lb /\ runs e la s loga st.
Proof.
  induction 1 as [s|n0 l s s1 log s' R1 R IH]; intros I; [destruct I|]. destruct I as [[= -> ->]|I]; [exists [], l, []; split; auto; constructor|].
  destruct (IH I) as (la & lb & loga & -> & R2). exists (n0 :: la), lb, ((n0, s) :: loga). split; auto. econstructor; eauto.
Qed.
Section Pieces.
  Variables (e : env) (l1 l2 : list obstacle) (o : obstacle) (m : vec) (K : e_kind e = Circular) (W : e_obstacles e = l1 ++ o :: l2) (H : inner_point o m) (N : p0 o <> p1 o).
  Let e' := with_walls (l1 ++ cut o m ++ l2) e.
  Lemma pieces_node n s : (n = AgentObstacleInteractions -> Forall (clear_of m) (s_agents s)) -> run_node e' n s = run_node e n s.
  Proof.
    intros C. assert (D : n = AgentObstacleInteractions \/ n <> AgentObstacleInteractions) by (destruct n; auto; right; discriminate). destruct D as [-> | D].
    - cbn [run_node]. unfold e'. cbn [with_walls e_kind e_obstacles]. rewrite K, W, cut_obstacle; auto.
    - apply (node_sight (l1 ++ o :: l2)); auto. now apply cut_sight.
  Qed.
  Lemma pieces_runs l s log s' : runs e l s log s' -> (forall st, In (AgentObstacleInteractions, st) log -> Forall (clear_of m) (s_agents st)) -> runs e' l s log s'.
  Proof.
    induction 1 as [s|n l s s1 log s' R1 R IH]; intros C; [constructor|]. econstructor; [|apply IH; intros st I; apply C; now right].
    rewrite pieces_node; auto. intros ->. apply C. now left.
  Qed.
  Lemma clear_kept la s loga st : runs e la s loga st -> (forall n, In n la -> plain n \/ n = Reset) -> Forall (clear_of m) (s_agents s) -> Forall (clear_of m) (s_agents st).
  Proof.
    intros R P C. assert (E : map (fun a => (a_position a, a_radius a)) (s_agents st) = map (fun a => (a_position a, a_radius a)) (s_agents s)).
    { apply (run_keeps _ e la s loga st R). intros n f Hn Hf. destruct (P n Hn) as [Q| ->]; [destruct n; cbn in Q; try contradiction|]; cbn in Hf; repeat (destruct Hf as [<-|Hf]; [cbn; intros v a; now destruct a|]); destruct Hf. }
    rewrite Forall_forall in *. intros a Ha. apply (in_map (fun a => (a_position a, a_radius a))) in Ha. rewrite E in Ha. apply in_map_iff in Ha as (b & [= E1 E2] & Hb).
    specialize (C b Hb). unfold clear_of in *. congruence.
  Qed.
  Variables (x : expr node) (pre post : list node) (dmin dmax : R) (X : written_order x = pre ++ Integrator dmin dmax :: post)
    (P : forall n, In n pre -> plain n \/ n = Reset) (Q : ~ In AgentObstacleInteractions post).
  Lemma pieces_update s k s' k' : Forall (clear_of m) (s_agents s) -> simulation_update e x (s, k) = ((s', k'), None) -> simulation_update e' x (s, k) = ((s', k'), None).
  Proof.
    intros C U. apply update_runs in U as [-> [log R]]. apply update_runs. split; auto. exists log. apply pieces_runs; auto. intros st I.
    rewrite X in R. apply runs_app in R as (log1 & mid & log2 & -> & R1 & R2). apply in_app_or in I as [I|I].
    - destruct (runs_log _ _ _ _ _ _ _ R1 I) as (la & lb & loga & E & RA). apply (clear_kept la s loga st RA); auto. intros n Hn. apply P. rewrite E. apply in_or_app. auto.
    - exfalso. destruct (runs_log _ _ _ _ _ _ _ R2 I) as (la & lb & loga & E & _). apply Q. destruct la as [|n la]; [discriminate E|]. injection E as _ E. rewrite E. apply in_or_app. right. now left.
  Qed.
  Lemma pieces_updates s dts s' : updates e x s dts s' -> (forall dts1 t, (length dts1 < length dts)%nat -> updates e x s dts1 t -> Forall (clear_of m) (s_agents (fst t))) -> updates e' x s dts s'.
  Proof.
    induction 1 as [s|s s1 dts s' U R IH]; intros C; [constructor|]. destruct s as [s k], s1 as [s1 k1]. econstructor.
    - apply pieces_update; auto. apply (C [] (s, k)); [cbn; lia|constructor].
    - apply IH. intros dts1 t L V. apply (C (s_dt (fst (s1, k1)) :: dts1) t); [cbn; lia|]. econstructor; eauto.
  Qed.
End Pieces.
Lemma shipped_walls_first range x : In x (shipped_logics range) -> exists pre post dmin dmax, written_order x = pre ++ Integrator dmin dmax :: post /\ (forall n, In n pre -> plain n \/ n = Reset) /\ ~ In AgentObstacleInteractions post.
Proof.
  assert (S : forall pre post, Forall plain pre -> ~ In AgentObstacleInteractions post -> exists pre' post' dmin dmax, pre ++ integrator :: post = pre' ++ Integrator dmin dmax :: post' /\ (forall n, In n pre' -> plain n \/ n = Reset) /\ ~ In AgentObstacleInteractions post').
  { intros pre post F N. exists pre, post, (1/100), (1/100). split; auto. split; auto. rewrite Forall_forall in F. auto. }
  assert (B : forall l, Forall plain l -> Forall plain l) by auto. set (aa := AgentAgentInteractions aa_node_default).
  intros [<-|[<-|[<-|[<-|[<-|[<-|[<-|[<-|[]]]]]]]]].
  - apply (S [Fluctuation; Orientation; Adjusting; aa] [Reset]); [repeat constructor|cbn; intuition discriminate].
  - apply (S [InsideDomain; Fluctuation; navigation; Orientation; Adjusting; aa; AgentObstacleInteractions] [Reset]); [repeat constructor|cbn; intuition discriminate].
  - apply (S [Fluctuation; LeaderFollowerWithHerding 10 5; Orientation; Adjusting; aa] [Reset]); [repeat constructor|cbn; intuition discriminate].
  - apply (S [InsideDomain; Fluctuation; LeaderFollowerWithHerding 10 5; navigation; Orientation; Adjusting; aa; AgentObstacleInteractions] [Reset]); [repeat constructor|cbn; intuition discriminate].
  - apply (S [InsideDomain; Fluctuation; ExitDetection range; LeaderFollowerWithHerding 10 5; navigation; Orientation; Adjusting; aa; AgentObstacleInteractions] [Reset]); [repeat constructor|cbn; intuition discriminate].
  - apply (S [Fluctuation; LeaderFollowerWithHerding 10 5; Orientation; Adjusting; aa; AgentObstacleInteractions] [Reset]); [repeat constructor|cbn; intuition discriminate].
  - apply (S [InsideDomain; Fluctuation; ExitDetection 20; LeaderFollower 20; navigation; Orientation; Adjusting; aa; AgentObstacleInteractions] [Reset]); [repeat constructor|cbn; intuition discriminate].
  - apply (S [] [Adjusting; Orientation; Reset]); [repeat constructor|cbn; intuition discriminate].
Qed.
