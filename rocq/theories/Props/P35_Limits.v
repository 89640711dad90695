(** * Properties C132 and C133: walls are not stepped over, speeds stay limited *)
From Coq Require Import Lra Lia.
From Verif Require Import Model.Simulation Model.LogicTree Spec.Limits Proofs.VecLemmas Proofs.TurnProofs Proofs.GoesOnProofs Proofs.ScatterProofs Proofs.LoneProofs Proofs.Witness11 Proofs.SteeringProofs.
Open Scope R_scope.

Lemma headed_sound s : headed (s_agents s) -> sound s.
Proof. intros H. split; apply Forall_forall; intros a Ha; destruct (H a Ha) as [D R0]; auto. unfold directed. now rewrite <- elen_vlength. Qed.

(** ** C133 *)
(** In the shipped simulations somebody who is touched by nobody and by no wall, and who never
    has more than [n] others in sight, is at no time faster than this, ... *)
Theorem C133_speed : forall range x e agents i n a dts s, In x (shipped_logics range) -> x <> logic_test_movement -> fair_world e -> headed agents ->
  nth_error agents i = Some a -> walker (e_kind e) a -> updates e x (new_simulation agents) dts s ->
  (forall dts' t, (length dts' < length dts)%nat -> updates e x (new_simulation agents) dts' t -> undisturbed e i n (fst t)) ->
  exists b, nth_error (s_agents (fst s)) i = Some b /\
    elen (a_velocity b) <= course_bound (a_tau_adj a) (push_limit a n) (elen (a_velocity a)) (length dts) /\ elen (a_velocity b) <= speed_limit a n.
Proof.
  intros range x e agents i n a dts s Hx NT (G & FD & M) HD Ha W U F. destruct (shipped_nodes range x Hx NT) as (pre & steer & post & E & Q1 & Q2 & Q3).
  destruct (updates_limit e x pre steer post E Q1 Q2 Q3 G FD M (new_simulation agents) dts s i n a U (headed_sound (fst (new_simulation agents)) HD) F Ha W) as (_ & b & Hb & _ & _ & L).
  exists b. split; auto. split; auto. eapply Rle_trans; [exact L|]. now apply (course_below e).
Qed.
Print Assumptions C133_speed.
(** ... and in the long run not faster than its drive, the random force and the others in sight
    can keep up, however fast it was. *)
Theorem C133_settles : forall e i n a eps, fair_world e -> walker (e_kind e) a -> 0 < eps ->
  let tau := a_tau_adj a in let h := 1/100 / tau in
  exists n0, forall range x agents dts s, In x (shipped_logics range) -> x <> logic_test_movement -> headed agents -> nth_error agents i = Some a ->
  updates e x (new_simulation agents) dts s ->
  (forall dts' t, (length dts' < length dts)%nat -> updates e x (new_simulation agents) dts' t -> undisturbed e i n (fst t)) -> (n0 <= length dts)%nat ->
  exists b, nth_error (s_agents (fst s)) i = Some b /\ elen (a_velocity b) < tau * push_limit a n * ((1 + h / 2) / (1 - h / 2)) + eps.
Proof.
  intros e i n a eps FW W He tau h. assert (W' := W). destruct W' as ((_ & _ & _ & T & _) & _ & _).
  destruct (course_limit (a_tau_adj a) (push_limit a n) (elen (a_velocity a)) eps) as (n0 & L); auto.
  - now apply (push_limit_nonneg e).
  - rewrite elen_vlength. apply vlength_nonneg.
  - exists n0. intros range x agents dts s Hx NT HD Ha U F N.
    destruct (C133_speed range x e agents i n a dts s Hx NT FW HD Ha W U F) as (b & Hb & B & _). exists b. split; auto. eapply Rle_lt_trans; [exact B|exact (L (length dts) N)].
Qed.
Print Assumptions C133_settles.
(** Nothing need be supposed of the way if everybody starts far enough from everybody else and
    from the walls: for [count] updates nobody meets anybody, and nobody gets faster or farther
    than it can alone. *)
Theorem C133_scattered : forall range x e agents rho S count, In x (shipped_logics range) -> x <> logic_test_movement -> fair_world e -> headed agents ->
  (forall a, In a agents -> walker (e_kind e) a /\ sized (e_kind e) rho a /\ stride_limit a 0 <= S) -> 0 <= S ->
  scattered agents (e_obstacles e) (3 + 2 * rho + 2 * (INR count * S)) (rho + INR count * S) ->
  forall dts s, (length dts <= count)%nat -> updates e x (new_simulation agents) dts s ->
  forall i a, nth_error agents i = Some a -> undisturbed e i 0 (fst s) /\ exists b, nth_error (s_agents (fst s)) i = Some b /\
    elen (a_velocity b) <= course_bound (a_tau_adj a) (push_limit a 0) (elen (a_velocity a)) (length dts) /\
    edist (a_position a) (a_position b) <= INR (length dts) * S.
Proof.
  intros range x e agents rho S0 count Hx NT FW HD W SP SC dts s L U i a Ha. assert (FW' := FW). destruct FW' as (G & FD & M).
  destruct (shipped_nodes range x Hx NT) as (pre & steer & post & E & Q1 & Q2 & Q3). pose proof (headed_sound (fst (new_simulation agents)) HD) as SO.
  pose proof (stay_scattered e x pre steer post E Q1 Q2 Q3 G FD M (new_simulation agents) rho S0 count SO W SP SC) as X.
  assert (F : forall dts' t, (length dts' <= length dts)%nat -> updates e x (new_simulation agents) dts' t -> undisturbed e i 0 (fst t)).
  { intros dts' t L' U'. apply (near_free e (new_simulation agents) rho S0 count SP SC (length dts') t ltac:(lia)). now apply (X (length dts') dts'); [|lia|]. }
  split; [now apply (F dts)|]. destruct (W a (nth_error_In _ _ Ha)) as (Wa & _).
  destruct (C133_speed range x e agents i 0 a dts s Hx NT FW HD Ha Wa U) as (b & Hb & B & _). { intros dts' t L' U'. apply (F dts' t); [lia|auto]. }
  exists b. split; auto. split; auto. destruct (X (length dts) dts s eq_refl L U i b Hb) as (_ & a' & Ha' & D). cbn in Ha'. rewrite Ha in Ha'. injection Ha' as <-. exact D.
Qed.
Print Assumptions C133_scattered.
(** The maps a field gives are maps of directions. *)
Theorem C133_maps : forall e, (forall step radius strength t m dir, e_nav e step radius strength t = Ok (m, dir) ->
    exists dmap obs targets, dir = obstacle_handling dmap obs targets radius strength) -> maps_of_directions e.
Proof.
  intros e H step radius strength t m dir N i j d _ _ D. destruct (H _ _ _ _ _ _ N) as (dm & o & tg & ->).
  assert (X : forall v, unit_or_nan v = Some d -> elen d <= 1).
  { intros v. unfold unit_or_nan. cbv zeta. destruct (Reqb (vlength v) 0) eqn:Z; [discriminate|]. apply Reqb_false in Z. intros [= <-]. rewrite elen_vlength.
    replace (vdiv v (vlength v)) with (vscale (/ vlength v) v) by (veq; unfold Rdiv; ring). rewrite vlength_scale. pose proof (vlength_nonneg v). rewrite Rabs_pos_eq by (left; apply Rinv_0_lt_compat; lra). right. field. lra. }
  cbn [obstacle_handling at_] in D. unfold handle_cell in D. cbv zeta in D.
  destruct (_ && _)%bool; [|destruct (at_ tg i j); [now apply (X v)|discriminate]].
  destruct (power _ _), (at_ o i j), (at_ tg i j); try discriminate. now apply (X _ D).
Qed.
Print Assumptions C133_maps.

(** ** C132 *)
(** Whoever is undisturbed and cannot come as far as its own radius in a step has no wall
    between the position before an update and the one after it. *)
Theorem C132_no_wall_stepped_over_partial : forall range x e agents i n a dts s1 s2, In x (shipped_logics range) -> x <> logic_test_movement -> fair_world e -> headed agents ->
  nth_error agents i = Some a -> walker (e_kind e) a -> stride_limit a n < torso (e_kind e) a ->
  updates e x (new_simulation agents) dts s1 -> simulation_update e x s1 = (s2, None) ->
  (forall dts' t, (length dts' <= length dts)%nat -> updates e x (new_simulation agents) dts' t -> undisturbed e i n (fst t)) ->
  exists b c, nth_error (s_agents (fst s1)) i = Some b /\ nth_error (s_agents (fst s2)) i = Some c /\
    edist (a_position b) (a_position c) <= stride_limit a n /\ forall o, In o (e_obstacles e) -> p0 o <> p1 o -> ~ crosses o (a_position b) (a_position c).
Proof.
  intros range x e agents i n a dts s1 s2 Hx NT (G & FD & M) HD Ha W LT U U2 F. destruct (shipped_nodes range x Hx NT) as (pre & steer & post & E & Q1 & Q2 & Q3).
  destruct (stride e x pre steer post E Q1 Q2 Q3 G FD M (new_simulation agents) dts s1 s2 i n a U U2 (headed_sound (fst (new_simulation agents)) HD) F Ha W) as (b & c & Hb & Hc & SP & L).
  exists b, c. split; auto. split; auto. split; auto. intros o Ho No.
  assert (TB : torso (e_kind e) b = torso (e_kind e) a) by (destruct SP as (_ & _ & _ & _ & R1 & R2); unfold torso; destruct (e_kind e); auto).
  apply (no_crossing _ _ (torso (e_kind e) b)); [|lra]. intros q Q. apply Rnot_lt_le. intros LQ.
  destruct (F dts s1 (le_n _) U) as (_ & TW & _). apply (TW b o Hb Ho No). exists (a_position b, torso (e_kind e) b), q. split; [|auto].
  unfold torso. destruct (e_kind e); cbn; auto.
Qed.
Print Assumptions C132_no_wall_stepped_over_partial.
(** Seen by the simulation's own test of sight. *)
Theorem C132_in_sight : forall x y walls, (forall o, In o walls -> p0 o <> p1 o -> ~ crosses o x y) -> is_obstacle_between_points x y walls = false.
Proof. exact no_crossing_sight. Qed.
Print Assumptions C132_in_sight.
(** Somebody fast enough is through a wall in one update, without touching it before or after:
    nothing looks at what lies between the two positions. *)
Definition runner (r : R) : agent :=
  set_mass 80 (set_tau_adj (1/2) (set_tau_0 3 (set_active true (set_radius r (set_position (V (- (2 * r)) 0) (set_velocity (V (4 * r * 100 / (98/100)) 0) zero_row)))))).
Definition barred : env := Env Circular [Obs (V 0 (-10)) (V 0 10)] [] (fun _ _ _ _ => Err KeyError) (fun ps _ => all_pairs (length ps)) (fun _ => []) (fun _ => true) (fun _ _ => (0, 3, 0)).
Lemma barred_fair : fair_world barred.
Proof. split; [|split]. - intros ps c. apply all_pairs_good. - intros n i. cbn. lra. - intros ? ? ? ? ? ? H. discriminate H. Qed.
Lemma away_from_bar r y : 0 < r -> r <= Rabs (vx y) -> ~ body_hits_wall [(y, r)] (V 0 (-10)) (V 0 10).
Proof.
  intros R0 H (c & q & [<-|[]] & (t & T & ->) & L). cbn [fst snd] in L. pose proof (edist_vx y (along (V 0 (-10)) (V 0 10) t)) as X. unfold along in X at 1. cbn [vx] in X.
  replace (vx y - (0 + t * (0 - 0))) with (vx y) in X by ring. lra.
Qed.
Lemma only_one {A} (l : list A) b : length l = 1%nat -> nth_error l 0 = Some b -> l = [b].
Proof. destruct l as [|c [|]]; try discriminate. intros _ [= ->]. reflexivity. Qed.
Theorem C132_fast_refuted : forall r, 0 < r -> exists x e o a s b, In x (shipped_logics 10) /\ In AgentObstacleInteractions (written_order x) /\ fair_world e /\ e_kind e = Circular /\
  e_obstacles e = [o] /\ a_radius a = r /\ headed [a] /\ walker Circular a /\ updates e x (new_simulation [a]) [1/100] (s, 1%nat) /\ s_agents s = [b] /\ a_radius b = r /\
  ~ body_hits_wall (body Circular a) (p0 o) (p1 o) /\ ~ body_hits_wall (body Circular b) (p0 o) (p1 o) /\ crosses o (a_position a) (a_position b).
Proof.
  intros r R0. set (a := runner r). assert (Hx : In logic_closed_room (shipped_logics 10)) by (cbn; tauto).
  assert (W : walker Circular a). { split; [repeat split; try (cbn; lra); discriminate|cbn; lra]. }
  assert (HD : headed [a]). { intros c [<-|[]]. cbn [a runner]. split; [|cbn; lra]. rewrite elen_vlength. replace (vlength _) with 0; [lra|]. symmetry. now apply vlength_zero. }
  assert (NW : ~ body_hits_wall (body Circular a) (V 0 (-10)) (V 0 10)). { apply away_from_bar; auto. cbn. rewrite Rabs_left by lra. lra. }
  assert (FR : undisturbed barred 0 0 (fst (new_simulation [a]))).
  { split; [|split].
    - intros c j d _ Hj N. destruct j as [|[|]]; try discriminate. now contradiction N.
    - intros c o Hc [<-|[]] _. injection Hc as <-. exact NW.
    - intros js _ J. destruct js as [|j js]; [cbn; lia|]. destruct (J j (or_introl eq_refl)) as (N & c & d & _ & _ & _ & Hd & _). destruct j as [|[|]]; try discriminate. now contradiction N. }
  destruct (shipped_nodes 10 logic_closed_room Hx ltac:(discriminate)) as (pre & steer & post & E & Q1 & Q2 & Q3). destruct barred_fair as (G & FD & M).
  destruct (goes_on barred logic_closed_room) with (count := 1%nat) (s := fst (new_simulation [a])) (i := 0%nat) as (dts & s & L & U & _).
  - intros ps c i j H. apply all_pairs_in in H. lia.
  - cbn. intros n H. repeat (destruct H as [<-|H]; [cbn; auto; lia|]). destruct H.
  - constructor; [|constructor]. repeat split; try (cbn; lra); try discriminate. cbn. lia.
  - destruct (shipped_parts 10 logic_closed_room Hx) as (_ & l1 & l2 & WO & PL). destruct (steady barred logic_closed_room l1 (1/100) l2 WO PL _ _ _ U) as [D _]. rewrite L in D. cbn in D. subst dts.
    assert (U1 : simulation_update barred logic_closed_room (new_simulation [a]) = ((s, 1%nat), None)).
    { inversion U as [|? s1 ? ? HU HR]; subst. inversion HR; subst. exact HU. }
    destruct (headed_sound (fst (new_simulation [a])) HD) as [SD SR].
    destruct (update_row barred logic_closed_room pre steer post E Q1 Q2 Q3 G FD M _ _ _ _ 0%nat a 0 U1 SD SR eq_refl (proj1 FR) (proj1 (proj2 FR)) (proj2 (proj2 FR))) as (_ & _ & b & xi & Hb & LX & PF & _ & PV & PP & _ & _ & _ & _ & PR & _); try (cbn; lra); [reflexivity|].
    assert (X0 : xi = V 0 0). { apply vlength_zero. pose proof (vlength_nonneg xi). cbn in LX. lra. }
    assert (PX : vx (a_position b) = 2 * r /\ vy (a_position b) = 0). { rewrite PP, PV, X0. cbn. split; field. }
    assert (AG : s_agents s = [b]).
    { pose proof (bodies_constant _ _ _ _ _ U) as K. apply (f_equal (@length _)) in K. rewrite !map_length in K. exact (only_one _ b K Hb). }
    exists logic_closed_room, barred, (Obs (V 0 (-10)) (V 0 10)), a, s, b.
    split; [exact Hx|]. split; [cbn; tauto|]. split; [exact barred_fair|]. split; [reflexivity|]. split; [reflexivity|]. split; [reflexivity|]. split; [exact HD|]. split; [exact W|].
    split; [exact U|]. split; [exact AG|]. split; [exact PR|]. split; [exact NW|]. split.
    + apply away_from_bar; [rewrite PR; exact R0|]. cbn [p0 p1]. rewrite (proj1 PX), PR, Rabs_pos_eq by lra. cbn. lra.
    + exists (V 0 0). split; [exists (1/2)|exists (1/2)]; (split; [lra|]); unfold along; cbn [p0 p1 vx vy].
      * rewrite (proj1 PX), (proj2 PX). cbn. f_equal; field.
      * f_equal; field.
Qed.
Print Assumptions C132_fast_refuted.

(** Two people of average size on either side of the wall, 100 m from each other: for ten
    seconds nobody gets faster than 1.22 m/s, farther than 12.5 m or to the other side. *)
Definition person (p : vec) : agent :=
  set_mass (735/10) (set_tau_adj (1/2) (set_tau_0 3 (set_active true (set_std_rand_force (1/10) (set_target_velocity 1 (set_target_direction (V 1 0) (set_radius (255/1000) (set_position p zero_row)))))))).
Definition two := [person (V (-50) 0); person (V 50 0)].
Lemma two_headed : headed two.
Proof.
  intros a [<-|[<-|[]]]; (split; [|cbn; lra]); rewrite elen_vlength; cbn [person a_target_direction set_mass set_tau_adj set_tau_0 set_active set_std_rand_force set_target_velocity set_target_direction]; unfold vlength; cbn; replace (_ + _) with 1 by ring; rewrite sqrt_1; lra.
Qed.
Lemma person_limits p n : push_limit (person p) n = 23/10 + INR n * 2000 / (735/10) /\ elen (a_velocity (person p)) = 0.
Proof. split; [unfold push_limit; cbn -[INR]; field|]. rewrite elen_vlength. now apply vlength_zero. Qed.
Example C132_numbers : forall p, stride_limit (person p) 0 <= 1/80 /\ stride_limit (person p) 1 < torso Circular (person p).
Proof.
  intros p. destruct (person_limits p 0) as [P0 V0]. destruct (person_limits p 1) as [P1 _]. unfold stride_limit, speed_limit. cbv zeta. rewrite P0, P1, V0. cbn. lra.
Qed.
Lemma two_walk : forall a, In a two -> walker Circular a /\ sized Circular (255/1000) a /\ stride_limit a 0 <= 1/80.
Proof.
  assert (X : forall p, walker Circular (person p) /\ sized Circular (255/1000) (person p) /\ stride_limit (person p) 0 <= 1/80).
  { intros p. split; [|split; [cbn; lra|apply C132_numbers]]. split; [repeat split; try (cbn; lra); discriminate|cbn; lra]. }
  intros a [<-|[<-|[]]]; apply X.
Qed.
Lemma two_apart : scattered two (e_obstacles barred) (3 + 2 * (255/1000) + 2 * (INR 1000 * (1/80))) (255/1000 + INR 1000 * (1/80)).
Proof.
  replace (INR 1000) with 1000 by (rewrite INR_IZR_INZ; reflexivity). split.
  - intros i j a b N Ha Hb. assert (X : forall s t, Rabs (s - t) = 100 -> 3 + 2 * (255 / 1000) + 2 * (1000 * (1 / 80)) <= edist (V s 0) (V t 0)).
    { intros s t E. pose proof (edist_vx (V s 0) (V t 0)) as Y. cbn [vx] in Y. lra. }
    destruct i as [|[|[|]]], j as [|[|[|]]]; try discriminate; try (now contradiction N); injection Ha as <-; injection Hb as <-; apply X; [rewrite Rabs_left by lra|rewrite Rabs_pos_eq by lra]; lra.
  - intros c o q Ha Ho; cbn in Ho; destruct Ho as [<-|[]]; intros (t & T & ->). pose proof (edist_vx (a_position c) (along (V 0 (-10)) (V 0 10) t)) as Y. unfold along in Y at 1. cbn [vx] in Y.
    replace (vx (a_position c) - (0 + t * (0 - 0))) with (vx (a_position c)) in Y by ring. destruct Ha as [<-|[<-|[]]]; cbn [person a_position set_position set_mass set_tau_adj set_tau_0 set_active set_std_rand_force set_target_velocity set_target_direction set_radius vx p0 p1] in *.
    + rewrite Rabs_left in Y by lra. lra.
    + rewrite Rabs_pos_eq in Y by lra. lra.
Qed.
Lemma two_person a : In a two -> exists p, a = person p.
Proof. intros [<-|[<-|[]]]; eexists; reflexivity. Qed.
Example C133_case : forall count, (count <= 1000)%nat -> exists dts s, length dts = count /\ updates barred logic_closed_room (new_simulation two) dts s /\
  forall i a, nth_error two i = Some a -> exists b, nth_error (s_agents (fst s)) i = Some b /\ elen (a_velocity b) <= 122/100 /\ edist (a_position a) (a_position b) <= 125/10 /\
    forall s2, simulation_update barred logic_closed_room s = (s2, None) -> exists c, nth_error (s_agents (fst s2)) i = Some c /\
      forall o, In o (e_obstacles barred) -> p0 o <> p1 o -> ~ crosses o (a_position b) (a_position c).
Proof.
  intros count HC. assert (Hx : In logic_closed_room (shipped_logics 10)) by (cbn; tauto).
  destruct (goes_on barred logic_closed_room) with (count := count) (s := fst (new_simulation two)) (i := 0%nat) as (dts & s & L & U & _).
  - intros ps c i j H. apply all_pairs_in in H. lia.
  - cbn. intros n H. repeat (destruct H as [<-|H]; [cbn; auto; lia|]). destruct H.
  - repeat constructor; try (cbn; lra); try discriminate; cbn; lia.
  - exists dts, (s, (0 + count)%nat). split; auto. split; [exact U|]. intros i a Ha.
    assert (X : forall dts' t, (length dts' <= 1000)%nat -> updates barred logic_closed_room (new_simulation two) dts' t -> _) by
      exact (C133_scattered 10 logic_closed_room barred two (255/1000) (1/80) 1000 Hx ltac:(discriminate) barred_fair two_headed two_walk ltac:(lra) two_apart).
    destruct (X dts (s, (0 + count)%nat) ltac:(lia) U i a Ha) as (_ & b & Hb & B & D). exists b. split; auto.
    destruct (two_walk a (nth_error_In _ _ Ha)) as (W & _).
    split.
    { eapply Rle_trans; [exact B|]. eapply Rle_trans; [apply (course_below barred); exact W|]. destruct (two_person a (nth_error_In _ _ Ha)) as (p & ->).
      destruct (person_limits p 0) as [P0 V0]. unfold speed_limit. cbv zeta. rewrite P0, V0. cbn. lra. }
    split. { eapply Rle_trans; [exact D|]. assert (INR (length dts) <= INR 1000) by (apply le_INR; lia). replace (INR 1000) with 1000 in * by (rewrite INR_IZR_INZ; reflexivity). lra. }
    intros s2 U2. destruct (C132_no_wall_stepped_over_partial 10 logic_closed_room barred two i 0 a dts (s, (0 + count)%nat) s2 Hx ltac:(discriminate) barred_fair two_headed Ha W) as (b' & c & Hb' & Hc & _ & N); auto.
    + destruct (two_person a (nth_error_In _ _ Ha)) as (p & ->). destruct (C132_numbers p) as [N0 _]. cbn [e_kind barred]. change (torso Circular (person p)) with (255/1000). lra.
    + intros dts' t L' U'. apply (X dts' t ltac:(lia) U' i a Ha).
    + rewrite Hb in Hb'. injection Hb' as <-. exists c. auto.
Qed.
