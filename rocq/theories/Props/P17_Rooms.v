(** * Properties C93, C94, C95, C96: the example fields *)
From Coq Require Import Lra Ranalysis.
From Verif Require Import Model.ExampleFields Spec.Rooms Proofs.VecLemmas Proofs.RoomProofs Proofs.RoomFields Proofs.RoomHistories.
Open Scope R_scope.

Section Rooms.
Variables is_valid is_empty is_polygon : shape -> bool.
Hypothesis HP : predicates is_valid is_empty is_polygon.

(** ** C93 *)
(** After any history of assignments (refused ones too) and reads the domain of an
    [OutdoorField] is the rectangle of its present size, and the only spawn is the domain. *)
Theorem C93_outdoor : forall w h f ops, outdoor_new is_valid is_empty is_polygon w h = Ok f ->
  let g := outdoor_after is_valid is_empty is_polygon ops f in
  0 < o_width g -> 0 < o_height g ->
  exists d, snd (read_domain is_valid is_empty is_polygon g) = Ok d /\
    snd (read_spawns is_valid is_empty is_polygon g) = Ok [d] /\
    forall p, region d p <-> 0 <= vx p <= o_width g /\ 0 <= vy p <= o_height g.
Proof.
  intros w h f ops E g Hw Hh.
  assert (I : outdoor_inv g) by (apply (outdoor_after_inv _ _ _ HP); eapply outdoor_new_inv; eauto).
  exists (outdoor_rect (o_width g) (o_height g)). split; [apply (read_domain_inv _ _ _ HP); assumption|].
  split; [apply (read_spawns_inv _ _ _ HP); assumption|]. intros p. unfold outdoor_rect. apply poly_region'; lra.
Qed.
(** Every positive size can be asked for and is then the size of the field. *)
Theorem C93_outdoor_size : forall w h, 0 < w -> 0 < h ->
  (exists f, outdoor_new is_valid is_empty is_polygon w h = Ok f /\ o_width f = w /\ o_height f = h) /\
  (forall f, 0 < o_height f -> let '(g, r) := set_width is_valid is_empty is_polygon w f in
     r = Ok tt /\ o_width g = w /\ o_height g = o_height f) /\
  (forall f, 0 < o_width f -> let '(g, r) := set_height is_valid is_empty is_polygon h f in
     r = Ok tt /\ o_height g = h /\ o_width g = o_width f).
Proof.
  intros w h Hw Hh. split; [apply outdoor_new_ok; assumption|]. split.
  - intros f Hf. pose proof (set_width_ok _ _ _ HP w f Hw Hf) as (A & B & C).
    destruct (set_width is_valid is_empty is_polygon w f) as [g r]. auto.
  - intros f Hf. pose proof (set_height_ok _ _ _ HP h f Hh Hf) as (A & B & C).
    destruct (set_height is_valid is_empty is_polygon h f) as [g r]. auto.
Qed.
(** A size of zero is refused with an exception, but it stays: size and domain of the field
    disagree afterwards. *)
Theorem C93_refused_size_refuted : forall w h f, 0 < w -> 0 < h -> outdoor_new is_valid is_empty is_polygon w h = Ok f ->
  let f := fst (read_domain is_valid is_empty is_polygon f) in
  let '(g, r) := set_width is_valid is_empty is_polygon 0 f in
  (exists e, r = Err e) /\ o_width g = 0 /\
  exists d, snd (read_domain is_valid is_empty is_polygon g) = Ok d /\ region d (V w h).
Proof.
  intros w h f Hw Hh E. cbv zeta. pose proof (outdoor_new_inv _ _ _ HP _ _ _ E) as I.
  destruct (outdoor_new_ok _ _ _ HP w h Hw Hh) as (f' & E' & W & H). rewrite E in E'. injection E' as <-.
  pose proof (read_domain_inv _ _ _ HP f I) as (I' & W' & H' & D).
  assert (Dd : o_domain (fst (read_domain is_valid is_empty is_polygon f)) = Some (outdoor_rect w h)).
  { rewrite W, H in D. specialize (D Hw Hh). revert D. unfold read_domain. destruct (o_domain f) as [d|] eqn:Ed; cbn [fst snd].
    - intros Q. injection Q as ->. exact Ed.
    - destruct (checked_domain is_valid is_empty is_polygon (outdoor_rect (o_width f) (o_height f))) as [x|e]; cbn [fst snd o_domain];
        [intros Q; injection Q as ->; reflexivity|discriminate]. }
  set (f1 := fst (read_domain is_valid is_empty is_polygon f)) in *.
  destruct (set_width_zero _ _ _ HP f1) as (Q & G).
  - rewrite W', W. exact Hw.
  - rewrite H', H. exact Hh.
  - exact I'.
  - destruct (set_width is_valid is_empty is_polygon 0 f1) as [g r]. cbn [fst snd] in Q, G. subst g.
    split; [exact Q|]. split; [reflexivity|]. exists (outdoor_rect w h). unfold read_domain. cbn [o_domain]. rewrite Dd. cbn [snd].
    split; [reflexivity|]. apply poly_region'; unfold rect; cbn; lra.
Qed.
(** Negative sizes, ratios outside of [0, 1], exits wider than ten metres (narrower than one in
    [AvoidObstacle]) are refused, and nothing changes. *)
Theorem C93_out_of_range : forall x y z u, x < 0 ->
  (forall f, set_width is_valid is_empty is_polygon x f = (f, Err TraitError) /\ set_height is_valid is_empty is_polygon x f = (f, Err TraitError)) /\
  outdoor_new is_valid is_empty is_polygon x y = Err TraitError /\ (0 <= y -> outdoor_new is_valid is_empty is_polygon y x = Err TraitError) /\
  (forall f, hallway_do is_valid is_empty is_polygon f (HSetWidth x) = f /\ hallway_do is_valid is_empty is_polygon f (HSetHeight x) = f /\
     hallway_do is_valid is_empty is_polygon f (HSetRatio x) = f /\ (1 < y -> hallway_do is_valid is_empty is_polygon f (HSetRatio y) = f)) /\
  hallway_new is_valid is_empty is_polygon x y z = Err TraitError /\
  rounding is_valid is_empty is_polygon x y z = Err TraitError /\
  (0 <= y -> 0 <= z -> rounding is_valid is_empty is_polygon y x z = Err TraitError /\ rounding is_valid is_empty is_polygon y z x = Err TraitError /\
     (1 < u -> rounding is_valid is_empty is_polygon y z u = Err TraitError)) /\
  avoid_obstacle is_valid is_empty is_polygon x y z u = Err TraitError /\
  (0 <= y -> 0 <= z -> u < 1 -> avoid_obstacle is_valid is_empty is_polygon y z u x = Err TraitError) /\
  closed_room is_valid is_empty is_polygon x y = Err TraitError /\ (0 <= y -> closed_room is_valid is_empty is_polygon y x = Err TraitError) /\
  room_with_one_exit is_valid is_empty is_polygon x y z u = Err TraitError /\
  (0 <= y -> 0 <= z -> 10 < u -> room_with_one_exit is_valid is_empty is_polygon y z u x = Err TraitError) /\
  four_exits is_valid is_empty is_polygon x = Err TraitError /\ (10 < u -> four_exits is_valid is_empty is_polygon u = Err TraitError) /\
  pillar_in_the_middle is_valid is_empty is_polygon x y z = Err TraitError.
Proof using.
  intros x y z u Hx.
  assert (L : forall lo hi v, v < lo -> float_trait lo hi v = Err TraitError).
  { intros lo hi v Hv. unfold float_trait. rewrite (proj2 (Rltb_true v lo)) by exact Hv. reflexivity. }
  assert (H : forall lo hi v, hi < v -> float_trait lo (Some hi) v = Err TraitError).
  { intros lo hi v Hv. unfold float_trait. rewrite (proj2 (Rltb_true hi v)) by exact Hv. destruct (Rltb v lo); reflexivity. }
  unfold set_width, set_height, outdoor_new, hallway_do, hallway_new, rounding, avoid_obstacle, closed_room, room_with_one_exit, four_exits, pillar_in_the_middle.
  repeat match goal with |- _ /\ _ => split end; intros; repeat match goal with |- _ /\ _ => split end; intros;
    repeat first [rewrite (L 0) by lra|rewrite (L 1) by lra|rewrite (H 0) by lra|rewrite (float_trait_ok 0) by lra]; reflexivity.
Qed.
(** After any history the shapes of a [HallwayField] are those of its present width, height
    and ratio: walls below and above, exits left and right, spawns next to the exits. *)
Theorem C93_hallway : forall w h r f ops, hallway_new is_valid is_empty is_polygon w h r = Ok f ->
  let g := hallway_after is_valid is_empty is_polygon ops f in
  0 < h_width g -> 0 < h_height g -> 0 < h_ratio g ->
  exists F, hallway_field is_valid is_empty is_polygon g = Ok F /\
    (forall p, in_domain F p <-> 0 <= vx p <= h_width g /\ 0 <= vy p <= h_height g) /\
    (forall p, on_obstacle F p <-> 0 <= vx p <= h_width g /\ (vy p = 0 \/ vy p = h_height g)) /\
    (forall p, on_target F p <-> (vx p = 0 \/ vx p = h_width g) /\ 0 <= vy p <= h_height g) /\
    (exists s t, f_spawns F = [s; t] /\
      (forall p, region s p <-> 0 <= vx p <= h_ratio g * h_width g /\ 0 <= vy p <= h_height g) /\
      (forall p, region t p <-> (1 - h_ratio g) * h_width g <= vx p <= h_width g /\ 0 <= vy p <= h_height g)).
Proof.
  intros w h r f ops E g Hw Hh Hr.
  assert (I : hallway_inv g) by (apply (hallway_after_inv _ _ _ HP); eapply hallway_new_inv; eauto).
  assert (Hr' : 0 < h_ratio g <= 1) by (split; [exact Hr|exact (proj1 I)]).
  eexists. split; [apply (hallway_field_full _ _ _ HP); assumption|].
  split; [|split; [|split]].
  - intros p. unfold hallway_shapes. rewrite in_domain_iff, hallway_rect by assumption. unfold rect. tauto.
  - intros p. unfold hallway_shapes. rewrite on_obstacle_iff, hallway_obs by assumption. tauto.
  - intros p. rewrite hallway_tar by assumption. tauto.
  - eexists _, _. split; [reflexivity|]. split; intros p; [rewrite hallway_spawn0 by assumption|rewrite hallway_spawn1 by assumption]; unfold rect; tauto.
Qed.
(** The two spawns have no point in common exactly when the ratio is below one half. *)
Theorem C93_spawns_apart : forall w h r f ops, hallway_new is_valid is_empty is_polygon w h r = Ok f ->
  let g := hallway_after is_valid is_empty is_polygon ops f in
  0 < h_width g -> 0 < h_height g -> 0 < h_ratio g ->
  exists F s t, hallway_field is_valid is_empty is_polygon g = Ok F /\ f_spawns F = [s; t] /\
    ((forall p, ~ (region s p /\ region t p)) <-> h_ratio g < 1/2).
Proof.
  intros w h r f ops E g Hw Hh Hr.
  assert (I : hallway_inv g) by (apply (hallway_after_inv _ _ _ HP); eapply hallway_new_inv; eauto).
  assert (Hr' : 0 < h_ratio g <= 1) by (split; [exact Hr|exact (proj1 I)]).
  eexists _, _, _. split; [apply (hallway_field_full _ _ _ HP); assumption|]. split; [reflexivity|].
  rewrite (hallway_apart (h_width g) (h_height g) (h_ratio g)) by assumption. split.
  - intros A p s t Q S T. injection Q as <- <-. apply (A p). auto.
  - intros A p (S & T). exact (A p _ _ eq_refl S T).
Qed.

(** ** C94 *)
Theorem C94_hallway : forall w h r f ops, hallway_new is_valid is_empty is_polygon w h r = Ok f ->
  let g := hallway_after is_valid is_empty is_polygon ops f in
  0 < h_width g -> 0 < h_height g -> 0 < h_ratio g ->
  exists F, hallway_field is_valid is_empty is_polygon g = Ok F /\ left_through_targets_only F.
Proof.
  intros w h r f ops E g Hw Hh Hr.
  assert (I : hallway_inv g) by (apply (hallway_after_inv _ _ _ HP); eapply hallway_new_inv; eauto).
  eexists. split; [apply (hallway_field_full _ _ _ HP); assumption|].
  apply hallway_left; try assumption. split; [exact Hr|exact (proj1 I)].
Qed.
Theorem C94_rounding : forall w h r, 0 < w -> 0 < h -> 0 < r <= 1 ->
  exists F, rounding is_valid is_empty is_polygon w h r = Ok F /\ left_through_targets_only F.
Proof. intros. eexists. split; [apply rounding_ok; assumption|apply rounding_left; assumption]. Qed.
Theorem C94_avoid_obstacle : forall w h e r, 0 < w -> 0 < h -> 1 <= e -> 0 < r <= 1 ->
  exists F, avoid_obstacle is_valid is_empty is_polygon w h e r = Ok F /\ left_through_targets_only F.
Proof. intros. eexists. split; [apply avoid_ok; assumption|apply avoid_left; assumption]. Qed.
(** Nobody leaves a closed room without crossing its wall. *)
Theorem C94_closed_room : forall w h, 0 < w -> 0 < h ->
  exists F, closed_room is_valid is_empty is_polygon w h = Ok F /\
    forall g, way g -> in_domain F (g 0) -> ~ in_domain F (g 1) -> exists t, 0 <= t <= 1 /\ on_obstacle F (g t).
Proof. intros. eexists. split; [apply closed_ok; assumption|apply closed_left; assumption]. Qed.
Theorem C94_room_with_one_exit : forall w h e b, 0 < w -> 0 < e <= 10 -> e < h -> 0 < b ->
  exists F, room_with_one_exit is_valid is_empty is_polygon w h e b = Ok F /\ left_through_targets_only F.
Proof. intros. eexists. split; [apply room_ok; lra||assumption|apply room_left; lra]. Qed.
Theorem C94_four_exits : forall e, 0 < e <= 10 ->
  exists F, four_exits is_valid is_empty is_polygon e = Ok F /\ left_through_targets_only F.
Proof. intros. eexists. split; [apply four_ok; assumption|apply four_left; assumption]. Qed.

(** ** C95 *)
Theorem C95_hallway : forall w h r f ops, hallway_new is_valid is_empty is_polygon w h r = Ok f ->
  let g := hallway_after is_valid is_empty is_polygon ops f in
  0 < h_width g -> 0 < h_height g -> 0 < h_ratio g ->
  exists F, hallway_field is_valid is_empty is_polygon g = Ok F /\
    targets_open F [V 0 0; V 0 (h_height g); V (h_width g) 0; V (h_width g) (h_height g)] /\ targets_reachable F.
Proof.
  intros w h r f ops E g Hw Hh Hr.
  assert (I : hallway_inv g) by (apply (hallway_after_inv _ _ _ HP); eapply hallway_new_inv; eauto).
  assert (Hr' : 0 < h_ratio g <= 1) by (split; [exact Hr|exact (proj1 I)]).
  eexists. split; [apply (hallway_field_full _ _ _ HP); assumption|].
  split; [apply hallway_open; assumption|apply hallway_reach; assumption].
Qed.
(** Missing: a ratio of 1, where it is false. *)
Theorem C95_rounding_partial : forall w h r, 0 < w -> 0 < h -> 0 < r < 1 ->
  exists F, rounding is_valid is_empty is_polygon w h r = Ok F /\
    targets_open F [V 0 (h / 2); V 0 h] /\ targets_reachable F.
Proof.
  intros. eexists. split; [apply rounding_ok; lra||assumption|].
  split; [apply rounding_open; lra|apply rounding_reach; lra].
Qed.
(** [Rounding] accepts a ratio of 1: the wall then goes from side to side and nobody gets out. *)
Theorem C95_rounding_refuted : forall w h, 0 < w -> 0 < h ->
  exists F, rounding is_valid is_empty is_polygon w h 1 = Ok F /\
    forall p q, in_spawn F p -> on_target F q -> ~ on_obstacle F q -> ~ walk F p q.
Proof. intros. eexists. split; [apply rounding_ok; lra||assumption|]. apply rounding_blocked; lra. Qed.
(** Missing: a ratio of 1 and exits wider than the room, where it is false. *)
Theorem C95_avoid_obstacle_partial : forall w h e r, 0 < w -> 1 <= e <= h -> 0 < r < 1 ->
  exists F, avoid_obstacle is_valid is_empty is_polygon w h e r = Ok F /\
    targets_open F [V w 0; V w e] /\ targets_reachable F.
Proof.
  intros. eexists. split; [apply avoid_ok; lra||assumption|].
  split; [apply avoid_open; lra|apply avoid_reach; lra].
Qed.
(** [AvoidObstacle] accepts a ratio of 1: the obstacle then shuts the exit. *)
Theorem C95_avoid_obstacle_refuted : forall w h e, 0 < w -> 1 <= e -> e <= h / 2 ->
  exists F, avoid_obstacle is_valid is_empty is_polygon w h e 1 = Ok F /\
    forall p, on_target F p -> on_obstacle F p.
Proof. intros. eexists. split; [apply avoid_ok; lra||assumption|]. apply avoid_shut; lra. Qed.
(** Missing: exits wider than the room, where it is false. *)
Theorem C95_room_with_one_exit_partial : forall w h e b, 0 < w -> 0 < e <= 10 -> e < h -> 0 < b ->
  exists F, room_with_one_exit is_valid is_empty is_polygon w h e b = Ok F /\
    targets_open F [V (w + b) ((h - e) / 2); V (w + b) ((h + e) / 2)] /\ targets_reachable F.
Proof.
  intros. eexists. split; [apply room_ok; lra||assumption|].
  split; [apply room_open; lra|apply room_reach; lra].
Qed.
(** [RoomWithOneExit] accepts exits wider than the room; walls then stand in the exit. *)
Theorem C95_room_with_one_exit_refuted : forall w h e b, 0 < w -> 0 < h < e -> e <= 10 -> 0 < b ->
  exists F, room_with_one_exit is_valid is_empty is_polygon w h e b = Ok F /\
    ~ targets_open F [V (w + b) ((h - e) / 2); V (w + b) ((h + e) / 2)].
Proof.
  intros w h e b Hw Hh He Hb. eexists. split; [apply room_ok; lra||assumption|]. intros T.
  destruct (room_narrow w h e b) as (p & A & B & C & D); try lra.
  destruct (T p A B) as [Q|[Q|[]]]; congruence.
Qed.
Theorem C95_four_exits : forall e, 0 < e <= 10 ->
  exists F, four_exits is_valid is_empty is_polygon e = Ok F /\
    targets_open F [V 0 10; V 0 (10 + e); V 6 80; V (6 + e) 80; V 100 (50 + e); V 100 50; V 87 0; V (87 + e) 0] /\
    targets_reachable F.
Proof.
  intros. eexists. split; [apply four_ok; assumption|]. split; [apply four_open; assumption|apply four_reach; assumption].
Qed.

(** ** C96 *)
Theorem C96_hallway : forall w h r f ops, hallway_new is_valid is_empty is_polygon w h r = Ok f ->
  let g := hallway_after is_valid is_empty is_polygon ops f in
  0 < h_width g -> 0 < h_height g -> 0 < h_ratio g ->
  exists F, hallway_field is_valid is_empty is_polygon g = Ok F /\ contains_all F.
Proof.
  intros w h r f ops E g Hw Hh Hr.
  assert (I : hallway_inv g) by (apply (hallway_after_inv _ _ _ HP); eapply hallway_new_inv; eauto).
  eexists. split; [apply (hallway_field_full _ _ _ HP); assumption|].
  apply hallway_contains; try assumption. split; [exact Hr|exact (proj1 I)].
Qed.
Theorem C96_rounding : forall w h r, 0 < w -> 0 < h -> 0 < r <= 1 ->
  exists F, rounding is_valid is_empty is_polygon w h r = Ok F /\ contains_all F.
Proof. intros. eexists. split; [apply rounding_ok; assumption|apply rounding_contains; assumption]. Qed.
(** Missing: exits wider than the room, where it is false. *)
Theorem C96_avoid_obstacle_partial : forall w h e r, 0 < w -> 1 <= e <= h -> 0 < r <= 1 ->
  exists F, avoid_obstacle is_valid is_empty is_polygon w h e r = Ok F /\ contains_all F.
Proof. intros. eexists. split; [apply avoid_ok; lra||assumption|apply avoid_contains; lra]. Qed.
(** The exit of [AvoidObstacle] may be wider than the room. *)
Theorem C96_avoid_obstacle_refuted : forall w h e r, 0 < w -> 0 < h < e -> 1 <= e -> 0 < r <= 1 ->
  exists F, avoid_obstacle is_valid is_empty is_polygon w h e r = Ok F /\
    exists p, on_target F p /\ ~ in_domain F p.
Proof. intros. eexists. split; [apply avoid_ok; lra||assumption|]. eexists. apply avoid_sticks_out; lra. Qed.
Theorem C96_closed_room : forall w h, 0 < w -> 0 < h ->
  exists F, closed_room is_valid is_empty is_polygon w h = Ok F /\ contains_all F.
Proof. intros. eexists. split; [apply closed_ok; assumption|apply closed_contains; assumption]. Qed.
Theorem C96_room_with_one_exit : forall w h e b, 0 < w -> 0 < e <= 10 -> e < h -> 0 < b ->
  exists F, room_with_one_exit is_valid is_empty is_polygon w h e b = Ok F /\ contains_all F.
Proof. intros. eexists. split; [apply room_ok; lra||assumption|apply room_contains; lra]. Qed.
Theorem C96_four_exits : forall e, 0 < e <= 10 ->
  exists F, four_exits is_valid is_empty is_polygon e = Ok F /\ contains_all F.
Proof. intros. eexists. split; [apply four_ok; assumption|apply four_contains; assumption]. Qed.
(** The pillar of [PillarInTheMiddle] stands outside of the domain; unless it is very big,
    it has no point in the domain. *)
Theorem C96_pillar_refuted : forall w h r, 0 < w -> 0 < h -> 0 < r ->
  exists F, pillar_in_the_middle is_valid is_empty is_polygon w h r = Ok F /\ ~ contains_all F /\
    (r < w / 2 -> forall p, on_obstacle F p -> ~ in_domain F p).
Proof.
  intros w h r Hw Hh Hr. eexists. split; [apply pillar_ok; assumption|]. split.
  - intros C. destruct (pillar_centre_outside w h r Hw Hh Hr) as (A & B). apply B. apply C. left. exact A.
  - apply pillar_outside; assumption.
Qed.
End Rooms.
Print Assumptions C93_outdoor.
Print Assumptions C93_outdoor_size.
Print Assumptions C93_out_of_range.
Print Assumptions C93_refused_size_refuted.
Print Assumptions C93_hallway.
Print Assumptions C93_spawns_apart.
Print Assumptions C94_hallway.
Print Assumptions C94_rounding.
Print Assumptions C94_avoid_obstacle.
Print Assumptions C94_closed_room.
Print Assumptions C94_room_with_one_exit.
Print Assumptions C94_four_exits.
Print Assumptions C95_hallway.
Print Assumptions C95_rounding_partial.
Print Assumptions C95_rounding_refuted.
Print Assumptions C95_avoid_obstacle_partial.
Print Assumptions C95_avoid_obstacle_refuted.
Print Assumptions C95_room_with_one_exit_partial.
Print Assumptions C95_room_with_one_exit_refuted.
Print Assumptions C95_four_exits.
Print Assumptions C96_hallway.
Print Assumptions C96_rounding.
Print Assumptions C96_avoid_obstacle_partial.
Print Assumptions C96_avoid_obstacle_refuted.
Print Assumptions C96_closed_room.
Print Assumptions C96_room_with_one_exit.
Print Assumptions C96_four_exits.
Print Assumptions C96_pillar_refuted.

(** Predicates that meet the assumptions: flat quadrilaterals are the only invalid shapes. *)
Definition ex_valid (s : shape) : bool :=
  match s with SPoly [a; b; c; d] => negb (Reqb (shoelace_area [a; b; c; d]) 0) | _ => true end.
Definition ex_empty (s : shape) : bool := false.
Definition ex_polygon (s : shape) : bool := true.
Example C93_predicates_ex : predicates ex_valid ex_empty ex_polygon.
Proof.
  split; try reflexivity.
  - intros s H. destruct s as [|vs|ring| | | |]; try reflexivity.
    destruct H as (x0 & x1 & y0 & y1 & Nx & Ny & H).
    assert (P : (x1 - x0) * (y1 - y0) <> 0) by (apply Rmult_integral_contrapositive_currified; lra).
    destruct H as [-> | ->]; cbn [ex_valid]; apply negb_true_iff; apply Reqb_false; unfold shoelace_area; intros E.
    + replace (signed2 _) with (2 * ((x1 - x0) * (y1 - y0))) in E by (cbn [signed2 app path_sum]; unfold outer; cbn [vx vy]; ring).
      assert (Z : 2 * ((x1 - x0) * (y1 - y0)) <> 0) by lra. apply Rabs_pos_lt in Z. lra.
    + replace (signed2 _) with (- (2 * ((x1 - x0) * (y1 - y0)))) in E by (cbn [signed2 app path_sum]; unfold outer; cbn [vx vy]; ring).
      assert (Z : - (2 * ((x1 - x0) * (y1 - y0))) <> 0) by lra. apply Rabs_pos_lt in Z. lra.
  - intros a b c d E. cbn [ex_valid]. rewrite E. rewrite (proj2 (Reqb_true 0 0)) by reflexivity. reflexivity.
Qed.
(** A field that goes through a refused size and gets a new one. *)
Example C93_outdoor_ex : exists f, outdoor_new ex_valid ex_empty ex_polygon 3 4 = Ok f /\
  o_width (outdoor_after ex_valid ex_empty ex_polygon [ReadDomain; SetWidth 0; SetHeight 7; ReadSpawns; SetWidth 5] f) = 5 /\
  o_height (outdoor_after ex_valid ex_empty ex_polygon [ReadDomain; SetWidth 0; SetHeight 7; ReadSpawns; SetWidth 5] f) = 7.
Proof.
  pose proof C93_predicates_ex as HP.
  destruct (outdoor_new_ok _ _ _ HP 3 4) as (f & E & W & H); try lra. exists f. split; [exact E|].
  unfold outdoor_after. cbn [fold_left outdoor_do].
  pose proof (outdoor_new_inv _ _ _ HP _ _ _ E) as I.
  pose proof (read_domain_inv _ _ _ HP f I) as (I1 & W1 & H1 & _).
  set (f1 := fst (read_domain ex_valid ex_empty ex_polygon f)) in *.
  destruct (set_width_zero _ _ _ HP f1) as (_ & ->); [rewrite W1, W; lra|rewrite H1, H; lra|exact I1|].
  set (f2 := Outdoor 0 (o_height f1) (o_domain f1) (o_spawns f1)).
  assert (A : o_height (fst (set_height ex_valid ex_empty ex_polygon 7 f2)) = 7).
  { unfold set_height. rewrite float_trait_ok by lra. destruct (Reqb 7 (o_height f2)); [reflexivity|].
    rewrite (proj2 (proj2 (outdoor_observer_inv _ _ _ HP _))). reflexivity. }
  assert (I3 : outdoor_inv (fst (set_height ex_valid ex_empty ex_polygon 7 f2))).
  { apply (outdoor_do_inv _ _ _ HP f2 (SetHeight 7)). intros Q. cbn in Q. lra. }
  set (f3 := fst (set_height ex_valid ex_empty ex_polygon 7 f2)) in *.
  pose proof (read_spawns_inv _ _ _ HP f3 I3) as (_ & _ & H4 & _).
  destruct (set_width_ok _ _ _ HP 5 (fst (read_spawns ex_valid ex_empty ex_polygon f3))) as (_ & X & Y); lra.
Qed.
Example C93_hallway_ex : exists f, hallway_new ex_valid ex_empty ex_polygon 40 5 (1/4) = Ok f /\
  h_width (hallway_after ex_valid ex_empty ex_polygon [HRead; HReadDomain] f) = 40.
Proof.
  pose proof C93_predicates_ex as HP. unfold hallway_new. rewrite !float_trait_ok by lra. rewrite float_trait_ok2 by lra. cbn [rbind].
  unfold hallway_set. cbn [h_width h_height h_ratio].
  rewrite (proj2 (Reqb_false 40 10)) by lra. cbn [andb].
  set (f0 := Hallway 40 5 (1/4) _ _ _ _).
  destruct (hallway_observer_inv _ _ _ HP f0) as (I & S); [cbn; lra|].
  assert (W : h_width (fst (hallway_observer ex_valid ex_empty ex_polygon f0)) = 40).
  { unfold hallway_observer. destruct (set_obstacles _ _ _ _); [|reflexivity]. cbv zeta. destruct (hallway_hull _ _ _ _); reflexivity. }
  destruct (hallway_observer ex_valid ex_empty ex_polygon f0) as [g u]. cbn [fst snd] in *.
  rewrite S by (cbn; lra). cbn [rbind]. exists g. split; [reflexivity|].
  unfold hallway_after. cbn [fold_left hallway_do]. unfold hallway_read_domain. destruct (h_domain (hallway_fill g)); [exact W|].
  cbv zeta. destruct (hallway_hull _ _ _ _); exact W.
Qed.
(** A way out of a room, through its exit. *)
Example C94_way_ex : way (fun t => V (20 * t) 3) /\
  in_domain (avoid_field 10 10 4 (1/2)) (V (20 * 0) 3) /\ ~ in_domain (avoid_field 10 10 4 (1/2)) (V (20 * 1) 3).
Proof.
  split; [split; cbn [vx vy]; reg|].
  assert (D : forall p, in_domain (avoid_field 10 10 4 (1/2)) p <-> rect 0 10 0 10 p).
  { intros p. unfold avoid_field. rewrite in_domain_iff. unfold rectangle. rewrite poly_region by lra. rewrite !Rplus_0_l. tauto. }
  rewrite !D. unfold rect. cbn. lra.
Qed.
(** A free place in the spawn and a free place in an exit. *)
Example C95_four_ex : in_spawn (four_field 1) (V 30 10) /\ ~ on_obstacle (four_field 1) (V 30 10) /\
  on_target (four_field 1) (V 100 (101/2)) /\ ~ on_obstacle (four_field 1) (V 100 (101/2)).
Proof.
  rewrite four_targets by lra. unfold four_field. rewrite in_spawn_1, !on_obstacle_iff, !four_obstacles by lra.
  split; [apply (proj2 (four_spawn 1 ltac:(lra) (V 30 10))); unfold rect; cbn; lra|].
  unfold four_obs, four_tar. cbn. lra.
Qed.
Example C96_spawn_ex : in_spawn (room_field 10 8 2 1) (V 3 3) /\ on_target (room_field 10 8 2 1) (V 11 4).
Proof.
  unfold room_field. rewrite in_spawn_1, on_target_1. split.
  - apply (proj2 (room_spawn 10 8 2 ltac:(lra) ltac:(lra) ltac:(lra) ltac:(lra) ltac:(lra) (V 3 3))); unfold rect; cbn; lra.
  - cbn [region on_line]. left. apply seg_v; cbn; lra.
Qed.
