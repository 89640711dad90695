(** * Properties C97, C98: the crowds of the example simulations *)
From Coq Require Import Lra Lia.
From Verif Require Import Model.ExampleFields Spec.Rooms Proofs.VecLemmas Proofs.RoomProofs Spec.Overlap Model.ExampleSims Spec.Crowds
  Proofs.CrowdProofs Proofs.CrowdExamples Proofs.CrowdApart.
From Verif Require Proofs.BodyProofs.
Open Scope R_scope.

Section Crowds.
Variables (k : kind) (rolled : nat -> nat -> rolls) (bodies : nat -> nat -> nat -> R) (targets : Z)
          (spawn : nat -> nat -> nat -> option vec) (walls : list obstacle).
Hypotheses (Hr : fair_rolls rolled) (Hb : fair_bodies bodies).

(** ** C97 *)
Theorem C97_outdoor : forall size, (1 <= size)%Z -> endless (spawn 0 0)%nat ->
  exists st, outdoor_crowd k rolled bodies spawn size = Ok st /\
  starts_with st size (fun a =>
    ready k a /\ independent a /\ no_target a /\ no_exit a /\ walks_somewhere k a /\ drawn_from (spawn 0 0)%nat a).
Proof using Hr Hb. intros. apply outdoor_starts; assumption. Qed.
Theorem C97_room_with_one_exit : forall size, (1 <= size)%Z -> endless (spawn 0 0)%nat ->
  exists st, room_crowd k bodies spawn size = Ok st /\
  starts_with st size (fun a =>
    ready k a /\ independent a /\ a_target a = 0%Z /\ no_exit a /\ walks k 0 a /\ drawn_from (spawn 0 0)%nat a).
Proof using Hb. intros. apply room_starts; assumption. Qed.
Theorem C97_four_exits : forall size, (0 <= size)%Z -> (0 < targets)%Z -> endless (spawn 0 0)%nat ->
  exists st, four_exits_crowd k rolled bodies targets spawn walls size = Ok st /\
  starts_with st size (fun a =>
    ready k a /\ independent a /\ has_target targets a /\ knows_exit targets a /\ stands k a /\ drawn_from (spawn 0 0)%nat a).
Proof using Hr Hb. intros. apply four_exits_starts; assumption. Qed.
Theorem C97_outdoor_herding : forall nl nh width height horizontal vertical, (0 <= nl <= 1)%Z -> (0 <= nh)%Z -> endless (spawn 1 0)%nat ->
  exists st, outdoor_herding_crowd k rolled bodies spawn nl nh width height horizontal vertical = Ok st /\
  starts_with_two st nl nh
    (fun a => ready k a /\ leads a /\ no_target a /\ no_exit a /\ walks k 0 a /\ a_position a = V (horizontal * width) (vertical * height))
    (fun a => ready k a /\ follows a /\ no_target a /\ no_exit a /\ walks_somewhere k a /\ drawn_from (spawn 1 0)%nat a).
Proof using Hr Hb. intros. apply outdoor_herding_starts; assumption. Qed.
Theorem C97_rounding : forall nl nh, (0 <= nl)%Z -> (0 <= nh)%Z -> (0 < targets)%Z -> endless (spawn 0 0)%nat -> endless (spawn 1 0)%nat ->
  exists st, rounding_crowd k rolled bodies targets spawn walls nl nh = Ok st /\
  starts_with_two st nl nh
    (fun a => ready k a /\ leads a /\ has_target targets a /\ no_exit a /\ stands k a /\ drawn_from (spawn 0 0)%nat a)
    (fun a => ready k a /\ follows a /\ no_target a /\ no_exit a /\ stands k a /\ drawn_from (spawn 1 0)%nat a).
Proof using Hr Hb. intros. apply rounding_starts; assumption. Qed.
Theorem C97_avoid_obstacle : forall nl nh, (0 <= nl)%Z -> (0 <= nh)%Z -> (0 < targets)%Z -> endless (spawn 0 0)%nat -> endless (spawn 1 1)%nat ->
  exists st, avoid_crowd k rolled bodies targets spawn walls nl nh = Ok st /\
  starts_with_two st nl nh
    (fun a => ready k a /\ leads a /\ has_target targets a /\ no_exit a /\ stands k a /\ drawn_from (spawn 0 0)%nat a)
    (fun a => ready k a /\ follows a /\ no_target a /\ no_exit a /\ stands k a /\ drawn_from (spawn 1 1)%nat a).
Proof using Hr Hb. intros. apply avoid_starts; assumption. Qed.
Theorem C97_closed_room : forall nl nh, (0 <= nl)%Z -> (0 <= nh)%Z -> endless (spawn 0 0)%nat -> endless (spawn 1 0)%nat ->
  exists st, closed_crowd k rolled bodies spawn nl nh = Ok st /\
  starts_with_two st nl nh
    (fun a => ready k a /\ leads a /\ no_target a /\ no_exit a /\ walks_somewhere k a /\ drawn_from (spawn 0 0)%nat a)
    (fun a => ready k a /\ follows a /\ no_target a /\ no_exit a /\ walks_somewhere k a /\ drawn_from (spawn 1 0)%nat a).
Proof using Hr Hb. intros. apply closed_starts; assumption. Qed.
Theorem C97_four_exits_herding : forall nl nh, (0 <= nl)%Z -> (0 <= nh)%Z -> (0 < targets)%Z -> endless (spawn 0 0)%nat -> endless (spawn 1 0)%nat ->
  exists st, four_herding_crowd k rolled bodies targets spawn walls nl nh = Ok st /\
  starts_with_two st nl nh
    (fun a => ready k a /\ leads a /\ has_target targets a /\ knows_exit targets a /\ stands k a /\ drawn_from (spawn 0 0)%nat a)
    (fun a => ready k a /\ follows a /\ no_target a /\ knows_exit targets a /\ stands k a /\ drawn_from (spawn 1 0)%nat a).
Proof using Hr Hb. intros. apply four_herding_starts; assumption. Qed.
(** One leader for each of the four exits, each in an area of their own. *)
Theorem C97_four_exits_fixed : forall nh, (0 <= nh)%Z -> (0 < targets)%Z ->
  (forall i, (i < 4)%nat -> endless (spawn i (S i))) -> endless (spawn 4 0)%nat ->
  exists st, four_fixed_crowd k rolled bodies targets spawn walls 4 nh = Ok st /\
  starts_with st (4 + nh) (fun a => ready k a /\ stands k a /\ knows_exit targets a /\
    ((exists i, (i < 4)%nat /\ leads a /\ a_target a = Z.of_nat i /\ drawn_from (spawn i (S i)) a) \/
     (follows a /\ no_target a /\ drawn_from (spawn 4 0)%nat a))) /\
  (complete st -> exists a0 a1 a2 a3 l, ag_array st = a0 :: a1 :: a2 :: a3 :: l /\ length l = Z.to_nat nh /\
     leads a0 /\ a_target a0 = 0%Z /\ leads a1 /\ a_target a1 = 1%Z /\ leads a2 /\ a_target a2 = 2%Z /\ leads a3 /\ a_target a3 = 3%Z /\
     Forall (fun a => follows a /\ no_target a) l).
Proof using Hr Hb. intros. apply four_fixed_starts; assumption. Qed.
(** Half of the agents walk each way; two halves are the size asked for if that is even. *)
Theorem C97_hallway_partial : forall size, (2 <= size)%Z -> endless (spawn 0 0)%nat -> endless (spawn 1 1)%nat ->
  exists st, hallway_crowd k bodies spawn size = Ok st /\
  starts_with_two st (size / 2) (size / 2)
    (fun a => ready k a /\ independent a /\ a_target a = 1%Z /\ no_exit a /\ walks k 0 a /\ drawn_from (spawn 0 0)%nat a)
    (fun a => ready k a /\ independent a /\ a_target a = 0%Z /\ no_exit a /\ walks k PI a /\ drawn_from (spawn 1 1)%nat a) /\
  (Z.Even size -> length (ag_array st) = Z.to_nat size).
Proof using Hb.
  intros size Hs H0 H1. destruct (hallway_starts k bodies spawn Hb size Hs H0 H1) as (st & E & S). exists st. split; [exact E|]. split; [exact S|].
  intros (m & ->). destruct S as ((L & _) & _). rewrite L. replace (2 * m / 2)%Z with m by (rewrite Z.mul_comm, Z.div_mul; lia). f_equal. lia.
Qed.
(** An odd number of agents: one of them is left out. *)
Theorem C97_hallway_refuted : forall size, (2 <= size)%Z -> Z.Odd size -> endless (spawn 0 0)%nat -> endless (spawn 1 1)%nat ->
  exists st, hallway_crowd k bodies spawn size = Ok st /\ length (ag_array st) = Z.to_nat (size - 1).
Proof using Hb.
  intros size Hs (m & ->) H0 H1. destruct (hallway_starts k bodies spawn Hb _ Hs H0 H1) as (st & E & S). exists st. split; [exact E|].
  destruct S as ((L & _) & _). rewrite L. replace ((2 * m + 1) / 2)%Z with m.
  - f_equal. lia.
  - rewrite Z.add_comm, Z.mul_comm, Z.div_add by lia. reflexivity.
Qed.
(** Numbers out of range are refused. *)
Theorem C97_refused : forall n m w h x y, (n < 0)%Z ->
  outdoor_crowd k rolled bodies spawn n = Err TraitError /\ outdoor_crowd k rolled bodies spawn 0 = Err TraitError /\
  room_crowd k bodies spawn n = Err TraitError /\ room_crowd k bodies spawn 0 = Err TraitError /\
  hallway_crowd k bodies spawn n = Err TraitError /\ hallway_crowd k bodies spawn 0 = Err TraitError /\ hallway_crowd k bodies spawn 1 = Err TraitError /\
  four_exits_crowd k rolled bodies targets spawn walls n = Err TraitError /\
  outdoor_herding_crowd k rolled bodies spawn n m w h x y = Err TraitError /\
  (forall l, (1 < l)%Z -> outdoor_herding_crowd k rolled bodies spawn l m w h x y = Err TraitError) /\
  rounding_crowd k rolled bodies targets spawn walls n m = Err TraitError /\ avoid_crowd k rolled bodies targets spawn walls n m = Err TraitError /\
  closed_crowd k rolled bodies spawn n m = Err TraitError /\ four_herding_crowd k rolled bodies targets spawn walls n m = Err TraitError /\
  (forall l, (l <> 4)%Z -> four_fixed_crowd k rolled bodies targets spawn walls l m = Err TraitError) /\
  (forall l, (0 <= l)%Z -> rounding_crowd k rolled bodies targets spawn walls l n = Err TraitError /\
     avoid_crowd k rolled bodies targets spawn walls l n = Err TraitError /\ closed_crowd k rolled bodies spawn l n = Err TraitError /\
     four_herding_crowd k rolled bodies targets spawn walls l n = Err TraitError).
Proof using.
  intros n m w h x y Hn.
  unfold outdoor_crowd, room_crowd, hallway_crowd, four_exits_crowd, outdoor_herding_crowd, rounding_crowd, avoid_crowd, closed_crowd,
    four_herding_crowd, four_fixed_crowd.
  repeat match goal with |- _ /\ _ => split end; try (intros l Hl); repeat match goal with |- _ /\ _ => split end;
    try (rewrite int_trait_low by lia; reflexivity); try (rewrite int_trait_high by lia; reflexivity);
    try (rewrite int_trait_ok by lia; cbn [rbind]; rewrite int_trait_low by lia; reflexivity).
  destruct (Z_lt_le_dec l 4); [rewrite int_trait_low by lia; reflexivity|rewrite int_trait_high by lia; reflexivity].
Qed.
(** In a field without targets there is nothing to draw from. *)
Theorem C97_no_targets_refused : forall n m, (1 <= n)%Z -> (0 <= m)%Z -> (targets <= 0)%Z ->
  four_exits_crowd k rolled bodies targets spawn walls n = Err ValueError /\
  rounding_crowd k rolled bodies targets spawn walls n m = Err ValueError /\ rounding_crowd k rolled bodies targets spawn walls 0 n = Err ValueError /\
  avoid_crowd k rolled bodies targets spawn walls n m = Err ValueError /\ avoid_crowd k rolled bodies targets spawn walls 0 n = Err ValueError /\
  four_herding_crowd k rolled bodies targets spawn walls n m = Err ValueError /\ four_herding_crowd k rolled bodies targets spawn walls 0 n = Err ValueError /\
  four_fixed_crowd k rolled bodies targets spawn walls 4 m = Err ValueError.
Proof using.
  intros n m Hn Hm Ht.
  assert (RI : forall d, randint 0 targets d = Err ValueError) by (intros d; unfold randint; now rewrite (proj2 (Z.ltb_ge 0 targets)) by exact Ht).
  assert (FIRST : forall size att bd sp w ps, (1 <= size)%Z -> (forall j, att j = Err ValueError) -> crowd k (Plan size att bd sp w :: ps) = Err ValueError).
  { intros size att bd sp w ps Hs Ha. unfold crowd. destruct (cell_new k) as (st & E0 & _). rewrite E0. cbn [rbind populate].
    replace (ag_kind st) with k by (unfold agents_new in E0; destruct (bl_new _); [injection E0 as <-; reflexivity|discriminate]). unfold plan_group. cbn [pl_size pl_attributes pl_bodies].
    destruct (BodyProofs.new_callable size att ltac:(lia)) as (gr & E & Len & N & _). rewrite E.
    destruct (gr_members gr) as [|d ds]; [cbn in Len; lia|]. specialize (N 0%nat ltac:(lia)). cbn in N. injection N as ->. cbn. now rewrite Ha. }
  assert (SECOND : forall att bd sp w att' bd' sp' w' ps, (forall j, att' j = Err ValueError) -> crowd k (Plan 0 att bd sp w :: Plan n att' bd' sp' w' :: ps) = Err ValueError).
  { intros att bd sp w att' bd' sp' w' ps Ha. transitivity (crowd k (Plan n att' bd' sp' w' :: ps)); [|now apply FIRST]. unfold crowd. unfold agents_new. destruct (bl_new (6/10)); [|reflexivity]. destruct k; reflexivity. }
  unfold four_exits_crowd, rounding_crowd, avoid_crowd, four_herding_crowd, four_fixed_crowd, herding_attributes, four_attributes, fixed_attributes.
  repeat match goal with |- _ /\ _ => split end; repeat (rewrite int_trait_ok by lia; cbn [rbind]);
    try (apply FIRST; [lia|intros j; rewrite RI; reflexivity]); try (apply SECOND; intros j; rewrite RI; reflexivity).
Qed.

(** ** C98 *)
Theorem C98_clear_of_walls : forall st i a o, started_with_walls k rolled bodies targets spawn walls st ->
  (i < ag_index st)%nat -> nth_error (ag_array st) i = Some a -> (forall o, In o walls -> p0 o <> p1 o) ->
  In o walls -> ~ body_hits_wall (body k a) (p0 o) (p1 o).
Proof using Hb. intros. eapply started_clear; eauto. Qed.
(** The other examples do not look at the walls: whoever is drawn next to a wall stands in it. *)
Theorem C98_into_walls_refuted : forall p w0 w1 q, spawn 0%nat 0%nat 0%nat = Some p -> on_segment w0 w1 q -> edist p q < 12/100 ->
  let hit st := exists a, nth_error (ag_array st) 0 = Some a /\ (0 < ag_index st)%nat /\ body_hits_wall (body k a) w0 w1 in
  (forall size st, hallway_crowd k bodies spawn size = Ok st -> hit st) /\
  (forall size st, room_crowd k bodies spawn size = Ok st -> hit st) /\
  (forall nl nh st, (1 <= nl)%Z -> closed_crowd k rolled bodies spawn nl nh = Ok st -> hit st).
Proof using Hb.
  intros p w0 w1 q Hp Hq Hd hit.
  assert (It : forall lo n m, int_trait lo None n = Ok m -> m = n /\ (lo <= n)%Z).
  { intros lo n m. unfold int_trait. destruct (n <? lo)%Z eqn:E; [discriminate|]. intros Q. injection Q as ->. apply Z.ltb_ge in E. auto. }
  split; [|split].
  - intros size st H. unfold hallway_crowd in H. apply rbind_ok in H. destruct H as (n & E & H). apply It in E. destruct E as (-> & L).
    eapply first_hits; [| | | |exact H| |].
    + constructor; [apply fair_one; exact Hb|constructor; [apply fair_one; exact Hb|constructor]].
    + reflexivity.
    + cbn [pl_size]. apply Z.div_le_lower_bound; lia.
    + exact Hp.
    + exact Hq.
    + exact Hd.
  - intros size st H. unfold room_crowd in H. apply rbind_ok in H. destruct H as (n & E & H). apply It in E. destruct E as (-> & L).
    eapply first_hits; [| | | |exact H| |].
    + constructor; [apply fair_one; exact Hb|constructor].
    + reflexivity.
    + exact L.
    + exact Hp.
    + exact Hq.
    + exact Hd.
  - intros nl nh st Hl H. unfold closed_crowd in H. apply rbind_ok in H. destruct H as (n & E & H). apply It in E. destruct E as (-> & L).
    apply rbind_ok in H. destruct H as (n' & E & H). apply It in E. destruct E as (-> & L').
    eapply first_hits; [| | | |exact H| |].
    + constructor; [apply fair_one; exact Hb|constructor; [apply fair_one; exact Hb|constructor]].
    + reflexivity.
    + exact Hl.
    + exact Hp.
    + exact Hq.
    + exact Hd.
Qed.
End Crowds.

Theorem C98_circular_apart : forall rolled bodies targets spawn walls st i j a b, fair_bodies bodies ->
  started Circular rolled bodies targets spawn walls st -> i <> j -> (i < ag_index st)%nat -> (j < ag_index st)%nat ->
  nth_error (ag_array st) i = Some a -> nth_error (ag_array st) j = Some b ->
  ~ bodies_overlap (body Circular a) (body Circular b).
Proof.
  intros rolled bodies targets spawn walls st i j a b Hb S. destruct (started_crowd _ _ _ _ _ _ _ Hb S) as (ps & F & C).
  apply (crowd_apart_circular ps); assumption.
Qed.
(** Three-circle agents: as far as their shoulders are where they should be (C16). *)
Theorem C98_three_circle_apart_partial : forall rolled bodies targets spawn walls st i j a b, fair_bodies bodies ->
  started ThreeCircle rolled bodies targets spawn walls st -> i <> j -> (i < ag_index st)%nat -> (j < ag_index st)%nat ->
  nth_error (ag_array st) i = Some a -> nth_error (ag_array st) j = Some b -> shoulders_in_place a -> shoulders_in_place b ->
  ~ bodies_overlap (body ThreeCircle a) (body ThreeCircle b).
Proof.
  intros rolled bodies targets spawn walls st i j a b Hb S. destruct (started_crowd _ _ _ _ _ _ _ Hb S) as (ps & F & C).
  apply (crowd_apart_three ps); assumption.
Qed.
(** Everybody gets a place when the draws leave room for each other and the walls. *)
Theorem C97_everyone_outdoor : forall rolled bodies spawn size st, fair_bodies bodies -> endless (spawn 0 0)%nat -> far_apart (spawn 0 0)%nat ->
  outdoor_crowd Circular rolled bodies spawn size = Ok st -> complete st.
Proof.
  intros rolled bodies spawn size st Hb He Hf H. unfold outdoor_crowd in H. apply rbind_ok in H. destruct H as (n & E & H).
  eapply crowd_everyone; [| | | |exact H].
  - constructor; [apply fair_one; exact Hb|constructor].
  - constructor; [exact He|constructor].
  - constructor; [|constructor]. split; [exact Hf|]. intros os n' p o q Q. discriminate Q.
  - constructor; constructor.
Qed.
Theorem C97_everyone_rounding : forall rolled bodies targets spawn walls nl nh st, fair_bodies bodies ->
  endless (spawn 0 0)%nat -> endless (spawn 1 0)%nat -> far_apart (spawn 0 0)%nat -> far_apart (spawn 1 0)%nat -> far_from (spawn 0 0)%nat (spawn 1 0)%nat ->
  away_from_walls walls (spawn 0 0)%nat -> away_from_walls walls (spawn 1 0)%nat ->
  rounding_crowd Circular rolled bodies targets spawn walls nl nh = Ok st -> complete st.
Proof.
  intros rolled bodies targets spawn walls nl nh st Hb He He' Hf Hf' Hff Hw Hw' H. unfold rounding_crowd in H.
  apply rbind_ok in H. destruct H as (n & E & H). apply rbind_ok in H. destruct H as (n' & E' & H).
  eapply crowd_everyone; [| | | |exact H].
  - constructor; [apply fair_one; exact Hb|constructor; [apply fair_one; exact Hb|constructor]].
  - constructor; [exact He|constructor; [exact He'|constructor]].
  - constructor; [|constructor; [|constructor]]; (split; [assumption|]); intros os m p o q Q X I; injection Q as <-; eauto.
  - constructor; [constructor; [exact Hff|constructor]|]. constructor; [constructor|constructor].
Qed.

(** The [AvoidObstacle] simulation takes exits narrower than a metre; its field does not. *)
Theorem C97_avoid_obstacle_refuted : forall is_valid is_empty is_polygon w h e r, 0 <= w -> 0 <= h -> 0 <= e < 1 -> 0 <= r <= 1 ->
  float_trait 0 (Some 10) e = Ok e /\
  avoid_simulation_field is_valid is_empty is_polygon w h e r = Err TraitError.
Proof.
  intros is_valid is_empty is_polygon w h e r Hw Hh He Hr. split; [apply float_trait_ok2; lra|].
  unfold avoid_simulation_field, avoid_obstacle. rewrite !(float_trait_ok 0) by lra. cbn [rbind].
  rewrite (float_trait_ok2 0 10), (float_trait_ok2 0 1) by lra. cbn [rbind]. rewrite !(float_trait_ok 0) by lra. cbn [rbind].
  unfold float_trait at 1. rewrite (proj2 (Rltb_true e 1)) by lra. reflexivity.
Qed.

(** ** Cases *)
Definition calm_rolls : nat -> nat -> rolls := fun _ _ => Rolls (1/2) 5 6.
Definition average_bodies : nat -> nat -> nat -> R := fun _ _ _ => 0.
(** Points of a lattice. *)
Definition lattice : nat -> nat -> nat -> option vec := fun g _ n => Some (V (2 * INR n + 1) (2 * INR g + 1)).
Lemma calm_fair : fair_rolls calm_rolls. Proof. intros g n. cbn. lra. Qed.
Lemma average_fair : fair_bodies average_bodies. Proof. intros g i n. unfold average_bodies. lra. Qed.
Lemma lattice_endless : forall g i, endless (lattice g i). Proof. intros g i n. discriminate. Qed.
Lemma lattice_far : forall g i, far_apart (lattice g i).
Proof.
  intros g i n m p q Hn Hp Hq. injection Hp as <-. injection Hq as <-. apply lt_INR in Hn as Hn'.
  assert (INR n + 1 <= INR m) by (rewrite <- S_INR; apply le_INR; lia).
  pose proof (edist_x (V (2 * INR n + 1) (2 * INR g + 1)) (V (2 * INR m + 1) (2 * INR g + 1))) as X. cbn [vx] in X.
  rewrite Rabs_right in X; lra.
Qed.
Lemma lattice_far' : forall i j, far_from (lattice 0 i) (lattice 1 j).
Proof.
  intros i j n m p q Hp Hq. injection Hp as <-. injection Hq as <-.
  pose proof (edist_y (V (2 * INR n + 1) (2 * 0 + 1)) (V (2 * INR m + 1) (2 * 1 + 1))) as X. cbn [vy] in X.
  rewrite Rabs_right in X; lra.
Qed.
(** No direction of walking, no target and no exit is left out by the draws, and the
    familiar exit of a leader need not be the target. *)
Theorem C97_any_direction : forall k bodies spawn phi, fair_bodies bodies -> endless (spawn 0 0)%nat -> - PI <= phi < PI ->
  exists rolled, fair_rolls rolled /\ forall size, (1 <= size)%Z ->
  exists st, outdoor_crowd k rolled bodies spawn size = Ok st /\ starts_with st size (walks k phi).
Proof. exact any_direction. Qed.
Theorem C97_any_choice : forall k bodies targets spawn walls t x, fair_bodies bodies -> endless (spawn 0 0)%nat -> endless (spawn 1 0)%nat ->
  (0 <= t < targets)%Z -> (0 <= x < targets)%Z ->
  exists rolled, fair_rolls rolled /\ forall nl nh, (0 <= nl)%Z -> (0 <= nh)%Z ->
  exists st, four_herding_crowd k rolled bodies targets spawn walls nl nh = Ok st /\
  starts_with_two st nl nh (fun a => a_target a = t /\ a_familiar_exit a = x) (fun a => no_target a /\ a_familiar_exit a = x).
Proof. exact any_choice. Qed.
Print Assumptions C97_any_direction.
Print Assumptions C97_any_choice.

(** Seven leaders and thirty followers of [Rounding] along a wall on the axis. *)
Example C97_case : exists st, rounding_crowd Circular calm_rolls average_bodies 4 lattice [Obs (V 0 0) (V 100 0)] 7 30 = Ok st /\
  complete st /\ length (ag_array st) = 37%nat /\ exists l1 l2, ag_array st = l1 ++ l2 /\ length l1 = 7%nat /\ length l2 = 30%nat /\
  Forall leads l1 /\ Forall follows l2 /\ started Circular calm_rolls average_bodies 4 lattice [Obs (V 0 0) (V 100 0)] st.
Proof.
  assert (W : forall g, away_from_walls [Obs (V 0 0) (V 100 0)] (lattice g 0)).
  { intros g n p o q Hp [<-|[]]. injection Hp as <-. cbn [p0 p1]. split; [intros E; injection E; lra|]. intros Hq. apply seg_h in Hq; [|lra].
    pose proof (pos_INR g). pose proof (edist_y (V (2 * INR n + 1) (2 * INR g + 1)) q) as X. cbn [vy] in X. destruct Hq as (Hq & _).
    rewrite Hq, Rabs_left in X; lra. }
  destruct (C97_rounding Circular calm_rolls average_bodies 4 lattice [Obs (V 0 0) (V 100 0)] calm_fair average_fair 7 30) as (st & E & S);
    try lia; try apply lattice_endless.
  exists st. split; [exact E|].
  assert (C : complete st).
  { eapply C97_everyone_rounding; [apply average_fair|apply lattice_endless|apply lattice_endless|apply lattice_far|apply lattice_far|apply lattice_far'|apply W|apply W|exact E]. }
  split; [exact C|]. destruct S as ((L & _) & S). split; [exact L|]. destruct (S C) as (l1 & l2 & A & L1 & L2 & F1 & F2). exists l1, l2.
  split; [exact A|]. split; [exact L1|]. split; [exact L2|]. split; [|split].
  - eapply Forall_impl; [|exact F1]. intros a Ha. apply Ha.
  - eapply Forall_impl; [|exact F2]. intros a Ha. apply Ha.
  - left. eapply By_rounding. exact E.
Qed.
(** The lower wall of a hallway ten metres square and a point of its first spawn. *)
Example C98_case : exists st a, hallway_crowd Circular average_bodies (fun _ _ n => Some (V 1 (1/10 + INR n))) 5 = Ok st /\
  nth_error (ag_array st) 0 = Some a /\ body_hits_wall (body Circular a) (V 0 0) (V 10 0) /\ length (ag_array st) = 4%nat.
Proof.
  destruct (C97_hallway_refuted Circular average_bodies (fun _ _ n => Some (V 1 (1/10 + INR n))) average_fair 5) as (st & E & L);
    [lia|exists 2%Z; reflexivity|intros n; discriminate|intros n; discriminate|].
  destruct (C98_into_walls_refuted Circular calm_rolls average_bodies (fun _ _ n => Some (V 1 (1/10 + INR n))) average_fair
    (V 1 (1/10)) (V 0 0) (V 10 0) (V 1 0)) as (H & _).
  - cbn [INR]. do 2 f_equal. lra.
  - apply seg_h; cbn; lra.
  - unfold edist. cbn [vx vy]. replace ((1 - 1) * (1 - 1) + (1 / 10 - 0) * (1 / 10 - 0)) with ((1/10) * (1/10)) by field. rewrite sqrt_square; lra.
  - destruct (H _ _ E) as (a & Ha & _ & Hh). exists st, a. auto.
Qed.

Print Assumptions C97_outdoor.
Print Assumptions C97_room_with_one_exit.
Print Assumptions C97_four_exits.
Print Assumptions C97_outdoor_herding.
Print Assumptions C97_rounding.
Print Assumptions C97_avoid_obstacle.
Print Assumptions C97_closed_room.
Print Assumptions C97_four_exits_herding.
Print Assumptions C97_four_exits_fixed.
Print Assumptions C97_hallway_partial.
Print Assumptions C97_hallway_refuted.
Print Assumptions C97_refused.
Print Assumptions C97_no_targets_refused.
Print Assumptions C97_everyone_outdoor.
Print Assumptions C97_everyone_rounding.
Print Assumptions C97_avoid_obstacle_refuted.
Print Assumptions C98_clear_of_walls.
Print Assumptions C98_into_walls_refuted.
Print Assumptions C98_circular_apart.
Print Assumptions C98_three_circle_apart_partial.
