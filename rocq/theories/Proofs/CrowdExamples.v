(** * The crowd of each example simulation *)
From Verif Require Import Model.ExampleSims Spec.Crowds Spec.Overlap Proofs.VecLemmas Proofs.Vector2DProofs Proofs.ListLemmas Proofs.PlacementProofs Proofs.BodyProofs Proofs.CrowdProofs.
From Coq Require Import Lra Lia.
Open Scope R_scope.

Lemma fair_one : forall (bodies : nat -> nat -> nat -> R) g sz at_ po wa, fair_bodies bodies -> fair_plan (Plan sz at_ (bodies g) po wa).
Proof. intros bodies g sz at_ po wa H i n. apply H. Qed.
Lemma one_plan : forall k p st, fair_plan p -> crowd k [p] = Ok st -> (0 <= pl_size p)%Z -> starts_with st (pl_size p) (from_plan k p).
Proof.
  intros k p st Hf H Hs. destruct (crowd_spec k [p] st) as (_ & L & I & F & O & _); [constructor; [exact Hf|constructor]|exact H|].
  cbn [total fold_right] in L. split; [lia|]. split; [exact I|]. split; [|exact O].
  eapply Forall_impl; [|exact F]. intros a (q & [<-|[]] & Q). exact Q.
Qed.
Lemma two_plans : forall k p q st, fair_plan p -> fair_plan q -> crowd k [p; q] = Ok st -> (0 <= pl_size p)%Z -> (0 <= pl_size q)%Z ->
  starts_with_two st (pl_size p) (pl_size q) (from_plan k p) (from_plan k q).
Proof.
  intros k p q st Hp Hq H Sp Sq.
  destruct (crowd_spec k [p; q] st) as (_ & L & I & F & O & C); [constructor; [exact Hp|constructor; [exact Hq|constructor]]|exact H|].
  cbn [total fold_right] in L. split.
  - split; [lia|]. split; [exact I|]. split; [|exact O].
    eapply Forall_impl; [|exact F]. intros a (r & [<-|[<-|[]]] & Q); [left|right]; exact Q.
  - intros Hc. destruct (C Hc) as (rowss & E & G). inversion G as [|? l1 ? r1 G1 G2]; subst. inversion G2 as [|? l2 ? r2 G3 G4]; subst.
    inversion G4; subst. destruct G1 as (L1 & F1), G3 as (L2 & F2). exists l1, l2.
    split; [rewrite E; cbn [concat]; rewrite app_nil_r; reflexivity|]. auto.
Qed.
Lemma starts_with_impl : forall st n (P Q : agent -> Prop), (forall a, P a -> Q a) -> starts_with st n P -> starts_with st n Q.
Proof. intros st n P Q H (A & B & C & D). split; [exact A|]. split; [exact B|]. split; [|exact D]. eapply Forall_impl; [exact H|exact C]. Qed.
Lemma starts_with_two_impl : forall st n m (P Q P' Q' : agent -> Prop), (forall a, P a -> P' a) -> (forall a, Q a -> Q' a) ->
  starts_with_two st n m P Q -> starts_with_two st n m P' Q'.
Proof.
  intros st n m P Q P' Q' HP HQ (A & B). split.
  - eapply starts_with_impl; [|exact A]. intros a [X|X]; auto.
  - intros C. destruct (B C) as (l1 & l2 & E & L1 & L2 & F1 & F2). exists l1, l2.
    split; [exact E|]. split; [exact L1|]. split; [exact L2|]. split; eapply Forall_impl; eauto.
Qed.

(** ** Attributes *)
Lemma any_angle_range : forall d, 0 <= r_angle d < 1 -> - PI <= any_angle d <= PI.
Proof.
  intros d H. pose proof PI_RGT_0. unfold any_angle, uniform_draw. split.
  - assert (0 <= (PI - - PI) * r_angle d) by (apply Rmult_le_pos; lra). lra.
  - assert ((PI - - PI) * r_angle d <= (PI - - PI) * 1) by (apply Rmult_le_compat_l; lra). lra.
Qed.
Lemma randint_range : forall n d, (0 < n)%Z -> exists t, randint 0 n d = Ok t /\ (0 <= t < n)%Z.
Proof.
  intros n d H. unfold randint. rewrite (proj2 (Z.ltb_lt 0 n)) by exact H. eexists. split; [reflexivity|].
  pose proof (Z.mod_pos_bound d (n - 0)). lia.
Qed.
Lemma unit_valid : forall phi, length_valid (unit_vector phi) = true.
Proof.
  intros phi. unfold length_valid, isclose. apply orb_true_intro. right. apply Rleb_true. rewrite unit_vector_length.
  rewrite Rminus_diag_eq by reflexivity. rewrite Rabs_R0, Rabs_R1. lra.
Qed.
Lemma zero_valid : length_valid vzero = true.
Proof.
  unfold length_valid, isclose. apply orb_true_intro. left. apply Rleb_true. unfold vlength, vzero. cbn [vx vy].
  replace (0 * 0 + 0 * 0) with 0 by ring. rewrite sqrt_0, Rminus_diag_eq by reflexivity. rewrite Rabs_R0. lra.
Qed.
Lemma attributes_valid : forall k d, (-1 <= at_target d)%Z -> (-1 <= at_familiar_exit d)%Z -> length_valid (at_target_direction d) = true ->
  - PI <= at_orientation d <= PI -> rest_valid k (attributed k d) = true.
Proof.
  intros k d T X L O. unfold rest_valid.
  assert (R : forall x y, x <= y -> Rleb x y = true) by (intros x y ?; apply Rleb_true; assumption).
  destruct k; cbn [attributed default_row set_target set_is_leader set_is_follower set_velocity set_target_direction set_familiar_exit
     set_orientation set_angular_velocity set_target_orientation a_target a_familiar_exit a_target_direction a_tau_adj a_k_soc a_tau_0
     a_mu a_kappa a_damping a_std_rand_force a_orientation a_tau_rot a_std_rand_torque];
    rewrite (proj2 (Z.leb_le _ _) T), (proj2 (Z.leb_le _ _) X), L; repeat (rewrite R by lra); reflexivity.
Qed.
Lemma walking_valid : forall k t l f phi, (-1 <= t)%Z -> - PI <= phi <= PI -> rest_valid k (attributed k (walking t l f phi)) = true.
Proof. intros. apply attributes_valid; cbn; auto; [lia|apply unit_valid]. Qed.
Lemma standing_valid : forall k t l f phi x, (-1 <= t)%Z -> (-1 <= x)%Z -> - PI <= phi <= PI -> rest_valid k (attributed k (standing t l f phi x)) = true.
Proof. intros. apply attributes_valid; cbn; auto. apply zero_valid. Qed.

Lemma made_ready : forall k d a, made k d a -> ready k a.
Proof. intros k d a H. unfold made in H. unfold ready. change (V 0 0) with vzero. intuition. Qed.
Lemma made_walks : forall k t l f phi a, made k (walking t l f phi) a ->
  ready k a /\ a_target a = t /\ a_is_leader a = l /\ a_is_follower a = f /\ walks k phi a /\ no_exit a.
Proof.
  intros k t l f phi a H. split; [eapply made_ready; exact H|]. unfold made in H. decompose [and] H. cbn [walking at_target at_is_leader
    at_is_follower at_orientation at_velocity at_target_direction at_familiar_exit unit_vector] in *. unfold walks, no_exit. auto 10.
Qed.
Lemma made_stands : forall k t l f phi x a, - PI <= phi <= PI -> made k (standing t l f phi x) a ->
  ready k a /\ a_target a = t /\ a_is_leader a = l /\ a_is_follower a = f /\ stands k a /\ a_familiar_exit a = x.
Proof.
  intros k t l f phi x a Hp H. split; [eapply made_ready; exact H|]. unfold made in H. decompose [and] H. cbn [standing at_target at_is_leader
    at_is_follower at_orientation at_velocity at_target_direction at_familiar_exit] in *. unfold stands.
  split; [auto|]. split; [auto|]. split; [auto|]. split; [|auto]. split; [auto|]. split; [auto|].
  intros K. match goal with Q : k = ThreeCircle -> _ |- _ => destruct (Q K) as (-> & _ & ->) end. auto.
Qed.

Section Crowds.
  Variables (k : kind) (rolled : nat -> nat -> rolls) (bodies : nat -> nat -> nat -> R) (targets : Z)
            (spawn : nat -> nat -> nat -> option vec) (walls : list obstacle).
  Hypotheses (Hr : fair_rolls rolled) (Hb : fair_bodies bodies).

  Lemma int_trait_ok : forall lo n, (lo <= n)%Z -> int_trait lo None n = Ok n.
  Proof. intros lo n H. unfold int_trait. rewrite (proj2 (Z.ltb_ge n lo)) by lia. reflexivity. Qed.
  Lemma int_trait_ok2 : forall lo hi n, (lo <= n <= hi)%Z -> int_trait lo (Some hi) n = Ok n.
  Proof. intros lo hi n H. unfold int_trait. rewrite (proj2 (Z.ltb_ge n lo)), (proj2 (Z.ltb_ge hi n)) by lia. reflexivity. Qed.
  Lemma int_trait_low : forall lo hi n, (n < lo)%Z -> int_trait lo hi n = Err TraitError.
  Proof. intros lo hi n H. unfold int_trait. rewrite (proj2 (Z.ltb_lt n lo)) by lia. reflexivity. Qed.
  Lemma int_trait_high : forall lo hi n, (hi < n)%Z -> int_trait lo (Some hi) n = Err TraitError.
  Proof. intros lo hi n H. unfold int_trait. rewrite (proj2 (Z.ltb_lt hi n)) by lia. destruct (n <? lo)%Z; reflexivity. Qed.
  Lemma one_crowd : forall p, fair_plan p -> plan_ok k p -> (0 <= pl_size p)%Z ->
    exists st, crowd k [p] = Ok st /\ starts_with st (pl_size p) (from_plan k p).
  Proof.
    intros p Hf Ho Hs. destruct (crowd_ok k [p]) as (st & E); [constructor; [exact Hf|constructor]|constructor; [exact Ho|constructor]|].
    exists st. split; [exact E|]. apply one_plan; assumption.
  Qed.
  Lemma two_crowd : forall p q, fair_plan p -> fair_plan q -> plan_ok k p -> plan_ok k q -> (0 <= pl_size p)%Z -> (0 <= pl_size q)%Z ->
    exists st, crowd k [p; q] = Ok st /\ starts_with_two st (pl_size p) (pl_size q) (from_plan k p) (from_plan k q).
  Proof.
    intros p q Hf Hf' Ho Ho' Hs Hs'.
    destruct (crowd_ok k [p; q]) as (st & E); [constructor; [exact Hf|constructor; [exact Hf'|constructor]]|constructor; [exact Ho|constructor; [exact Ho'|constructor]]|].
    exists st. split; [exact E|]. apply two_plans; assumption.
  Qed.
  Lemma angle_ok : forall g n, - PI <= any_angle (rolled g n) <= PI.
  Proof using Hr. intros g n. apply any_angle_range. apply Hr. Qed.

  Lemma outdoor_starts : forall size, (1 <= size)%Z -> endless (spawn 0 0) ->
    exists st, outdoor_crowd k rolled bodies spawn size = Ok st /\
    starts_with st size (fun a => ready k a /\ independent a /\ no_target a /\ no_exit a /\ walks_somewhere k a /\ drawn_from (spawn 0 0) a).
  Proof using Hr Hb.
    intros size Hs He. unfold outdoor_crowd. rewrite int_trait_ok by exact Hs. cbn [rbind].
    edestruct one_crowd as (st & E & S); [| | |exists st; split; [exact E|eapply starts_with_impl; [|exact S]]].
    - apply fair_one. exact Hb.
    - split; [exact He|]. intros n. eexists. split; [reflexivity|]. apply walking_valid; [lia|apply angle_ok].
    - cbn. lia.
    - intros a ((n & d & Hd & M) & D & _). cbn [pl_attributes pl_positions] in *. injection Hd as <-.
      apply made_walks in M. destruct M as (R & T & L & F & W & X). unfold independent, no_target, walks_somewhere.
      repeat match goal with |- _ /\ _ => split end; auto. eexists. split; [apply (angle_ok 0 n)|exact W].
  Qed.
  Lemma hallway_starts : forall size, (2 <= size)%Z -> endless (spawn 0 0) -> endless (spawn 1 1) ->
    exists st, hallway_crowd k bodies spawn size = Ok st /\
    starts_with_two st (size / 2) (size / 2)
      (fun a => ready k a /\ independent a /\ a_target a = 1%Z /\ no_exit a /\ walks k 0 a /\ drawn_from (spawn 0 0) a)
      (fun a => ready k a /\ independent a /\ a_target a = 0%Z /\ no_exit a /\ walks k PI a /\ drawn_from (spawn 1 1) a).
  Proof using Hb.
    intros size Hs He He'. unfold hallway_crowd. rewrite int_trait_ok by exact Hs. cbn [rbind].
    pose proof PI_RGT_0. assert (0 <= size / 2)%Z by (apply Z.div_pos; lia).
    edestruct two_crowd as (st & E & S); [| | | | | |exists st; split; [exact E|eapply starts_with_two_impl; [| |exact S]]].
    - apply fair_one. exact Hb.
    - apply fair_one. exact Hb.
    - split; [exact He|]. intros n. eexists. split; [reflexivity|]. apply walking_valid; [lia|lra].
    - split; [exact He'|]. intros n. eexists. split; [reflexivity|]. apply walking_valid; [lia|lra].
    - exact H0.
    - exact H0.
    - intros a ((n & d & Hd & M) & D & _). cbn [pl_attributes pl_positions] in *. injection Hd as <-.
      apply made_walks in M. destruct M as (R & T & L & F & W & X). unfold independent. auto 8.
    - intros a ((n & d & Hd & M) & D & _). cbn [pl_attributes pl_positions] in *. injection Hd as <-.
      apply made_walks in M. destruct M as (R & T & L & F & W & X). unfold independent. auto 8.
  Qed.
  Lemma room_starts : forall size, (1 <= size)%Z -> endless (spawn 0 0) ->
    exists st, room_crowd k bodies spawn size = Ok st /\
    starts_with st size (fun a => ready k a /\ independent a /\ a_target a = 0%Z /\ no_exit a /\ walks k 0 a /\ drawn_from (spawn 0 0) a).
  Proof using Hb.
    intros size Hs He. unfold room_crowd. rewrite int_trait_ok by exact Hs. cbn [rbind]. pose proof PI_RGT_0.
    edestruct one_crowd as (st & E & S); [| | |exists st; split; [exact E|eapply starts_with_impl; [|exact S]]].
    - apply fair_one. exact Hb.
    - split; [exact He|]. intros n. eexists. split; [reflexivity|]. apply walking_valid; [lia|lra].
    - cbn. lia.
    - intros a ((n & d & Hd & M) & D & _). cbn [pl_attributes pl_positions] in *. injection Hd as <-.
      apply made_walks in M. destruct M as (R & T & L & F & W & X). unfold independent. auto 8.
  Qed.
  Lemma four_exits_starts : forall size, (0 <= size)%Z -> (0 < targets)%Z -> endless (spawn 0 0) ->
    exists st, four_exits_crowd k rolled bodies targets spawn walls size = Ok st /\
    starts_with st size (fun a => ready k a /\ independent a /\ has_target targets a /\ knows_exit targets a /\ stands k a /\ drawn_from (spawn 0 0) a).
  Proof using Hr Hb.
    intros size Hs Ht He. unfold four_exits_crowd. rewrite int_trait_ok by exact Hs. cbn [rbind].
    edestruct one_crowd as (st & E & S); [| | |exists st; split; [exact E|eapply starts_with_impl; [|exact S]]].
    - apply fair_one. exact Hb.
    - split; [exact He|]. intros n. cbn [pl_attributes].
      destruct (randint_range targets (r_target (rolled 0 n)) Ht) as (t & -> & ?).
      destruct (randint_range targets (r_exit (rolled 0 n)) Ht) as (x & -> & ?). cbn [rbind].
      eexists. split; [reflexivity|]. apply standing_valid; [lia|lia|apply angle_ok].
    - exact Hs.
    - intros a ((n & d & Hd & M) & D & _). cbn [pl_attributes pl_positions] in *.
      destruct (randint_range targets (r_target (rolled 0 n)) Ht) as (t & E1 & ?).
      destruct (randint_range targets (r_exit (rolled 0 n)) Ht) as (x & E2 & ?). rewrite E1, E2 in Hd. cbn [rbind] in Hd. injection Hd as <-.
      apply made_stands in M; [|apply angle_ok]. destruct M as (R & T & L & F & W & X). unfold independent, has_target, knows_exit.
      rewrite T, X. auto 8.
  Qed.
  Lemma outdoor_herding_starts : forall nl nh width height horizontal vertical, (0 <= nl <= 1)%Z -> (0 <= nh)%Z -> endless (spawn 1 0) ->
    exists st, outdoor_herding_crowd k rolled bodies spawn nl nh width height horizontal vertical = Ok st /\
    starts_with_two st nl nh
      (fun a => ready k a /\ leads a /\ no_target a /\ no_exit a /\ walks k 0 a /\ a_position a = V (horizontal * width) (vertical * height))
      (fun a => ready k a /\ follows a /\ no_target a /\ no_exit a /\ walks_somewhere k a /\ drawn_from (spawn 1 0) a).
  Proof using Hr Hb.
    intros nl nh width height horizontal vertical Hl Hh He. unfold outdoor_herding_crowd.
    rewrite int_trait_ok2 by exact Hl. cbn [rbind]. rewrite int_trait_ok by exact Hh. cbn [rbind]. pose proof PI_RGT_0.
    edestruct two_crowd as (st & E & S); [| | | | | |exists st; split; [exact E|eapply starts_with_two_impl; [| |exact S]]].
    - apply fair_one. exact Hb.
    - apply fair_one. exact Hb.
    - split; [intros n; discriminate|]. intros n. eexists. split; [reflexivity|]. apply walking_valid; [lia|lra].
    - split; [exact He|]. intros n. eexists. split; [reflexivity|]. apply walking_valid; [lia|apply angle_ok].
    - cbn. lia.
    - exact Hh.
    - intros a ((n & d & Hd & M) & (i & D) & _). cbn [pl_attributes pl_positions] in *. injection Hd as <-. injection D as D.
      apply made_walks in M. destruct M as (R & T & L & F & W & X). unfold leads, no_target. auto 8.
    - intros a ((n & d & Hd & M) & D & _). cbn [pl_attributes pl_positions] in *. injection Hd as <-.
      apply made_walks in M. destruct M as (R & T & L & F & W & X). unfold follows, no_target, walks_somewhere.
      repeat match goal with |- _ /\ _ => split end; auto. eexists. split; [apply (angle_ok 1 n)|exact W].
  Qed.
  (** [Rounding] and [AvoidObstacle]. *)
  Lemma herding_plans : forall nl nh area1 area2, (0 <= nl)%Z -> (0 <= nh)%Z -> (0 < targets)%Z -> endless (spawn 0 area1) -> endless (spawn 1 area2) ->
    exists st, crowd k [Plan nl (fun n => herding_attributes targets true false (rolled 0 n)) (bodies 0) (spawn 0 area1) (Some walls);
                        Plan nh (fun n => herding_attributes targets false true (rolled 1 n)) (bodies 1) (spawn 1 area2) (Some walls)] = Ok st /\
    starts_with_two st nl nh
      (fun a => ready k a /\ leads a /\ has_target targets a /\ no_exit a /\ stands k a /\ drawn_from (spawn 0 area1) a)
      (fun a => ready k a /\ follows a /\ no_target a /\ no_exit a /\ stands k a /\ drawn_from (spawn 1 area2) a).
  Proof using Hr Hb.
    intros nl nh area1 area2 Hl Hh Ht He He'.
    edestruct two_crowd as (st & E & S); [| | | | | |exists st; split; [exact E|eapply starts_with_two_impl; [| |exact S]]].
    - apply fair_one. exact Hb.
    - apply fair_one. exact Hb.
    - split; [exact He|]. intros n. cbn [pl_attributes]. unfold herding_attributes.
      destruct (randint_range targets (r_target (rolled 0 n)) Ht) as (t & -> & ?). cbn [rbind].
      eexists. split; [reflexivity|]. apply standing_valid; [lia|lia|apply angle_ok].
    - split; [exact He'|]. intros n. cbn [pl_attributes]. unfold herding_attributes.
      destruct (randint_range targets (r_target (rolled 1 n)) Ht) as (t & -> & ?). cbn [rbind].
      eexists. split; [reflexivity|]. apply standing_valid; [lia|lia|apply angle_ok].
    - exact Hl.
    - exact Hh.
    - intros a ((n & d & Hd & M) & D & _). cbn [pl_attributes pl_positions] in *. unfold herding_attributes in Hd.
      destruct (randint_range targets (r_target (rolled 0 n)) Ht) as (t & E1 & ?). rewrite E1 in Hd. cbn [rbind] in Hd. injection Hd as <-.
      apply made_stands in M; [|apply angle_ok]. destruct M as (R & T & L & F & W & X). unfold leads, has_target, no_exit.
      rewrite T, X. auto 8.
    - intros a ((n & d & Hd & M) & D & _). cbn [pl_attributes pl_positions] in *. unfold herding_attributes in Hd.
      destruct (randint_range targets (r_target (rolled 1 n)) Ht) as (t & E1 & ?). rewrite E1 in Hd. cbn [rbind] in Hd. injection Hd as <-.
      apply made_stands in M; [|apply angle_ok]. destruct M as (R & T & L & F & W & X). unfold follows, no_target, no_exit.
      rewrite T, X. auto 8.
  Qed.
  Lemma rounding_starts : forall nl nh, (0 <= nl)%Z -> (0 <= nh)%Z -> (0 < targets)%Z -> endless (spawn 0 0) -> endless (spawn 1 0) ->
    exists st, rounding_crowd k rolled bodies targets spawn walls nl nh = Ok st /\
    starts_with_two st nl nh
      (fun a => ready k a /\ leads a /\ has_target targets a /\ no_exit a /\ stands k a /\ drawn_from (spawn 0 0) a)
      (fun a => ready k a /\ follows a /\ no_target a /\ no_exit a /\ stands k a /\ drawn_from (spawn 1 0) a).
  Proof using Hr Hb.
    intros nl nh Hl Hh Ht He He'. unfold rounding_crowd. rewrite !int_trait_ok by assumption. cbn [rbind].
    apply herding_plans; assumption.
  Qed.
  Lemma avoid_starts : forall nl nh, (0 <= nl)%Z -> (0 <= nh)%Z -> (0 < targets)%Z -> endless (spawn 0 0) -> endless (spawn 1 1) ->
    exists st, avoid_crowd k rolled bodies targets spawn walls nl nh = Ok st /\
    starts_with_two st nl nh
      (fun a => ready k a /\ leads a /\ has_target targets a /\ no_exit a /\ stands k a /\ drawn_from (spawn 0 0) a)
      (fun a => ready k a /\ follows a /\ no_target a /\ no_exit a /\ stands k a /\ drawn_from (spawn 1 1) a).
  Proof using Hr Hb.
    intros nl nh Hl Hh Ht He He'. unfold avoid_crowd. rewrite !int_trait_ok by assumption. cbn [rbind].
    apply herding_plans; assumption.
  Qed.
  Lemma closed_starts : forall nl nh, (0 <= nl)%Z -> (0 <= nh)%Z -> endless (spawn 0 0) -> endless (spawn 1 0) ->
    exists st, closed_crowd k rolled bodies spawn nl nh = Ok st /\
    starts_with_two st nl nh
      (fun a => ready k a /\ leads a /\ no_target a /\ no_exit a /\ walks_somewhere k a /\ drawn_from (spawn 0 0) a)
      (fun a => ready k a /\ follows a /\ no_target a /\ no_exit a /\ walks_somewhere k a /\ drawn_from (spawn 1 0) a).
  Proof using Hr Hb.
    intros nl nh Hl Hh He He'. unfold closed_crowd. rewrite !int_trait_ok by assumption. cbn [rbind].
    edestruct two_crowd as (st & E & S); [| | | | | |exists st; split; [exact E|eapply starts_with_two_impl; [| |exact S]]].
    - apply fair_one. exact Hb.
    - apply fair_one. exact Hb.
    - split; [exact He|]. intros n. eexists. split; [reflexivity|]. apply walking_valid; [lia|apply angle_ok].
    - split; [exact He'|]. intros n. eexists. split; [reflexivity|]. apply walking_valid; [lia|apply angle_ok].
    - exact Hl.
    - exact Hh.
    - intros a ((n & d & Hd & M) & D & _). cbn [pl_attributes pl_positions] in *. injection Hd as <-.
      apply made_walks in M. destruct M as (R & T & L & F & W & X). unfold leads, no_target, walks_somewhere.
      repeat match goal with |- _ /\ _ => split end; auto. eexists. split; [apply (angle_ok 0 n)|exact W].
    - intros a ((n & d & Hd & M) & D & _). cbn [pl_attributes pl_positions] in *. injection Hd as <-.
      apply made_walks in M. destruct M as (R & T & L & F & W & X). unfold follows, no_target, walks_somewhere.
      repeat match goal with |- _ /\ _ => split end; auto. eexists. split; [apply (angle_ok 1 n)|exact W].
  Qed.
  Lemma four_herding_starts : forall nl nh, (0 <= nl)%Z -> (0 <= nh)%Z -> (0 < targets)%Z -> endless (spawn 0 0) -> endless (spawn 1 0) ->
    exists st, four_herding_crowd k rolled bodies targets spawn walls nl nh = Ok st /\
    starts_with_two st nl nh
      (fun a => ready k a /\ leads a /\ has_target targets a /\ knows_exit targets a /\ stands k a /\ drawn_from (spawn 0 0) a)
      (fun a => ready k a /\ follows a /\ no_target a /\ knows_exit targets a /\ stands k a /\ drawn_from (spawn 1 0) a).
  Proof using Hr Hb.
    intros nl nh Hl Hh Ht He He'. unfold four_herding_crowd. rewrite !int_trait_ok by assumption. cbn [rbind].
    edestruct two_crowd as (st & E & S); [| | | | | |exists st; split; [exact E|eapply starts_with_two_impl; [| |exact S]]].
    - apply fair_one. exact Hb.
    - apply fair_one. exact Hb.
    - split; [exact He|]. intros n. cbn [pl_attributes]. unfold four_attributes.
      destruct (randint_range targets (r_target (rolled 0 n)) Ht) as (t & -> & ?).
      destruct (randint_range targets (r_exit (rolled 0 n)) Ht) as (x & -> & ?). cbn [rbind].
      eexists. split; [reflexivity|]. apply standing_valid; [lia|lia|apply angle_ok].
    - split; [exact He'|]. intros n. cbn [pl_attributes]. unfold four_attributes.
      destruct (randint_range targets (r_target (rolled 1 n)) Ht) as (t & -> & ?).
      destruct (randint_range targets (r_exit (rolled 1 n)) Ht) as (x & -> & ?). cbn [rbind].
      eexists. split; [reflexivity|]. apply standing_valid; [lia|lia|apply angle_ok].
    - exact Hl.
    - exact Hh.
    - intros a ((n & d & Hd & M) & D & _). cbn [pl_attributes pl_positions] in *. unfold four_attributes in Hd.
      destruct (randint_range targets (r_target (rolled 0 n)) Ht) as (t & E1 & ?).
      destruct (randint_range targets (r_exit (rolled 0 n)) Ht) as (x & E2 & ?). rewrite E1, E2 in Hd. cbn [rbind] in Hd. injection Hd as <-.
      apply made_stands in M; [|apply angle_ok]. destruct M as (R & T & L & F & W & X). unfold leads, has_target, knows_exit.
      rewrite T, X. auto 8.
    - intros a ((n & d & Hd & M) & D & _). cbn [pl_attributes pl_positions] in *. unfold four_attributes in Hd.
      destruct (randint_range targets (r_target (rolled 1 n)) Ht) as (t & E1 & ?).
      destruct (randint_range targets (r_exit (rolled 1 n)) Ht) as (x & E2 & ?). rewrite E1, E2 in Hd. cbn [rbind] in Hd. injection Hd as <-.
      apply made_stands in M; [|apply angle_ok]. destruct M as (R & T & L & F & W & X). unfold follows, no_target, knows_exit.
      rewrite T, X. auto 8.
  Qed.
  Lemma four_fixed_starts : forall nh, (0 <= nh)%Z -> (0 < targets)%Z -> (forall i, (i < 4)%nat -> endless (spawn i (S i))) -> endless (spawn 4 0) ->
    exists st, four_fixed_crowd k rolled bodies targets spawn walls 4 nh = Ok st /\
    starts_with st (4 + nh) (fun a => ready k a /\ stands k a /\ knows_exit targets a /\
      ((exists i, (i < 4)%nat /\ leads a /\ a_target a = Z.of_nat i /\ drawn_from (spawn i (S i)) a) \/
       (follows a /\ no_target a /\ drawn_from (spawn 4 0) a))) /\
    (complete st -> exists a0 a1 a2 a3 l, ag_array st = a0 :: a1 :: a2 :: a3 :: l /\ length l = Z.to_nat nh /\
       leads a0 /\ a_target a0 = 0%Z /\ leads a1 /\ a_target a1 = 1%Z /\ leads a2 /\ a_target a2 = 2%Z /\ leads a3 /\ a_target a3 = 3%Z /\
       Forall (fun a => follows a /\ no_target a) l).
  Proof using Hr Hb.
    intros nh Hh Ht He He'. unfold four_fixed_crowd. rewrite int_trait_ok2 by lia. cbn [rbind]. rewrite int_trait_ok by exact Hh. cbn [rbind].
    change (Z.to_nat 4) with 4%nat. cbn [seq map app].
    set (p0 := Plan 1 _ (bodies 0%nat) _ _). set (p1 := Plan 1 _ (bodies 1%nat) _ _). set (p2 := Plan 1 _ (bodies 2%nat) _ _).
    set (p3 := Plan 1 _ (bodies 3%nat) _ _). set (p4 := Plan nh _ _ _ _).
    assert (Hf : Forall fair_plan [p0; p1; p2; p3; p4]) by (do 5 (constructor; [apply fair_one; exact Hb|]); constructor).
    assert (OK : forall sz t f g area, (-1 <= t)%Z -> endless (spawn g area) ->
      plan_ok k (Plan sz (fun n => fixed_attributes targets t f (rolled g n)) (bodies g) (spawn g area) (Some walls))).
    { intros sz t f g area Hge Hen. split; [exact Hen|]. intros n. cbn [pl_attributes]. unfold fixed_attributes.
      destruct (randint_range targets (r_exit (rolled g n)) Ht) as (x & -> & ?). cbn [rbind].
      eexists. split; [reflexivity|]. apply standing_valid; [lia|lia|apply angle_ok]. }
    destruct (crowd_ok k [p0; p1; p2; p3; p4]) as (st & E); [exact Hf| |].
    { constructor; [apply OK; [lia|apply He; lia]|]. constructor; [apply OK; [lia|apply He; lia]|]. constructor; [apply OK; [lia|apply He; lia]|].
      constructor; [apply OK; [lia|apply He; lia]|]. constructor; [apply OK; [lia|exact He']|]. constructor. }
    exists st. split; [exact E|]. destruct (crowd_spec k _ st Hf E) as (_ & L & I & F & O & C).
    assert (FP : forall sz t f g area a,
      from_plan k (Plan sz (fun n => fixed_attributes targets t f (rolled g n)) (bodies g) (spawn g area) (Some walls)) a ->
      ready k a /\ stands k a /\ knows_exit targets a /\ a_is_leader a = negb f /\ a_is_follower a = f /\ a_target a = t /\ drawn_from (spawn g area) a).
    { intros sz t f g area a ((n & d & Hd & M) & D & _). cbn [pl_attributes pl_positions] in *. unfold fixed_attributes in Hd.
      destruct (randint_range targets (r_exit (rolled g n)) Ht) as (x & E2 & ?). rewrite E2 in Hd. cbn [rbind] in Hd. injection Hd as <-.
      apply made_stands in M; [|apply angle_ok]. destruct M as (R & T & Le & Fo & W & X). unfold knows_exit. rewrite X. auto 8. }
    split.
    - split; [cbn [total fold_right p0 p1 p2 p3 p4 pl_size] in L; lia|]. split; [exact I|]. split; [|exact O].
      eapply Forall_impl; [|exact F]. intros a (p & Hp & Q).
      destruct Hp as [<-|[<-|[<-|[<-|[<-|[]]]]]]; apply FP in Q; destruct Q as (Q1 & Q2 & Q3 & Q4 & Q5 & Q6 & Q7);
        (split; [exact Q1|]; split; [exact Q2|]; split; [exact Q3|]).
      + left. exists 0%nat. unfold leads. split; [lia|auto].
      + left. exists 1%nat. unfold leads. split; [lia|auto].
      + left. exists 2%nat. unfold leads. split; [lia|auto].
      + left. exists 3%nat. unfold leads. split; [lia|auto].
      + right. unfold follows, no_target. auto.
    - intros Hc. destruct (C Hc) as (rowss & EA & G).
      repeat match goal with H : Forall2 _ (_ :: _) _ |- _ => inversion H; clear H; subst | H : Forall2 _ [] _ |- _ => inversion H; clear H; subst end.
      repeat match goal with H : group_rows _ _ _ |- _ => destruct H end.
      repeat match goal with H : length ?l = Z.to_nat (pl_size ?p) |- _ => change (pl_size p) with 1%Z in H end.
      cbn [concat] in EA.
      match type of EA with _ = ?l0 ++ ?l1 ++ ?l2 ++ ?l3 ++ ?l4 ++ [] =>
        destruct l0 as [|a0 [|]]; try discriminate; destruct l1 as [|a1 [|]]; try discriminate;
        destruct l2 as [|a2 [|]]; try discriminate; destruct l3 as [|a3 [|]]; try discriminate;
        exists a0, a1, a2, a3, l4 end.
      rewrite app_nil_r in EA. split; [exact EA|].
      repeat match goal with H : Forall (from_plan k ?p) [?a] |- _ => apply Forall_inv in H; apply FP in H; decompose [and] H; clear H end.
      unfold leads. repeat match goal with |- _ /\ _ => split end; auto.
      match goal with H : Forall (from_plan k p4) ?l |- _ => eapply Forall_impl; [|exact H] end.
      intros a Q. apply FP in Q. unfold follows, no_target. tauto.
  Qed.
End Crowds.

(** Nothing in range is left out by the draws. *)
Lemma any_direction : forall k bodies spawn phi, fair_bodies bodies -> endless (spawn 0 0)%nat -> - PI <= phi < PI ->
  exists rolled, fair_rolls rolled /\ forall size, (1 <= size)%Z ->
  exists st, outdoor_crowd k rolled bodies spawn size = Ok st /\ starts_with st size (walks k phi).
Proof.
  intros k bodies spawn phi Hb He Hp. pose proof PI_RGT_0 as HP.
  set (u := (phi + PI) / (2 * PI)). assert (Hu : 0 <= u < 1).
  { unfold u. split; [apply Rle_mult_inv_pos; lra|]. apply (Rmult_lt_reg_r (2 * PI)); [lra|]. unfold Rdiv. rewrite Rmult_assoc, Rinv_l by lra. lra. }
  exists (fun _ _ => Rolls u 0 0). split; [intros g n; exact Hu|]. intros size Hs.
  assert (A : any_angle (Rolls u 0 0) = phi). { unfold any_angle, uniform_draw, u. cbn [r_angle]. field. lra. }
  unfold outdoor_crowd. rewrite int_trait_ok by exact Hs. cbn [rbind].
  edestruct (one_crowd k) as (st & E & S); [| | |exists st; split; [exact E|eapply starts_with_impl; [|exact S]]].
  - apply fair_one. exact Hb.
  - split; [exact He|]. intros n. eexists. split; [reflexivity|]. apply walking_valid; [lia|rewrite A; lra].
  - cbn. lia.
  - intros a ((n & d & Hd & M) & D & _). cbn [pl_attributes pl_positions] in *. injection Hd as <-.
    apply made_walks in M. destruct M as (R & T & L & F & W & X). now rewrite A in W.
Qed.
Lemma randint_any : forall n x, (0 <= x < n)%Z -> randint 0 n x = Ok x.
Proof. intros n x H. unfold randint. rewrite (proj2 (Z.ltb_lt 0 n)) by lia. rewrite Z.sub_0_r, Z.mod_small by lia. reflexivity. Qed.
Lemma any_choice : forall k bodies targets spawn walls t x, fair_bodies bodies -> endless (spawn 0 0)%nat -> endless (spawn 1 0)%nat ->
  (0 <= t < targets)%Z -> (0 <= x < targets)%Z ->
  exists rolled, fair_rolls rolled /\ forall nl nh, (0 <= nl)%Z -> (0 <= nh)%Z ->
  exists st, four_herding_crowd k rolled bodies targets spawn walls nl nh = Ok st /\
  starts_with_two st nl nh (fun a => a_target a = t /\ a_familiar_exit a = x) (fun a => no_target a /\ a_familiar_exit a = x).
Proof.
  intros k bodies targets spawn walls t x Hb He He' Ht Hx. pose proof PI_RGT_0 as HP.
  exists (fun _ _ => Rolls 0 t x). split; [intros g n; cbn; lra|]. intros nl nh Hl Hh.
  assert (A : - PI <= any_angle (Rolls 0 t x) <= PI). { unfold any_angle, uniform_draw. cbn [r_angle]. lra. }
  unfold four_herding_crowd. rewrite !int_trait_ok by assumption. cbn [rbind].
  edestruct (two_crowd k) as (st & E & S); [| | | | | |exists st; split; [exact E|eapply starts_with_two_impl; [| |exact S]]].
  - apply fair_one. exact Hb.
  - apply fair_one. exact Hb.
  - split; [exact He|]. intros n. cbn [pl_attributes]. unfold four_attributes. cbn [r_target r_exit]. rewrite !randint_any by assumption. cbn [rbind].
    eexists. split; [reflexivity|]. apply standing_valid; [lia|lia|exact A].
  - split; [exact He'|]. intros n. cbn [pl_attributes]. unfold four_attributes. cbn [r_target r_exit]. rewrite !randint_any by assumption. cbn [rbind].
    eexists. split; [reflexivity|]. apply standing_valid; [lia|lia|exact A].
  - exact Hl.
  - exact Hh.
  - intros a ((n & d & Hd & M) & D & _). cbn [pl_attributes pl_positions] in *. unfold four_attributes in Hd. cbn [r_target r_exit] in Hd.
    rewrite !randint_any in Hd by assumption. cbn [rbind] in Hd. injection Hd as <-. apply made_stands in M; [|exact A]. destruct M as (R & T & L & F & W & X). auto.
  - intros a ((n & d & Hd & M) & D & _). cbn [pl_attributes pl_positions] in *. unfold four_attributes in Hd. cbn [r_target r_exit] in Hd.
    rewrite !randint_any in Hd by assumption. cbn [rbind] in Hd. injection Hd as <-. apply made_stands in M; [|exact A]. destruct M as (R & T & L & F & W & X). auto.
Qed.
