(** * Properties C75 (updates), C102-C104: the validation simulations, one agent alone, turning *)
From Coq Require Import Lra Lia.
From Verif Require Import Proofs.VecLemmas Proofs.Vector2DProofs Proofs.CrowdExamples Proofs.CrowdApart Proofs.StraightProofs Proofs.WalkProofs Proofs.LoneProofs Proofs.TurnProofs Proofs.BodyProofs
  Model.ExampleSims Spec.Overlap Spec.Straight Spec.Crowds.
Open Scope R_scope.

(** ** C75: with the same draws, the same updates follow from the same state. *)
Theorem C75_updates_deterministic : forall e x s dts dts' s1 s2, updates e x s dts s1 -> updates e x s dts' s2 ->
  length dts = length dts' -> dts = dts' /\ s1 = s2.
Proof. intros e x s dts dts' s1 s2 A B. exact (updates_deterministic e x s dts s1 A dts' s2 B). Qed.
Print Assumptions C75_updates_deterministic.

(** ** C102 *)
(** The arguments may be given in any order. *)
Theorem C102_explicit_body : forall zs items, NoDup (map fst items) ->
  (forall f v, In (f, v) items -> explicit f /\ trait_range f v) ->
  exists b, body_with zs items = Ok b /\ (forall f v, value_of items f v -> bget f b = v) /\ proportioned b.
Proof. intros zs items N H. destruct (explicit_body zs items N H) as (b & E & V & P & _). eauto. Qed.
Print Assumptions C102_explicit_body.
(** Given a mean and a scale instead, in either order, the trait is drawn once, within the
    scale around the mean, and the two are kept. *)
Definition drawn_from (t m s : bfield) : Prop :=
  (t, m, s) = (Radius, RadiusMean, RadiusScale) \/ (t, m, s) = (TargetVelocity, TargetVelocityMean, TargetVelocityScale) \/ (t, m, s) = (Mass, MassMean, MassScale).
Theorem C102_drawn_body : forall zs t m s mean scale (swap : bool), drawn_from t m s -> 0 < scale < mean -> (forall n, -3 <= zs n <= 3) ->
  exists b, body_with zs (if swap then [(s, scale); (m, mean)] else [(m, mean); (s, scale)]) = Ok b /\
    mean - scale <= bget t b <= mean + scale /\ bget m b = mean /\ bget s b = scale /\ b_draws b = 1%nat.
Proof.
  intros zs t m s mean scale swap D H Z. pose proof (truncnorm3_range zs 0 mean scale (Z _) ltac:(lra)) as Q.
  destruct D as [D|[D|D]]; injection D as -> -> ->; destruct swap;
    unfold body_with, store_items, bvalid, observe_truncnorm, assign_drawn, bvalid, observe_inertia, observe_radius; cbn -[truncnorm3 PI];
    repeat (unfold observe_truncnorm, assign_drawn, bvalid, observe_inertia, observe_radius; rdec; cbn -[truncnorm3 PI]; try lra);
    eexists; (split; [reflexivity|]); cbn -[truncnorm3]; repeat split; lra.
Qed.
Print Assumptions C102_drawn_body.
Theorem C102_straight : forall e n s i, Forall (calm (e_kind e)) (s_agents s) ->
  exists s', updates e logic_test_movement (s, i) (repeat (1/100) n) (s', (i + n)%nat) /\
  s_time s' = s_time s + INR n / 100 /\ Forall2 (gone (e_kind e) (INR n / 100)) (s_agents s) (s_agents s').
Proof. exact straight_from. Qed.
Print Assumptions C102_straight.
(** The person of TestMovement walks a centimetre in every update. *)
Theorem C102_test_movement : forall zs e n, exists st a s b,
  test_movement_crowd zs (e_kind e) = Ok st /\ complete st /\ ag_array st = [a] /\ test_person (e_kind e) 0 (V 0 0) a /\
  updates e logic_test_movement (new_simulation (ag_array st)) (repeat (1/100) n) (s, n) /\ s_time s = INR n / 100 /\
  s_agents s = [b] /\ a_position b = V (INR n / 100) 0 /\ a_velocity b = V 1 0.
Proof.
  intros zs e n. destruct (movement_crowd_ok zs (e_kind e)) as (st & a & E & A & C & T). pose proof T as (_ & _ & _ & _ & _ & _ & _ & _ & _ & _ & P & W & K & _).
  destruct (straight_from e n (fst (new_simulation [a])) 0) as (s & U & Ti & G); [constructor; [exact K|constructor]|]. cbn [fst new_simulation s_agents s_time] in *.
  inversion G as [|? b ? ? Ga Gn]; subst. inversion Gn; subst. exists st, a, s, b. rewrite A.
  destruct Ga as (Gv & Gp & _). destruct W as (Wv & _). rewrite Gv, Gp, P, Wv, cos_0, sin_0. cbn [vx vy].
  repeat match goal with |- _ /\ _ => split end; auto; try (rewrite Ti; lra); try exact U; f_equal; lra.
Qed.
Print Assumptions C102_test_movement.
(** What test_validation.py asks for: ten metres in 1000 iterations. *)
Example C102_ten_metres : forall zs e, exists st a s b,
  test_movement_crowd zs (e_kind e) = Ok st /\ ag_array st = [a] /\
  updates e logic_test_movement (new_simulation (ag_array st)) (repeat (1/100) 1000) (s, 1000%nat) /\ s_agents s = [b] /\
  edist (a_position b) (a_position a) = 10.
Proof.
  intros zs e. destruct (C102_test_movement zs e 1000) as (st & a & s & b & E & _ & A & T & U & _ & B & P & _). exists st, a, s, b.
  destruct T as (_ & _ & _ & _ & _ & _ & _ & _ & _ & _ & Q & _). repeat match goal with |- _ /\ _ => split end; auto.
  rewrite P, Q. replace (INR 1000) with 1000 by (rewrite INR_IZR_INZ; reflexivity). unfold edist. cbn [vx vy].
  replace (_ + _) with (10 ^ 2) by field. apply sqrt_pow2. lra.
Qed.
(** The persons of TestAgentInteraction face each other, five metres apart. *)
Theorem C102_test_interaction_starts : forall zs k, exists st a b, test_interaction_crowd zs k = Ok st /\ complete st /\ ag_array st = [a; b] /\
  test_person k 0 (V 0 0) a /\ test_person k PI (V 5 0) b /\ edist (a_position a) (a_position b) = 5 /\
  a_velocity a = V 1 0 /\ a_velocity b = V (-1) 0 /\ ~ bodies_overlap (body k a) (body k b).
Proof.
  intros zs k. destruct (interaction_crowd_ok zs k) as (st & a & b & E & A & C & T & U). exists st, a, b.
  assert (X : ~ bodies_overlap (body k a) (body k b)).
  { apply (persons_apart k 0 PI (V 0 0) (V 5 0)); auto; [apply sin_0|apply sin_PI|]. cbn [vx]. unfold Rabs. destruct (Rcase_abs (0 - 5)); lra. }
  pose proof T as (_ & _ & _ & _ & _ & _ & _ & _ & _ & _ & P & (W & _) & _). pose proof U as (_ & _ & _ & _ & _ & _ & _ & _ & _ & _ & Q & (W' & _) & _).
  repeat match goal with |- _ /\ _ => split end; auto.
  - rewrite P, Q. unfold edist. cbn [vx vy]. replace (_ + _) with (5 ^ 2) by field. apply sqrt_pow2. lra.
  - rewrite W, cos_0, sin_0. reflexivity.
  - rewrite W', cos_PI, sin_PI. reflexivity.
Qed.
Print Assumptions C102_test_interaction_starts.

(** ** C103 *)
Theorem C103_lone_walker : forall e a, (forall ps c, good_enumeration ps c (e_enum e ps c)) -> fair_draws (e_draws e) -> fit (e_kind e) a ->
  forall n, exists s b, updates e logic_outdoor (new_simulation [a]) (repeat (1/100) n) (s, n) /\ s_agents s = [b] /\
  a_target_velocity b = a_target_velocity a /\ a_target_direction b = a_target_direction a /\
  off_course b <= course_bound (a_tau_adj a) (3 * a_std_rand_force a) (off_course a) n.
Proof.
  intros e a G D F n. destruct (lone_runs e a (good_lone e G) (fit_able _ a F) n) as (t & U & _). eexists. eexists. split; [exact U|]. split; [reflexivity|].
  destruct (lone_kept (e_kind e) (fun i => e_draws e i 0%nat) a (fit_able _ a F) n) as (_ & _ & _ & _ & K1 & K2). split; [exact K1|]. split; [exact K2|].
  apply lone_on_course; [exact F|]. intros m. apply D.
Qed.
Print Assumptions C103_lone_walker.
Theorem C103_settles : forall e a eps, (forall ps c, good_enumeration ps c (e_enum e ps c)) -> fair_draws (e_draws e) -> fit (e_kind e) a -> 0 < eps ->
  let tau := a_tau_adj a in let h := 1/100 / tau in
  exists n0, forall n, (n0 <= n)%nat -> exists s b, updates e logic_outdoor (new_simulation [a]) (repeat (1/100) n) (s, n) /\ s_agents s = [b] /\
  off_course b < tau * (3 * a_std_rand_force a) * ((1 + h / 2) / (1 - h / 2)) + eps.
Proof.
  intros e a eps G D F He. cbv zeta. pose proof F as (_ & _ & _ & T & S & _).
  destruct (course_limit (a_tau_adj a) (3 * a_std_rand_force a) (off_course a) eps) as (n0 & L); [exact T|lra| |exact He|].
  { unfold off_course. rewrite elen_vlength. apply vlength_nonneg. }
  exists n0. intros n Hn. destruct (C103_lone_walker e a G D F n) as (s & b & U & B & _ & _ & O). exists s, b. split; [exact U|]. split; [exact B|].
  eapply Rle_lt_trans; [exact O|]. apply L. exact Hn.
Qed.
Print Assumptions C103_settles.
(** The simulation Outdoor with one agent, wherever it starts and walks to. *)
Theorem C103_outdoor_alone : forall e rolled bodies spawn, (forall ps c, good_enumeration ps c (e_enum e ps c)) -> fair_draws (e_draws e) ->
  fair_rolls rolled -> fair_bodies bodies -> endless (spawn 0 0)%nat ->
  exists st a n0, outdoor_crowd (e_kind e) rolled bodies spawn 1 = Ok st /\ complete st /\ ag_array st = [a] /\
  forall n, (n0 <= n)%nat -> exists s b, updates e logic_outdoor (new_simulation (ag_array st)) (repeat (1/100) n) (s, n) /\ s_agents s = [b] /\
  edist (a_velocity b) (V (a_target_velocity a * vx (a_target_direction a)) (a_target_velocity a * vy (a_target_direction a))) < 16/100.
Proof.
  intros e rolled bodies spawn G D Hr Hb He. destruct (one_outdoors (e_kind e) rolled bodies spawn Hr Hb He) as (st & a & E & A & C & R & _).
  pose proof (ready_fit _ a R) as F. assert (Df : a_tau_adj a = 1/2 /\ a_std_rand_force a = 1/10) by (destruct R as (_ & _ & _ & _ & _ & Q & _); unfold defaults in Q; tauto).
  destruct Df as (D1 & D2). destruct (course_limit (a_tau_adj a) (3 * a_std_rand_force a) (off_course a) (1/1000)) as (n0 & L).
  - rewrite D1. lra.
  - lra.
  - unfold off_course. rewrite elen_vlength. apply vlength_nonneg.
  - lra.
  - exists st, a, n0. rewrite A. repeat match goal with |- _ /\ _ => split end; auto. intros n Hn.
    destruct (C103_lone_walker e a G D F n) as (s & b & U & B & K1 & K2 & O). exists s, b. split; [exact U|]. split; [exact B|].
    specialize (L n Hn). rewrite D1, D2 in *. rewrite (off_course_dist b _ _ K1 K2).
    eapply Rle_lt_trans; [exact O|]. eapply Rlt_trans; [exact L|]. lra.
Qed.
Print Assumptions C103_outdoor_alone.

(** ** C104: three circle agents do not turn towards where they go *)
(** In every crowd of the examples the adjusting torque only brakes the rotation. *)
Theorem C104_only_brakes_refuted : forall rolled bodies targets spawn walls st i a b, fair_bodies bodies ->
  started ThreeCircle rolled bodies targets spawn walls st -> (i < ag_index st)%nat -> nth_error (ag_array st) i = Some a ->
  (forall phi phi0 w, torque_adjust (a_inertia_rot a) (a_tau_rot a) phi0 phi (a_target_angular_velocity a) w = Ok (- (a_inertia_rot a / (1/5)) * w)) /\
  (torque_adjust_row a = Ok b -> a_torque b = - (a_inertia_rot a / (1/5)) * a_angular_velocity a).
Proof.
  intros rolled bodies targets spawn walls st i a b Hb S Hi Ha. destruct (started_crowd _ _ _ _ _ _ _ Hb S) as (ps & Hf & E).
  pose proof (crowd_adult _ _ _ _ _ Hf E Hi Ha) as (_ & _ & _ & _ & _ & D & _). unfold defaults in D.
  destruct D as (_ & _ & _ & _ & _ & _ & _ & D0 & D). destruct (D eq_refl) as (D1 & _ & D2 & _).
  assert (X : forall phi phi0 w, torque_adjust (a_inertia_rot a) (a_tau_rot a) phi0 phi (a_target_angular_velocity a) w = Ok (- (a_inertia_rot a / (1/5)) * w)).
  { intros phi phi0 w. unfold torque_adjust. rewrite D0, D1, (proj2 (Reqb_false (1/5) 0)) by lra. f_equal. ring. }
  split; [exact X|]. unfold torque_adjust_row. rewrite X. cbn [rbind]. intros [= <-]. cbn. lra.
Qed.
Print Assumptions C104_only_brakes_refuted.
(** Alone outdoors, the orientation does not depend on the direction the agent is to walk in. *)
Theorem C104_target_ignored_refuted : forall e a d, e_kind e = ThreeCircle -> (forall ps c, good_enumeration ps c (e_enum e ps c)) ->
  ready ThreeCircle a -> forall n, exists s s' b b',
  updates e logic_outdoor (new_simulation [a]) (repeat (1/100) n) (s, n) /\ s_agents s = [b] /\
  updates e logic_outdoor (new_simulation [set_target_direction d a]) (repeat (1/100) n) (s', n) /\ s_agents s' = [b'] /\
  a_target_direction b' = d /\ a_orientation b' = a_orientation b /\ a_angular_velocity b' = a_angular_velocity b.
Proof.
  intros e a d K G R n. pose proof (fit_able _ a (ready_fit _ a R)) as A.
  assert (A' : able ThreeCircle (set_target_direction d a)) by exact A.
  pose proof A as A1. pose proof A' as A2. rewrite <- K in A1, A2.
  destruct (lone_runs e a (good_lone e G) A1 n) as (t & U & _). destruct (lone_runs e _ (good_lone e G) A2 n) as (t' & U' & _).
  do 4 eexists. split; [exact U|]. split; [reflexivity|]. split; [exact U'|]. split; [reflexivity|]. rewrite K.
  destruct (lone_kept ThreeCircle (fun i => e_draws e i 0%nat) _ A' n) as (_ & _ & _ & _ & _ & D). split; [exact D|].
  assert (Z : a_target_angular_velocity a = 0) by (destruct R as (_ & _ & _ & _ & _ & Q & _); unfold defaults in Q; tauto).
  destruct (turning_lone (fun i => e_draws e i 0%nat) a (set_target_direction d a) Z eq_refl n) as (T & _). unfold turning in T. split; congruence.
Qed.
Print Assumptions C104_target_ignored_refuted.
(** Without random torques it keeps the orientation it starts with for ever, while it comes to
    walk in the direction it is to walk in. *)
Theorem C104_never_turns_refuted : forall e a d, e_kind e = ThreeCircle -> (forall ps c, good_enumeration ps c (e_enum e ps c)) ->
  fair_draws (e_draws e) -> (forall n i, snd (e_draws e n i) = 0) ->
  ready ThreeCircle a -> a_angular_velocity a = 0 -> - PI <= a_orientation a < PI ->
  exists n0, forall n, (n0 <= n)%nat -> exists s b,
  updates e logic_outdoor (new_simulation [set_target_direction d a]) (repeat (1/100) n) (s, n) /\ s_agents s = [b] /\
  a_orientation b = a_orientation a /\ a_target_direction b = d /\
  edist (a_velocity b) (V (a_target_velocity a * vx d) (a_target_velocity a * vy d)) < 16/100.
Proof.
  intros e a d K G D Z R W O. set (c := set_target_direction d a).
  pose proof (ready_fit _ a R) as F. assert (Fc : fit (e_kind e) c) by (rewrite K; exact F).
  destruct R as (_ & _ & _ & _ & _ & Q & _). unfold defaults in Q. destruct Q as (D1 & _ & _ & _ & _ & _ & D2 & D3 & D4). destruct (D4 eq_refl) as (_ & _ & D5 & D6).
  destruct (course_limit (a_tau_adj c) (3 * a_std_rand_force c) (off_course c) (1/1000)) as (n0 & L).
  - change (a_tau_adj c) with (a_tau_adj a). rewrite D1. lra.
  - change (a_std_rand_force c) with (a_std_rand_force a). lra.
  - unfold off_course. rewrite elen_vlength. apply vlength_nonneg.
  - lra.
  - exists n0. intros n Hn. destruct (lone_runs e c (good_lone e G) (fit_able _ c Fc) n) as (t & U & _). eexists. eexists. split; [exact U|]. split; [reflexivity|].
    destruct (C103_lone_walker e c G D Fc n) as (s & b & U' & B & K1 & K2 & Of). destruct (updates_deterministic _ _ _ _ _ U _ _ U' eq_refl) as (_ & Es).
    injection Es as <-. cbn [s_agents] in B. injection B as <-. rewrite K in *.
    destruct (turning_still (fun i => e_draws e i 0%nat) c D3 W D5 D6 O (fun n => Z n 0%nat) n) as (_ & _ & _ & _ & Ho). split; [exact Ho|]. split; [exact K2|].
    specialize (L n Hn). change (a_tau_adj c) with (a_tau_adj a) in *. change (a_std_rand_force c) with (a_std_rand_force a) in *. rewrite D1, D2 in *.
    rewrite (off_course_dist _ (a_target_velocity a) d K1 K2).
    eapply Rle_lt_trans; [exact Of|]. eapply Rlt_trans; [exact L|]. lra.
Qed.
Print Assumptions C104_never_turns_refuted.

(** ** Cases *)
(** The arguments of validation.py, in the other order. *)
Example C102_case : forall zs, exists b, body_with zs (rev validation_body) = Ok b /\ b_radius b = 255/1000 /\ b_r_t b = 5882/10000 * (255/1000) /\
  b_mass b = 735/10 /\ b_inertia_rot b = 4 * PI * (735/10 / 80) * (255/1000 / (27/100)) ^ 2.
Proof.
  intros zs. destruct (C102_explicit_body zs (rev validation_body)) as (b & E & V & P1 & _ & _ & P2).
  - cbn. repeat constructor; cbn; intuition discriminate.
  - intros f v H. cbn in H.
    repeat (destruct H as [H|H]; [injection H as <- <-; split; [unfold explicit; cbn; tauto|split; [lra|intros _; lra] || (split; [lra|cbn; intuition discriminate])]|]). destruct H.
  - assert (R : b_radius b = 255/1000) by (apply (V Radius); left; cbn; auto 10).
    assert (M : b_mass b = 735/10) by (apply (V Mass); left; cbn; auto 10).
    assert (T : b_ratio_rt b = 5882/10000) by (apply (V RatioRt); left; cbn; auto 10).
    exists b. rewrite P1, P2, R, M, T. auto.
Qed.
(** All pairs, a fluctuation of the largest size to the right, no random torque. *)
Definition gusty (k : kind) : env :=
  Env k [] [] (fun _ _ _ _ => Err KeyError) (fun ps _ => all_pairs (length ps)) (fun _ => []) (fun _ => true) (fun _ _ => (0, 3, 0)).
Lemma gusty_fair k : fair_draws (e_draws (gusty k)). Proof. intros n i. cbn. lra. Qed.
(** Somebody to whom the hypotheses of C103 and C104 apply, and who is told to turn around. *)
Example C103_case : forall k, exists st a n0, outdoor_crowd k (fun _ _ => Rolls (1/2) 5 6) (fun _ _ _ => 0) (fun _ _ n => Some (V (INR n) 0)) 1 = Ok st /\
  ag_array st = [a] /\ fit k a /\ 95/100 <= a_target_velocity a /\
  forall n, (n0 <= n)%nat -> exists s b, updates (gusty k) logic_outdoor (new_simulation [a]) (repeat (1/100) n) (s, n) /\ s_agents s = [b] /\
  edist (a_velocity b) (V (a_target_velocity a * vx (a_target_direction a)) (a_target_velocity a * vy (a_target_direction a))) < 16/100.
Proof.
  intros k. set (spawn := fun (_ _ n : nat) => Some (V (INR n) 0)).
  assert (Hr : fair_rolls (fun _ _ => Rolls (1/2) 5 6)) by (intros g n; cbn; lra). assert (Hb : fair_bodies (fun _ _ _ => 0)) by (intros g i n; lra).
  assert (He : endless (spawn 0 0)%nat) by (intros n; discriminate).
  destruct (C103_outdoor_alone (gusty k) _ _ spawn (fun ps c => all_pairs_good ps c) (gusty_fair k) Hr Hb He) as (st & a & n0 & E & _ & A & U).
  destruct (one_outdoors k _ _ spawn Hr Hb He) as (st' & a' & E' & A' & _ & R & _). cbn [gusty e_kind] in E. rewrite E in E'. injection E' as <-.
  rewrite A in A'. injection A' as <-. exists st, a, n0. rewrite A in U. repeat match goal with |- _ /\ _ => split end; auto.
  - apply ready_fit. exact R.
  - destruct R as (_ & _ & _ & _ & _ & _ & _ & _ & Q & _). lra.
Qed.
Example C104_case : exists a n0, ready ThreeCircle a /\ a_orientation a = 0 /\
  forall n, (n0 <= n)%nat -> exists s b, updates (gusty ThreeCircle) logic_outdoor (new_simulation [set_target_direction (V (-1) 0) a]) (repeat (1/100) n) (s, n) /\
  s_agents s = [b] /\ a_orientation b = 0 /\ vx (a_velocity b) < - (7/10).
Proof.
  pose proof PI_RGT_0. set (spawn := fun (_ _ n : nat) => Some (V (INR n) 0)).
  assert (Hb : fair_bodies (fun _ _ _ => 0)) by (intros g i n; lra). assert (He : endless (spawn 0 0)%nat) by (intros n; discriminate).
  destruct (any_direction ThreeCircle (fun _ _ _ => 0) spawn 0 Hb He) as (rolled & Hr & X); [lra|].
  destruct (one_outdoors ThreeCircle rolled _ spawn Hr Hb He) as (st & a & E & A & C & R & _).
  destruct (X 1%Z) as (st' & E' & _ & _ & F & _); [lia|]. rewrite E in E'. injection E' as <-. rewrite C, firstn_all, A in F. apply Forall_inv in F.
  destruct F as (_ & _ & W). destruct (W eq_refl) as (W1 & _ & W2).
  destruct (C104_never_turns_refuted (gusty ThreeCircle) a (V (-1) 0) eq_refl (fun ps c => all_pairs_good ps c) (gusty_fair _) (fun _ _ => eq_refl) R W2) as (n0 & U); [rewrite W1; lra|].
  exists a, n0. split; [exact R|]. split; [exact W1|]. intros n Hn. destruct (U n Hn) as (s & b & U1 & B & O & _ & D). exists s, b.
  split; [exact U1|]. split; [exact B|]. split; [congruence|]. cbn [vx vy] in D. pose proof (edist_vx (a_velocity b) (V (a_target_velocity a * -1) (a_target_velocity a * 0))) as Y. cbn [vx] in Y.
  destruct R as (_ & _ & _ & _ & _ & _ & _ & _ & Q & _). assert (Z := Rle_abs (vx (a_velocity b) - a_target_velocity a * -1)). lra.
Qed.
