(** * Property C145: forces between agents in double precision *)
From Coq Require Import Reals ZArith List Lra Lia.
From Flocq Require Import Core.
From Verif Require Import Model.Floats Model.FloatSteps Proofs.VecLemmas Proofs.FloatProofs Proofs.FloatCases.
From Verif Require Import Proofs.FloatForcesSums.
Import ListNotations.
Open Scope R_scope.

(** Whoever comes first in a pair, each of the two gets the same force, digit by digit. *)
Theorem C145_swapped : forall hypot exp ai aj, (forall a b, hypot (- a) (- b) = hypot a b) ->
  match f_pair_forces hypot exp ai aj with
  | Some (fi, fj) => f_pair_forces hypot exp aj ai = Some (fj, fi)
  | None => f_pair_forces hypot exp aj ai = None
  end.
Proof. intros hypot exp ai aj E. rewrite (f_pair_swap hypot exp E ai aj). now destruct (f_pair_forces hypot exp ai aj) as [[fi fj]|]. Qed.
Print Assumptions C145_swapped.
(** Two who react in the same way push each other with exactly opposite forces, in contact
    or not, cut at the limit or not. *)
Theorem C145_opposite : forall hypot exp ai aj fi fj, (forall a b, hypot (- a) (- b) = hypot a b) -> same_constants ai aj ->
  f_pair_forces hypot exp ai aj = Some (fi, fj) -> opposite fi fj.
Proof. intros hypot exp ai aj fi fj E S F. rewrite (f_pair_opposite hypot exp E ai aj fi fj S F). split; reflexivity. Qed.
Print Assumptions C145_opposite.
(** The sum of all forces changes by rounding only: forces of up to [M] newtons, everybody in
    up to [k] pairs. *)
Theorem C145_momentum : forall hypot exp agents pairs M k, (forall a b, hypot (- a) (- b) = hypot a b) ->
  (forall a, In a agents -> vdouble (a_force a) /\ within M (a_force a)) ->
  (forall a b fi fj, In a agents -> In b agents -> f_pair_forces hypot exp a b = Some (fi, fj) -> within M fi /\ within M fj) ->
  (forall a b, In a agents -> In b agents -> same_constants a b) -> proper_pairs (length agents) pairs ->
  (forall i, (meetings i pairs <= k)%nat) -> (Z.of_nat k < 2 ^ 51)%Z ->
  let after := f_agent_agent_circular hypot exp pairs agents in let off := INR (length agents) * (INR k * (INR k + 1) * M * powerRZ 2 (-53)) in
  Rabs (total (fun a => vx (a_force a)) after - total (fun a => vx (a_force a)) agents) <= off /\
  Rabs (total (fun a => vy (a_force a)) after - total (fun a => vy (a_force a)) agents) <= off.
Proof.
  intros hypot exp agents pairs M k E S B A P K KZ. cbv zeta. replace (INR k * (INR k + 1) * M * powerRZ 2 (-53)) with (U * (INR k * (INR k + 1)) * M) by (unfold U; ring).
  split; [apply (momentum_off hypot exp E agents M S B A vx); auto; now left|apply (momentum_off hypot exp E agents M S B A vy); auto; now right].
Qed.
Print Assumptions C145_momentum.
(** The pairs may come in any order, either agent first: nobody's force changes by more than
    rounding. *)
Theorem C145_order : forall hypot exp agents pairs pairs' M k i a b, (forall a b, hypot (- a) (- b) = hypot a b) ->
  (forall a, In a agents -> vdouble (a_force a) /\ within M (a_force a)) ->
  (forall a b fi fj, In a agents -> In b agents -> f_pair_forces hypot exp a b = Some (fi, fj) -> within M fi /\ within M fj) ->
  proper_pairs (length agents) pairs -> reordered pairs pairs' -> (meetings i pairs <= k)%nat -> (Z.of_nat k < 2 ^ 51)%Z ->
  nth_error (f_agent_agent_circular hypot exp pairs agents) i = Some a -> nth_error (f_agent_agent_circular hypot exp pairs' agents) i = Some b ->
  Rabs (vx (a_force b) - vx (a_force a)) <= INR k * (INR k + 1) * M * powerRZ 2 (-52) /\
  Rabs (vy (a_force b) - vy (a_force a)) <= INR k * (INR k + 1) * M * powerRZ 2 (-52).
Proof.
  intros hypot exp agents pairs pairs' M k i a b E S B P O K KZ A1 A2. destruct (nth_error agents i) as [a0|] eqn:A.
  2:{ apply nth_error_None in A. assert (i < length agents)%nat; [|lia]. rewrite <- (run_length hypot exp pairs). apply nth_error_Some. congruence. }
  replace (INR k * (INR k + 1) * M * powerRZ 2 (-52)) with (2 * (U * (INR k * (INR k + 1)) * M)).
  - split; [apply (order_off hypot exp E agents M S B i a0 a b pairs pairs' (length agents) k O P K KZ A A1 A2); now left|apply (order_off hypot exp E agents M S B i a0 a b pairs pairs' (length agents) k O P K KZ A A1 A2); now right].
  - assert (Q : powerRZ 2 (-52) = 2 * U) by (rewrite U_val, <- pow2; cbn; lra). rewrite Q. ring.
Qed.
Print Assumptions C145_order.
(** Nothing is lost between two who meet nobody else. *)
Theorem C145_two : forall hypot exp agents pairs i j a b fi fj a' b', (forall a b, hypot (- a) (- b) = hypot a b) ->
  nth_error agents i = Some a -> nth_error agents j = Some b -> a_force a = V 0 0 -> a_force b = V 0 0 -> i <> j ->
  In (i, j) pairs -> (meetings i pairs <= 1)%nat -> (meetings j pairs <= 1)%nat -> f_pair_forces hypot exp a b = Some (fi, fj) ->
  nth_error (f_agent_agent_circular hypot exp pairs agents) i = Some a' -> nth_error (f_agent_agent_circular hypot exp pairs agents) j = Some b' ->
  a_force a' = fi /\ a_force b' = fj /\ (same_constants a b -> vadd (a_force a') (a_force b') = V 0 0).
Proof.
  intros hypot exp agents pairs i j a b fi fj a' b' E A B FA FB N I Mi Mj F A' B'. rewrite (run_push hypot exp agents pairs agents _ (based_refl agents)) in A'. rewrite (run_push hypot exp agents pairs agents _ (based_refl agents)) in B'. rewrite A in A'. rewrite B in B'. cbn in A', B'. injection A' as <-. injection B' as <-.
  rewrite (push_one hypot exp agents i (i, j) pairs Mi I (or_introl eq_refl)), (push_one hypot exp agents j (i, j) pairs Mj I (or_intror eq_refl)).
  destruct (f_pair_fm hypot exp a b fi fj F) as [[X1 X2] [Y1 Y2]].
  assert (Q1 : a_force (after (push hypot exp agents i (i, j)) a) = fi).
  { unfold push, after. cbn [fst snd]. rewrite A, B, F, Nat.eqb_refl. destruct (Nat.eqb_spec j i); [congruence|]. cbn. rewrite FA. destruct fi. unfold f_vadd. cbn. rewrite !Rplus_0_l, !rnd_id; auto. }
  assert (Q2 : a_force (after (push hypot exp agents j (i, j)) b) = fj).
  { unfold push, after. cbn [fst snd]. rewrite A, B, F, Nat.eqb_refl. destruct (Nat.eqb_spec i j); [congruence|]. cbn. rewrite FB. destruct fj. unfold f_vadd. cbn. rewrite !Rplus_0_l, !rnd_id; auto. }
  split; [exact Q1|]. split; [exact Q2|]. intros S. rewrite Q1, Q2, (f_pair_opposite hypot exp E a b fi fj S F). unfold vadd, vneg. cbn. f_equal; ring.
Qed.
Print Assumptions C145_two.

(** ** Cases *)
(** Two agents that overlap by a metre and stand still. *)
Definition stander (x : R) : agent := set_mu 5 (set_radius 1 (set_position (V x 0) zero_row)).
Lemma rnd_whole x k : x = IZR k -> (Z.abs k < 2 ^ 53)%Z -> rnd x = IZR k.
Proof. intros -> H. apply rnd_id. now apply FloatCells.fmt_int. Qed.
Example C145_case : let agents := [stander 0; stander 1] in
  (forall a b, exact_hypot (- a) (- b) = exact_hypot a b) /\ same_constants (stander 0) (stander 1) /\
  f_pair_forces exact_hypot exp (stander 0) (stander 1) = Some (V (-5) 0, V 5 0) /\ proper_pairs 2 [(0, 1)]%nat /\ (forall i, (meetings i [(0, 1)] <= 1)%nat) /\
  (forall a, In a agents -> vdouble (a_force a) /\ within 5 (a_force a)) /\ reordered [(0, 1)]%nat [(1, 0)]%nat.
Proof.
  cbv zeta. split; [|split; [|split; [|split; [|split; [|split]]]]].
  - intros a b. unfold exact_hypot, Spec.Doubles.norm2. cbn [fst snd]. now rewrite !Rmult_opp_opp.
  - repeat split.
  - assert (Z0 : rnd 0 = 0) by (apply (rnd_whole 0 0); [reflexivity|lia]).
    assert (S : f_vsub vzero vzero = vzero) by (unfold f_vsub; cbn; rewrite Rminus_0_r, Z0; reflexivity).
    assert (D : f_dot vzero vzero = 0) by (unfold f_dot; cbn; rewrite Rmult_0_l, !Z0, Rplus_0_l; exact Z0).
    assert (X : f_distance_circles exact_hypot (0, 0) 1 (1, 0) 1 = (-1, (-1, 0))).
    { unfold f_distance_circles. cbn [fst snd]. rewrite (rnd_whole (0 - 1) (-1)), Rminus_0_r, Z0 by (lra || lia). assert (H : exact_hypot (-1) 0 = 1).
      { unfold exact_hypot, Spec.Doubles.norm2. cbn [fst snd]. replace (-1 * -1 + 0 * 0) with 1 by ring. rewrite sqrt_1. apply (rnd_whole 1 1); [reflexivity|lia]. }
      rewrite H, (rnd_whole (1 + 1) 2), (rnd_whole (1 - 2) (-1)), Req_bool_false, (rnd_whole (-1 / 1) (-1)), (rnd_whole (0 / 1) 0) by (lra || lia). reflexivity. }
    unfold f_pair_forces. change (f_distance_circles exact_hypot _ _ _ _) with (f_distance_circles exact_hypot (0, 0) 1 (1, 0) 1). rewrite X, Rlt_bool_true by lra.
    assert (SO : f_force_social_circular exact_hypot exp (stander 0) (stander 1) = (vzero, vzero)).
    { unfold f_force_social_circular. cbv zeta. cbn [stander a_position a_velocity a_radius set_mu set_radius set_position zero_row]. rewrite S, D. rewrite (Req_bool_true 0 0) by reflexivity. rewrite !Bool.orb_true_r. reflexivity. }
    rewrite SO, Rlt_bool_true by lra. change (f_vsub (a_velocity (stander 0)) (a_velocity (stander 1))) with (f_vsub vzero vzero). rewrite S.
    assert (C : f_force_contact (-1) (V (-1) 0) vzero (rotate270 (V (-1) 0)) 5 0 0 = V (-5) 0).
    { unfold vzero, f_force_contact, rotate270, f_dot, f_scale, f_vadd, f_vsub. cbn [vx vy]. rewrite ?Rmult_0_l, ?Rmult_0_r, ?Z0, ?Rplus_0_r, ?Z0, ?Rmult_0_l, ?Rmult_0_r, ?Z0, ?Rmult_0_l, ?Rmult_0_r, ?Z0, ?Rminus_0_r, ?Z0.
      rewrite (rnd_whole (5 * -1) (-5)), ?(rnd_whole (-5 - 0) (-5)), ?(rnd_whole (-5) (-5)), (rnd_whole (- -1 * -5) (-5)), ?(rnd_whole (-5 + 0) (-5)), ?(rnd_whole (-5) (-5)) by (lra || lia). rewrite ?Rmult_0_r, ?Z0, ?Rplus_0_r, ?Z0. reflexivity. }
    change (a_mu (stander ?x)) with 5. change (a_kappa (stander ?x)) with 0. change (a_damping (stander ?x)) with 0. rewrite C. unfold f_vadd, f_vsub, vzero. cbn [vx vy]. rewrite (rnd_whole (0 + -5) (-5)), (rnd_whole (0 - -5) 5), Rplus_0_r, Rminus_0_r, Z0 by (lra || lia). reflexivity.
  - intros i j [[= <- <-]|[]]. lia.
  - intros [|[|i]]; cbn; lia.
  - intros a [<-|[<-|[]]]; (split; [split; exists 0%Z, 0%Z; repeat split; try lia; cbn; ring|split; cbn; rewrite Rabs_R0; lra]).
  - exists [(0, 1)]%nat. split; [apply Permutation_refl|]. constructor; [now right|constructor].
Qed.
