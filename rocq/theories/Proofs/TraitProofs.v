(** * Proofs about validated and converted traits *)
From Coq Require Import Lra Lia.
From Verif Require Import Model.AgentObject Spec.Traits Proofs.VecLemmas Proofs.AgentObjectProofs.
Open Scope R_scope.

Lemma length_valid_iff v : length_valid v = true <->
  nearly (sqrt (vx v * vx v + vy v * vy v)) 0 \/ nearly (sqrt (vx v * vx v + vy v * vy v)) 1.
Proof.
  unfold length_valid, isclose, nearly, vlength. rewrite Bool.orb_true_iff, !Rleb_true. reflexivity.
Qed.
Lemma rest_valid_iff k a : rest_valid k a = true <->
  Forall (fun x => 0 <= x) [a_tau_adj a; a_k_soc a; a_tau_0 a; a_mu a; a_kappa a; a_damping a; a_std_rand_force a] /\
  (-1 <= a_target a)%Z /\ (-1 <= a_familiar_exit a)%Z /\ length_valid (a_target_direction a) = true /\
  match k with
  | Circular => True
  | ThreeCircle => - PI <= a_orientation a <= PI /\ 0 <= a_tau_rot a /\ 0 <= a_std_rand_torque a
  end.
Proof.
  unfold rest_valid. rewrite !Bool.andb_true_iff, !Z.leb_le, !Rleb_true.
  assert (K : (match k with Circular => true | ThreeCircle => Rleb (- PI) (a_orientation a) && Rleb (a_orientation a) PI && Rleb 0 (a_tau_rot a) && Rleb 0 (a_std_rand_torque a) end)%bool = true <->
    match k with Circular => True | ThreeCircle => - PI <= a_orientation a <= PI /\ 0 <= a_tau_rot a /\ 0 <= a_std_rand_torque a end).
  { destruct k; [tauto|]. rewrite !Bool.andb_true_iff, !Rleb_true. tauto. }
  rewrite K. rewrite !Forall_cons_iff. intuition.
Qed.
Lemma bseq_none r f b : bseq r f = (None, b) -> exists b1, r = (None, b1) /\ f b1 = (None, b).
Proof. destruct r as [[e|] b1]; cbn; [discriminate|eauto]. Qed.
Lemma bseq_some r f e b : bseq r f = (Some e, b) -> (exists b1, r = (Some e, b1)) \/ exists b1, r = (None, b1) /\ f b1 = (Some e, b).
Proof. destruct r as [[x|] b1]; cbn; [intros [= -> ->]; eauto|eauto]. Qed.
Lemma store_none v put b b' : store_checked v put b = (None, b') -> 0 <= v.
Proof. unfold store_checked. rcase; [auto|discriminate]. Qed.
Lemma store_some v put b e b' : store_checked v put b = (Some e, b') -> e = TraitError.
Proof. unfold store_checked. rcase; [discriminate|]. now intros [= <- _]. Qed.
Lemma assign_none zs f v b b' : f = Radius \/ f = Mass \/ f = TargetVelocity -> assign zs f v b = (None, b') -> 0 <= v.
Proof. intros [-> | [-> | ->]]; unfold assign, bvalid; rcase; cbn; auto; discriminate. Qed.
Lemma assign_some zs f v b e b' : f = Radius \/ f = Mass \/ f = TargetVelocity -> assign zs f v b = (Some e, b') -> e = TraitError.
Proof. intros [-> | [-> | ->]]; unfold assign; destruct (bvalid _ _); try (destruct (Reqb _ _)); try discriminate; now intros [= <- _]. Qed.
Lemma body_from_row_none zs row b b' : body_from_row zs row b = (None, b') ->
  Forall (fun x => 0 <= x) [a_radius row; a_r_t row; a_r_s row; a_r_ts row; a_mass row; a_inertia_rot row; a_target_velocity row; a_target_angular_velocity row].
Proof.
  unfold body_from_row. intros H.
  apply bseq_none in H as (b1 & E1 & H). apply bseq_none in H as (b2 & E2 & H). apply bseq_none in H as (b3 & E3 & H).
  apply bseq_none in H as (b4 & E4 & H). apply bseq_none in H as (b5 & E5 & H). apply bseq_none in H as (b6 & E6 & H).
  apply bseq_none in H as (b7 & E7 & E8).
  apply store_none in E2, E3, E4, E6, E8. apply assign_none in E1; auto. apply assign_none in E5; auto. apply assign_none in E7; auto. repeat (apply Forall_cons; [assumption|]). apply Forall_nil.
Qed.
Lemma body_from_row_some zs row b e b' : body_from_row zs row b = (Some e, b') -> e = TraitError.
Proof.
  unfold body_from_row. intros H.
  apply bseq_some in H as [[b1 E]|(b1 & _ & H)]; [apply assign_some in E; auto|].
  do 3 (apply bseq_some in H as [[? E]|(? & _ & H)]; [now apply store_some in E|]).
  apply bseq_some in H as [[? E]|(? & _ & H)]; [apply assign_some in E; auto|].
  apply bseq_some in H as [[? E]|(? & _ & H)]; [now apply store_some in E|].
  apply bseq_some in H as [[? E]|(? & _ & H)]; [apply assign_some in E; auto|].
  now apply store_some in H.
Qed.

Lemma from_array_iff zs k row o : (exists o', from_array zs k [row] o = Ok o') <-> acceptable k row.
Proof.
  unfold acceptable. rewrite <- length_valid_iff. unfold from_array. split.
  - intros (o' & H). destruct (rest_valid k row) eqn:V; [|discriminate].
    destruct (body_from_row zs row (ob_body o)) as [[e|] b] eqn:B; [discriminate|].
    apply body_from_row_none in B. apply rest_valid_iff in V as (V & V1 & V2 & V3 & V4).
    rewrite !Forall_cons_iff in *. tauto.
  - rewrite !Forall_cons_iff. intros ((H1 & H2 & H3 & H4 & H5 & H6 & H7 & H8 & F) & G).
    destruct (body_from_row_ok zs row (ob_body o)) as (b & -> & _); auto.
    replace (rest_valid k row) with true; [eauto|]. symmetry. apply rest_valid_iff. rewrite !Forall_cons_iff. tauto.
Qed.
Lemma from_array_error zs k row o e : from_array zs k [row] o = Err e -> e = TraitError.
Proof.
  unfold from_array. destruct (rest_valid k row); [|congruence]. destruct (body_from_row zs row (ob_body o)) as [[x|] b] eqn:B; [|discriminate].
  apply body_from_row_some in B. congruence.
Qed.
