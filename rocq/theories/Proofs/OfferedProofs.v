(** * Simulations with and without their parts *)
From Coq Require Import Lra Lia.
From Verif Require Import Model.Offered Spec.GoesOn Spec.Straight Spec.Runs Proofs.VecLemmas Proofs.RunProofs Proofs.SimulationProofs Proofs.WrittenProofs Proofs.WalkProofs Proofs.GoesOnProofs Proofs.SimulationMore.
Open Scope R_scope.

Lemma no_agents e x s : parts_update e (Ok (Some x)) false s = (s, Some AttributeError).
Proof.
  unfold parts_update, logic_of. destruct (construct_postorder class_name x no_nodes [] reach_start eq_refl) as (r & f & ns & -> & R & Hr & Er & M).
  unfold update. rewrite Er. destruct (postorder f r) as [|i l].
  - destruct x as [n ops]. cbn in M. destruct (flat_map _ ops); discriminate.
  - cbn. now destruct s.
Qed.
Lemma run_raises {St} exit (upd : St -> St * option exn) s s' ex fuel : exit 0%nat s = false -> upd s = (s', Some ex) -> run exit upd (S fuel) s = Some (s', Some ex).
Proof. intros E U. unfold run. cbn. now rewrite E, U. Qed.

Lemma person_fit k phi p a n : test_person k phi p a -> Spec.GoesOn.fit k n a.
Proof.
  intros (_ & _ & _ & (_ & L & T0) & _ & M & _ & _ & _ & _ & _ & _ & (_ & _ & Cm & Ct & C3) & _). unfold Spec.GoesOn.fit.
  split; [exact Cm|]. split; [exact Ct|]. split; [lra|]. split; [|now left]. intros K. destruct (C3 K) as (_ & _ & I & T). auto.
Qed.

(** The classes that bring along a crowd. *)
Definition bare (x : example) : Prop := x = AroundCircle \/ x = AvoidPillar.
Section Crowds.
  Variables (rolled : nat -> nat -> rolls) (bodies : nat -> nat -> nat -> R) (targets : Z)
            (spawn : nat -> nat -> nat -> option vec) (walls : list obstacle).
  Hypothesis fair : fair_bodies bodies.
  Lemma example_fit k x st n : example_agents rolled bodies targets spawn walls (Some k) x = Some (Ok st) -> complete st -> Forall (Spec.GoesOn.fit k n) (ag_array st).
  Proof.
    intros E C.
    assert (S : started k rolled bodies targets spawn walls st -> Forall (Spec.GoesOn.fit k n) (ag_array st)) by (intros S; exact (started_fit _ _ _ _ _ _ _ _ fair S C)).
    destruct x; cbn in E; try discriminate E; injection E as E.
    - apply S. right. eapply By_outdoor; eauto.
    - apply S. right. eapply By_hallway; eauto.
    - apply S. right. eapply By_room; eauto.
    - apply S. left. eapply By_four_exits; eauto.
    - apply S. right. eapply By_outdoor_herding; eauto.
    - apply S. left. eapply By_rounding; eauto.
    - apply S. left. eapply By_avoid_obstacle; eauto.
    - apply S. right. eapply By_closed; eauto.
    - apply S. left. eapply By_four_herding; eauto.
    - apply S. left. eapply By_four_fixed; eauto.
    - destruct (movement_crowd_ok (bodies 0%nat 0%nat) k) as (st' & a & E' & A & _ & P). rewrite E in E'. injection E' as <-. rewrite A. constructor; [eapply person_fit; exact P|constructor].
    - destruct (interaction_crowd_ok (bodies 0%nat 0%nat) k) as (st2 & a1 & a2 & E2 & A2 & _ & P & Q). rewrite E in E2. injection E2 as <-. rewrite A2.
      constructor; [eapply person_fit; exact P|]. constructor; [eapply person_fit; exact Q|constructor].
  Qed.
End Crowds.

Lemma shipped_of x lx : example_logic x = Ok (Some lx) -> exists range, In lx (shipped_logics range).
Proof.
  unfold example_logic, checked. intros E.
  destruct x; try discriminate E; match type of E with context [all_valid ?y] => destruct (all_valid y); [|discriminate E]; injection E as <- end;
    try (exists 1; cbn; tauto). exists ((1 - ratio_obs) * width). cbn. tauto.
Qed.

Lemma logic_given x : (forall nl nh w r, x = AvoidObstacle nl nh w r -> 1 <= (1 - r) * w) -> x <> AvoidPillar -> exists lx, example_logic x = Ok (Some lx).
Proof.
  intros A N. assert (T : forall y, all_valid y = true -> exists lx, checked y = Ok (Some lx)) by (intros y V; exists y; unfold checked; now rewrite V).
  destruct x; cbn [example_logic]; try (exfalso; now apply N); apply T; cbn; repeat (rdec; cbn; try lra); try reflexivity.
  specialize (A _ _ _ _ eq_refl). now rewrite (proj2 (Rleb_true _ _) A).
Qed.
