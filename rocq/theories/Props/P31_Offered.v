(** * Property C125: the simulations of the example modules can be run *)
From Coq Require Import Lra Lia.
From Verif Require Import Model.LogicTree Spec.Offers Spec.Runs Spec.Straight Proofs.VecLemmas Proofs.RunProofs Proofs.GoesOnProofs Proofs.SimulationMore Proofs.OfferedProofs Proofs.WalkProofs.
Open Scope R_scope.

(** Every simulation class that brings along logic and crowd: once everybody is placed, every
    update takes place and the clock shows a hundredth of a second for each; it never raises. *)
Theorem C125_runs : forall e rolled bodies targets spawn walls x st lx, set_up rolled bodies targets spawn walls (e_kind e) x st lx ->
  pairs_of_agents e -> (forall n, In n (written_order lx) -> provided e n) ->
  (forall count, exists s, steps (fun _ _ => false) (example_update e x (Some st)) 0 count (example_start (Some st)) (s, count) /\ s_time s = INR count / 100) /\
  (forall fuel, run (fun _ _ => false) (example_update e x (Some st)) fuel (example_start (Some st)) = None).
Proof.
  intros e rolled bodies targets spawn walls x st lx (Hb & A & C & L) P Q.
  destruct (shipped_of x lx L) as [range Hx]. destruct (shipped_parts range lx Hx) as (_ & l1 & l2 & W & N).
  assert (G : forall count, exists dts s, length dts = count /\ updates e lx (example_start (Some st)) dts (s, count) /\ s_time s = INR count / 100 /\ Forall (Spec.GoesOn.fit (e_kind e) (length (s_agents s))) (s_agents s)).
  { intros count. destruct (goes_on e lx P Q count (fst (new_simulation (ag_array st))) 0) as (dts & s & Ln & U & F); [exact (example_fit _ _ _ _ _ Hb _ _ _ _ A C)|].
    destruct (steady e lx l1 (1/100) l2 W N _ _ _ U) as [D T]. rewrite Ln in T. exists dts, s. split; [exact Ln|]. split; [exact U|]. split; [cbn in T; lra|exact F]. }
  assert (Eq : forall s, example_update e x (Some st) s = simulation_update e lx s) by (intros s; unfold example_update, parts_update; now rewrite L).
  assert (S : forall count, exists s, steps (fun _ _ => false) (example_update e x (Some st)) 0 count (example_start (Some st)) (s, count) /\ s_time s = INR count / 100 /\ Forall (Spec.GoesOn.fit (e_kind e) (length (s_agents s))) (s_agents s)).
  { intros count. destruct (G count) as (dts & s & Ln & U & T & F). exists s. split; [|auto]. rewrite <- Ln at 1.
    pose proof (updates_steps e lx (fun _ _ => false) _ _ _ U 0%nat (fun _ _ _ _ _ _ _ _ => eq_refl)) as X.
    clear - X Eq. revert X. generalize 0%nat (example_start (Some st)) (s, count). intros z1 z2 z3 X. induction X as [|k0 k u1 u2 u3 E1 E2 X IH]; [constructor|]. econstructor; [reflexivity|rewrite Eq; exact E2|exact IH]. }
  split; [intros count; destruct (S count) as (s & X & T & _); eauto|].
  apply run_forever. intros k. destruct (S k) as (s & X & _ & F). exists (s, k). split; [exact X|]. split; [reflexivity|]. rewrite Eq.
  destruct (goes_on e lx P Q 1 s k F) as (dts' & s' & L' & U' & _). destruct dts' as [|d [|d' dts']]; try discriminate. inversion U'; subst. match goal with H : simulation_update _ _ _ = _ |- _ => now rewrite H end.
Qed.
Print Assumptions C125_runs.
(** Which classes have logic and crowd, whatever their settings. *)
Theorem C125_complete : forall rolled bodies targets spawn walls k x,
  (example_agents rolled bodies targets spawn walls (Some k) x <> None <-> ~ unfinished x) /\
  ((exists lx, example_logic x = Ok (Some lx)) <-> x <> AvoidPillar /\ ~ too_narrow x).
Proof.
  intros rolled bodies targets spawn walls k x. split.
  - unfold unfinished. split; intros H.
    + intros [-> | ->]; now apply H.
    + destruct x; cbn; try discriminate; exfalso; apply H; auto.
  - split.
    + intros [lx E]. split; [intros ->; discriminate E|]. intros (nl & nh & w & r & -> & L). cbn [example_logic] in E. unfold checked in E. cbn in E.
      rewrite (proj2 (Rleb_false _ _) L) in E. repeat rewrite ?Bool.andb_false_r, ?Bool.andb_false_l in E. cbn in E. repeat rewrite ?Bool.andb_false_r in E. discriminate E.
    + intros [N T]. apply logic_given; [|exact N]. intros nl nh w r ->. apply Rnot_lt_le. intros L. apply T. exists nl, nh, w, r. auto.
Qed.
Print Assumptions C125_complete.
(** Without agents or without logic, [update] raises at once and changes nothing; [run] raises
    the same, unless its condition holds at once; and a worker process ends without the end
    marker its readers wait for. *)
Theorem C125_missing_part : forall e logic agents s, logic = Ok None \/ agents = false -> (forall ex, logic <> Err ex) ->
  parts_update e logic agents s = (s, Some AttributeError) /\
  (forall exit fuel, exit 0%nat s = false -> run exit (parts_update e logic agents) (S fuel) s = Some (s, Some AttributeError)) /\
  (forall event fuel, event 0%nat = false -> process_run event (parts_update e logic agents) (S fuel) s = Some ([], Some AttributeError)).
Proof.
  intros e logic agents s H N.
  assert (U : parts_update e logic agents s = (s, Some AttributeError)).
  { destruct logic as [[x|]|ex]; [|reflexivity|now destruct (N ex)]. destruct H as [H| ->]; [discriminate|]. apply no_agents. }
  split; [exact U|]. split.
  - intros exit fuel E. now apply run_raises.
  - intros event fuel E. unfold process_run. rewrite (run_raises (fun k _ => event k) _ s s AttributeError fuel E U). reflexivity.
Qed.
Print Assumptions C125_missing_part.
(** Refuted: two of the offered classes cannot be run at all, ... *)
Theorem C125_unfinished_refuted : forall e rolled bodies targets spawn walls k x, unfinished x ->
  example_agents rolled bodies targets spawn walls k x = None /\
  forall s, example_update e x None s = (s, Some AttributeError).
Proof.
  intros e rolled bodies targets spawn walls k x U. split; [destruct U as [-> | ->]; destruct k; reflexivity|]. intros s.
  apply (C125_missing_part e (example_logic x) false s); [now right|]. intros ex E. destruct U as [-> | ->]; [|discriminate E].
  destruct (logic_given AroundCircle) as [lx F]; [discriminate|discriminate|]. congruence.
Qed.
Print Assumptions C125_unfinished_refuted.
(** ... the validation simulations only once their kind of agents is chosen, ... *)
Theorem C125_no_kind_refuted : forall e rolled bodies targets spawn walls x, x = TestMovement \/ x = TestAgentInteraction ->
  example_agents rolled bodies targets spawn walls None x = None /\ (forall s, example_update e x None s = (s, Some AttributeError)) /\
  forall k, exists st lx, example_agents rolled bodies targets spawn walls (Some k) x = Some (Ok st) /\ complete st /\ example_logic x = Ok (Some lx).
Proof.
  intros e rolled bodies targets spawn walls x U.
  assert (G : exists lx, example_logic x = Ok (Some lx)) by (apply logic_given; destruct U as [-> | ->]; discriminate).
  split; [destruct U as [-> | ->]; reflexivity|]. split.
  - intros s. apply (C125_missing_part e (example_logic x) false s); [now right|]. destruct G as [lx ->]. discriminate.
  - intros k. destruct G as [lx G]. destruct U as [-> | ->].
    + destruct (movement_crowd_ok (bodies 0%nat 0%nat) k) as (st & a & E & _ & C & _). exists st, lx. cbn. now rewrite E.
    + destruct (interaction_crowd_ok (bodies 0%nat 0%nat) k) as (st & a & b & E & _ & C & _). exists st, lx. cbn. now rewrite E.
Qed.
Print Assumptions C125_no_kind_refuted.
(** ... and the room with an obstacle not with all the widths and ratios it accepts: exits must
    be seen from a metre at least. *)
Theorem C125_too_narrow_refuted : forall e x agents, too_narrow x -> forall s, example_update e x agents s = (s, Some TraitError).
Proof.
  intros e x agents (nl & nh & w & r & -> & L) s. unfold example_update. cbn [example_logic]. unfold checked. cbn.
  rewrite (proj2 (Rleb_false _ _) L). cbn. repeat rewrite ?Bool.andb_false_r. reflexivity.
Qed.
Print Assumptions C125_too_narrow_refuted.
Theorem C125_accepted_refuted : declared_ranges (AvoidObstacle 1 10 10 (95/100)) /\ too_narrow (AvoidObstacle 1 10 10 (95/100)) /\
  declared_ranges (AvoidObstacle 1 10 10 (6/10)) /\ ~ too_narrow (AvoidObstacle 1 10 10 (6/10)).
Proof.
  split; [cbn; repeat split; lra || lia|]. split; [do 4 eexists; split; [reflexivity|lra]|]. split; [cbn; repeat split; lra || lia|].
  intros (nl & nh & w & r & E & L). injection E as <- <- <- <-. lra.
Qed.
Print Assumptions C125_accepted_refuted.
(** A logic with a trait out of its range is refused, whichever node has it. *)
Theorem C125_traits : forall x,
  (Forall traits_in_range (written_order x) -> checked x = Ok (Some x)) /\ (~ Forall traits_in_range (written_order x) -> checked x = Err TraitError).
Proof.
  assert (H : forall x, all_valid x = true <-> Forall (fun n => node_valid n = true) (written_order x)).
  { fix IH 1. intros [n ops]. cbn [all_valid written_order]. rewrite Bool.andb_true_iff, Forall_app. 
    assert (G : forallb (forallb all_valid) ops = true <-> Forall (fun n => node_valid n = true) (flat_map (flat_map written_order) ops)).
    { induction ops as [|g ops IHo]; [split; constructor|]. cbn [forallb flat_map]. rewrite Bool.andb_true_iff, Forall_app, IHo. clear IHo.
      assert (G : forallb all_valid g = true <-> Forall (fun n => node_valid n = true) (flat_map written_order g)).
      { induction g as [|y g IHg]; [split; constructor|]. cbn [forallb flat_map]. rewrite Bool.andb_true_iff, Forall_app, IHg, (IH y). reflexivity. }
      rewrite G. reflexivity. }
    rewrite G. split.
    - intros [A B]. auto.
    - intros [A B]. inversion B. auto. }
  assert (V : forall n, node_valid n = true <-> traits_in_range n).
  { intros [|dmin dmax| | |t| |step radius strength|sight|sight size|range| | ]; cbn [node_valid traits_in_range]; rewrite ?Bool.andb_true_iff, ?Rleb_true; try tauto; try (split; [easy|reflexivity]).
    destruct (nd_cell_size t) as [c|]; rewrite ?Rleb_true.
    - split; [intros [[[? ?] ?] ?]; repeat split; auto; intros c' E; now injection E as <-|intros (? & ? & ? & K); repeat split; auto].
    - split; [intros [[[? ?] ?] _]; repeat split; auto; discriminate|intros (? & ? & ? & _); repeat split; auto]. }
  intros x. specialize (H x). unfold checked.
  assert (W : Forall (fun n => node_valid n = true) (written_order x) <-> Forall traits_in_range (written_order x)) by (split; apply Forall_impl; intros n; apply V).
  rewrite W in H. destruct (all_valid x); split; intros A; try reflexivity; [destruct A; now apply H|apply H in A; discriminate].
Qed.
Print Assumptions C125_traits.

(** One person in [TestMovement] walks on for ever; the same class without a kind does not
    start. *)
Example C125_case : forall e, e_kind e = ThreeCircle -> pairs_of_agents e -> exists st lx,
  set_up (fun _ _ => Rolls 0 0 0) (fun _ _ _ => 0) 0 (fun _ _ _ => None) [] (e_kind e) TestMovement st lx /\ length (ag_array st) = 1%nat /\
  (forall fuel, run (fun _ _ => false) (example_update e TestMovement (Some st)) fuel (example_start (Some st)) = None) /\
  run (fun _ _ => false) (example_update e TestMovement None) 1 (example_start None) = Some (example_start None, Some AttributeError).
Proof.
  intros e K P. destruct (movement_crowd_ok (fun _ => 0) (e_kind e)) as (st & a & E & A & C & _).
  destruct (logic_given TestMovement) as [lx L]; [discriminate|discriminate|].
  assert (S : set_up (fun _ _ => Rolls 0 0 0) (fun _ _ _ => 0) 0 (fun _ _ _ => None) [] (e_kind e) TestMovement st lx).
  { split; [intros g i n; cbn; lra|]. split; [cbn; now rewrite E|]. auto. }
  exists st, lx. split; [exact S|]. split; [now rewrite A|]. split.
  - apply (C125_runs e _ _ _ _ _ _ _ _ S P). cbn [example_logic] in L. unfold checked in L. destruct (all_valid logic_test_movement); [|discriminate L]. injection L as <-.
    cbn. intros n H. repeat (destruct H as [<-|H]; [exact Logic.I|]). destruct H.
  - apply run_raises; [reflexivity|]. apply (C125_no_kind_refuted e (fun _ _ => Rolls 0 0 0) (fun _ _ _ => 0) 0%Z (fun _ _ _ => None) [] TestMovement). now left.
Qed.
