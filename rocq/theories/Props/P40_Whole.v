(** * Property C139: a crowd as a whole goes where its members want, whatever they do to each other *)
From Coq Require Import Lra Lia.
From Verif Require Import Model.Simulation Spec.Whole Proofs.VecLemmas Proofs.LoneProofs Proofs.PaceProofs Proofs.InteractionProofs Proofs.WholeProofs.
Open Scope R_scope.
Local Open Scope list_scope.

Lemma crowd_parts e agents a : Forall (sound (e_kind e)) agents -> alike agents -> In a agents ->
  steady (e_kind e) agents /\ 0 < a_mass a /\ 1/100 <= a_tau_adj a /\ Forall (fun b => a_mass b = a_mass a /\ a_tau_adj b = a_tau_adj a) agents /\
  Forall (fun b => a_force b = V 0 0) agents /\ Forall (fun b => a_force_prev b = V 0 0) agents /\ Forall (fun b => 0 <= a_std_rand_force b) agents /\ agents <> [].
Proof.
  intros F A I. split; [now apply steady_sound|]. pose proof F as F'. rewrite Forall_forall in F'. destruct (F' a I) as ((_ & _ & M & T & _) & _).
  split; [exact M|]. split; [exact T|]. split; [apply Forall_forall; intros b J; destruct (A b a J I) as ((B & _) & C); auto|].
  split; [eapply Forall_impl; [|exact F]; intros b B; apply B|]. split; [eapply Forall_impl; [|exact F]; intros b B; apply B|].
  split; [eapply Forall_impl; [|exact F]; intros b B; apply B|]. intros ->. destruct I.
Qed.
Lemma crowd_updates e agents n : pairs_of_agents e -> steady (e_kind e) agents -> Forall (fun a => a_force a = V 0 0) agents ->
  updates e logic_outdoor (new_simulation agents) (repeat (1/100) n) (fst (state e agents n), n).
Proof.
  intros PA ST C. pose proof (state_updates e agents PA ST C n) as U. destruct (states e agents PA ST C n) as ((_ & _ & _ & Sn) & _).
  destruct (state e agents n) as [s i]. cbn in *. now subst i.
Qed.
(** The mean of the places is, after [n] updates, where it would be if everybody had walked on at
    their wanted velocity, up to what the random forces do in the mean and a fixed distance. *)
Theorem C139_crowd_pace : forall e agents a, pairs_of_agents e -> fair_draws (e_draws e) -> Forall (sound (e_kind e)) agents -> alike agents -> In a agents ->
  let b := 3 * average (map a_std_rand_force agents) in
  forall n, exists s, updates e logic_outdoor (new_simulation agents) (repeat (1/100) n) (s, n) /\ length (s_agents s) = length agents /\
    edist (mean (map a_position (s_agents s))) (mean (map (fun x => wanted_place x (INR n / 100)) agents)) <=
      INR n / 100 * (a_tau_adj a * b) + astray (a_tau_adj a) b (crowd_off_course agents).
Proof.
  intros e agents a PA FD F A I b n. destruct (crowd_parts e agents a F A I) as (ST & Hm & Ht & M & C & P0 & Sd & NE).
  destruct (states e agents PA ST C n) as ((S1 & _ & _ & Sn) & _). pose proof (crowd_updates e agents n PA ST C) as U. pose proof (length_still _ _ S1) as L.
  pose proof (crowd_way e agents (a_mass a) (a_tau_adj a) PA ST Hm Ht M C P0 Sd NE FD n) as W. rewrite (off_people e agents 0 PA ST C) in W.
  exists (fst (state e agents n)).  split; [exact U|]. split; [exact L|].
  rewrite edist_vlength, !mean_sum, !map_length. fold (people e agents n). rewrite L, sum_wanted. fold b in W. replace (INR n / 100) with (INR n * (1/100)) by field.
  eapply Rle_trans; [|exact W]. apply Req_le. f_equal. unfold pos. change (people e agents 0) with agents.
  destruct (vsum (map a_position (people e agents n))), (vsum (map a_position agents)), (vsum (map wish agents)). unfold vsub, vadd, vscale. cbn. f_equal; ring.
Qed.
Print Assumptions C139_crowd_pace.
(** Its mean velocity approaches the mean of the wanted ones. *)
Theorem C139_crowd_velocity : forall e agents a, pairs_of_agents e -> fair_draws (e_draws e) -> Forall (sound (e_kind e)) agents -> alike agents -> In a agents ->
  forall n, exists s, updates e logic_outdoor (new_simulation agents) (repeat (1/100) n) (s, n) /\
    crowd_off_course (s_agents s) <= course_bound (a_tau_adj a) (3 * average (map a_std_rand_force agents)) (crowd_off_course agents) n.
Proof.
  intros e agents a PA FD F A I n. destruct (crowd_parts e agents a F A I) as (ST & Hm & Ht & M & C & P0 & Sd & NE).
  destruct (states e agents PA ST C n) as ((_ & _ & _ & Sn) & _). pose proof (crowd_updates e agents n PA ST C) as U.
  pose proof (crowd_course e agents (a_mass a) (a_tau_adj a) PA ST Hm Ht M C P0 Sd NE FD n) as W. rewrite !(off_people e agents _ PA ST C) in W.
  exists (fst (state e agents n)).  split; [exact U|exact W].
Qed.
Print Assumptions C139_crowd_velocity.
(** Whom the cell lists let interact makes no difference to the crowd as a whole: with the same
    random forces the mean place and the mean velocity are the same, be it that nobody sees
    anybody. *)
Theorem C139_interactions_cancel : forall e e' agents, e_kind e' = e_kind e -> e_draws e' = e_draws e -> pairs_of_agents e -> pairs_of_agents e' ->
  Forall (sound (e_kind e)) agents -> alike agents ->
  forall n, exists s s', updates e logic_outdoor (new_simulation agents) (repeat (1/100) n) (s, n) /\ updates e' logic_outdoor (new_simulation agents) (repeat (1/100) n) (s', n) /\
    mean (map a_position (s_agents s)) = mean (map a_position (s_agents s')) /\ mean (map a_velocity (s_agents s)) = mean (map a_velocity (s_agents s')).
Proof.
  intros e e' agents K D PA PA' F A n. assert (F' : Forall (sound (e_kind e')) agents) by now rewrite K.
  pose proof (steady_sound _ _ F A) as ST. pose proof (steady_sound _ _ F' A) as ST'. assert (C : Forall (fun b => a_force b = V 0 0) agents) by (eapply Forall_impl; [|exact F]; intros b B; apply B).
  destruct (states e agents PA ST C n) as ((S1 & _ & _ & Sn) & _). pose proof (crowd_updates e agents n PA ST C) as U.
  destruct (states e' agents PA' ST' C n) as ((S1' & _ & _ & Sn') & _). pose proof (crowd_updates e' agents n PA' ST' C) as U'.
  exists (fst (state e agents n)), (fst (state e' agents n)).
  split; [exact U|]. split; [exact U'|]. rewrite !mean_sum, !map_length. fold (people e agents n) (people e' agents n). rewrite (length_still _ _ S1), (length_still _ _ S1').
  destruct agents as [|a l].
  - destruct (people e [] n) eqn:Q; [|discriminate (length_still _ _ S1)]. destruct (people e' [] n) eqn:Q'; [|discriminate (length_still _ _ S1')]. split; reflexivity.
  - destruct (crowd_parts e (a :: l) a F A (or_introl eq_refl)) as (_ & Hm & Ht & M & _).
    destruct (same_totals e e' (a :: l) (a_mass a) (a_tau_adj a) K D PA PA' ST Hm Ht M C n) as (V1 & _ & V3). unfold vel, pos in V1, V3. rewrite V1, V3. split; reflexivity.
Qed.
Print Assumptions C139_interactions_cancel.
(** A crowd whose wishes cancel, and that no random force moves, stays where it is: the mean of
    the places never gets further from the start than the first velocities carry it. *)
Theorem C139_stays : forall e agents a, pairs_of_agents e -> fair_draws (e_draws e) -> Forall (sound (e_kind e)) agents -> alike agents -> In a agents ->
  (forall x, In x agents -> a_std_rand_force x = 0) ->
  mean (map (fun x => V (a_target_velocity x * vx (a_target_direction x)) (a_target_velocity x * vy (a_target_direction x))) agents) = V 0 0 ->
  forall n, exists s, updates e logic_outdoor (new_simulation agents) (repeat (1/100) n) (s, n) /\
    edist (mean (map a_position (s_agents s))) (mean (map a_position agents)) <= (2 * a_tau_adj a + 1/200) * elen (mean (map a_velocity agents)).
Proof.
  intros e agents a PA FD F A I Z W n. destruct (C139_crowd_pace e agents a PA FD F A I n) as (s & U & L & B). exists s. split; [exact U|].
  assert (B0 : average (map a_std_rand_force agents) = 0).
  { unfold average. replace (rsum (map a_std_rand_force agents)) with 0; [unfold Rdiv; ring|]. clear - Z. induction agents as [|x l IH]; [reflexivity|]. cbn. rewrite (Z x (or_introl eq_refl)). unfold rsum in IH. rewrite <- IH; [ring|]. intros y J. apply Z. now right. }
  rewrite B0 in B. destruct (crowd_parts e agents a F A I) as (_ & _ & Ht & _ & _ & _ & _ & NE). pose proof (some_pos agents NE) as NP.
  assert (W0 : vsum (map wish agents) = V 0 0).
  { change (fun x => V (a_target_velocity x * vx (a_target_direction x)) (a_target_velocity x * vy (a_target_direction x))) with wish in W. rewrite mean_sum, map_length in W. destruct (vsum (map wish agents)) as [x y]. unfold vscale in W. cbn in W. injection W as W1 W2.
    assert (/ INR (length agents) <> 0) by (apply Rinv_neq_0_compat; lra). f_equal; apply (Rmult_eq_reg_l (/ INR (length agents))); auto; lra. }
  assert (E1 : mean (map (fun x => wanted_place x (INR n / 100)) agents) = mean (map a_position agents)).
  { rewrite !mean_sum, !map_length, sum_wanted, W0. destruct (vsum (map a_position agents)). unfold vscale, vadd. cbn. f_equal; ring. }
  assert (E2 : crowd_off_course agents = elen (mean (map a_velocity agents))).
  { unfold crowd_off_course. rewrite !mean_sum, !map_length, sum_deviation, W0. do 2 f_equal. destruct (vsum (map a_velocity agents)). unfold vsub. cbn. f_equal; ring. }
  rewrite E1, E2 in B. eapply Rle_trans; [exact B|]. unfold astray. cbv zeta. set (v := elen _). apply Req_le. replace (1/100/2) with (1/200) by field. ring.
Qed.
Print Assumptions C139_stays.

(** Two people of different size who walk towards each other at different speeds, and a third who
    stands in their way. *)
Definition walker (x r v d : R) : agent := set_position (V x 0) (set_radius r (set_mass 80 (set_tau_adj (1/2) (set_tau_0 3 (set_std_rand_force (1/10) (set_target_velocity v (set_target_direction (V d 0) zero_row))))))).
Definition trio : list agent := [walker (-3) (25/100) 1 1; walker 0 (30/100) 0 1; walker 3 (27/100) 2 (-1)].
Definition meeting (draws : nat -> nat -> R * R * R) : env := Env Circular [] [] (fun _ _ _ _ => Err KeyError) (fun ps _ => all_pairs (length ps)) (fun _ => []) (fun _ => true) draws.
Example C139_case : forall draws, fair_draws draws -> exists s, updates (meeting draws) logic_outdoor (new_simulation trio) (repeat (1/100) 600) (s, 600%nat) /\
  edist (mean (map a_position (s_agents s))) (V (-2) 0) <= 14/10.
Proof.
  intros draws H. destruct (C139_crowd_pace (meeting draws) trio (walker 0 (30/100) 0 1)) with (n := 600%nat) as (s & U & L & B).
  - intros ps c i j J. apply all_pairs_in in J. lia.
  - exact H.
  - repeat constructor; cbn; try lra; discriminate.
  - intros a b Ia Ib. unfold trio in Ia, Ib. cbn [In] in Ia, Ib. destruct Ia as [<-|[<-|[<-|[]]]], Ib as [<-|[<-|[<-|[]]]]; repeat split.
  - right. now left.
  - exists s. split; [exact U|]. replace (INR 600 / 100) with 6 in B by (rewrite INR_IZR_INZ; cbn; lra).
    assert (W : mean (map (fun x => wanted_place x 6) trio) = V (-2) 0) by (unfold mean, wanted_place, walker; cbn; f_equal; lra).
    assert (O : crowd_off_course trio = 1/3) by (unfold crowd_off_course; rewrite elen_vlength; apply vlength_eq; [lra|]; unfold mean, deviation, walker; cbn; field).
    assert (V0 : average (map a_std_rand_force trio) = 1/10) by (unfold average, walker; cbn; field).
    rewrite W, O, V0 in B. eapply Rle_trans; [exact B|]. change (a_tau_adj (walker 0 (30/100) 0 1)) with (1/2). unfold astray. lra.
Qed.
