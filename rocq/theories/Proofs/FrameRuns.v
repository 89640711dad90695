(** * Whole updates and runs in another coordinate system *)
From Coq Require Import Lra Lia.
From Verif Require Import Proofs.VecLemmas Proofs.SimulationProofs Proofs.WrittenProofs Proofs.InteractionProofs.
From Verif Require Export Proofs.FrameNodes.
Open Scope R_scope.

Section Runs.
  Variables (F : frame) (e e' : env).
  Hypothesis HF : proper F.
  Hypothesis HE : env_seen F e e'.
  Notation k := (e_kind e).
  Notation same := (Forall2 (seen k F)).
  Notation related := (sim_seen k F).

  (** Nodes that do not use the cell lists. *)
  Definition grid_free (n : node) : Prop := match n with AgentAgentInteractions _ | LeaderFollowerWithHerding _ _ => False | _ => True end.
  Lemma related_with s s' l l' : related s s' -> same l l' -> related (with_agents s l) (with_agents s' l').
  Proof. intros (_ & A & B & C & D) H. repeat split; cbn; auto. Qed.
  Lemma related_res s s' r r' : related s s' -> res_seen same r r' ->
    res_seen related (do l <- r; Ok (with_agents s l)) (do l <- r'; Ok (with_agents s' l)).
  Proof. intros H G. destruct r, r'; cbn in G |- *; try contradiction; auto. now apply related_with. Qed.
  Lemma frame_free_node n s s' : grid_free n -> related s s' -> res_seen related (run_node e n s) (run_node e' n s').
  Proof using HF HE.
    intros N H. pose proof H as (HA & Hdt & Ht & Hi & Hd). destruct HE as [Ek Eo Et Eok En Es Ein Ed]. destruct n; try contradiction; cbn [run_node]; cbv zeta; rewrite ?Ek.
    - apply related_with; auto. apply (Forall2_map_both (seen k F)); auto. intros a b. apply frame_reset.
    - pose proof (frame_verlet F HF k _ _ dt_min dt_max HA) as S.
      destruct (velocity_verlet_integrator k (s_agents s) dt_min dt_max) as [[dt r]|x], (velocity_verlet_integrator k (s_agents s') dt_min dt_max) as [[dt' r']|x'];
        cbn in S; try contradiction; cbn [rbind fst snd]; [|exact S]. destruct S as [-> S]. apply frame_finite in S.
      destruct (all_finite r), (all_finite r'); cbn in S; try contradiction; cbn [rbind res_seen]; auto. repeat split; cbn; auto. now rewrite Ht.
    - cbn [res_seen]. rewrite Hd. repeat split; cbn; auto. apply frame_fluctuation; [intros i; apply (Ed (s_draws s) i)|exact HA].
    - apply related_res; auto. apply frame_adjust; auto.
    - cbn [res_seen]. apply related_with; auto. rewrite Eo. apply (frame_obstacles F HF k); auto.
    - pose proof (frame_navigation F k _ _ (length (e_targets e)) _ _ (fun t => En step radius strength t) HA) as S.
      replace (length (e_targets e')) with (length (e_targets e)) by (rewrite Et; symmetry; apply map_length).
      destruct (navigation_node (e_nav e step radius strength) _ _) as [r|x], (navigation_node (e_nav e' step radius strength) _ _) as [r'|x']; cbn in S; try contradiction; cbn [rbind]; [|exact S].
      apply frame_finite in S. apply (related_res s s'); auto.
    - apply related_res; auto. rewrite Eo, Es. apply (frame_leader_follower F HF k); auto.
    - apply related_res; auto. rewrite Eo, Et. apply (frame_exits F HF k); auto.
    - cbn [res_seen]. apply related_with; auto. apply frame_orientation; auto.
    - pose proof (frame_inside F k (e_inside e) (e_inside e') _ _ Ein HA) as [A B].
      destruct (inside_domain (e_inside e) (s_agents s)) as [l c], (inside_domain (e_inside e') (s_agents s')) as [l' c']; cbn in A, B. subst c'. repeat split; cbn; auto.
  Qed.
  (** ** The same pairs in both *)
  Lemma frame_node n s s' : same_pairs F e e' -> related s s' -> res_seen related (run_node e n s) (run_node e' n s').
  Proof using HF HE.
    intros SP H. pose proof H as (HA & _). destruct n; try (apply frame_free_node; [exact I|exact H]); cbn [run_node]; cbv zeta; rewrite ?(es_kind _ _ _ HE).
    - apply related_res; auto. unfold aa_node_update, agent_agent_block_list. rewrite (frame_positions F k _ _ HA), SP. apply frame_agent_agent; auto.
    - apply related_res; auto. rewrite (es_obstacles _ _ _ HE), (es_argsort _ _ _ HE). apply (frame_leader_herding F HF k); auto.
  Qed.
  (** ** Circular agents: any cell lists, if the cells are large enough *)
  Lemma radii_seen rmax l l' : same l l' -> radii_below rmax l -> radii_below rmax l'.
  Proof.
    intros H. induction H as [|a b l l' K H IH]; intros R; [exact R|]. intros c [<-|I].
    - rewrite (sn_radius _ _ _ _ K). apply R. now left.
    - apply IH; auto. intros d D. apply R. now right.
  Qed.
  Lemma frame_circular_node rmax n s s' : k = Circular -> (forall ps c, good_enumeration ps c (e_enum e ps c)) -> (forall ps c, good_enumeration ps c (e_enum e' ps c)) ->
    cells_fit rmax n -> radii_below rmax (s_agents s) -> related s s' -> res_seen related (run_node e n s) (run_node e' n s').
  Proof using HF HE.
    intros K G G' C R H. pose proof H as (HA & _). destruct n; try contradiction; try (apply frame_free_node; [exact I|exact H]). cbn [cells_fit] in C.
    cbn [run_node]; cbv zeta. rewrite (es_kind _ _ _ HE). apply related_res; auto. unfold aa_node_update, agent_agent_block_list.
    assert (E1 : agent_agent k (e_enum e (map a_position (s_agents s)) (node_cell_size traits)) (s_agents s) = agent_agent k (all_pairs (length (s_agents s))) (s_agents s)).
    { rewrite K. apply (cell_list_complete _ _ (node_cell_size traits) rmax); auto. }
    assert (E2 : agent_agent k (e_enum e' (map a_position (s_agents s')) (node_cell_size traits)) (s_agents s') = agent_agent k (all_pairs (length (s_agents s'))) (s_agents s')).
    { rewrite K. apply (cell_list_complete _ _ (node_cell_size traits) rmax); auto. now apply (radii_seen rmax _ _ HA). }
    rewrite E1, E2. replace (length (s_agents s')) with (length (s_agents s)) by (symmetry; exact (Forall2_length2 _ _ _ HA)). apply frame_agent_agent; auto.
  Qed.

  (** ** Updates *)
  Variable ok : sim -> Prop.
  Variable x : expr node.
  Hypothesis kept : forall n s s1, In n (written_order x) -> ok s -> run_node e n s = Ok s1 -> ok s1.
  Hypothesis nodes : forall n s s', In n (written_order x) -> ok s -> related s s' -> res_seen related (run_node e n s) (run_node e' n s').
  Lemma update_nodes_seen ns is : forall l s s', map (nth_error ns) is = map Some l -> incl l (written_order x) -> ok s -> related s s' ->
    let r := update_nodes (node_effect e ns) is s in let r' := update_nodes (node_effect e' ns) is s' in
    related (fst r) (fst r') /\ snd r' = snd r /\ ok (fst r).
  Proof using kept nodes.
    induction is as [|i is IH]; intros [|n l] s s' M I O H; cbn in M; try discriminate; [cbn; auto|]. injection M as M1 M2. cbv zeta. cbn [update_nodes].
    assert (E1 : forall e0 s0, node_effect e0 ns i s0 = match run_node e0 n s0 with Ok s2 => (s2, None) | Err y => (s0, Some y) end) by (intros; unfold node_effect; now rewrite M1).
    rewrite !E1. assert (In n (written_order x)) as N by (apply I; now left). pose proof (nodes n s s' N O H) as S.
    destruct (run_node e n s) as [s1|x1] eqn:R, (run_node e' n s') as [s1'|x1']; cbn in S; try contradiction.
    - apply (IH l); eauto. intros m Hm. apply I. now right.
    - cbn. subst. auto.
  Qed.
  Lemma update_seen s s' i : ok s -> related s s' -> outcome_seen k F (simulation_update e x (s, i)) (simulation_update e' x (s', i)) /\ ok (fst (fst (simulation_update e x (s, i)))).
  Proof using kept nodes.
    intros O H. unfold simulation_update, logic_of. destruct (construct_postorder class_name x no_nodes [] reach_start eq_refl) as (r & f & ns & -> & R & Hr & Er & M).
    unfold update. rewrite Er. cbn [fst snd]. pose proof (update_nodes_seen ns _ _ s s' M (fun n Hn => Hn) O H) as (A & B & C).
    destruct (update_nodes (node_effect e ns) _ s) as [s1 [x1|]], (update_nodes (node_effect e' ns) _ s') as [s1' [x1'|]]; cbn in A, B, C; try discriminate; unfold outcome_seen; cbn; auto.
  Qed.
  Lemma updates_seen s i dts r : updates e x (s, i) dts r -> forall s', ok s -> related s s' ->
    exists s1', updates e' x (s', i) dts (s1', snd r) /\ related (fst r) s1'.
  Proof using kept nodes.
    intros U. remember (s, i) as si eqn:E. revert s i E. induction U as [si|si [s1 i1] dts r U1 U IH]; intros s i -> s' O H.
    - exists s'. split; [constructor|exact H].
    - pose proof (update_seen s s' i O H) as [(A & B & C) D]. rewrite U1 in A, B, C, D. cbn in A, B, C, D.
      destruct (simulation_update e' x (s', i)) as [[s1' i1'] ox] eqn:U1'. cbn in A, B, C. subst i1' ox.
      destruct (IH s1 i1 eq_refl s1' D A) as (q & Q1 & Q2). exists q. split; auto. pose proof A as (_ & Adt & _).
      replace (s_dt (fst (s1, i1))) with (s_dt (fst (s1', i1))) by (cbn; exact Adt). econstructor; eauto.
  Qed.
  Lemma updates_seen_back s' i dts r' : updates e' x (s', i) dts r' -> forall s, ok s -> related s s' ->
    exists s1, updates e x (s, i) dts (s1, snd r') /\ related s1 (fst r').
  Proof using kept nodes.
    intros U. remember (s', i) as si eqn:E. revert s' i E. induction U as [si|si [s1' i1] dts r' U1 U IH]; intros s' i -> s O H.
    - exists s. split; [constructor|exact H].
    - pose proof (update_seen s s' i O H) as [(A & B & C) D]. rewrite U1 in A, B, C. cbn in A, B, C.
      destruct (simulation_update e x (s, i)) as [[s1 i1'] ox] eqn:U1'. cbn in A, B, C, D. subst i1 ox.
      destruct (IH s1' i1' eq_refl s1 D A) as (q & Q1 & Q2). exists q. split; auto. pose proof A as (_ & Adt & _).
      replace (s_dt (fst (s1', i1'))) with (s_dt (fst (s1, i1'))) by (cbn; auto). econstructor; eauto.
  Qed.
  Lemma run_seen (stop stop' : nat -> sim * nat -> bool) fuel : (forall n s s' i, related s s' -> stop' n (s', i) = stop n (s, i)) ->
    forall n s s' i, ok s -> related s s' ->
    match run_from stop (simulation_update e x) n fuel (s, i), run_from stop' (simulation_update e' x) n fuel (s', i) with
    | Some r, Some r' => outcome_seen k F r r' | None, None => True | _, _ => False end.
  Proof using kept nodes.
    intros ST. induction fuel as [|fuel IH]; intros n s s' i O H; cbn [run_from]; [exact I|]. rewrite (ST n s s' i H). destruct (stop n (s, i)); [cbn; repeat split; apply H|].
    pose proof (update_seen s s' i O H) as [(A & B & C) D].
    destruct (simulation_update e x (s, i)) as [[s1 i1] ox], (simulation_update e' x (s', i)) as [[s1' i1'] ox']. cbn in A, B, C, D. subst i1' ox'.
    destruct ox; [|now apply IH]. cbn. repeat split; apply A.
  Qed.
End Runs.
