(** * Simulations of some of the agents: pairs, updates *)
From Coq Require Import Lra Lia Permutation.
From Verif Require Import Proofs.VecLemmas Proofs.SimulationProofs Proofs.WrittenProofs Proofs.InteractionProofs Proofs.FrameImages.
From Verif Require Export Proofs.PartProofs.
Open Scope R_scope.

(** ** Pairs *)
Lemma total_app k agents l1 : forall l2 d, total k agents (l1 ++ l2) = Ok d ->
  exists d1 d2, total k agents l1 = Ok d1 /\ total k agents l2 = Ok d2 /\ forall m, d m = dadd (d1 m) (d2 m).
Proof.
  induction l1 as [|p l1 IH]; intros l2 d E; cbn [total app] in *.
  - exists (fun _ => dzero), d. repeat split; auto. intros m. now rewrite dadd_comm, dadd_zero.
  - destruct (delta k agents p) as [dp|]; [|discriminate]. cbn [rbind] in *. destruct (total k agents (l1 ++ l2)) as [e|] eqn:E1; [|discriminate]. injection E as <-.
    destruct (IH l2 e E1) as (d1 & d2 & -> & -> & H). cbn [rbind]. do 2 eexists. repeat split; auto. intros m. cbn. rewrite H. apply dadd_assoc || (symmetry; apply dadd_assoc).
Qed.
Definition lift (sel : list nat) (p : nat * nat) : nat * nat := (nth (fst p) sel 0%nat, nth (snd p) sel 0%nat).
Lemma nth_sel (sel : list nat) m i : nth_error sel m = Some i -> nth m sel 0%nat = i.
Proof. intros. now apply nth_error_nth. Qed.
Lemma sel_inj (sel : list nat) m n i : NoDup sel -> nth_error sel m = Some i -> nth_error sel n = Some i -> m = n.
Proof. intros N A B. apply (proj1 (NoDup_nth_error sel) N); [apply nth_error_Some; congruence|congruence]. Qed.
Lemma in_sel (sel : list nat) i : existsb (Nat.eqb i) sel = true <-> In i sel.
Proof. rewrite existsb_exists. split; [intros (j & J & E); apply Nat.eqb_eq in E; now subst|]. intros H. exists i. split; auto. apply Nat.eqb_refl. Qed.
Lemma push_all_len (d : nat -> vec * R) l : length (push_all d l) = length l.
Proof.
  apply Nat.le_antisymm; apply Nat.nlt_ge; intros K.
  - apply nth_error_Some in K. rewrite push_all_nth in K. destruct (nth_error l (length l)) eqn:X; [|contradiction]. assert (X' : nth_error l (length l) <> None) by congruence. apply nth_error_Some in X'. lia.
  - apply nth_error_Some in K. apply K. clear K. assert (X : nth_error (push_all d l) (length (push_all d l)) = None) by (apply nth_error_None; lia). rewrite push_all_nth in X. destruct (nth_error l _); [discriminate|reflexivity].
Qed.
Section Pairs.
  Variables (k : kind) (sel : list nat) (all part : list agent).
  Hypothesis N : NoDup sel.
  Hypothesis P : pick sel all part.
  Lemma on_lift m i a ia d : nth_error sel m = Some i -> nth_error sel a = Some ia -> on ia d i = on a d m.
  Proof using N.
    intros A B. unfold on. destruct (Nat.eqb_spec i ia) as [E|E], (Nat.eqb_spec m a) as [E'|E']; auto.
    - subst ia. elim E'. eapply sel_inj; eauto.
    - subst a. congruence.
  Qed.
  Lemma delta_lift p d1 : (fst p < length sel)%nat -> (snd p < length sel)%nat -> delta k all (lift sel p) = Ok d1 ->
    exists d0, delta k part p = Ok d0 /\ forall m i, nth_error sel m = Some i -> d0 m = d1 i.
  Proof using N P.
    destruct p as [a b]. cbn [fst snd]. intros A B. destruct (nth_error sel a) as [ia|] eqn:Ea; [|apply nth_error_None in Ea; lia].
    destruct (nth_error sel b) as [ib|] eqn:Eb; [|apply nth_error_None in Eb; lia].
    destruct (pick_nth _ _ _ _ _ P Ea) as (xa & A1 & A2). destruct (pick_nth _ _ _ _ _ P Eb) as (xb & B1 & B2).
    unfold lift, delta. cbn [fst snd]. rewrite (nth_sel _ _ _ Ea), (nth_sel _ _ _ Eb), A1, A2, B1, B2. destruct (pair_push k xa xb) as [q|]; [|discriminate]. cbn [rbind].
    intros [= <-]. eexists. split; [reflexivity|]. intros m i E. cbn. now rewrite (on_lift m i a ia), (on_lift m i b ib).
  Qed.
  Lemma total_lift l : (forall i j, In (i, j) l -> (i < length sel)%nat /\ (j < length sel)%nat) -> forall d1, total k all (map (lift sel) l) = Ok d1 ->
    exists d0, total k part l = Ok d0 /\ forall m i, nth_error sel m = Some i -> d0 m = d1 i.
  Proof using N P.
    induction l as [|[a b] l IH]; intros R d1 E; cbn [map total] in *.
    - injection E as <-. eexists. split; [reflexivity|auto].
    - destruct (delta k all (lift sel (a, b))) as [da|] eqn:Ed; [|discriminate]. cbn [rbind] in E. destruct (total k all (map (lift sel) l)) as [dt|] eqn:Et; [|discriminate]. injection E as <-.
      destruct (R a b) as [Ra Rb]; [now left|]. destruct (delta_lift (a, b) da Ra Rb Ed) as (d0 & -> & H0).
      destruct (IH (fun i j H => R i j (or_intror H)) dt eq_refl) as (e0 & -> & H1). cbn [rbind]. eexists. split; [reflexivity|]. intros m i M. cbn. now rewrite (H0 m i M), (H1 m i M).
  Qed.
  (** The pairs among the chosen agents add up to the same; pairs of a chosen agent and
      another add nothing. *)
  Lemma pick_pairs pairs' pairs all' : in_range all pairs' -> (forall i j, In (i, j) pairs -> (i < length sel)%nat /\ (j < length sel)%nat) -> apart k sel all ->
    teq (total k all (filter (chosen sel) pairs')) (total k all (map (lift sel) pairs)) ->
    agent_agent k pairs' all = Ok all' -> exists part', agent_agent k pairs part = Ok part' /\ pick sel all' part'.
  Proof using N P.
    intros R' R AP T E. rewrite agent_agent_over, over_total in E. destruct (total k all pairs') as [d'|] eqn:Et; [|discriminate]. cbn [rbind] in E. injection E as <-.
    set (uncrossed := fun p : nat * nat => Bool.eqb (existsb (Nat.eqb (fst p)) sel) (existsb (Nat.eqb (snd p)) sel)).
    set (out := fun p : nat * nat => (negb (existsb (Nat.eqb (fst p)) sel) && negb (existsb (Nat.eqb (snd p)) sel))%bool).
    assert (T1 : teq (total k all pairs') (total k all (filter uncrossed pairs'))).
    { apply total_drop. intros [i j] I U. destruct (R' i j I) as [Ri Rj]. unfold uncrossed in U. cbn [fst snd] in U.
      destruct (nth_error all i) as [x|] eqn:Ei; [|apply nth_error_None in Ei; lia]. destruct (nth_error all j) as [y|] eqn:Ej; [|apply nth_error_None in Ej; lia].
      apply (delta_far k all i j x y Ei Ej). intros c d C D. apply eqb_false_iff in U.
      destruct (existsb (Nat.eqb i) sel) eqn:Si, (existsb (Nat.eqb j) sel) eqn:Sj; try (elim U; reflexivity).
      - apply in_sel in Si. apply (AP i j x y); auto. intros K. apply in_sel in K. congruence.
      - apply in_sel in Sj. assert (G : 3 <= gap d c) by (apply (AP j i y x); auto; intros K; apply in_sel in K; congruence).
        unfold gap in *. rewrite edist_sym. lra. }
    assert (T2 : teq (total k all (filter uncrossed pairs')) (total k all (filter (chosen sel) pairs' ++ filter out pairs'))).
    { apply total_perm.
      - clear. induction pairs' as [|[i j] l IH]; cbn [filter]; auto. unfold uncrossed at 1, chosen at 1, out at 1. cbn [fst snd].
        destruct (existsb (Nat.eqb i) sel), (existsb (Nat.eqb j) sel); cbn; auto. now apply Permutation_cons_app.
      - intros i j I. apply filter_In in I as [I _]. now apply R'. }
    pose proof (teq_trans _ _ _ T1 T2) as T3. rewrite Et in T3. destruct (total k all (filter (chosen sel) pairs' ++ filter out pairs')) as [d2|] eqn:E2; [|contradiction]. cbn in T3.
    destruct (total_app _ _ _ _ _ E2) as (d3 & d4 & E3 & E4 & H4). rewrite E3 in T. destruct (total k all (map (lift sel) pairs)) as [d5|] eqn:E5; [|contradiction]. cbn in T.
    destruct (total_lift pairs R d5 E5) as (d0 & E0 & H0). rewrite agent_agent_over, over_total, E0. cbn [rbind]. eexists. split; [reflexivity|].
    apply pick_intro.
    { rewrite push_all_len. now apply (pick_length sel all). }
    intros m i M. rewrite !push_all_nth. destruct (pick_nth _ _ _ _ _ P M) as (a & -> & ->). cbn [option_map]. split; [|discriminate]. do 2 f_equal.
    rewrite (H0 m i M), <- T, T3, H4. rewrite (total_absent k all (filter out pairs') d4 i E4); [now rewrite dadd_zero|].
    intros x y I. apply filter_In in I as [_ I]. unfold out in I. cbn [fst snd] in I. apply andb_true_iff in I as [I1 I2]. apply negb_true_iff in I1. apply negb_true_iff in I2.
    assert (S : existsb (Nat.eqb i) sel = true) by (apply in_sel; eapply nth_error_In; eauto). split; intros ->; congruence.
  Qed.
End Pairs.
Lemma NoDup_map_on {A B} (f : A -> B) l : NoDup l -> (forall a b, In a l -> In b l -> f a = f b -> a = b) -> NoDup (map f l).
Proof.
  induction 1 as [|a l H N IH]; intros I; cbn; constructor.
  - intros K. apply in_map_iff in K as (b & E & Hb). apply H. rewrite <- (I b a); auto; [now right|now left].
  - apply IH. intros x y X Y. apply I; now right.
Qed.
Lemma orient_lt i j : (i < j)%nat -> orient (i, j) = (i, j).
Proof. intros H. unfold orient. cbn [fst snd]. now rewrite (proj2 (Nat.ltb_lt i j)). Qed.
Lemma orient_gt i j : (j < i)%nat -> orient (i, j) = (j, i).
Proof. intros H. unfold orient. cbn [fst snd]. now rewrite (proj2 (Nat.ltb_ge i j)) by lia. Qed.
(** All pairs among the chosen agents. *)
Lemma all_pairs_chosen sel n : NoDup sel -> (forall i, In i sel -> (i < n)%nat) ->
  Permutation (filter (chosen sel) (all_pairs n)) (map orient (map (lift sel) (all_pairs (length sel)))).
Proof.
  intros N B. assert (V : forall a, (a < length sel)%nat -> exists i, nth_error sel a = Some i) by (intros a A; destruct (nth_error sel a) eqn:E; eauto; apply nth_error_None in E; lia).
  assert (J : forall a b, (a < b < length sel)%nat -> exists i j, nth_error sel a = Some i /\ nth_error sel b = Some j /\ i <> j /\ lift sel (a, b) = (i, j)).
  { intros a b AB. destruct (V a) as (i & Ei); [lia|]. destruct (V b) as (j & Ej); [lia|]. exists i, j. repeat split; auto.
    - intros ->. pose proof (sel_inj _ _ _ _ N Ei Ej). lia.
    - unfold lift. cbn. now rewrite (nth_sel _ _ _ Ei), (nth_sel _ _ _ Ej). }
  apply NoDup_Permutation.
  - apply NoDup_filter, all_pairs_nodup.
  - rewrite map_map. apply NoDup_map_on; [apply all_pairs_nodup|]. intros [a b] [a' b'] H H'. apply all_pairs_in in H, H'.
    destruct (J a b H) as (i & j & Ei & Ej & D & ->). destruct (J a' b' H') as (i' & j' & Ei' & Ej' & D' & ->). intros E.
    assert (Q : (i = i' /\ j = j') \/ (i = j' /\ j = i')).
    { unfold orient in E. cbn [fst snd] in E. destruct (i <? j)%nat, (i' <? j')%nat; injection E as -> ->; auto. }
    destruct Q as [[-> ->]|[-> ->]].
    + f_equal; eapply sel_inj; eauto.
    + pose proof (sel_inj _ _ _ _ N Ei Ej'). pose proof (sel_inj _ _ _ _ N Ej Ei'). lia.
  - intros [x y]. rewrite filter_In, all_pairs_in, map_map, in_map_iff. unfold chosen. cbn [fst snd]. rewrite andb_true_iff, !in_sel. split.
    + intros (L & X & Y). apply In_nth_error in X as (a & Ea). apply In_nth_error in Y as (b & Eb).
      assert (A : (a < length sel)%nat) by (apply nth_error_Some; congruence). assert (Bb : (b < length sel)%nat) by (apply nth_error_Some; congruence).
      destruct (Nat.lt_trichotomy a b) as [C|[C|C]].
      * exists (a, b). split; [|apply all_pairs_in; lia]. unfold lift. cbn [fst snd]. rewrite (nth_sel _ _ _ Ea), (nth_sel _ _ _ Eb). apply orient_lt. lia.
      * subst b. rewrite Ea in Eb. injection Eb as ->. lia.
      * exists (b, a). split; [|apply all_pairs_in; lia]. unfold lift. cbn [fst snd]. rewrite (nth_sel _ _ _ Ea), (nth_sel _ _ _ Eb). apply orient_gt. lia.
    + intros ([a b] & E & H). apply all_pairs_in in H. destruct (J a b H) as (i & j & Ei & Ej & D & L). rewrite L in E.
      pose proof (nth_error_In _ _ Ei) as Ii. pose proof (nth_error_In _ _ Ej) as Ij. pose proof (B i Ii). pose proof (B j Ij).
      destruct (Nat.lt_trichotomy i j) as [C|[C|C]]; [rewrite orient_lt in E by exact C|contradiction|rewrite orient_gt in E by exact C]; injection E as <- <-; auto.
Qed.

(** ** Nodes *)
Section Runs.
  Variables (sel : list nat) (whole part : env).
  Hypothesis W : same_world sel whole part.
  Notation k := (e_kind whole).
  Definition pair_free (n : node) : Prop := match n with AgentAgentInteractions _ => False | _ => True end.
  Lemma part_with s t l m : part_of sel s t -> pick sel l m -> length l = length (s_agents s) -> length m = length (s_agents t) -> part_of sel (with_agents s l) (with_agents t m).
  Proof. intros ((N & _) & A & B & C & D) Q L1 L2. repeat split; cbn; auto. intros E. apply D. lia. Qed.
  Lemma node_length e n s s1 : run_node e n s = Ok s1 -> length (s_agents s1) = length (s_agents s).
  Proof. intros E. pose proof (node_keeps (fun _ => tt) e n s s1 (fun f _ => ltac:(destruct f; now intros ? ?)) E) as H. apply (f_equal (@length unit)) in H. now rewrite !map_length in H. Qed.
  Lemma part_free_node n s t s1 : pair_free n -> independent (length (s_agents t) = length (s_agents s)) n -> part_of sel s t -> run_node whole n s = Ok s1 ->
    exists t1, run_node part n t = Ok t1 /\ part_of sel s1 t1.
  Proof using W.
    intros PF I H E. pose proof H as ((N & P) & Hdt & Ht & Hd & Hi). change (pick sel (s_agents s) (s_agents t)) in P. destruct W as [Ek Eo Et En Ei Ed].
    assert (Fin : forall t1, run_node part n t = Ok t1 -> pick sel (s_agents s1) (s_agents t1) -> s_dt t1 = s_dt s1 -> s_time t1 = s_time s1 -> s_draws t1 = s_draws s1 ->
       (length (s_agents t) = length (s_agents s) -> s_inactive t1 = s_inactive s1) -> exists t1, run_node part n t = Ok t1 /\ part_of sel s1 t1).
    { intros t1 R1 R2 R3 R4 R5 R6. exists t1. split; auto. repeat split; auto. rewrite (node_length _ _ _ _ E), (node_length _ _ _ _ R1). exact R6. }
    destruct n; try contradiction; cbn [run_node] in E, Fin |- *; cbv zeta in E, Fin |- *; rewrite ?Ek, ?Eo, ?Et in Fin; rewrite ?Ek, ?Eo, ?Et.
    - injection E as <-. eapply Fin; [reflexivity|..]; cbn; auto. now apply pick_map.
    - destruct (velocity_verlet_integrator k (s_agents s) dt_min dt_max) as [[dt r]|] eqn:V; [|discriminate]. cbn [rbind fst snd] in E.
      destruct (all_finite r) as [l|] eqn:FI; [|discriminate]. injection E as <-. destruct (pick_verlet _ _ _ _ _ _ _ _ _ N P I V FI) as (q & m & V1 & V2 & V3).
      rewrite V1 in Fin |- *. cbn [rbind fst snd] in Fin |- *. rewrite V2 in Fin |- *. eapply Fin; [reflexivity|..]; cbn; auto. now rewrite Ht.
    - injection E as <-. eapply Fin; [reflexivity|..]; cbn; auto. apply pick_fluctuate; auto. rewrite Hd. intros m i. apply Ed.
    - destruct (adjust k (s_agents s)) as [l|] eqn:A; [|discriminate]. injection E as <-. destruct (pick_adjust _ _ _ _ _ A P) as (m & M1 & M2).
      rewrite M1 in Fin |- *. eapply Fin; [reflexivity|..]; cbn; auto.
    - injection E as <-. eapply Fin; [reflexivity|..]; cbn; auto. rewrite !agent_obstacle_push. now apply pick_map.
    - destruct (navigation_node (e_nav whole step radius strength) (length (e_targets whole)) (s_agents s)) as [r|] eqn:V; [|discriminate]. cbn [rbind] in E.
      destruct (all_finite r) as [l|] eqn:FI; [|discriminate]. injection E as <-.
      destruct (pick_navigation (e_nav part step radius strength) _ (length (e_targets whole)) sel (s_agents s) (s_agents t) l (En step radius strength)) as (m & M1 & M2); [rewrite V; exact FI|exact P|].
      destruct (navigation_node (e_nav part step radius strength) _ (s_agents t)) as [q|]; [|discriminate]. cbn [rbind] in M1, Fin |- *. rewrite M1 in Fin |- *. eapply Fin; [reflexivity|..]; cbn; auto.
    - destruct (exit_detection_node (e_targets whole) (e_obstacles whole) detection_range (s_agents s)) as [l|] eqn:A; [|discriminate]. injection E as <-.
      destruct (pick_exits _ _ _ _ _ _ _ A P) as (m & M1 & M2). rewrite M1 in Fin |- *. eapply Fin; [reflexivity|..]; cbn; auto.
    - injection E as <-. eapply Fin; [reflexivity|..]; cbn; auto. unfold orientation_node. destruct (is_model k ThreeCircle); auto. now apply pick_map.
    - injection E as <-. eapply Fin; [reflexivity|..]; cbn; auto.
      + replace (map (fun a => set_active (e_inside part (a_position a)) a) (s_agents t)) with (map (fun a => set_active (e_inside whole (a_position a)) a) (s_agents t)); [now apply pick_map|].
        apply map_ext. intros a. now rewrite Ei.
      + intros L. pose proof (pick_perm _ _ _ N P L) as Q. rewrite Hi by exact L. f_equal.
        rewrite (filter_ext (fun a => xorb (a_active a) (e_inside part (a_position a))) (fun a => xorb (a_active a) (e_inside whole (a_position a)))) by (intros a; now rewrite Ei).
        apply Permutation_length. clear - Q. induction Q; cbn; auto; repeat match goal with |- context [if ?b then _ else _] => destruct b end; auto; try apply perm_swap. eapply perm_trans; eauto.
  Qed.
  Lemma pick_positions s t : part_of sel s t -> pick sel (map a_position (s_agents s)) (map a_position (s_agents t)).
  Proof. intros ((_ & P) & _). now apply pick_map. Qed.
  (** *** Cell lists that agree *)
  Lemma part_node n s t s1 : same_pairs_of sel whole part -> independent (length (s_agents t) = length (s_agents s)) n -> (match n with AgentAgentInteractions _ => apart k sel (s_agents s) | _ => True end) ->
    part_of sel s t -> run_node whole n s = Ok s1 -> exists t1, run_node part n t = Ok t1 /\ part_of sel s1 t1.
  Proof using W.
    intros SP I AP H E. destruct n; try (now apply (part_free_node _ s t s1)). pose proof H as ((N & P) & _). change (pick sel (s_agents s) (s_agents t)) in P.
    pose proof E as E0. cbn [run_node] in E. cbv zeta in E. unfold aa_node_update, agent_agent_block_list in E.
    destruct (agent_agent k _ (s_agents s)) as [l|] eqn:A; [|discriminate]. injection E as <-.
    destruct (SP _ _ (node_cell_size traits) (pick_positions _ _ H)) as (R1 & R2 & R3). rewrite !map_length in R1, R2.
    destruct (pick_pairs k sel _ _ N P _ (e_enum part (map a_position (s_agents t)) (node_cell_size traits)) l R1) as (m & M1 & M2); auto.
    { rewrite <- (pick_length _ _ _ P). exact R2. }
    { apply total_perm; [exact R3|]. intros i j J. apply filter_In in J as [J _]. now apply R1. }
    cbn [run_node]. cbv zeta. unfold aa_node_update, agent_agent_block_list. rewrite (sw_kind _ _ _ W), M1. eexists. split; [reflexivity|]. apply part_with; auto.
    - apply (node_length _ _ _ _ E0).
    - rewrite (pick_length _ _ _ M2). symmetry. apply (pick_length _ _ _ P).
  Qed.
  (** *** Circular agents: any cell lists, if the cells are large enough *)
  Lemma part_circular_node rmax n s t s1 : k = Circular -> (forall ps c, good_enumeration ps c (e_enum whole ps c)) -> (forall ps c, good_enumeration ps c (e_enum part ps c)) ->
    cells_fit rmax n -> radii_below rmax (s_agents s) -> independent (length (s_agents t) = length (s_agents s)) n -> (match n with AgentAgentInteractions _ => apart k sel (s_agents s) | _ => True end) ->
    part_of sel s t -> run_node whole n s = Ok s1 -> exists t1, run_node part n t = Ok t1 /\ part_of sel s1 t1.
  Proof using W.
    intros K G G' C R I AP H E. destruct n; try (now apply (part_free_node _ s t s1)). pose proof H as ((N & P) & _). change (pick sel (s_agents s) (s_agents t)) in P.
    pose proof E as E0. cbn [run_node] in E. cbv zeta in E. unfold aa_node_update, agent_agent_block_list in E.
    assert (E1 : agent_agent k (e_enum whole (map a_position (s_agents s)) (node_cell_size traits)) (s_agents s) = agent_agent k (all_pairs (length (s_agents s))) (s_agents s)).
    { rewrite K. apply (cell_list_complete _ _ (node_cell_size traits) rmax); auto. }
    assert (E2 : agent_agent k (e_enum part (map a_position (s_agents t)) (node_cell_size traits)) (s_agents t) = agent_agent k (all_pairs (length (s_agents t))) (s_agents t)).
    { rewrite K. apply (cell_list_complete _ _ (node_cell_size traits) rmax); auto. intros a Ha. apply R. now apply (pick_in _ _ _ _ P). }
    rewrite E1 in E. destruct (agent_agent k _ (s_agents s)) as [l|] eqn:A; [|discriminate]. injection E as <-.
    destruct (pick_pairs k sel _ _ N P (all_pairs (length (s_agents s))) (all_pairs (length (s_agents t))) l) as (m & M1 & M2); auto.
    { intros i j J. apply all_pairs_in in J. lia. }
    { intros i j J. apply all_pairs_in in J. rewrite (pick_length _ _ _ P) in J. lia. }
    { apply teq_trans with (total k (s_agents s) (map orient (map (lift sel) (all_pairs (length (s_agents t)))))).
      - apply total_perm; [rewrite (pick_length _ _ _ P); apply all_pairs_chosen; auto; intros i; apply (pick_bound _ _ _ _ P)|]. intros i j J. apply filter_In in J as [J _]. apply all_pairs_in in J. lia.
      - rewrite K. apply teq_sym, total_orient. }
    cbn [run_node]. cbv zeta. unfold aa_node_update, agent_agent_block_list. rewrite (sw_kind _ _ _ W), E2, M1. eexists. split; [reflexivity|]. apply part_with; auto.
    - apply (node_length _ _ _ _ E0).
    - rewrite (pick_length _ _ _ M2). symmetry. apply (pick_length _ _ _ P).
  Qed.

  (** ** Updates *)
  Variable ok : sim -> Prop.
  Variable x : expr node.
  Hypothesis kept : forall n s s1, ok s -> run_node whole n s = Ok s1 -> ok s1.
  Hypothesis nodes : forall n s t s1, In n (written_order x) -> ok s -> (match n with AgentAgentInteractions _ => apart k sel (s_agents s) | _ => True end) ->
    independent (length (s_agents t) = length (s_agents s)) n -> part_of sel s t -> run_node whole n s = Ok s1 -> exists t1, run_node part n t = Ok t1 /\ part_of sel s1 t1.
  Lemma apart_kept n s s1 : (match n with Integrator _ _ => False | _ => True end) -> run_node whole n s = Ok s1 -> apart k sel (s_agents s) -> apart k sel (s_agents s1).
  Proof.
    intros NI E AP. assert (B : map (body k) (s_agents s1) = map (body k) (s_agents s)).
    { apply (node_keeps (body k) whole n); auto. intros f F. destruct n; cbn in F; try contradiction; repeat (destruct F as [<-|F]; [intros ? ?; unfold body; destruct k; reflexivity|]); destruct F. }
    intros i j a b Hi Hj Ea Eb c d Hc Hd.
    assert (Q : forall m y, nth_error (s_agents s1) m = Some y -> exists z, nth_error (s_agents s) m = Some z /\ body k z = body k y).
    { intros m y Y. apply (f_equal (fun l => nth_error l m)) in B. rewrite !nth_error_map, Y in B. cbn in B. destruct (nth_error (s_agents s) m) as [z|]; [|discriminate]. cbn in B. injection B as B. eauto. }
    destruct (Q i a Ea) as (a' & Ea' & Ba). destruct (Q j b Eb) as (b' & Eb' & Bb). rewrite <- Ba in Hc. rewrite <- Bb in Hd. apply (AP i j a' b'); auto.
  Qed.
  Lemma part_runs_free l : forall s t log s1, (forall n, In n l -> In n (written_order x)) -> (forall n, In n l -> independent (length (s_agents t) = length (s_agents s)) n) ->
    (forall n, In n l -> match n with AgentAgentInteractions _ => False | _ => True end) -> ok s -> part_of sel s t -> runs whole l s log s1 ->
    exists log1 t1, runs part l t log1 t1 /\ part_of sel s1 t1 /\ ok s1.
  Proof using kept nodes.
    induction l as [|n l IH]; intros s t log s1 X I F O H U; inversion U as [|? ? ? s2 log' ? U1 U2]; subst; [exists [], t; repeat split; auto; [constructor|apply H..]|].
    destruct (nodes n s t s2) as (t2 & T1 & T2); auto; [apply X; now left|specialize (F n (or_introl eq_refl)); destruct n; auto; contradiction|apply I; now left|].
    destruct (IH s2 t2 log' s1) as (log1 & t1 & A & B & C); auto; try (intros m M; first [apply X | apply F]; now right); eauto.
    - intros m M. rewrite (node_length _ _ _ _ U1), (node_length _ _ _ _ T1). apply I. now right.
    - eexists _, t1. repeat split; try apply B; auto. econstructor; eauto.
  Qed.
  Lemma part_runs l : forall s t log s1, (forall n, In n l -> In n (written_order x)) -> (forall n, In n l -> independent (length (s_agents t) = length (s_agents s)) n) ->
    (forall n, In n l -> match n with Integrator _ _ => False | _ => True end) -> ok s -> apart k sel (s_agents s) -> part_of sel s t -> runs whole l s log s1 ->
    exists log1 t1, runs part l t log1 t1 /\ part_of sel s1 t1 /\ ok s1.
  Proof using kept nodes.
    induction l as [|n l IH]; intros s t log s1 X I F O AP H U; inversion U as [|? ? ? s2 log' ? U1 U2]; subst; [exists [], t; repeat split; auto; [constructor|apply H..]|].
    destruct (nodes n s t s2) as (t2 & T1 & T2); auto; [apply X; now left|now destruct n|apply I; now left|].
    destruct (IH s2 t2 log' s1) as (log1 & t1 & A & B & C); auto; try (intros m M; first [apply X | apply F]; now right); eauto.
    - intros m M. rewrite (node_length _ _ _ _ U1), (node_length _ _ _ _ T1). apply I. now right.
    - eapply apart_kept; eauto. apply F. now left.
    - eexists _, t1. repeat split; try apply B; auto. econstructor; eauto.
  Qed.
  Lemma part_runs_any l : (forall s, ok s -> apart k sel (s_agents s)) -> forall s t log s1, (forall n, In n l -> In n (written_order x)) -> (forall n, In n l -> independent (length (s_agents t) = length (s_agents s)) n) ->
    ok s -> part_of sel s t -> runs whole l s log s1 -> exists log1 t1, runs part l t log1 t1 /\ part_of sel s1 t1 /\ ok s1.
  Proof using kept nodes.
    intros AP. induction l as [|n l IH]; intros s t log s1 X I O H U; inversion U as [|? ? ? s2 log' ? U1 U2]; subst; [exists [], t; repeat split; auto; [constructor|apply H..]|].
    destruct (nodes n s t s2) as (t2 & T1 & T2); auto; [apply X; now left|destruct n; auto|apply I; now left|].
    destruct (IH s2 t2 log' s1) as (log1 & t1 & A & B & C); auto; try (intros m M; apply X; now right); eauto.
    - intros m M. rewrite (node_length _ _ _ _ U1), (node_length _ _ _ _ T1). apply I. now right.
    - eexists _, t1. repeat split; try apply B; auto. econstructor; eauto.
  Qed.
  Lemma runs_length e l s log s1 : runs e l s log s1 -> length (s_agents s1) = length (s_agents s).
  Proof. induction 1; auto. rewrite IHruns. eapply node_length; eauto. Qed.
  Hypothesis first : forces_first (written_order x) \/ (forall s, ok s -> apart k sel (s_agents s)).
  Lemma part_update s t i s1 i1 : (forall n, In n (written_order x) -> independent (length (s_agents t) = length (s_agents s)) n) -> ok s -> apart k sel (s_agents s) -> part_of sel s t ->
    simulation_update whole x (s, i) = ((s1, i1), None) -> exists t1, simulation_update part x (t, i) = ((t1, i1), None) /\ part_of sel s1 t1 /\ ok s1.
  Proof using kept nodes first.
    intros I O AP H U. apply update_runs in U as (-> & log & U). destruct first as [(l1 & l2 & L & F1 & F2)|AP'].
    2:{ destruct (part_runs_any _ AP' s t log s1 (fun n Hn => Hn) I O H U) as (lg & t1 & A & B & C). exists t1. repeat split; try apply B; auto. apply update_runs. eauto. }
    rewrite L in U.
    apply runs_app in U as (log1 & s2 & log2 & -> & U1 & U2).
    destruct (part_runs l1 s t log1 s2) as (lg & t2 & A & B & C); auto.
    { intros n Hn. rewrite L. apply in_or_app; auto. }
    { intros n Hn. apply I. rewrite L. apply in_or_app; auto. }
    destruct (part_runs_free l2 s2 t2 log2 s1) as (lg2 & t1 & A2 & B2 & C2); auto.
    - intros n Hn. rewrite L. apply in_or_app; auto.
    - intros n Hn. rewrite (runs_length _ _ _ _ _ U1), (runs_length _ _ _ _ _ A). apply I. rewrite L. apply in_or_app; auto.
    - exists t1. repeat split; try apply B2; auto. apply update_runs. split; auto. exists (lg ++ lg2). rewrite L. apply runs_app. exists lg, t2, lg2. auto.
  Qed.
  Lemma update_length e s i s1 i1 : simulation_update e x (s, i) = ((s1, i1), None) -> length (s_agents s1) = length (s_agents s).
  Proof. intros U. apply update_runs in U as (_ & log & U). eapply runs_length; eauto. Qed.
  Lemma part_updates s t i dts r : (forall n, In n (written_order x) -> independent (length (s_agents t) = length (s_agents s)) n) -> ok s -> part_of sel s t ->
    (forall dts1 dts2 u, dts = dts1 ++ dts2 -> dts2 <> [] -> updates whole x (s, i) dts1 u -> apart k sel (s_agents (fst u))) ->
    updates whole x (s, i) dts r -> exists t1, updates part x (t, i) dts (t1, snd r) /\ part_of sel (fst r) t1.
  Proof using kept nodes first.
    intros I O H AP U. remember (s, i) as si eqn:E. revert s t i E I O H AP. induction U as [si|si [s1 i1] dts r U1 U IH]; intros s t i -> I O H AP.
    - exists t. split; [constructor|exact H].
    - destruct (part_update s t i s1 i1) as (t1 & T & B & C); auto.
      { apply (AP [] (s_dt s1 :: dts) (s, i)); auto; [discriminate|constructor]. }
      destruct (IH s1 t1 i1) as (q & Q1 & Q2); auto.
      + intros n Hn. rewrite (update_length _ _ _ _ _ U1), (update_length _ _ _ _ _ T). auto.
      + intros d1 d2 u -> D V. apply (AP (s_dt s1 :: d1) d2 u); auto. cbn. now apply (updates_next whole x (s, i) (s1, i1) d1 u).
      + exists q. split; auto. cbn [fst]. assert (Dt : s_dt t1 = s_dt s1) by apply B. replace (s_dt s1) with (s_dt (fst (t1, i1))). econstructor; eauto.
  Qed.
End Runs.
