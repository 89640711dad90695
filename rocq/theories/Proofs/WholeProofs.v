(** Proofs about crowds as a whole. *)
From Coq Require Import Lra Lia.
From Verif Require Import Spec.Whole Proofs.VecLemmas Proofs.LoneProofs Proofs.PaceProofs Proofs.SimulationMore Proofs.InteractionProofs Proofs.GoesOnProofs.
Open Scope R_scope.

(** ** One update of a crowd outdoors *)
Definition crowd_row (k : kind) (d : R * R * R) (p : vec * R) (a : agent) : agent :=
  reset_row k (moved_row k DT (push p (adjusted_row k (faced_row k (fluctuate_row k a (fst (fst d)) (snd (fst d)) (snd d)))))).
Definition still (a : agent) := (a_mass a, a_tau_adj a, a_std_rand_force a, a_target_velocity a, a_target_direction a,
  (a_radius a, a_k_soc a, a_tau_0 a, a_mu a, a_kappa a, a_damping a), (a_inertia_rot a, a_tau_rot a)).

Lemma fluctuate_imap k draws l : forall i, fluctuate k draws i l = imap (fun i a => fluctuate_row k a (fst (fst (draws i))) (snd (fst (draws i))) (snd (draws i))) i l.
Proof. induction l as [|a l IH]; intros i; cbn [fluctuate imap]; [reflexivity|]. destruct (draws i) as [[phi z] zt]. cbn [fst snd]. now rewrite IH. Qed.
Lemma imap_map {A B C} (f : nat -> B -> C) (g : A -> B) l : forall n, imap f n (map g l) = imap (fun i a => f i (g a)) n l.
Proof. induction l as [|a l IH]; intros n; cbn; [reflexivity|]. now rewrite IH. Qed.
Lemma map_imap {A B C} (f : B -> C) (g : nat -> A -> B) l : forall n, map f (imap g n l) = imap (fun i a => f (g i a)) n l.
Proof. induction l as [|a l IH]; intros n; cbn; [reflexivity|]. now rewrite IH. Qed.
Lemma imap_imap {A B C} (f : nat -> B -> C) (g : nat -> A -> B) l : forall n, imap f n (imap g n l) = imap (fun i a => f i (g i a)) n l.
Proof. induction l as [|a l IH]; intros n; cbn; [reflexivity|]. now rewrite IH. Qed.
Lemma imap_const {A B} (f : A -> B) l : forall n, imap (fun _ => f) n l = map f l.
Proof. induction l as [|a l IH]; intros n; cbn; [reflexivity|]. now rewrite IH. Qed.

Lemma still_fluctuate k a phi z zt : still (fluctuate_row k a phi z zt) = still a.
Proof. destruct k; reflexivity. Qed.
Lemma still_faced k a : still (faced_row k a) = still a.
Proof. destruct k; reflexivity. Qed.
Lemma still_adjusted k a : still (adjusted_row k a) = still a.
Proof. destruct k; reflexivity. Qed.
Lemma still_push p a : still (push p a) = still a.
Proof. rewrite push_unfold. reflexivity. Qed.
Lemma still_moved k dt a : still (moved_row k dt a) = still a.
Proof. destruct k; reflexivity. Qed.
Lemma still_reset k a : still (reset_row k a) = still a.
Proof. destruct k; reflexivity. Qed.
Lemma crowd_still k d p a : still (crowd_row k d p a) = still a.
Proof. unfold crowd_row. now rewrite still_reset, still_moved, still_push, still_adjusted, still_faced, still_fluctuate. Qed.

Lemma crowd_row_spec k d p a : let b := crowd_row k d p a in let f := vadd (pull_of a d) (fst p) in
  a_velocity b = vadd (a_velocity a) (vscale DT (vdiv (vadd (vdiv (a_force_prev a) (a_mass a)) (vdiv f (a_mass a))) 2)) /\
  a_position b = vadd (a_position a) (vadd (vscale DT (a_velocity b)) (vscale (DT * DT) (vdiv (vdiv f (a_mass a)) 2))) /\
  a_force_prev b = f /\ a_force b = V 0 0.
Proof.
  cbv zeta. unfold crowd_row. set (c := adjusted_row k _).
  assert (F : a_force c = pull_of a d) by (unfold c, pull_of; destruct k; reflexivity).
  assert (M : a_mass c = a_mass a) by (unfold c; destruct k; reflexivity). assert (P : a_position c = a_position a) by (unfold c; destruct k; reflexivity).
  assert (W : a_velocity c = a_velocity a) by (unfold c; destruct k; reflexivity). assert (G : a_force_prev c = a_force_prev a) by (unfold c; destruct k; reflexivity).
  rewrite <- F, <- M, <- P, <- W, <- G. clearbody c. clear F M P W G. rewrite push_unfold. destruct k; repeat split.
Qed.

Definition steady (k : kind) (l : list agent) : Prop :=
  Forall (fun a => 0 < a_mass a /\ a_tau_adj a <> 0 /\ a_tau_0 a <> 0 /\ 0 <= a_radius a /\ (k = ThreeCircle -> a_inertia_rot a <> 0 /\ a_tau_rot a <> 0)) l /\
  (forall a b, In a l -> In b l -> same_coefficients a b).
Lemma still_in l l' : map still l' = map still l -> forall b, In b l' -> exists a, In a l /\ still b = still a.
Proof. intros E b I. apply (in_map still) in I. rewrite E in I. apply in_map_iff in I. destruct I as (a & A & I). exists a. auto. Qed.
Ltac stillness H := unfold still in H; injection H; intros.
Lemma steady_still k l l' : map still l' = map still l -> steady k l -> steady k l'.
Proof.
  intros E (A & B). pose proof (still_in l l' E) as I. split.
  - apply Forall_forall. intros b Hb. destruct (I b Hb) as (a & Ha & S). rewrite Forall_forall in A. specialize (A a Ha). stillness S.
    repeat match goal with H : ?f b = ?f a |- _ => rewrite H; clear H end. exact A.
  - intros b c Hb Hc. destruct (I b Hb) as (a & Ha & S). destruct (I c Hc) as (a' & Ha' & S'). specialize (B a a' Ha Ha'). stillness S. stillness S'.
    unfold same_coefficients in *. repeat match goal with H : ?f b = ?f a |- _ => rewrite H; clear H | H : ?f c = ?f a' |- _ => rewrite H; clear H end. exact B.
Qed.

Lemma crowd_update e l dt t c n i : pairs_of_agents e -> steady (e_kind e) l ->
  exists d, dsum d 0 (length l) = vzero /\
  simulation_update e logic_outdoor (Sim l dt t c n, i) = ((Sim (imap (fun j a => crowd_row (e_kind e) (e_draws e n j) (d j) a) 0 l) DT (t + DT) c (S n), S i), None).
Proof.
  intros PA ST. set (k := e_kind e) in *.
  set (l1 := fluctuate k (e_draws e n) 0 l). set (l2 := map (faced_row k) l1). set (l3 := map (adjusted_row k) l2).
  assert (S1 : map still l1 = map still l).
  { unfold l1. rewrite fluctuate_imap, map_imap, <- (imap_const still l 0). apply imap_ext. intros. apply still_fluctuate. }
  assert (S2 : map still l2 = map still l) by (unfold l2; rewrite map_map, <- S1; apply map_ext; intros; apply still_faced).
  assert (S3 : map still l3 = map still l) by (unfold l3; rewrite map_map, <- S2; apply map_ext; intros; apply still_adjusted).
  assert (L3 : length l3 = length l) by (apply (f_equal (@length _)) in S3; now rewrite !map_length in S3).
  pose proof (steady_still k l l3 S3 ST) as (A3 & B3). pose proof (steady_still k l l2 S2 ST) as (A2 & _).
  set (pairs := e_enum e (map a_position l3) (node_cell_size aa_node_default)).
  destruct (over_goes k pairs l3) as (l4 & E4).
  { eapply Forall_impl; [|exact A3]. cbn. intros a H. apply H. }
  { intros x y I. apply PA in I. now rewrite map_length in I. }
  pose proof E4 as T4. rewrite agent_agent_over, over_total in T4. destruct (total k l3 pairs) as [d|] eqn:D; [|discriminate]. cbn [rbind] in T4. injection T4 as T4.
  exists d. split.
  { rewrite <- L3. apply (total_momentum k l3 pairs d); [exact B3| |exact D]. intros a I. rewrite Forall_forall in A3. unfold radii_nonneg. apply (A3 a I). }
  assert (S4 : map still l4 = map still l3) by (rewrite <- T4; unfold push_all; rewrite map_imap, <- (imap_const still l3 0); apply imap_ext; intros; apply still_push).
  assert (A4 : steady k l4) by (apply (steady_still k l3); [exact S4|now split]). destruct A4 as (A4 & _).
  apply (proj2 (update_runs e logic_outdoor _ _ _ _)). split; auto.
  change (written_order logic_outdoor) with [Fluctuation; Orientation; Adjusting; AgentAgentInteractions aa_node_default; integrator; Reset]. eexists.
  apply (runs_next e Fluctuation _ _ (Sim l1 dt t c (S n))); [reflexivity|].
  apply (runs_next e Orientation _ _ (Sim l2 dt t c (S n))).
  { cbn [run_node s_agents]. fold k. rewrite facing_map. reflexivity. }
  apply (runs_next e Adjusting _ _ (Sim l3 dt t c (S n))).
  { cbn [run_node s_agents]. fold k. rewrite adjust_ok; [reflexivity|]. intros b I. rewrite Forall_forall in A2. destruct (A2 b I) as (_ & H & _ & _ & H'). split; [exact H|]. intros K. apply (H' K). }
  apply (runs_next e (AgentAgentInteractions aa_node_default) _ _ (Sim l4 dt t c (S n))).
  { cbn [run_node s_agents]. unfold aa_node_update, agent_agent_block_list. fold k. fold pairs. rewrite E4. reflexivity. }
  apply (runs_next e integrator _ _ (Sim (map (moved_row k DT) l4) DT (t + DT) c (S n))).
  { unfold integrator. cbn [run_node s_agents]. fold k. rewrite verlet_ok.
    - cbn [rbind fst snd]. rewrite all_finite_map. reflexivity.
    - intros b I. rewrite Forall_forall in A4. destruct (A4 b I) as (H & _ & _ & _ & H'). split; [lra|]. intros K. apply (H' K). }
  eapply (runs_next e Reset); [reflexivity|]. cbn [s_agents with_agents s_dt s_time s_inactive s_draws]. fold k.
  replace (map (reset_row k) (map (moved_row k DT) l4)) with (imap (fun j a => crowd_row k (e_draws e n j) (d j) a) 0 l); [apply runs_none|].
  rewrite map_map, <- T4. unfold push_all, l3, l2, l1. rewrite map_imap, !imap_map, fluctuate_imap, imap_imap. reflexivity.
Qed.

(** ** Sums over a crowd *)
Definition wish (a : agent) : vec := vscale (a_target_velocity a) (a_target_direction a).
Definition noise_total (draws : nat -> R * R * R) (l : list agent) : vec := vsum (imap (fun j a => noise_of a (draws j)) 0 l).
Definition crowd (k : kind) (draws : nat -> R * R * R) (d : nat -> vec * R) (l : list agent) : list agent := imap (fun j a => crowd_row k (draws j) (d j) a) 0 l.

Lemma sum_prev k draws d l : vsum (map a_force_prev (crowd k draws d l)) = vadd (vsum (imap (fun j a => pull_of a (draws j)) 0 l)) (dsum d 0 (length l)).
Proof.
  unfold crowd. generalize 0%nat as n. induction l as [|a l IH]; intros n; [cbn; veq; ring|]. cbn [imap map length dsum vsum fold_right].
  fold (vsum (map a_force_prev (imap (fun j a => crowd_row k (draws j) (d j) a) (S n) l))) (vsum (imap (fun j a => pull_of a (draws j)) (S n) l)).
  rewrite IH. destruct (crowd_row_spec k (draws n) (d n) a) as (_ & _ & -> & _). destruct (pull_of a (draws n)), (fst (d n)), (dsum d (S n) (length l)). veq; ring.
Qed.
Lemma sum_velocity k draws d l m : m <> 0 -> Forall (fun a => a_mass a = m) l ->
  vsum (map a_velocity (crowd k draws d l)) = vadd (vsum (map a_velocity l)) (vscale (DT / 2 / m) (vadd (vsum (map a_force_prev l)) (vsum (map a_force_prev (crowd k draws d l))))).
Proof.
  intros Hm. unfold crowd. generalize 0%nat as n. induction l as [|a l IH]; intros n F; [cbn; veq; field; exact Hm|]. inversion F as [|? ? Fa Fl]; subst. specialize (IH (S n) Fl). cbn [imap map vsum fold_right].
  repeat match goal with |- context [fold_right vadd vzero ?x] => fold (vsum x) end. rewrite IH. clear IH.
  destruct (crowd_row_spec k (draws n) (d n) a) as (-> & _ & -> & _).
  destruct (vsum (map a_velocity l)), (vsum (map a_force_prev l)), (vsum (map a_force_prev _)), (vadd (pull_of a (draws n)) (fst (d n))), (a_velocity a), (a_force_prev a). veq; field; exact Hm.
Qed.
Lemma sum_position k draws d l m : m <> 0 -> Forall (fun a => a_mass a = m) l ->
  vsum (map a_position (crowd k draws d l)) = vadd (vsum (map a_position l)) (vadd (vscale DT (vsum (map a_velocity (crowd k draws d l)))) (vscale (DT * DT / 2 / m) (vsum (map a_force_prev (crowd k draws d l))))).
Proof.
  intros Hm. unfold crowd. generalize 0%nat as n. induction l as [|a l IH]; intros n F; [cbn; veq; field; exact Hm|]. inversion F as [|? ? Fa Fl]; subst. specialize (IH (S n) Fl). cbn [imap map vsum fold_right].
  repeat match goal with |- context [fold_right vadd vzero ?x] => fold (vsum x) end. rewrite IH. clear IH.
  destruct (crowd_row_spec k (draws n) (d n) a) as (_ & -> & -> & _). set (b := crowd_row k (draws n) (d n) a).
  destruct (vsum (map a_position l)), (vsum (map a_velocity _)), (vsum (map a_force_prev _)), (vadd (pull_of a (draws n)) (fst (d n))), (a_velocity b), (a_position a). veq; field; exact Hm.
Qed.
Lemma sum_pull draws l m tau : m <> 0 -> tau <> 0 -> Forall (fun a => a_mass a = m /\ a_tau_adj a = tau /\ a_force a = V 0 0) l ->
  vsum (imap (fun j a => pull_of a (draws j)) 0 l) = vadd (vscale m (noise_total draws l)) (vscale (m / tau) (vsub (vsum (map wish l)) (vsum (map a_velocity l)))).
Proof.
  intros Hm Ht. unfold noise_total. generalize 0%nat as n. induction l as [|a l IH]; intros n F; [cbn; veq; field; exact Ht|]. inversion F as [|? ? Fa Fl]; subst. specialize (IH (S n) Fl). cbn [imap map vsum fold_right].
  repeat match goal with |- context [fold_right vadd vzero ?x] => fold (vsum x) end. rewrite IH. clear IH. destruct Fa as (Fm & Ft & Ff).
  destruct (vsum (imap _ _ _)), (vsum (map wish l)), (vsum (map a_velocity l)). unfold pull_of, noise_of, force_fluctuation1, wish. rewrite Fm, Ft, Ff.
  destruct (a_velocity a), (a_target_direction a). veq; field; exact Ht.
Qed.

(** ** The way of a crowd *)
Lemma length_still l l' : map still l' = map still l -> length l' = length l.
Proof. intros E. apply (f_equal (@length _)) in E. now rewrite !map_length in E. Qed.
Lemma wish_still l : forall l', map still l' = map still l -> map wish l' = map wish l.
Proof.
  induction l as [|a l IH]; intros [|b l'] E; try discriminate; [reflexivity|]. cbn [map] in *. inversion E as [[E1 E2]]. f_equal; [|auto].
  unfold wish. congruence.
Qed.
Lemma noise_still draws l : forall n l', map still l' = map still l -> imap (fun j a => noise_of a (draws j)) n l' = imap (fun j a => noise_of a (draws j)) n l.
Proof.
  induction l as [|a l IH]; intros n [|b l'] E; try discriminate; [reflexivity|]. cbn [map imap] in *. inversion E as [[E1 E2]]. f_equal; [|auto].
  unfold noise_of. congruence.
Qed.
Lemma some_pos {A} (l : list A) : l <> [] -> 0 < INR (length l).
Proof. destruct l; [contradiction|]. intros _. apply lt_0_INR. cbn. lia. Qed.
Lemma zero_sum l : Forall (fun a => a_force_prev a = V 0 0) l -> vsum (map a_force_prev l) = V 0 0.
Proof. induction 1 as [|a l H F IH]; [reflexivity|]. cbn. unfold vsum in IH. rewrite IH, H. veq; ring. Qed.
Section Whole.
  Variables (e : env) (agents : list agent) (m tau : R).
  Hypothesis PA : pairs_of_agents e.
  Hypothesis ST : steady (e_kind e) agents.
  Hypothesis Hm : 0 < m.
  Hypothesis Ht : DT <= tau.
  Hypothesis Mass : Forall (fun a => a_mass a = m /\ a_tau_adj a = tau) agents.
  Hypothesis Calm : Forall (fun a => a_force a = V 0 0) agents.
  Definition state (n : nat) : sim * nat := Nat.iter n (fun s => fst (simulation_update e logic_outdoor s)) (new_simulation agents).
  Definition people (n : nat) : list agent := s_agents (fst (state n)).
  Lemma states n : (map still (people n) = map still agents /\ Forall (fun a => a_force a = V 0 0) (people n) /\ s_draws (fst (state n)) = n /\ snd (state n) = n) /\
    simulation_update e logic_outdoor (state n) = (state (S n), None) /\ s_dt (fst (state (S n))) = DT /\
    exists d, dsum d 0 (length (people n)) = vzero /\ people (S n) = crowd (e_kind e) (e_draws e n) d (people n).
  Proof using PA ST Calm.
    assert (Step : forall n, map still (people n) = map still agents /\ Forall (fun a => a_force a = V 0 0) (people n) /\ s_draws (fst (state n)) = n /\ snd (state n) = n ->
      simulation_update e logic_outdoor (state n) = (state (S n), None) /\ s_dt (fst (state (S n))) = DT /\ s_draws (fst (state (S n))) = S n /\ snd (state (S n)) = S n /\
      exists d, dsum d 0 (length (people n)) = vzero /\ people (S n) = crowd (e_kind e) (e_draws e n) d (people n)).
    { clear n. intros n (S1 & S2 & S3 & S4).
      assert (N : state (S n) = fst (simulation_update e logic_outdoor (state n))) by reflexivity. unfold people in *.
      destruct (state n) as [[l dt t c dr] i] eqn:E. cbn [fst snd s_agents s_draws] in *. subst dr i.
      destruct (crowd_update e l dt t c n n PA (steady_still _ _ _ S1 ST)) as (d & D & U).
      rewrite N, U. cbn [fst snd s_agents s_draws s_dt]. repeat split; auto. exists d. split; [exact D|reflexivity]. }
    induction n as [|n ((S1 & S2 & S3 & S4) & _)].
    - assert (B : map still (people 0) = map still agents /\ Forall (fun a => a_force a = V 0 0) (people 0) /\ s_draws (fst (state 0)) = 0%nat /\ snd (state 0) = 0%nat) by (repeat split; auto).
      split; [exact B|]. destruct (Step 0%nat B) as (X1 & X2 & _ & _ & X3). auto.
    - destruct (Step n) as (X1 & X2 & X3 & X4 & d & X5 & X6); [auto|].
      assert (B : map still (people (S n)) = map still agents /\ Forall (fun a => a_force a = V 0 0) (people (S n)) /\ s_draws (fst (state (S n))) = S n /\ snd (state (S n)) = S n).
      { repeat split; auto.
        - rewrite X6, <- S1. unfold crowd. rewrite map_imap, <- (imap_const still (people n) 0). apply imap_ext. intros. apply crowd_still.
        - rewrite X6. unfold crowd. generalize 0%nat. generalize (people n). intros l. induction l as [|a l IH]; intros j; cbn [imap]; constructor; auto. apply crowd_row_spec. }
      split; [exact B|]. destruct (Step (S n) B) as (Y1 & Y2 & _ & _ & Y3). auto.
  Qed.
  Lemma state_updates n : updates e logic_outdoor (new_simulation agents) (repeat DT n) (state n).
  Proof using PA ST Calm.
    assert (G : forall j i, updates e logic_outdoor (state i) (repeat DT j) (state (j + i))).
    { induction j as [|j IH]; intros i; [constructor|]. destruct (states i) as (_ & U & D & _). cbn [repeat]. rewrite <- D at 1.
      econstructor; [exact U|]. replace (S j + i)%nat with (j + S i)%nat by lia. apply IH. }
    specialize (G n 0%nat). now rewrite Nat.add_0_r in G.
  Qed.
  Lemma mass_still n : Forall (fun a => a_mass a = m /\ a_tau_adj a = tau /\ a_force a = V 0 0) (people n).
  Proof using PA ST Calm Mass.
    destruct (states n) as ((S1 & S2 & _) & _). apply Forall_forall. intros b I. destruct (still_in _ _ S1 b I) as (a & A & S). rewrite Forall_forall in Mass, S2. destruct (Mass a A) as (M1 & M2).
    assert (a_mass b = a_mass a /\ a_tau_adj b = a_tau_adj a) as (-> & ->) by (unfold still in S; split; congruence). auto.
  Qed.
  Definition vel n := vsum (map a_velocity (people n)).
  Definition prev n := vsum (map a_force_prev (people n)).
  Definition pos n := vsum (map a_position (people n)).
  Definition noise n := noise_total (e_draws e n) agents.
  Lemma balance n :
    prev (S n) = vadd (vscale m (noise n)) (vscale (m / tau) (vsub (vsum (map wish agents)) (vel n))) /\
    vel (S n) = vadd (vel n) (vscale (DT / 2 / m) (vadd (prev n) (prev (S n)))) /\
    pos (S n) = vadd (pos n) (vadd (vscale DT (vel (S n))) (vscale (DT * DT / 2 / m) (prev (S n)))).
  Proof using PA ST Calm Mass Hm Ht.
    destruct (states n) as ((S1 & _) & _ & _ & d & D & E). pose proof (mass_still n) as F. assert (F' : Forall (fun a => a_mass a = m) (people n)) by (eapply Forall_impl; [|exact F]; cbn; tauto).
    unfold prev, vel, pos. rewrite E. split; [|split].
    - rewrite sum_prev, D, (sum_pull _ _ m tau) by (auto; lra). rewrite (wish_still agents (people n) S1). unfold noise, noise_total. rewrite (noise_still _ agents 0 (people n) S1).
      destruct (vsum (imap _ _ _)), (vsum (map wish agents)), (vsum (map a_velocity (people n))). veq; ring.
    - apply sum_velocity; [lra|exact F'].
    - apply sum_position; [lra|exact F'].
  Qed.
  Hypothesis Prev0 : Forall (fun a => a_force_prev a = V 0 0) agents.
  Hypothesis Std : Forall (fun a => 0 <= a_std_rand_force a) agents.
  Hypothesis Some1 : agents <> [].
  Hypothesis Fair : fair_draws (e_draws e).
  Notation NN := (INR (length agents)).
  Notation BB := (3 * average (map a_std_rand_force agents)).
  Lemma NN_pos : 0 < NN.
  Proof using Some1. now apply some_pos. Qed.
  Lemma noise_mean n : vlength (vscale (/ NN) (noise n)) <= BB.
  Proof using Some1 Fair Std.
    rewrite vlength_scale, Rabs_pos_eq by (left; apply Rinv_0_lt_compat, NN_pos). unfold average. rewrite map_length.
    assert (G : forall l j, Forall (fun a => 0 <= a_std_rand_force a) l -> vlength (vsum (imap (fun j a => noise_of a (e_draws e n j)) j l)) <= 3 * rsum (map a_std_rand_force l)).
    { induction l as [|a l IH]; intros j F; cbn [imap map vsum rsum fold_right].
      - rewrite (vlength_eq vzero 0) by (cbn; lra). lra.
      - inversion F; subst. eapply Rle_trans; [apply vlength_triangle|]. pose proof (noise_bound a (e_draws e n j) ltac:(assumption) (Fair n j)). specialize (IH (S j) ltac:(assumption)). unfold vsum, rsum in IH. lra. }
    specialize (G agents 0%nat Std). unfold noise, noise_total. set (q := vlength _) in *. unfold Rdiv. pose proof (Rinv_0_lt_compat _ NN_pos) as I. set (r := / NN) in *. nra.
  Qed.
  Lemma BB_pos : 0 <= BB.
  Proof using Some1 Fair Std. eapply Rle_trans; [apply vlength_nonneg|apply (noise_mean 0)]. Qed.
  Definition off n := vscale (/ NN) (vsub (vel n) (vsum (map wish agents))).
  Lemma prev_zero : prev 0 = V 0 0.
  Proof using Prev0. unfold prev, people. cbn. now apply zero_sum. Qed.
  Lemma recursion : vscale (/ NN / m) (prev 0) = V 0 0 /\
    (forall n, vscale (/ NN / m) (prev (S n)) = vsub (vscale (/ NN) (noise n)) (vscale (/ tau) (off n))) /\
    (forall n, off (S n) = vadd (off n) (vscale (DT / 2) (vadd (vscale (/ NN / m) (prev n)) (vscale (/ NN / m) (prev (S n)))))) /\
    (forall n, vscale (/ NN) (pos (S n)) = vadd (vscale (/ NN) (pos n)) (vadd (vscale DT (vadd (vscale (/ NN) (vsum (map wish agents))) (off (S n)))) (vscale (DT * DT / 2) (vscale (/ NN / m) (prev (S n)))))).
  Proof using PA ST Hm Ht Mass Calm Prev0 Some1.
    pose proof NN_pos as P. split; [|split; [|split]].
    - rewrite prev_zero. veq; ring.
    - intros n. destruct (balance n) as (-> & _). unfold off. destruct (noise n), (vel n), (vsum (map wish agents)). veq; field; lra.
    - intros n. unfold off. destruct (balance n) as (_ & -> & _). destruct (vel n), (prev n), (prev (S n)), (vsum (map wish agents)). veq; field; lra.
    - intros n. unfold off. destruct (balance n) as (_ & _ & ->). destruct (vel (S n)), (prev (S n)), (pos n), (vsum (map wish agents)). veq; field; lra.
  Qed.
  Lemma crowd_course n : vlength (off n) <= course_bound tau BB (vlength (off 0)) n.
  Proof using All.
    destruct recursion as (R1 & R2 & R3 & _).
    apply (stays_on_course tau BB off (fun n => vscale (/ NN / m) (prev n)) (fun n => vscale (/ NN) (noise n))); auto using BB_pos, noise_mean.
  Qed.
  Lemma crowd_way n : vlength (vsub (vscale (/ NN) (pos n)) (vadd (vscale (/ NN) (pos 0)) (vscale (INR n * DT) (vscale (/ NN) (vsum (map wish agents)))))) <=
    INR n * DT * (tau * BB) + astray tau BB (vlength (off 0)).
  Proof using All.
    destruct recursion as (R1 & R2 & R3 & R4). unfold astray. cbv zeta.
    apply (way_bound tau BB off (fun n => vscale (/ NN / m) (prev n)) (fun n => vscale (/ NN) (noise n)) (fun n => vscale (/ NN) (pos n)) (vscale (/ NN) (vsum (map wish agents)))); auto using BB_pos, noise_mean.
    intros i. eapply Rle_trans; [apply crowd_course|]. apply course_most; [exact Ht|apply BB_pos|apply vlength_nonneg].
  Qed.
End Whole.

(** ** What the members of a crowd do to each other does not move it *)
Lemma same_totals e e' agents m tau : e_kind e' = e_kind e -> e_draws e' = e_draws e -> pairs_of_agents e -> pairs_of_agents e' -> steady (e_kind e) agents -> 0 < m -> DT <= tau ->
  Forall (fun a => a_mass a = m /\ a_tau_adj a = tau) agents -> Forall (fun a => a_force a = V 0 0) agents ->
  forall n, vel e agents n = vel e' agents n /\ prev e agents n = prev e' agents n /\ pos e agents n = pos e' agents n.
Proof.
  intros K D PA PA' ST Hm Ht M C n. assert (ST' : steady (e_kind e') agents) by now rewrite K.
  induction n as [|n (V1 & V2 & V3)]; [repeat split|].
  destruct (balance e agents m tau PA ST Hm Ht M C n) as (B1 & B2 & B3). destruct (balance e' agents m tau PA' ST' Hm Ht M C n) as (B1' & B2' & B3').
  assert (Nz : noise e agents n = noise e' agents n) by (unfold noise; now rewrite D).
  assert (X : prev e agents (S n) = prev e' agents (S n)) by (rewrite B1, B1', Nz, V1; reflexivity).
  assert (Y : vel e agents (S n) = vel e' agents (S n)) by (rewrite B2, B2', V1, V2, X; reflexivity).
  repeat split; auto. rewrite B3, B3', Y, V3, X. reflexivity.
Qed.

Lemma mean_sum l : mean l = vscale (/ INR (length l)) (vsum l).
Proof.
  unfold mean, vscale. assert (vx (vsum l) = rsum (map vx l) /\ vy (vsum l) = rsum (map vy l)) as (-> & ->); [|f_equal; unfold Rdiv; ring].
  induction l as [|[x y] l (IH1 & IH2)]; [split; reflexivity|]. cbn. unfold vsum in *. rewrite IH1, IH2. split; reflexivity.
Qed.
Lemma steady_sound k l : Forall (sound k) l -> alike l -> steady k l.
Proof.
  intros F A. split; [|intros a b I J; apply (A a b I J)]. eapply Forall_impl; [|exact F]. cbn. intros a ((_ & _ & M & T & _ & K) & R & Z). repeat split; auto; try lra; apply K; auto.
Qed.
Lemma sum_deviation l : vsum (map (fun a => deviation (a_target_velocity a) (a_target_direction a) (a_velocity a)) l) = vsub (vsum (map a_velocity l)) (vsum (map wish l)).
Proof.
  induction l as [|a l IH]; [cbn; veq; ring|]. cbn [map vsum fold_right]. unfold vsum in *. rewrite IH.
  destruct (fold_right vadd vzero (map a_velocity l)), (fold_right vadd vzero (map wish l)). unfold wish, deviation. destruct (a_velocity a), (a_target_direction a). veq; ring.
Qed.
Lemma sum_wanted l t : vsum (map (fun a => wanted_place a t) l) = vadd (vsum (map a_position l)) (vscale t (vsum (map wish l))).
Proof.
  induction l as [|a l IH]; [cbn; veq; ring|]. cbn [map vsum fold_right]. unfold vsum in *. rewrite IH.
  destruct (fold_right vadd vzero (map a_position l)), (fold_right vadd vzero (map wish l)). unfold wish, wanted_place. destruct (a_position a), (a_target_direction a). veq; ring.
Qed.
Lemma off_people e agents n : pairs_of_agents e -> steady (e_kind e) agents -> Forall (fun a => a_force a = V 0 0) agents ->
  vlength (off e agents n) = crowd_off_course (people e agents n).
Proof.
  intros PA ST C. destruct (states e agents PA ST C n) as ((S & _) & _). unfold crowd_off_course, off, vel. rewrite elen_vlength, mean_sum, map_length, sum_deviation, (length_still _ _ S), (wish_still _ _ S). reflexivity.
Qed.
