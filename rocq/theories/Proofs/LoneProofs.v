(** Proofs about somebody alone outdoors. *)
From Coq Require Import Lra Lia.
From Verif Require Import Proofs.IntegratorProofs Proofs.SimulationMore.
From Verif Require Export Proofs.WalkProofs.
From Verif Require Import Spec.Straight.
Open Scope R_scope.

(** ** One update *)
Notation DT := (1/100).
Definition noise_of (a : agent) (d : R * R * R) : vec := vscale (a_std_rand_force a * snd (fst d)) (V (cos (fst (fst d))) (sin (fst (fst d)))).
Definition pull_of (a : agent) (d : R * R * R) : vec :=
  vadd (vadd (a_force a) (force_fluctuation1 (a_mass a) (a_std_rand_force a) (fst (fst d)) (snd (fst d))))
       (vscale (a_mass a / a_tau_adj a) (vsub (vscale (a_target_velocity a) (a_target_direction a)) (a_velocity a))).
Definition lone_row (k : kind) (d : R * R * R) (a : agent) : agent :=
  reset_row k (moved_row k DT (adjusted_row k (faced_row k (fluctuate_row k a (fst (fst d)) (snd (fst d)) (snd d))))).
Definition lone_enum (e : env) : Prop := forall p, e_enum e [p] (36/10) = [].

Lemma good_lone e : (forall ps c, good_enumeration ps c (e_enum e ps c)) -> lone_enum e.
Proof.
  intros H p. destruct (e_enum e [p] (36/10)) as [|(i, j) l] eqn:E; [reflexivity|]. destruct (H [p] (36/10)) as (R & _). rewrite E in R.
  destruct (R i j (or_introl eq_refl)) as (A & B & C). cbn in A, B. lia.
Qed.
Definition able (k : kind) (a : agent) : Prop :=
  a_force a = V 0 0 /\ 0 < a_mass a /\ DT <= a_tau_adj a /\ (k = ThreeCircle -> a_inertia_rot a <> 0 /\ a_tau_rot a <> 0).
Lemma lone_update e a dt t c d n : lone_enum e -> able (e_kind e) a ->
  simulation_update e logic_outdoor (Sim [a] dt t c d, n) = ((Sim [lone_row (e_kind e) (e_draws e d 0) a] DT (t + DT) c (S d), S n), None).
Proof.
  intros N (_ & M & T & K). apply (proj2 (update_runs e logic_outdoor _ _ _ _)). split; auto.
  change (written_order logic_outdoor) with [Fluctuation; Orientation; Adjusting; AgentAgentInteractions aa_node_default; integrator; Reset]. set (k := e_kind e) in *.
  unfold lone_row. destruct (e_draws e d 0) as [[phi z] zt] eqn:D. cbn [fst snd]. eexists.
  set (a1 := fluctuate_row k a phi z zt). set (a2 := faced_row k a1). set (a3 := adjusted_row k a2). set (a4 := moved_row k DT a3).
  apply (runs_next e Fluctuation _ _ (Sim [a1] dt t c (S d))).
  { cbn [run_node s_agents s_draws fluctuate]. fold k. rewrite D. reflexivity. }
  apply (runs_next e Orientation _ _ (Sim [a2] dt t c (S d))).
  { cbn [run_node s_agents]. fold k. rewrite facing_map. reflexivity. }
  apply (runs_next e Adjusting _ _ (Sim [a3] dt t c (S d))).
  { cbn [run_node s_agents]. fold k. rewrite adjust_ok; [reflexivity|]. intros b [<-|[]]. unfold a2, a1, faced_row, fluctuate_row. destruct k; cbn; (split; [lra|]); [discriminate|intros _; apply (K eq_refl)]. }
  apply (runs_next e (AgentAgentInteractions aa_node_default) _ _ (Sim [a3] dt t c (S d))).
  { cbn [run_node s_agents]. unfold aa_node_update, agent_agent_block_list. replace (node_cell_size aa_node_default) with (36/10) by (cbn; lra).
    cbn [map]. rewrite N. unfold agent_agent. destruct (e_kind e); reflexivity. }
  apply (runs_next e integrator _ _ (Sim [a4] DT (t + DT) c (S d))).
  { unfold integrator. cbn [run_node s_agents]. fold k. rewrite verlet_ok.
    - cbn [map rbind fst snd all_finite]. reflexivity.
    - intros b [<-|[]]. unfold a3, a2, a1, faced_row, fluctuate_row, adjusted_row, turned_row, pulled_row. destruct k; cbn; (split; [lra|]); [discriminate|intros _; apply (K eq_refl)]. }
  eapply (runs_next e Reset); [reflexivity|]. cbn [s_agents map with_agents]. fold k. apply runs_none.
Qed.
(** What it does to the velocity. *)
Lemma lone_row_spec k d a : let b := lone_row k d a in let f := pull_of a d in
  a_velocity b = vadd (a_velocity a) (vscale DT (vdiv (vadd (vdiv (a_force_prev a) (a_mass a)) (vdiv f (a_mass a))) 2)) /\
  a_force_prev b = f /\ a_force b = V 0 0 /\ a_mass b = a_mass a /\ a_tau_adj b = a_tau_adj a /\ a_std_rand_force b = a_std_rand_force a /\
  a_target_velocity b = a_target_velocity a /\ a_target_direction b = a_target_direction a /\
  (k = ThreeCircle -> a_inertia_rot b = a_inertia_rot a /\ a_tau_rot b = a_tau_rot a).
Proof.
  intros b f. unfold b, f, lone_row, pull_of. destruct d as [[phi z] zt]. cbn [fst snd].
  destruct k; unfold faced_row, fluctuate_row, adjusted_row, turned_row, pulled_row, moved_row; repeat split; discriminate.
Qed.

(** ** The recursion *)
Section Recursion.
  Variables (tau B : R) (e g : nat -> vec) (xi : nat -> vec).
  Hypothesis Htau : DT <= tau.
  Hypothesis HB : 0 <= B.
  Hypothesis Hxi : forall n, vlength (xi n) <= B.
  Notation q := (DT / tau / 2).
  Hypothesis g0 : g 0%nat = V 0 0.
  (** [g (S n)] is the acceleration in step [n]. *)
  Hypothesis gS : forall n, g (S n) = vsub (xi n) (vscale (/ tau) (e n)).
  Hypothesis eS : forall n, e (S n) = vadd (e n) (vscale (DT / 2) (vadd (g n) (g (S n)))).

  Lemma q_range : 0 < q <= 1/2.
  Proof using Htau.
    assert (0 < DT / tau <= 1); [|lra]. split; [apply Rdiv_lt_0_compat; lra|]. apply (Rmult_le_reg_r tau); [lra|]. unfold Rdiv. rewrite Rmult_assoc, Rinv_l; lra.
  Qed.
  Notation N n := (vlength (e n)).
  Lemma lin2 a b u v : vlength (vadd (vscale a u) (vscale b v)) <= Rabs a * vlength u + Rabs b * vlength v.
  Proof using. eapply Rle_trans; [apply vlength_triangle|]. rewrite !vlength_scale. lra. Qed.
  Lemma noise2 a b n m : 0 <= a -> 0 <= b -> vlength (vadd (vscale a (xi n)) (vscale b (xi m))) <= (a + b) * B.
  Proof using HB Hxi.
    intros Ha Hb. eapply Rle_trans; [apply lin2|]. rewrite !Rabs_pos_eq by assumption. pose proof (Hxi n). pose proof (Hxi m). nra.
  Qed.
  Lemma first_step : N 1 <= N 0 + DT / 2 * B.
  Proof using All.
    pose proof q_range as Q.
    assert (E : e 1%nat = vadd (vscale (1 - q) (e 0%nat)) (vadd (vscale (DT / 2) (xi 0%nat)) (vscale 0 (xi 0%nat)))).
    { rewrite eS, gS, g0. destruct (e 0%nat), (xi 0%nat). veq; field; lra. }
    rewrite E. eapply Rle_trans; [apply vlength_triangle|]. rewrite vlength_scale, Rabs_pos_eq by lra.
    pose proof (noise2 (DT/2) 0 0 0 ltac:(lra) ltac:(lra)). pose proof (vlength_nonneg (e 0%nat)). nra.
  Qed.
  (** From the second step on. *)
  Lemma two_back n : e (S (S n)) = vadd (vadd (vscale (1 - q) (e (S n))) (vscale (- q) (e n))) (vadd (vscale (DT / 2) (xi n)) (vscale (DT / 2) (xi (S n)))).
  Proof using Htau gS eS.
    rewrite (eS (S n)), !gS. destruct (e n), (e (S n)), (xi n), (xi (S n)). veq; field; lra.
  Qed.
  Lemma second_step : N 2 <= N 0 + 2 * DT * B.
  Proof using All.
    pose proof q_range as Q. pose proof first_step as F. rewrite two_back.
    eapply Rle_trans; [apply vlength_triangle|]. pose proof (lin2 (1 - q) (- q) (e 1%nat) (e 0%nat)) as L.
    rewrite Rabs_Ropp, !Rabs_pos_eq in L by lra. pose proof (noise2 (DT/2) (DT/2) 0 1 ltac:(lra) ltac:(lra)).
    pose proof (vlength_nonneg (e 0%nat)). pose proof (vlength_nonneg (e 1%nat)). nra.
  Qed.
  Notation rho := (1 - 2 * q + 2 * q ^ 2).
  Notation D := (DT * B * (1 + q)).
  Lemma three_back n M : N n <= M -> N (S n) <= M -> N (S (S n)) <= M -> N (S (S (S n))) <= rho * M + D.
  Proof using All.
    intros H0 H1 H2. pose proof q_range as Q.
    assert (E : e (S (S (S n))) = vadd (vadd (vscale (1 - 2 * q) (e (S (S n)))) (vadd (vscale (- q ^ 2) (e (S n))) (vscale (- q ^ 2) (e n))))
       (vadd (vadd (vscale (DT / 2) (xi (S n))) (vscale (DT / 2) (xi (S (S n))))) (vadd (vscale (q * (DT / 2)) (xi n)) (vscale (q * (DT / 2)) (xi (S n)))))).
    { rewrite (two_back (S n)).
      assert (X : e (S n) = vsub (vadd (e (S (S n))) (vscale q (vadd (e (S n)) (e n)))) (vadd (vscale (DT / 2) (xi n)) (vscale (DT / 2) (xi (S n))))).
      { rewrite (two_back n). destruct (e n), (e (S n)), (xi n), (xi (S n)). veq; field; lra. }
      rewrite X at 1. destruct (e n), (e (S n)), (e (S (S n))), (xi n), (xi (S n)), (xi (S (S n))). veq; field; lra. }
    rewrite E. eapply Rle_trans; [apply vlength_triangle|]. apply Rplus_le_compat.
    - eapply Rle_trans; [apply vlength_triangle|]. rewrite vlength_scale, Rabs_pos_eq by lra.
      pose proof (lin2 (- q ^ 2) (- q ^ 2) (e (S n)) (e n)) as L. rewrite Rabs_Ropp, !Rabs_pos_eq in L by (apply pow2_ge_0).
      pose proof (pow2_ge_0 q). nra.
    - eapply Rle_trans; [apply vlength_triangle|]. pose proof (noise2 (DT/2) (DT/2) (S n) (S (S n)) ltac:(lra) ltac:(lra)).
      assert (0 <= q * (DT / 2)) by nra. pose proof (noise2 (q * (DT/2)) (q * (DT/2)) n (S n) ltac:(assumption) ltac:(assumption)). lra.
  Qed.
  Notation L := (D / (1 - rho)).
  Lemma rho_range : 0 < rho < 1.
  Proof using Htau. pose proof q_range. split; nra. Qed.
  Lemma L_fix K : rho * (K + L) + D = rho * K + L.
  Proof using Htau. pose proof rho_range. field. lra. Qed.
  Lemma L_nonneg : 0 <= L.
  Proof using Htau HB. pose proof rho_range. pose proof q_range. apply Rmult_le_pos; [nra|]. left. apply Rinv_0_lt_compat. lra. Qed.
  Notation K0 := (N 0 + 2 * DT * B).
  Lemma blocks m : forall r, (r < 3)%nat -> N (3 * m + r) <= rho ^ m * K0 + L.
  Proof using All.
    pose proof rho_range as RR. pose proof L_nonneg as LN. assert (K0 >= 0) by (pose proof (vlength_nonneg (e 0%nat)); nra).
    induction m as [|m IH].
    - pose proof first_step. pose proof second_step. rewrite pow_O. cbn [Nat.mul Nat.add]. intros r Hr. destruct r as [|[|[|r]]]; [| | |lia]; lra.
    - set (M := rho ^ m * K0 + L) in *. pose proof (IH 0%nat ltac:(lia)) as A0. pose proof (IH 1%nat ltac:(lia)) as A1. pose proof (IH 2%nat ltac:(lia)) as A2.
      assert (E : rho * M + D = rho ^ S m * K0 + L) by (unfold M; rewrite L_fix, <- (tech_pow_Rmult rho m); ring).
      assert (LE : rho * M + D <= M).
      { rewrite E. unfold M. rewrite <- (tech_pow_Rmult rho m). assert (0 <= rho ^ m) by (apply pow_le; lra). assert (0 <= rho ^ m * K0) by (apply Rmult_le_pos; lra). nra. }
      replace (3 * m + 0)%nat with (3 * m)%nat in A0 by lia. replace (3 * m + 1)%nat with (S (3 * m)) in A1 by lia. replace (3 * m + 2)%nat with (S (S (3 * m))) in A2 by lia.
      pose proof (three_back _ M A0 A1 A2) as B0. pose proof (three_back _ M A1 A2 ltac:(lra)) as B1. pose proof (three_back _ M A2 ltac:(lra) ltac:(lra)) as B2.
      rewrite E in B0, B1, B2. intros r Hr. destruct r as [|[|[|r]]]; [| | |lia].
      + replace (3 * S m + 0)%nat with (S (S (S (3 * m)))) by lia. exact B0.
      + replace (3 * S m + 1)%nat with (S (S (S (S (3 * m))))) by lia. exact B1.
      + replace (3 * S m + 2)%nat with (S (S (S (S (S (3 * m)))))) by lia. exact B2.
  Qed.
  Lemma stays_on_course n : N n <= course_bound tau B (N 0) n.
  Proof using All.
    pose proof (blocks (n / 3) (n mod 3) (Nat.mod_upper_bound n 3 ltac:(lia))) as H. rewrite <- (Nat.div_mod n 3) in H by lia.
    pose proof q_range as Q. unfold course_bound. cbv zeta.
    replace (1 - DT / tau + (DT / tau) ^ 2 / 2) with rho by (field; lra).
    replace (tau * B * ((1 + DT / tau / 2) / (1 - DT / tau / 2))) with L; [exact H|].
    assert (tau <> 0) by lra. assert (DT = 2 * q * tau) as E by (field; lra). 
    assert (1 - q <> 0) by lra. assert (q <> 0) by lra. set (p := q) in *. rewrite E. clearbody p. field. split; [assumption|]. nra.
  Qed.
End Recursion.

(** ** All updates *)
Fixpoint lone (k : kind) (draws : nat -> R * R * R) (a : agent) (n : nat) : agent :=
  match n with O => a | S n' => lone_row k (draws n') (lone k draws a n') end.
Lemma lone_kept k draws a : able k a -> forall n, let b := lone k draws a n in
  able k b /\ a_mass b = a_mass a /\ a_tau_adj b = a_tau_adj a /\ a_std_rand_force b = a_std_rand_force a /\
  a_target_velocity b = a_target_velocity a /\ a_target_direction b = a_target_direction a.
Proof.
  intros A n. cbv zeta. induction n as [|n IH']; [cbn [lone]; auto 10|]. destruct IH' as (IH & I1 & I2 & I3 & I4 & I5). cbn [lone].
  destruct (lone_row_spec k (draws n) (lone k draws a n)) as (_ & _ & F & E1 & E2 & E3 & E4 & E5 & E6).
  set (b := lone_row k (draws n) (lone k draws a n)) in *. destruct IH as (_ & M & T & K).
  split; [|rewrite E1, E2, E3, E4, E5; auto].
  split; [exact F|]. rewrite E1, E2. split; [exact M|]. split; [exact T|]. intros Q. destruct (E6 Q) as (-> & ->). auto.
Qed.
Lemma lone_runs e a : lone_enum e -> able (e_kind e) a -> forall n, exists t, 
  updates e logic_outdoor (new_simulation [a]) (repeat DT n) (Sim [lone (e_kind e) (fun i => e_draws e i 0) a n] (if n then 0 else DT) t 0 n, n) /\ t = INR n / 100.
Proof.
  intros N A.
  assert (G : forall m n t dt, exists t' dt', updates e logic_outdoor (Sim [lone (e_kind e) (fun i => e_draws e i 0) a n] dt t 0 n, n) (repeat DT m)
    (Sim [lone (e_kind e) (fun i => e_draws e i 0) a (m + n)] dt' t' 0 (m + n), (m + n)%nat) /\ t' = t + INR m / 100 /\ dt' = if m then dt else DT).
  { induction m as [|m IH]; intros n t dt.
    - exists t, dt. split; [constructor|]. cbn. split; lra.
    - destruct (lone_kept (e_kind e) (fun i => e_draws e i 0) a A n) as (A' & _).
      pose proof (lone_update e (lone (e_kind e) (fun i => e_draws e i 0) a n) dt t 0 n n N A') as H.
      destruct (IH (S n) (t + DT) DT) as (t' & dt' & U & T & D'). exists t', dt'. replace (S m + n)%nat with (m + S n)%nat by lia.
      split; [|split; [rewrite T, S_INR; lra|rewrite D'; destruct m; reflexivity]].
      cbn [repeat]. match type of H with _ = (?s1, None) => change DT with (s_dt (fst s1)) at 1 end. econstructor; [exact H|]. exact U. }
  intros n. destruct (G n 0%nat 0 0) as (t & dt & U & T & D). exists t. replace (n + 0)%nat with n in U by lia. rewrite D in U. split; [exact U|lra].
Qed.
Lemma noise_bound a d : 0 <= a_std_rand_force a -> 0 <= snd (fst d) <= 3 -> vlength (noise_of a d) <= 3 * a_std_rand_force a.
Proof.
  intros S Z. unfold noise_of. rewrite vlength_scale.
  assert (U : vlength (V (cos (fst (fst d))) (sin (fst (fst d)))) = 1).
  { apply vlength_eq; [lra|]. cbn [vx vy]. pose proof (sin2_cos2 (fst (fst d))) as H. unfold Rsqr in H. lra. }
  rewrite U, Rabs_pos_eq by nra. nra.
Qed.
Lemma lone_on_course k draws a : fit k a -> (forall n, 0 <= snd (fst (draws n)) <= 3) -> forall n,
  off_course (lone k draws a n) <= course_bound (a_tau_adj a) (3 * a_std_rand_force a) (off_course a) n.
Proof.
  intros (F & P & M & T & S & K) Z n.
  assert (A : able k a) by (split; [exact F|split; [exact M|split; [exact T|exact K]]]).
  pose proof (lone_kept k draws a A) as KK. cbv zeta in KK.
  set (e := fun n => deviation (a_target_velocity a) (a_target_direction a) (a_velocity (lone k draws a n))).
  assert (E : forall n, off_course (lone k draws a n) = vlength (e n)).
  { intros i. unfold off_course. destruct (KK i) as (_ & _ & _ & _ & -> & ->). apply elen_vlength. }
  rewrite E. assert (E0 : off_course a = vlength (e 0%nat)) by apply (E 0%nat). rewrite E0.
  apply (stays_on_course (a_tau_adj a) (3 * a_std_rand_force a) e (fun n => vdiv (a_force_prev (lone k draws a n)) (a_mass a))
    (fun n => noise_of a (draws n))); auto.
  - lra.
  - intros i. apply noise_bound; auto.
  - cbn [lone]. rewrite P. veq; field; lra.
  - intros i. cbn [lone]. destruct (lone_row_spec k (draws i) (lone k draws a i)) as (_ & -> & _).
    destruct (KK i) as ((F' & _) & E1 & E2 & E3 & E4 & E5). unfold pull_of, noise_of, e, deviation, force_fluctuation1. rewrite F', E1, E2, E3, E4, E5.
    destruct (a_velocity (lone k draws a i)), (a_target_direction a). veq; field; lra.
  - intros i. unfold e. cbn [lone]. destruct (lone_row_spec k (draws i) (lone k draws a i)) as (-> & -> & _). destruct (KK i) as (_ & -> & _).
    unfold deviation. destruct (a_velocity (lone k draws a i)), (a_force_prev (lone k draws a i)), (pull_of (lone k draws a i) (draws i)), (a_target_direction a). veq; field; lra.
Qed.
Lemma course_limit tau b start eps : DT <= tau -> 0 <= b -> 0 <= start -> 0 < eps -> exists n0, forall n, (n0 <= n)%nat ->
  course_bound tau b start n < tau * b * ((1 + DT / tau / 2) / (1 - DT / tau / 2)) + eps.
Proof.
  intros T B S E. pose proof (q_range tau T) as Q. set (h := DT / tau) in *.
  assert (RR : 0 < 1 - h + h ^ 2 / 2 < 1) by (split; nra). set (rho := 1 - h + h ^ 2 / 2) in *. set (K := start + 2 * DT * b).
  assert (0 <= K) by (unfold K; nra).
  destruct (pow_lt_1_zero rho) with (y := eps / (K + 1)) as (m & Hm); [rewrite Rabs_pos_eq; lra|apply Rdiv_lt_0_compat; lra|].
  exists (3 * m)%nat. intros n Hn. specialize (Hm (n / 3)%nat). unfold course_bound. cbv zeta. fold h rho K.
  assert (D : (n / 3 >= m)%nat) by (apply Nat.div_le_lower_bound; lia). specialize (Hm D). rewrite Rabs_pos_eq in Hm by (apply pow_le; lra).
  assert (P0 : 0 <= rho ^ (n / 3)) by (apply pow_le; lra).
  assert (rho ^ (n / 3) * K < eps); [|lra].
  apply Rle_lt_trans with (rho ^ (n / 3) * (K + 1)); [nra|]. apply (Rmult_lt_compat_r (K + 1)) in Hm; [|lra]. unfold Rdiv in Hm. rewrite Rmult_assoc, Rinv_l in Hm; lra.
Qed.
