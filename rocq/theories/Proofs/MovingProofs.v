(** * The same crowd on moving ground *)
From Coq Require Import Lra Lia.
From Verif Require Import Proofs.VecLemmas Proofs.Vector2DProofs Proofs.PowerLawProofs Proofs.SimulationProofs Proofs.WrittenProofs Proofs.InteractionProofs Proofs.MassProofs Proofs.FrameRuns.
From Verif Require Export Spec.Moving.
Open Scope R_scope.

(** ** Any relation between simulations that nodes keep *)
Section Lift.
  Context (e e' : env) (ok : sim -> Prop) (rel : sim -> sim -> Prop) (x : expr node).
  Hypothesis steps : forall s s', rel s s' -> s_dt s' = s_dt s.
  Hypothesis kept : forall n s s1, In n (written_order x) -> ok s -> run_node e n s = Ok s1 -> ok s1.
  Hypothesis nodes : forall n s s', In n (written_order x) -> ok s -> rel s s' -> res_seen rel (run_node e n s) (run_node e' n s').
  Lemma lift_nodes ns is : forall l s s', map (nth_error ns) is = map Some l -> incl l (written_order x) -> ok s -> rel s s' ->
    let r := update_nodes (node_effect e ns) is s in let r' := update_nodes (node_effect e' ns) is s' in
    rel (fst r) (fst r') /\ snd r' = snd r /\ ok (fst r).
  Proof using kept nodes.
    induction is as [|i is IH]; intros [|n l] s s' M I O H; cbn in M; try discriminate; [cbn; auto|]. injection M as M1 M2. cbv zeta. cbn [update_nodes].
    assert (E1 : forall e0 s0, node_effect e0 ns i s0 = match run_node e0 n s0 with Ok s2 => (s2, None) | Err y => (s0, Some y) end) by (intros; unfold node_effect; now rewrite M1).
    rewrite !E1. assert (In n (written_order x)) as N by (apply I; now left). pose proof (nodes n s s' N O H) as S.
    destruct (run_node e n s) as [s1|x1] eqn:R, (run_node e' n s') as [s1'|x1']; cbn in S; try contradiction.
    - apply (IH l); eauto. intros m Hm. apply I. now right.
    - cbn. subst. auto.
  Qed.
  Definition outcome (r r' : (sim * nat) * option exn) : Prop := rel (fst (fst r)) (fst (fst r')) /\ snd (fst r') = snd (fst r) /\ snd r' = snd r.
  Lemma lift_update s s' i : ok s -> rel s s' -> outcome (simulation_update e x (s, i)) (simulation_update e' x (s', i)) /\ ok (fst (fst (simulation_update e x (s, i)))).
  Proof using kept nodes.
    intros O H. unfold simulation_update, logic_of. destruct (construct_postorder class_name x no_nodes [] reach_start eq_refl) as (r & f & ns & -> & R & Hr & Er & M).
    unfold update. rewrite Er. cbn [fst snd]. pose proof (lift_nodes ns _ _ s s' M (fun n Hn => Hn) O H) as (A & B & C).
    destruct (update_nodes (node_effect e ns) _ s) as [s1 [x1|]], (update_nodes (node_effect e' ns) _ s') as [s1' [x1'|]]; cbn in A, B, C; try discriminate; unfold outcome; cbn; auto.
  Qed.
  Lemma lift_updates s i dts r : updates e x (s, i) dts r -> forall s', ok s -> rel s s' -> exists s1', updates e' x (s', i) dts (s1', snd r) /\ rel (fst r) s1'.
  Proof using steps kept nodes.
    intros U. remember (s, i) as si eqn:E. revert s i E. induction U as [si|si [s1 i1] dts r U1 U IH]; intros s i -> s' O H.
    - exists s'. split; [constructor|exact H].
    - pose proof (lift_update s s' i O H) as [(A & B & C) D]. rewrite U1 in A, B, C, D. cbn in A, B, C, D.
      destruct (simulation_update e' x (s', i)) as [[s1' i1'] ox] eqn:U1'. cbn in A, B, C. subst i1' ox.
      destruct (IH s1 i1 eq_refl s1' D A) as (q & Q1 & Q2). exists q. split; auto.
      replace (s_dt (fst (s1, i1))) with (s_dt (fst (s1', i1))) by (cbn; now apply steps). econstructor; eauto.
  Qed.
  Lemma lift_updates_back s' i dts r' : updates e' x (s', i) dts r' -> forall s, ok s -> rel s s' -> exists s1, updates e x (s, i) dts (s1, snd r') /\ rel s1 (fst r').
  Proof using steps kept nodes.
    intros U. remember (s', i) as si eqn:E. revert s' i E. induction U as [si|si [s1' i1] dts r' U1 U IH]; intros s' i -> s O H.
    - exists s. split; [constructor|exact H].
    - pose proof (lift_update s s' i O H) as [(A & B & C) D]. rewrite U1 in A, B, C. cbn in A, B, C.
      destruct (simulation_update e x (s, i)) as [[s1 i1'] ox] eqn:U1'. cbn in A, B, C, D. subst i1 ox.
      destruct (IH s1' i1' eq_refl s1 D A) as (q & Q1 & Q2). exists q. split; auto.
      replace (s_dt (fst (s1', i1'))) with (s_dt (fst (s1, i1'))) by (cbn; symmetry; now apply steps). econstructor; eauto.
  Qed.
End Lift.

(** ** Rows *)
Lemma moved_diff p x y : vsub (vadd p x) (vadd p y) = vsub x y. Proof. veq; ring. Qed.
Section Rows.
  Context (k : kind) (u : vec).
  Notation "a ~[ p ]~ b" := (carried k u p a b) (at level 70).
  Lemma c_reset p a b : a ~[p]~ b -> reset_row k a ~[p]~ reset_row k b.
  Proof. intros (v & d & E & ->). exists v, d. unfold reset_row, is_model. destruct k; auto. Qed.
  Lemma c_force p a b f : a ~[p]~ b -> set_force (vadd (a_force a) f) a ~[p]~ set_force (vadd (a_force b) f) b.
  Proof. intros (v & d & E & ->). exists v, d. destruct k; auto. Qed.
  Lemma c_torque p a b t : a ~[p]~ b -> set_torque (a_torque a + t) a ~[p]~ set_torque (a_torque b + t) b.
  Proof. intros (v & d & E & ->). exists v, d. destruct k; auto. Qed.
  Lemma c_fields p a b : a ~[p]~ b -> a_mass b = a_mass a /\ a_radius b = a_radius a /\ a_std_rand_force b = a_std_rand_force a /\ a_std_rand_torque b = a_std_rand_torque a /\ a_inertia_rot b = a_inertia_rot a /\
    a_tau_adj b = a_tau_adj a /\ a_tau_rot b = a_tau_rot a /\ a_target_orientation b = a_target_orientation a /\ a_orientation b = a_orientation a /\ a_target_angular_velocity b = a_target_angular_velocity a /\ a_angular_velocity b = a_angular_velocity a /\
    a_tau_0 b = a_tau_0 a /\ a_k_soc b = a_k_soc a /\ a_mu b = a_mu a /\ a_kappa b = a_kappa a /\ a_damping b = a_damping a /\ a_r_ts b = a_r_ts a /\ rs_of b = rs_of a /\
    a_position b = vadd p (a_position a) /\ a_velocity b = vadd u (a_velocity a) /\ (k = ThreeCircle -> xs_of b = T3 (vadd p (a_position a)) (vadd p (a_position_ls a)) (vadd p (a_position_rs a))).
  Proof. intros (v & d & E & ->). destruct k; repeat split; intros [=]; reflexivity. Qed.
  Lemma c_fluctuate p a b phi z zt : a ~[p]~ b -> fluctuate_row k a phi z zt ~[p]~ fluctuate_row k b phi z zt.
  Proof.
    intros H. unfold fluctuate_row. cbv zeta. destruct (c_fields p a b H) as (E1 & _ & E2 & E3 & E4 & _). rewrite E1, E2. pose proof (c_force p a b (force_fluctuation1 (a_mass a) (a_std_rand_force a) phi z) H) as G.
    destruct k eqn:K; [exact G|]. assert (T : forall c f, a_torque (set_force f c) = a_torque c /\ a_inertia_rot (set_force f c) = a_inertia_rot c /\ a_std_rand_torque (set_force f c) = a_std_rand_torque c) by (intros; repeat split).
    rewrite !(proj1 (proj2 (T _ _))), !(proj2 (proj2 (T _ _))), E3, E4. subst k. destruct G as (v & d & Ev & ->). exists v, d. auto.
  Qed.
  Lemma c_adjust_row p a b : a ~[p]~ b -> res_seen (carried k u p) (force_adjust_row a) (force_adjust_row b).
  Proof.
    intros H. unfold force_adjust_row, force_adjust. pose proof (c_fields p a b H) as (E1 & _ & _ & _ & _ & E2 & _). rewrite E1, E2. destruct (Reqb (a_tau_adj a) 0); cbn [rbind res_seen]; [reflexivity|].
    replace (vsub (vscale (a_target_velocity b) (a_target_direction b)) (a_velocity b)) with (vsub (vscale (a_target_velocity a) (a_target_direction a)) (a_velocity a)); [now apply c_force|].
    destruct H as (v & d & Ev & ->). assert (A : forall c, a_target_velocity (set_target_velocity v (set_target_direction d c)) = v /\ a_target_direction (set_target_velocity v (set_target_direction d c)) = d) by (intros; split; reflexivity).
    rewrite (proj1 (A _)), (proj2 (A _)), Ev. change (a_velocity (set_target_velocity ?z (set_target_direction ?w (set_velocity ?q ?c)))) with q. now rewrite moved_diff.
  Qed.
  Lemma c_torque_row p a b : a ~[p]~ b -> res_seen (carried k u p) (torque_adjust_row a) (torque_adjust_row b).
  Proof.
    intros H. unfold torque_adjust_row, torque_adjust. pose proof (c_fields p a b H) as (_ & _ & _ & _ & E1 & _ & E2 & E3 & E4 & E5 & E6 & _). rewrite E1, E2, E3, E4, E5, E6. destruct (Reqb (a_tau_rot a) 0); cbn [rbind res_seen]; [reflexivity|]. now apply c_torque.
  Qed.
  Lemma c_loop p f l l' : (forall a b, a ~[p]~ b -> res_seen (carried k u p) (f a) (f b)) -> Forall2 (carried k u p) l l' -> res_seen (Forall2 (carried k u p)) (looped (loop_rows f l)) (looped (loop_rows f l')).
  Proof.
    intros F H. induction H as [|a b l l' A H IH]; cbn [loop_rows]; [constructor|]. pose proof (F a b A) as G. destruct (f a), (f b); cbn in G; try contradiction; [|cbn; exact G].
    destruct (loop_rows f l) as [[x|] q], (loop_rows f l') as [[x'|] q']; cbn in IH |- *; auto.
  Qed.
  Lemma c_adjust p l l' : Forall2 (carried k u p) l l' -> res_seen (Forall2 (carried k u p)) (adjust k l) (adjust k l').
  Proof.
    intros H. unfold adjust, force_adjust_agents, torque_adjust_agents. pose proof (c_loop p _ l l' (c_adjust_row p) H) as G. destruct (looped (loop_rows force_adjust_row l)) as [q|], (looped (loop_rows force_adjust_row l')) as [q'|]; cbn in G; try contradiction; cbn [rbind]; [|exact G].
    destruct (is_model k ThreeCircle); [apply c_loop; auto; apply c_torque_row|exact G].
  Qed.
  (** ** The step *)
  Definition T (v : R) (d : vec) (a : agent) : agent := set_target_velocity v (set_target_direction d a).
  Lemma sub_assoc p x o : vsub (vadd p x) o = vadd p (vsub x o). Proof using. veq; ring. Qed.
  Lemma add_assoc p x o : vadd (vadd p x) o = vadd p (vadd x o). Proof using. veq; ring. Qed.
  Lemma c_shoulders p a v d w xl xr : shoulders_row (T v d (set_velocity w (set_position (vadd p (a_position a)) (set_position_ls xl (set_position_rs xr a))))) =
    T v d (set_velocity w (set_position (vadd p (a_position (shoulders_row a))) (set_position_ls (vadd p (a_position_ls (shoulders_row a))) (set_position_rs (vadd p (a_position_rs (shoulders_row a))) (shoulders_row a))))).
  Proof using.
    unfold shoulders_row. cbv zeta. change (a_position (T v d (set_velocity w (set_position ?q ?c)))) with q. change (a_orientation (T v d (set_velocity w (set_position ?q (set_position_ls xl (set_position_rs xr a)))))) with (a_orientation a). change (a_r_ts (T v d (set_velocity w (set_position ?q (set_position_ls xl (set_position_rs xr a)))))) with (a_r_ts a).
    rewrite sub_assoc, add_assoc. reflexivity.
  Qed.
  Lemma c_verlet p dt a b : a ~[p]~ b -> match translational_verlet dt a, translational_verlet dt b with
    | Some a', Some b' => (k = Circular -> carried k u (vadd p (vscale dt u)) a' b') /\ (k = ThreeCircle -> carried k u (vadd p (vscale dt u)) (shoulders_row (rotational_verlet dt a')) (shoulders_row (rotational_verlet dt b')))
    | None, None => True | _, _ => False end.
  Proof.
    intros H. unfold translational_verlet. destruct (c_fields p a b H) as (-> & _). destruct (Reqb (a_mass a) 0); [exact I|]. cbv zeta. destruct H as (v & d & E & ->).
    set (c := match k with Circular => a | ThreeCircle => _ end). assert (C : a_force c = a_force a /\ a_force_prev c = a_force_prev a) by (unfold c; destruct k; split; reflexivity). destruct C as [C1 C2].
    change (a_force_prev (set_target_velocity v (set_target_direction d (set_velocity ?x (set_position ?y c))))) with (a_force_prev c). change (a_force (set_target_velocity v (set_target_direction d (set_velocity ?x (set_position ?y c))))) with (a_force c).
    change (a_velocity (set_target_velocity v (set_target_direction d (set_velocity ?x (set_position ?y c))))) with x. change (a_position (set_target_velocity v (set_target_direction d (set_velocity ?x (set_position ?y c))))) with y. rewrite C1, C2.
    set (f := vscale dt (vdiv (vadd _ _) 2)). set (g := vscale (dt * dt) _). rewrite (add_assoc u (a_velocity a) f). set (w := vadd (a_velocity a) f).
    replace (vadd (vadd p (a_position a)) (vadd (vscale dt (vadd u w)) g)) with (vadd (vadd p (vscale dt u)) (vadd (a_position a) (vadd (vscale dt w) g))) by (veq; ring). set (y := vadd (a_position a) (vadd (vscale dt w) g)). set (p' := vadd p (vscale dt u)).
    split; intros K; exists v, d; (split; [destruct k; exact E|]); unfold c; rewrite K; [reflexivity|]. clear c C1 C2.
    set (a1 := rotational_verlet dt (set_position y (set_velocity w (set_force_prev (a_force a) a)))).
    transitivity (shoulders_row (T v d (set_velocity (vadd u w) (set_position (vadd p' (a_position a1)) (set_position_ls (vadd p (a_position_ls a)) (set_position_rs (vadd p (a_position_rs a)) a1)))))); [reflexivity|].
    rewrite c_shoulders. reflexivity.
  Qed.
  Lemma c_finite p l l' : Forall2 (fun a b => match a, b with Some a, Some b => carried k u p a b | None, None => True | _, _ => False end) l l' ->
    res_seen (Forall2 (carried k u p)) (all_finite l) (all_finite l').
  Proof. intros H. induction H as [|[a|] [b|] l l' A H IH]; cbn [all_finite]; try contradiction; [constructor| |reflexivity]. destruct (all_finite l), (all_finite l'); cbn in IH |- *; auto; contradiction. Qed.
  Lemma step_same dt l l' : length l = length l' -> adaptive_timestep l dt dt = adaptive_timestep l' dt dt.
  Proof using.
    assert (G : forall m, m <> [] -> adaptive_timestep m dt dt = Ok dt).
    { intros [|a m] M; [congruence|]. unfold adaptive_timestep. cbv zeta. destruct (Reqb _ 0); auto. destruct (np_max (map a_target_velocity (a :: m))) as [z|] eqn:N.
      - destruct (Rltb dt _) eqn:A; auto. destruct (Rltb _ dt) eqn:B; auto. apply Rltb_false in A, B. f_equal. lra.
      - cbn in N. discriminate. }
    destruct l, l'; cbn; intros [=]; auto. rewrite !G by congruence. auto.
  Qed.
  Lemma step_const dt l : match adaptive_timestep l dt dt with Ok d => d = dt | Err _ => True end.
  Proof using.
    unfold adaptive_timestep. cbv zeta. destruct (Reqb _ 0); auto. destruct (np_max _) as [z|]; auto. destruct (Rltb dt _) eqn:A; auto. destruct (Rltb _ dt) eqn:B; auto. apply Rltb_false in A, B. lra.
  Qed.
  Lemma c_integrator p dt l l' : Forall2 (carried k u p) l l' -> 
    res_seen (fun r r' => fst r' = fst r /\ fst r = dt /\ Forall2 (fun a b => match a, b with Some a, Some b => carried k u (vadd p (vscale dt u)) a b | None, None => True | _, _ => False end) (snd r) (snd r'))
      (velocity_verlet_integrator k l dt dt) (velocity_verlet_integrator k l' dt dt).
  Proof.
    intros H. unfold velocity_verlet_integrator. assert (LN : length l = length l') by (clear - H; induction H; cbn; auto); rewrite <- (step_same dt l l' LN); clear LN. pose proof (step_const dt l) as D. destruct (adaptive_timestep l dt dt) as [d|x]; cbn [rbind]; [subst d|reflexivity]. cbv zeta.
    assert (N : needs_inertia l' = needs_inertia l). { unfold needs_inertia. induction H as [|a b l l' A H IH]; cbn; auto. destruct (c_fields p a b A) as (_ & _ & _ & _ & -> & _). now rewrite IH. }
    rewrite N. destruct k eqn:K.
    - cbn [res_seen fst snd]. repeat split. clear N. induction H as [|a b l l' A H IH]; cbn [map]; constructor; auto. pose proof (c_verlet p dt a b) as V. rewrite K in V. specialize (V A). destruct (translational_verlet dt a), (translational_verlet dt b); auto. now apply V.
    - destruct (needs_inertia l); [reflexivity|]. cbn [res_seen fst snd]. repeat split. clear N. induction H as [|a b l l' A H IH]; cbn [map]; constructor; auto. pose proof (c_verlet p dt a b) as V. rewrite K in V. specialize (V A). destruct (translational_verlet dt a), (translational_verlet dt b); cbn [option_map]; auto. now apply V.
  Qed.
  (** ** Pairs *)
  Lemma c_social_forces p a a' b b' g tau : a ~[p]~ a' -> b ~[p]~ b' -> social_forces a' b' g tau = social_forces a b g tau.
  Proof. intros A B. destruct (c_fields p a a' A) as (A1 & _ & _ & _ & _ & _ & _ & _ & _ & _ & _ & A2 & A3 & _), (c_fields p b b' B) as (B1 & _ & _ & _ & _ & _ & _ & _ & _ & _ & _ & B2 & B3 & _). unfold social_forces. now rewrite A1, A2, A3, B1, B2, B3. Qed.
  Lemma c_contact p a a' b b' h n fs : a ~[p]~ a' -> b ~[p]~ b' -> with_contact h n a' b' fs = with_contact h n a b fs.
  Proof.
    intros A B. destruct (c_fields p a a' A) as (_ & _ & _ & _ & _ & _ & _ & _ & _ & _ & _ & _ & _ & A1 & A2 & A3 & _ & _ & _ & A4 & _), (c_fields p b b' B) as (_ & _ & _ & _ & _ & _ & _ & _ & _ & _ & _ & _ & _ & B1 & B2 & B3 & _ & _ & _ & B4 & _).
    unfold with_contact. cbv zeta. now rewrite A1, A2, A3, A4, B1, B2, B3, B4, moved_diff.
  Qed.
  Lemma distance_moved p x r y q : distance_circles (vadd p x) r (vadd p y) q = distance_circles x r y q.
  Proof using. unfold distance_circles. rewrite !moved_diff. reflexivity. Qed.
  Lemma c_circular p a a' b b' : a ~[p]~ a' -> b ~[p]~ b' -> pair_forces_circular a' b' = pair_forces_circular a b.
  Proof.
    intros A B. unfold pair_forces_circular. destruct (c_fields p a a' A) as (_ & A1 & _ & _ & _ & _ & _ & _ & _ & _ & _ & _ & _ & _ & _ & _ & _ & _ & A2 & A3 & _), (c_fields p b b' B) as (_ & B1 & _ & _ & _ & _ & _ & _ & _ & _ & _ & _ & _ & _ & _ & _ & _ & _ & B2 & B3 & _).
    rewrite A1, A2, B1, B2, distance_moved. destruct (distance_circles _ _ _ _) as [h n]. destruct (Rltb h SIGTH_SOC); auto.
    assert (S : force_social_circular a' b' = force_social_circular a b).
    { unfold force_social_circular. cbv zeta. rewrite A1, A2, A3, B1, B2, B3, !moved_diff. destruct (coeff_d _ _ _); auto. destruct (_ || _)%bool; auto. destruct (_ || _)%bool; auto. now apply (c_social_forces p). }
    rewrite S. destruct (force_social_circular a b) as [fs|]; cbn [rbind]; auto. now rewrite (c_contact p a a' b b').
  Qed.
  Lemma fold_ext {A B} (f g : A -> B -> A) l : (forall a b, In b l -> f a b = g a b) -> forall a, fold_left f l a = fold_left g l a.
  Proof using. induction l as [|b l IH]; intros F a; cbn; auto. rewrite F by now left. apply IH. intros. apply F. now right. Qed.
  Lemma tget_moved p (x y z : vec) i : tget (T3 (vadd p x) (vadd p y) (vadd p z)) i = vadd p (tget (T3 x y z) i).
  Proof using. destruct i as [|[|i]]; reflexivity. Qed.
  Lemma c_three p a a' b b' : k = ThreeCircle -> a ~[p]~ a' -> b ~[p]~ b' -> pair_forces_three_circle a' b' = pair_forces_three_circle a b.
  Proof.
    intros K A B. unfold pair_forces_three_circle.
    destruct (c_fields p a a' A) as (_ & _ & _ & _ & _ & _ & _ & _ & A0 & _ & _ & _ & _ & _ & _ & _ & A1 & A2 & A3 & A4 & A5), (c_fields p b b' B) as (_ & _ & _ & _ & _ & _ & _ & _ & B0 & _ & _ & _ & _ & _ & _ & _ & B1 & B2 & B3 & B4 & B5). specialize (A5 K). specialize (B5 K).
    assert (D : distance_three_circles (xs_of a') (rs_of a') (xs_of b') (rs_of b') = distance_three_circles (xs_of a) (rs_of a) (xs_of b) (rs_of b)).
    { rewrite A2, B2, A5, B5. unfold distance_three_circles, xs_of. rewrite (fold_ext (scan33_step (T3 (vadd p _) _ _) _ _ _) (scan33_step (T3 (a_position a) (a_position_ls a) (a_position_rs a)) (rs_of a) (T3 (a_position b) (a_position_ls b) (a_position_rs b)) (rs_of b))).
      - destruct (fold_left _ idx33 _) as [[[h n] i] j]. rewrite !tget_moved. cbn [t_0]. assert (M3 : forall X Z Y, vsub (vsub (vadd p X) Z) (vadd p Y) = vsub (vsub X Z) Y) by (intros; veq; ring). rewrite add_assoc, moved_diff, M3. reflexivity.
      - intros [[[h n] i] j] [i' j'] _. unfold scan33_step. rewrite !tget_moved, distance_moved. reflexivity. }
    rewrite D. clear D. destruct (distance_three_circles (xs_of a) (rs_of a) (xs_of b) (rs_of b)) as [[[h n] mi] mj]. destruct h as [h|]; auto. destruct (Rltb h SIGTH_SOC); auto.
    assert (SC : three_circle_scan a' b' = three_circle_scan a b).
    { unfold three_circle_scan. cbv zeta. rewrite A2, B2, A4, B4, A5, B5, moved_diff. unfold xs_of. apply fold_ext. intros s [i j] _. unfold tscan_step. rewrite !tget_moved, moved_diff. reflexivity. }
    assert (S : force_social_three_circle a' b' = force_social_three_circle a b).
    { unfold force_social_three_circle. cbv zeta. rewrite SC, A3, B3, A4, B4, !moved_diff. destruct (Reqb _ 0); auto. destruct (ts_best _) as [[[tau bm] dm]|]; auto. destruct (Rleb tau 0); auto. rewrite (offset_columns _ a a' A1 A0), (offset_columns _ b b' B1 B0). now apply (c_social_forces p). }
    rewrite S. destruct (force_social_three_circle a b) as [fs|]; cbn [rbind]; auto. now rewrite (c_contact p a a' b b').
  Qed.
  Lemma c_nth p i l l' : Forall2 (carried k u p) l l' -> match nth_error l i, nth_error l' i with Some a, Some b => carried k u p a b | None, None => True | _, _ => False end.
  Proof. intros H. revert i. induction H as [|a b l l' A H IH]; intros [|i]; cbn; auto. apply IH. Qed.
  Lemma c_modify p i f l l' : (forall a b, a ~[p]~ b -> f a ~[p]~ f b) -> Forall2 (carried k u p) l l' -> Forall2 (carried k u p) (modify i f l) (modify i f l').
  Proof.
    intros F H. unfold modify. pose proof (c_nth p i l l' H) as N. destruct (nth_error l i) as [a|], (nth_error l' i) as [b|]; try contradiction; auto. clear - F H N. revert i N. induction H as [|c d l l' A H IH]; intros [|i] N; cbn [upd]; try (constructor; auto).
  Qed.
  Lemma c_pairs p pairs : forall l l', Forall2 (carried k u p) l l' -> res_seen (Forall2 (carried k u p)) (agent_agent k pairs l) (agent_agent k pairs l').
  Proof.
    assert (FF : forall f a b, a ~[p]~ b -> add_force f a ~[p]~ add_force f b) by (intros f a b; apply c_force). assert (FT : forall t a b, a ~[p]~ b -> add_torque t a ~[p]~ add_torque t b) by (intros t a b; apply c_torque).
    assert (G : forall f, (forall i j l l', Forall2 (carried k u p) l l' -> res_seen (Forall2 (carried k u p)) (f i j l) (f i j l')) -> forall l l', Forall2 (carried k u p) l l' -> res_seen (Forall2 (carried k u p)) (over_pairs f pairs l) (over_pairs f pairs l')).
    { intros f F. induction pairs as [|[i j] ps IH]; intros l l' H; cbn [over_pairs]; [exact H|]. pose proof (F i j l l' H) as Q. destruct (f i j l), (f i j l'); cbn in Q |- *; try contradiction; auto. }
    intros l l' H. unfold agent_agent. destruct k eqn:K; rewrite <- K in *; apply G; auto; clear l l' H; intros i j l l' H; pose proof (c_nth p i l l' H) as Ni; pose proof (c_nth p j l l' H) as Nj.
    - unfold interaction_agent_agent_circular. destruct (nth_error l i) as [a|], (nth_error l' i) as [a'|]; try contradiction; [|reflexivity]. destruct (nth_error l j) as [b|], (nth_error l' j) as [b'|]; try contradiction; [|reflexivity].
      rewrite (c_circular p a a' b b' Ni Nj). destruct (pair_forces_circular a b) as [[[fi fj]|]|x]; cbn [rbind res_seen]; auto. repeat (apply c_modify; auto).
    - unfold interaction_agent_agent_three_circle. destruct (nth_error l i) as [a|], (nth_error l' i) as [a'|]; try contradiction; [|reflexivity]. destruct (nth_error l j) as [b|], (nth_error l' j) as [b'|]; try contradiction; [|reflexivity].
      rewrite (c_three p a a' b b' K Ni Nj). destruct (pair_forces_three_circle a b) as [[[[[fi fj] mi] mj]|]|x]; cbn [rbind res_seen]; auto. repeat (apply c_modify; auto).
  Qed.
End Rows.

(** ** Nodes *)
Section Nodes.
  Context (e : env) (u q : vec).
  Notation k := (e_kind e).
  Notation rel := (carried_sim k u q).
  Lemma rel_with s s' l l' : rel s s' -> Forall2 (carried k u (vadd q (vscale (s_time s) u))) l l' -> rel (with_agents s l) (with_agents s' l').
  Proof. intros (_ & A & B & C & D) H. repeat split; auto. Qed.
  Lemma rel_res s s' r r' : rel s s' -> res_seen (Forall2 (carried k u (vadd q (vscale (s_time s) u)))) r r' ->
    res_seen rel (do l <- r; Ok (with_agents s l)) (do l <- r'; Ok (with_agents s' l)).
  Proof. intros H G. destruct r, r'; cbn in G |- *; try contradiction; auto. now apply rel_with. Qed.
  Lemma c_fluctuate_all p d l l' : Forall2 (carried k u p) l l' -> forall i, Forall2 (carried k u p) (fluctuate k d i l) (fluctuate k d i l').
  Proof. intros H. induction H as [|a b l l' A H IH]; intros i; cbn [fluctuate]; [constructor|]. destruct (d i) as [[phi z] zt]. constructor; auto. now apply c_fluctuate. Qed.
  Lemma c_positions p l l' : Forall2 (carried k u p) l l' -> map a_position l' = map (vadd p) (map a_position l).
  Proof. intros H. induction H as [|a b l l' A H IH]; cbn; auto. rewrite IH. f_equal. apply (c_fields _ _ _ _ _ A). Qed.
  Definition aa_fine (n : node) (s s' : sim) : Prop :=
    forall traits, n = AgentAgentInteractions traits -> res_seen (Forall2 (carried k u (vadd q (vscale (s_time s) u)))) (aa_node_update (e_enum e) traits k (s_agents s)) (aa_node_update (e_enum e) traits k (s_agents s')).
  Lemma c_node n s s' : no_ground k n -> aa_fine n s s' -> rel s s' -> res_seen rel (run_node e n s) (run_node e n s').
  Proof.
    intros N A H. pose proof H as (HA & H1 & H2 & H3 & H4). destruct n; cbn [no_ground] in N; try contradiction; cbn [run_node]; cbv zeta.
    - cbn. apply rel_with; auto. clear - HA. induction HA; cbn; constructor; auto. now apply c_reset.
    - subst dt_max. pose proof (c_integrator k u _ dt_min _ _ HA) as G. destruct (velocity_verlet_integrator k (s_agents s) dt_min dt_min) as [[d l]|x], (velocity_verlet_integrator k (s_agents s') dt_min dt_min) as [[d' l']|x']; cbn [res_seen fst snd] in G; try contradiction; cbn [rbind]; [|exact G].
      destruct G as (-> & -> & G). cbn [fst snd]. apply c_finite in G. destruct (all_finite l), (all_finite l'); cbn in G |- *; try contradiction; auto.
      repeat split; cbn; auto; [|now rewrite H2]. replace (vadd q (vscale (s_time s + dt_min) u)) with (vadd (vadd q (vscale (s_time s) u)) (vscale dt_min u)) by (veq; ring). exact G.
    - cbn. rewrite H4. repeat split; cbn; auto. now apply c_fluctuate_all.
    - apply rel_res; auto. now apply c_adjust.
    - apply rel_res; auto.
    - assert (O : forall l, orientation_node k l = l) by (rewrite N; reflexivity). rewrite !O. cbn. now apply rel_with.
  Qed.
End Nodes.
