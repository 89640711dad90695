(** Proofs about agents on whom nothing acts. *)
From Coq Require Import Lra Lia.
From Verif Require Import Proofs.IntegratorProofs Proofs.SimulationMore Proofs.CrowdExamples Proofs.CrowdProofs Proofs.PlacementProofs.
From Verif Require Export Proofs.StraightProofs.
From Verif Require Import Spec.Straight.
Open Scope R_scope.

Definition verlet_row (dt : R) (a : agent) : agent :=
  let velocity := vadd (a_velocity a) (vscale dt (vdiv (vadd (vdiv (a_force_prev a) (a_mass a)) (vdiv (a_force a) (a_mass a))) 2)) in
  set_position (vadd (a_position a) (vadd (vscale dt velocity) (vscale (dt * dt) (vdiv (vdiv (a_force a) (a_mass a)) 2))))
    (set_velocity velocity (set_force_prev (a_force a) a)).
Definition moved_row (k : kind) (dt : R) (a : agent) : agent :=
  match k with Circular => verlet_row dt a | ThreeCircle => shoulders_row (rotational_verlet dt (verlet_row dt a)) end.
Definition pulled_row (a : agent) : agent :=
  set_force (vadd (a_force a) (vscale (a_mass a / a_tau_adj a) (vsub (vscale (a_target_velocity a) (a_target_direction a)) (a_velocity a)))) a.
Definition turned_row (a : agent) : agent :=
  set_torque (a_torque a + a_inertia_rot a / a_tau_rot a *
    (wrap_to_pi (a_target_orientation a - a_orientation a) / PI * a_target_angular_velocity a - a_angular_velocity a)) a.
Definition adjusted_row (k : kind) (a : agent) : agent :=
  match k with Circular => pulled_row a | ThreeCircle => turned_row (pulled_row a) end.
Definition faced_row (k : kind) (a : agent) : agent := match k with Circular => a | ThreeCircle => orient_row a end.

Lemma all_finite_map f l : all_finite (map (fun a : agent => Some (f a)) l) = Ok (map f l).
Proof. induction l as [|a l IH]; cbn [map all_finite]; [reflexivity|]. rewrite IH. reflexivity. Qed.
Lemma verlet_ok k dt l : (forall a, In a l -> a_mass a <> 0 /\ (k = ThreeCircle -> a_inertia_rot a <> 0)) ->
  velocity_verlet_integrator k l dt dt = Ok (dt, map (fun a => Some (moved_row k dt a)) l).
Proof.
  intros H. unfold velocity_verlet_integrator. rewrite timestep_fixed. cbn [rbind]. cbv zeta.
  assert (E : map (translational_verlet dt) l = map (fun a => Some (verlet_row dt a)) l).
  { apply map_ext_in. intros a Ha. unfold translational_verlet. rewrite (proj2 (Reqb_false _ _) (proj1 (H a Ha))). reflexivity. }
  rewrite E. destruct k; [reflexivity|].
  replace (needs_inertia l) with false.
  - rewrite map_map. reflexivity.
  - symmetry. apply not_true_iff_false. intros N. apply existsb_exists in N. destruct N as (a & Ha & N). apply Reqb_true in N. now apply (proj2 (H a Ha)).
Qed.
Lemma adjust_ok k l : (forall a, In a l -> a_tau_adj a <> 0 /\ (k = ThreeCircle -> a_tau_rot a <> 0)) ->
  adjust k l = Ok (map (adjusted_row k) l).
Proof.
  intros H. unfold adjust. rewrite force_adjust_agents_ok by (intros a Ha; apply (H a Ha)). cbn [looped rbind].
  destruct k; [reflexivity|]. cbn [is_model kind_eqb].
  unfold torque_adjust_agents. erewrite (loop_rows_ok _ turned_row).
  - cbn [looped]. rewrite map_map. reflexivity.
  - intros a Ha. apply in_map_iff in Ha. destruct Ha as (b & <- & Hb). unfold torque_adjust_row, torque_adjust.
    rewrite (proj2 (Reqb_false _ _)); [reflexivity|]. exact (proj2 (H b Hb) eq_refl).
Qed.
Lemma facing_map k l : orientation_node k l = map (faced_row k) l.
Proof. unfold orientation_node. destruct k; [|reflexivity]. cbn [is_model kind_eqb]. induction l; cbn; congruence. Qed.

Definition movement_row (k : kind) (dt : R) (a : agent) : agent := reset_row k (faced_row k (adjusted_row k (moved_row k dt a))).
Lemma movement_runs e s n : (forall a, In a (s_agents s) -> calm (e_kind e) a) ->
  simulation_update e logic_test_movement (s, n) =
  ((Sim (map (movement_row (e_kind e) (1/100)) (s_agents s)) (1/100) (s_time s + 1/100) (s_inactive s) (s_draws s), S n), None).
Proof.
  intros H. apply (proj2 (update_runs e logic_test_movement _ _ _ _)). split; auto. eexists.
  change (written_order logic_test_movement) with [integrator; Adjusting; Orientation; Reset]. set (k := e_kind e) in *.
  set (l1 := map (moved_row k (1/100)) (s_agents s)).
  apply (runs_next e integrator _ _ (Sim l1 (1/100) (s_time s + 1/100) (s_inactive s) (s_draws s))).
  { unfold integrator. cbn [run_node]. fold k. rewrite verlet_ok.
    - cbn [rbind fst snd]. rewrite all_finite_map. reflexivity.
    - intros a Ha. destruct (H a Ha) as (_ & _ & M & _ & T). split; auto. intros K. apply (T K). }
  apply (runs_next e Adjusting _ _ (Sim (map (adjusted_row k) l1) (1/100) (s_time s + 1/100) (s_inactive s) (s_draws s))).
  { cbn [run_node s_agents]. fold k. rewrite adjust_ok; [reflexivity|]. intros a Ha. apply in_map_iff in Ha. destruct Ha as (b & <- & Hb).
    destruct (H b Hb) as (_ & _ & _ & A & T). destruct k.
    - split; [exact A|discriminate].
    - split; [exact A|]. intros _. apply (T eq_refl). }
  apply (runs_next e Orientation _ _ (Sim (map (faced_row k) (map (adjusted_row k) l1)) (1/100) (s_time s + 1/100) (s_inactive s) (s_draws s))).
  { cbn [run_node s_agents]. fold k. rewrite facing_map. reflexivity. }
  eapply (runs_next e Reset); [|unfold l1]; [reflexivity|]. cbn [with_agents s_agents s_dt s_time s_inactive s_draws]. fold k.
  replace (map (movement_row k (1/100)) (s_agents s)) with (map (reset_row k) (map (faced_row k) (map (adjusted_row k) (map (moved_row k (1/100)) (s_agents s)))))
    by (rewrite !map_map; reflexivity). apply runs_none.
Qed.

Lemma movement_row_gone k dt a : calm k a -> calm k (movement_row k dt a) /\ gone k dt a (movement_row k dt a).
Proof.
  intros (F & P & M & A & T).
  assert (V0 : vadd (a_velocity a) (vscale dt (vdiv (vadd (vdiv (a_force_prev a) (a_mass a)) (vdiv (a_force a) (a_mass a))) 2)) = a_velocity a).
  { rewrite F, P. destruct (a_velocity a). veq; field; exact M. }
  assert (X0 : vadd (a_position a) (vadd (vscale dt (a_velocity a)) (vscale (dt * dt) (vdiv (vdiv (a_force a) (a_mass a)) 2))) =
    V (vx (a_position a) + dt * vx (a_velocity a)) (vy (a_position a) + dt * vy (a_velocity a))).
  { rewrite F. destruct (a_velocity a), (a_position a). veq; field; exact M. }
  assert (E : verlet_row dt a = set_position (V (vx (a_position a) + dt * vx (a_velocity a)) (vy (a_position a) + dt * vy (a_velocity a)))
    (set_velocity (a_velocity a) (set_force_prev (a_force a) a))) by (unfold verlet_row; cbv zeta; rewrite V0, X0; reflexivity).
  unfold movement_row, moved_row. rewrite E. clear E V0 X0. destruct k.
  - split; [|split; [reflexivity|split; [reflexivity|discriminate]]]. split; [reflexivity|]. split; [exact F|]. split; [exact M|]. split; [exact A|discriminate].
  - destruct (T eq_refl) as (T1 & T2 & T3 & T4). set (b := set_position _ _).
    assert (W : a_angular_velocity (rotational_verlet dt b) = a_angular_velocity a).
    { change (a_angular_velocity a + (a_torque_prev a / a_inertia_rot a + a_torque a / a_inertia_rot a) / 2 * dt = a_angular_velocity a). rewrite T1, T2. field. exact T3. }
    split.
    + split; [reflexivity|]. split; [exact F|]. split; [exact M|]. split; [exact A|]. intros _. split; [reflexivity|]. split; [exact T1|]. split; [exact T3|exact T4].
    + split; [reflexivity|]. split; [reflexivity|]. intros _. split; [exact W|].
      change (exists turns : Z, a_orientation (rotational_verlet dt b) = a_orientation a + dt * a_angular_velocity a + 2 * PI * IZR turns).
      unfold rotational_verlet. cbv zeta. cbn [a_orientation set_orientation]. destruct (wrap_turns (a_orientation b +
        ((a_angular_velocity b + (a_torque_prev b / a_inertia_rot b + a_torque b / a_inertia_rot b) / 2 * dt) * dt +
         a_torque b / a_inertia_rot b / 2 * (dt * dt)))) as (z & Ez).
      exists z. etransitivity; [exact Ez|].
      change (a_orientation a + ((a_angular_velocity a + (a_torque_prev a / a_inertia_rot a + a_torque a / a_inertia_rot a) / 2 * dt) * dt +
         a_torque a / a_inertia_rot a / 2 * (dt * dt)) + 2 * PI * IZR z = a_orientation a + dt * a_angular_velocity a + 2 * PI * IZR z).
      rewrite T1, T2. field. exact T3.
Qed.
Lemma gone_trans k t u a b c : gone k t a b -> gone k u b c -> gone k (t + u) a c.
Proof.
  intros (V1 & P1 & O1) (V2 & P2 & O2). split; [congruence|]. split.
  - rewrite P2, V1, P1. cbn [vx vy]. apply vec_eq; cbn [vx vy]; ring.
  - intros K. destruct (O1 K) as (W1 & m & E1). destruct (O2 K) as (W2 & n & E2). split; [congruence|].
    exists (m + n)%Z. rewrite E2, E1, W1, plus_IZR. ring.
Qed.
Lemma gone_start k a : gone k 0 a a.
Proof. split; [reflexivity|]. split; [apply vec_eq; cbn [vx vy]; ring|]. intros _. split; [reflexivity|]. exists 0%Z. ring. Qed.
Lemma straight_from e : forall n s i, Forall (calm (e_kind e)) (s_agents s) ->
  exists s', updates e logic_test_movement (s, i) (repeat (1/100) n) (s', (i + n)%nat) /\ s_time s' = s_time s + INR n / 100 /\
    Forall2 (gone (e_kind e) (INR n / 100)) (s_agents s) (s_agents s').
Proof.
  induction n as [|n IH]; intros s i C.
  - exists s. replace (i + 0)%nat with i by lia. split; [constructor|]. split; [cbn; lra|]. cbn [INR]. replace (0 / 100) with 0 by lra.
    clear. induction (s_agents s); constructor; auto. apply gone_start.
  - pose proof (movement_runs e s i) as H. rewrite Forall_forall in C. specialize (H C). set (s1 := Sim _ _ _ _ _) in H.
    destruct (IH s1 (S i)) as (s2 & U & T & F).
    { apply Forall_forall. intros b Hb. cbn [s_agents s1] in Hb. apply in_map_iff in Hb. destruct Hb as (a & <- & Ha). apply movement_row_gone. auto. }
    exists s2. replace (i + S n)%nat with (S i + n)%nat by lia. split; [|split].
    + cbn [repeat]. change (1/100) with (s_dt (fst (s1, S i))) at 1. econstructor; [exact H|exact U].
    + rewrite T. cbn [s1 s_time]. rewrite S_INR. lra.
    + cbn [s1 s_agents] in F. rewrite S_INR. revert F. clear - C. generalize (s_agents s2). induction (s_agents s) as [|a l IHl]; intros l2 F; inversion F as [|? b ? l2' G F']; subst; constructor.
      * replace ((INR n + 1) / 100) with (1/100 + INR n / 100) by lra. eapply gone_trans; [apply movement_row_gone; apply C; now left|exact G].
      * apply IHl; auto. intros x Hx. apply C. now right.
Qed.

(** ** The crowds *)
Lemma validation_agent_ok k zs phi : - PI <= phi <= PI -> exists m, validation_agent k zs phi = Ok m /\
  forall p, test_person k phi p (to_row k (touch k (move_to p m))).
Proof.
  intros Hphi. unfold validation_agent.
  destruct (explicit_body zs validation_body) as (b & -> & G & (B1 & B2 & B3 & B4) & _).
  { unfold validation_body. cbn [map fst]. repeat constructor; cbn; intuition discriminate. }
  { intros f v Hin. unfold validation_body in Hin. cbn [In] in Hin. unfold explicit, trait_range.
    destruct Hin as [Q|[Q|[Q|[Q|[Q|[Q|[]]]]]]]; injection Q as <- <-; (split; [cbn; tauto|]); (split; [lra|]); intros [X|[X|[X|[]]]]; try discriminate X; lra. }
  cbn [rbind]. cbv zeta.
  assert (RV : rest_valid k (attributed k (validation_attributes phi)) = true) by (apply attributes_valid; cbn; auto; [lia|lia|apply unit_valid]).
  rewrite RV. eexists. split; [reflexivity|]. intros p.
  assert (GV : forall f v, In (f, v) validation_body -> bget f b = v) by (intros f v H; apply G; left; exact H).
  assert (R1 : b_radius b = 255/1000) by (apply (GV Radius); cbn; tauto).
  assert (R2 : b_mass b = 735/10) by (apply (GV Mass); cbn; tauto).
  assert (R3 : b_target_velocity b = 1) by (apply (GV TargetVelocity); cbn; tauto).
  assert (R4 : b_ratio_rt b = 5882/10000) by (apply (GV RatioRt); cbn; tauto).
  assert (R5 : b_ratio_rs b = 3725/10000) by (apply (GV RatioRs); cbn; tauto).
  assert (R6 : b_ratio_ts b = 6275/10000) by (apply (GV RatioTs); cbn; tauto).
  rewrite R1, R4 in B1. rewrite R1, R5 in B2. rewrite R1, R6 in B3. rewrite R1, R2 in B4. clear R4 R5 R6 G GV RV.
  assert (B5 : b_inertia_rot b <> 0).
  { rewrite B4. pose proof PI_RGT_0. apply Rgt_not_eq. apply Rmult_lt_0_compat; [apply Rmult_lt_0_compat; lra|]. apply pow_lt. lra. }
  assert (Vs : vscale 1 (unit_vector phi) = V (cos phi) (sin phi)) by (unfold unit_vector; veq; ring).
  unfold test_person, walks, calm.
  destruct k; cbn [to_row touch m_row move_to m_ls m_rs].
  - repeat match goal with |- _ /\ _ => split end; try discriminate; try reflexivity; try assumption.
    + change (b_mass b <> 0). lra.
    + change (1/2 <> 0). lra.
  - repeat match goal with |- _ /\ _ => split end; try reflexivity; try assumption.
    + intros _. repeat split; reflexivity.
    + change (b_mass b <> 0). lra.
    + change (1/2 <> 0). lra.
    + intros _. split; [reflexivity|]. split; [reflexivity|]. split; [exact B5|]. change (1/5 <> 0). lra.
    + intros _. unfold xs_of. f_equal.
      * match goal with |- ?l = V ?x ?y => change l with (vsub p (vscale (b_r_ts b) (rotate270 (unit_vector phi)))); change y with (vy p + b_r_ts b * cos phi); change x with (vx p - b_r_ts b * sin phi) end.
        unfold unit_vector, rotate270. destruct p. veq; ring.
      * match goal with |- ?l = V ?x ?y => change l with (vadd p (vscale (b_r_ts b) (rotate270 (unit_vector phi)))); change y with (vy p - b_r_ts b * cos phi); change x with (vx p + b_r_ts b * sin phi) end.
        unfold unit_vector, rotate270. destruct p. veq; ring.
Qed.

Lemma place_done fuel k gen st ms draws overlaps : place_loop fuel k 1 gen None st ms draws 1 overlaps = (Returns, st, ms, draws).
Proof. destruct fuel; reflexivity. Qed.
Lemma place_one fuel k p st m : let m1 := touch k (move_to p m) in let '(near, bl) := bl_nearest (ag_neighbours st) (key_of p) 1 in
  let st1 := Agents (ag_kind st) (ag_index st) (ag_array st) bl in
  overlapping k m1 (rows_at (ag_array st1) near) = false ->
  place_loop (S fuel) k 1 (fun _ => Some p) None st [m] 0 0 0 = (Returns, store st1 p (to_row k m1), [m1], 1%nat).
Proof.
  intros m1. destruct (bl_nearest (ag_neighbours st) (key_of p) 1) as [near bl] eqn:E. intros st1 OV.
  cbn [place_loop]. change ((0 <? 1)%nat && (0 <? 10 * 1)%nat)%bool with true. cbn [nth_error]. cbv zeta. fold m1. rewrite E. fold st1. rewrite OV.
  rewrite place_done. reflexivity.
Qed.
Lemma add_one_ok zs phi p st : - PI <= phi <= PI -> wf (6/10) st -> ag_index st = length (ag_array st) ->
  (forall a b, In a (ag_array st) -> test_person (ag_kind st) phi p b -> ~ bodies_overlap (body (ag_kind st) a) (body (ag_kind st) b)) ->
  exists st' b, add_one zs phi p st = Ok st' /\ wf (6/10) st' /\ ag_kind st' = ag_kind st /\ ag_index st' = length (ag_array st') /\
    ag_array st' = ag_array st ++ [b] /\ test_person (ag_kind st) phi p b.
Proof.
  intros Hphi W C Far. unfold add_one. destruct (validation_agent_ok (ag_kind st) zs phi Hphi) as (m & -> & Hm). cbn [rbind].
  specialize (Hm p). set (k := ag_kind st) in *. set (m1 := touch k (move_to p m)) in *.
  unfold add_non_overlapping_group. cbn [g_kind g_size g_members]. fold k. rewrite (proj2 (kind_eqb_iff k k) eq_refl).
  change (11 * 1)%nat with (S 10). generalize 10%nat. intros fuel.
  pose proof (wf_grow (6/10) st 1 W) as W0. fold k in W0.
  set (st0 := Agents k (ag_index st) (ag_array st ++ repeat zero_row 1) (ag_neighbours st)) in *.
  pose proof (place_one fuel k p st0 m) as PO. cbv zeta in PO. fold m1 in PO. change (ag_neighbours st0) with (ag_neighbours st) in PO.
  pose proof (fun i => near_sound (6/10) st p i W) as NS. pose proof (wf_read (6/10) st0 p W0) as RD. change (ag_neighbours st0) with (ag_neighbours st) in RD.
  destruct (bl_nearest (ag_neighbours st) (key_of p) 1) as [near bl]. cbn [fst] in NS. destruct RD as [W1 _].
  set (st1 := Agents (ag_kind st0) (ag_index st0) (ag_array st0) bl) in *.
  assert (OV : overlapping k m1 (rows_at (ag_array st1) near) = false).
  { apply not_true_iff_false. intros O. apply overlapping_iff in O. destruct O as (a & Hin & Ov).
    unfold rows_at in Hin. apply in_map_iff in Hin. destruct Hin as (i & <- & Hin). specialize (NS i Hin). refine (Far _ _ _ Hm Ov).
    cbn [st1 ag_array st0]. rewrite app_nth1 by lia. apply nth_In. lia. }
  rewrite (PO OV).
  assert (L : (ag_index st1 < length (ag_array st1))%nat) by (cbn [st1 st0 ag_index ag_array]; rewrite app_length; cbn; lia).
  assert (WS : wf (6/10) (store st1 p (to_row k m1))).
  { apply wf_store; [exact W1|exact L|apply Hm|]. intros i ra rb Hi _ _ _. change (ag_kind st1) with k. refine (fun Ov => Far _ _ _ Hm Ov).
    unfold PlacementProofs.row. cbn [st1 st0 ag_array ag_index] in Hi |- *. rewrite app_nth1 by lia. apply nth_In. lia. }
  eexists _, (to_row k m1). split; [reflexivity|]. split; [exact WS|].
  assert (E : upd (ag_array st ++ repeat zero_row 1) (ag_index st) (to_row k m1) = ag_array st ++ [to_row k m1]).
  { rewrite C. change (repeat zero_row 1) with [zero_row]. clear. induction (ag_array st); cbn; congruence. }
  split; [reflexivity|]. cbn [store ag_index ag_array st1 st0]. rewrite E. split; [rewrite app_length; cbn; lia|]. split; [reflexivity|exact Hm].
Qed.

Lemma person_circles k phi p a : sin phi = 0 -> test_person k phi p a -> forall c, In c (body k a) -> vx (fst c) = vx p /\ snd c <= 3/10.
Proof.
  intros Hs (_ & _ & _ & _ & R1 & _ & _ & R2 & R3 & R4 & P & _ & _ & X) c Hc. destruct k; cbn [body] in Hc.
  - destruct Hc as [<-|[]]. cbn [fst snd]. rewrite P, R1. split; [reflexivity|lra].
  - specialize (X eq_refl). unfold xs_of in X. injection X as _ XL XR. rewrite Hs in XL, XR.
    destruct Hc as [<-|[<-|[<-|[]]]]; cbn [fst snd].
    + rewrite P, R2. split; [reflexivity|lra].
    + rewrite XL, R3. cbn [vx]. split; lra.
    + rewrite XR, R3. cbn [vx]. split; lra.
Qed.
Lemma edist_vx a b : Rabs (vx a - vx b) <= edist a b.
Proof.
  unfold edist. rewrite <- sqrt_Rsqr_abs. apply sqrt_le_1_alt. unfold Rsqr. pose proof (pow2_ge_0 (vy a - vy b)). nra.
Qed.
Lemma persons_apart k phi psi p q a b : sin phi = 0 -> sin psi = 0 -> 1 <= Rabs (vx p - vx q) -> test_person k phi p a -> test_person k psi q b ->
  ~ bodies_overlap (body k a) (body k b).
Proof.
  intros S1 S2 D A B (c & d & Hc & Hd & G). destruct (person_circles k phi p a S1 A c Hc) as (X & Y). destruct (person_circles k psi q b S2 B d Hd) as (Z & U).
  unfold gap in G. pose proof (edist_vx (fst c) (fst d)) as E. rewrite X, Z in E. lra.
Qed.
Lemma agents_new_6 k : agents_new k (6/10) = Ok (Agents k 0 [] (BL (6/10) [])).
Proof. unfold agents_new, bl_new. rewrite (proj2 (Rltb_true 0 (6/10))) by lra. reflexivity. Qed.
Lemma movement_crowd_ok zs k : exists st a, test_movement_crowd zs k = Ok st /\ ag_array st = [a] /\ complete st /\ test_person k 0 (V 0 0) a.
Proof.
  pose proof PI_RGT_0. unfold test_movement_crowd. rewrite agents_new_6. cbn [rbind].
  destruct (wf_new k (6/10) _ (agents_new_6 k)) as (W & _ & _).
  destruct (add_one_ok zs 0 (V 0 0) (Agents k 0 [] (BL (6/10) []))) as (st & b & -> & _ & _ & C & A & T); [lra|exact W|reflexivity|intros a b []|].
  exists st, b. auto.
Qed.
Lemma interaction_crowd_ok zs k : exists st a b, test_interaction_crowd zs k = Ok st /\ ag_array st = [a; b] /\ complete st /\
  test_person k 0 (V 0 0) a /\ test_person k PI (V 5 0) b.
Proof.
  pose proof PI_RGT_0. unfold test_interaction_crowd. rewrite agents_new_6. cbn [rbind].
  destruct (wf_new k (6/10) _ (agents_new_6 k)) as (W & _ & _).
  destruct (add_one_ok zs 0 (V 0 0) (Agents k 0 [] (BL (6/10) []))) as (st & a & -> & W1 & K1 & C1 & A1 & T1); [lra|exact W|reflexivity|intros a b []|].
  cbn [rbind]. cbn [ag_kind ag_array app] in K1, A1, T1.
  destruct (add_one_ok zs PI (V 5 0) st) as (st2 & b & -> & _ & _ & C2 & A2 & T2); [lra|exact W1|exact C1| |].
  - rewrite A1, K1. intros x y [<-|[]] Hy. eapply persons_apart; [apply sin_0|apply sin_PI| |exact T1|exact Hy]. cbn [vx]. rewrite Rabs_left; lra.
  - rewrite K1 in T2. rewrite A1 in A2. exists st2, a, b. auto.
Qed.
