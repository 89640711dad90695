(** Proofs about how fast agents can get. *)
From Coq Require Import Lra Lia.
From Verif Require Import Proofs.IntegratorProofs Proofs.InteractionProofs Proofs.PowerLawProofs Proofs.PowerLaw3Proofs Proofs.SimulationMore Proofs.PartProofs Proofs.CollectiveProofs Proofs.SteeringProofs.
From Verif Require Export Proofs.LoneProofs Spec.Limits.
From Verif Require Import Spec.Touches.
Open Scope R_scope.

(** ** Avoidance of others *)
Lemma gap_swap c d : gap c d = gap d c.
Proof. unfold gap. rewrite (edist_sym (fst c)). ring. Qed.
Lemma pair_capped k ai aj p : 0 <= a_radius ai -> 0 <= a_radius aj -> ~ bodies_overlap (body k ai) (body k aj) -> pair_push k ai aj = Ok p ->
  vlength (fst (fst p)) <= 2000 /\ vlength (fst (snd p)) <= 2000.
Proof.
  intros Ri Rj N. assert (Z : vlength (fst dzero) <= 2000) by (rewrite <- elen_vlength; apply zero_cap).
  destruct k; unfold pair_push.
  - unfold pair_forces_circular. pose proof (distance_circles_fst (a_position ai) (a_radius ai) (a_position aj) (a_radius aj)) as E.
    destruct (distance_circles _ _ _ _) as [h n]. cbn [fst] in E. subst h. destruct (Rltb _ SIGTH_SOC); cbn [rbind]; [|intros [= <-]; auto].
    destruct (force_social_circular ai aj) as [[fi fj]|] eqn:F; cbn [rbind]; [|discriminate].
    unfold with_contact. rewrite (proj2 (Rltb_false _ 0)).
    + intros [= <-]. cbn [fst snd]. rewrite <- !elen_vlength. exact (fsc_cap ai aj fi fj Ri Rj F).
    + apply Rnot_lt_le. intros L. apply N. exists (a_position ai, a_radius ai), (a_position aj, a_radius aj). split; [now left|]. split; [now left|exact L].
  - unfold pair_forces_three_circle.
    destruct (distance_three_circles_spec (xs_of ai) (rs_of ai) (xs_of aj) (rs_of aj)) as (h & n & m0 & m1 & i & j & Hi & Hj & E & Eh & _).
    rewrite E. destruct (Rltb h SIGTH_SOC); cbn [rbind]; [|intros [= <-]; auto].
    destruct (force_social_three_circle ai aj) as [[fi fj]|] eqn:F; cbn [rbind]; [|discriminate].
    unfold with_contact. rewrite (proj2 (Rltb_false h 0)).
    + intros [= <-]. cbn [fst snd]. rewrite <- !elen_vlength. exact (three_circle_cap ai aj fi fj F).
    + apply Rnot_lt_le. intros L. apply N. subst h. eexists _, _. split; [apply (tget_body ai i Hi)|]. split; [apply (tget_body aj j Hj)|exact L].
Qed.
Lemma sight_dec k a b : (exists c d, In c (body k a) /\ In d (body k b) /\ gap c d < 3) \/ (forall c d, In c (body k a) -> In d (body k b) -> 3 <= gap c d).
Proof.
  generalize (body k a) as l. induction l as [|c l IH]; [right; intros c d []|].
  destruct IH as [(c' & d & Hc & Hd & G)|F]; [left; exists c', d; split; [now right|auto]|].
  assert (X : (exists d, In d (body k b) /\ gap c d < 3) \/ (forall d, In d (body k b) -> 3 <= gap c d)).
  { generalize (body k b) as l'. induction l' as [|d l' [(d' & Hd & G)|G]]; [right; intros d []|left; exists d'; split; [now right|auto]|].
    destruct (Rlt_dec (gap c d) 3); [left; exists d; split; [now left|auto]|right; intros d' [<-|H]; [lra|auto]]. }
  destruct X as [(d & Hd & G)|G]; [left; exists c, d; split; [now left|auto]|]. right. intros c' d [<-|H]; auto.
Qed.
Lemma total_capped k agents m am : nth_error agents m = Some am -> Forall (fun a => 0 <= a_radius a) agents -> touches_nobody k agents m ->
  forall pairs d, NoDup (map orient pairs) -> (forall i j, In (i, j) pairs -> i <> j) -> total k agents pairs = Ok d ->
  exists js, NoDup js /\ (forall j, In j js -> in_sight k agents m j /\ (In (m, j) pairs \/ In (j, m) pairs)) /\ vlength (fst (d m)) <= INR (length js) * 2000.
Proof.
  intros Hm RR T. rewrite Forall_forall in RR. induction pairs as [|[i j] pairs IH]; intros d ND NE E; cbn [total] in E.
  { injection E as <-. exists []. split; [constructor|]. split; [intros j []|]. cbn. rewrite (proj2 (vlength_zero vzero)); lra || auto. }
  destruct (delta k agents (i, j)) as [d1|] eqn:E1; [|discriminate]. cbn [rbind] in E. destruct (total k agents pairs) as [d2|] eqn:E2; [|discriminate]. injection E as <-.
  cbn [map] in ND. inversion ND as [|? ? NI ND']; subst. destruct (IH d2 ND' (fun i j H => NE i j (or_intror H)) eq_refl) as (js & NJ & J & B).
  pose proof (NE i j (or_introl eq_refl)) as Nij.
  unfold delta in E1. cbn [fst snd] in E1. destruct (nth_error agents i) as [ai|] eqn:Ei; [|discriminate]. destruct (nth_error agents j) as [aj|] eqn:Ej; [|discriminate].
  destruct (pair_push k ai aj) as [p|] eqn:P; [|discriminate]. injection E1 as <-.
  assert (Ri : 0 <= a_radius ai) by (apply RR, (nth_error_In _ _ Ei)). assert (Rj : 0 <= a_radius aj) by (apply RR, (nth_error_In _ _ Ej)).
  assert (KEEP : forall v, fst v = vzero -> vlength (fst (dadd v (d2 m))) <= INR (length js) * 2000).
  { intros v Hv. unfold dadd. cbn [fst]. rewrite Hv. replace (vadd vzero (fst (d2 m))) with (fst (d2 m)); [exact B|]. veq; ring. }
  assert (OUT : forall x, (m = i /\ x = j) \/ (m = j /\ x = i) -> ~ In x js).
  { intros x Hx Hin. destruct (J x Hin) as [_ Hp]. apply NI.
    replace (orient (i, j)) with (orient (m, x)). - destruct Hp as [Hp|Hp]; [now apply (in_map orient)|].
      replace (orient (m, x)) with (orient (x, m)); [now apply (in_map orient)|]. unfold orient. cbn [fst snd]. destruct (Nat.ltb_spec x m), (Nat.ltb_spec m x); try (exfalso; lia); try reflexivity; assert (x = m) by lia; now subst.
    - destruct Hx as [[-> ->]|[-> ->]]; auto. unfold orient. cbn [fst snd]. destruct (Nat.ltb_spec j i), (Nat.ltb_spec i j); try (exfalso; lia); try reflexivity. }
  unfold on. cbn [fst snd]. destruct (Nat.eqb_spec m i) as [->|Mi].
  - rewrite (proj2 (Nat.eqb_neq i j) Nij). rewrite dadd_zero. rewrite Hm in Ei. injection Ei as <-.
    destruct (sight_dec k am aj) as [(c & d & Hc & Hd & G)|F].
    + exists (j :: js). split; [constructor; auto|]. split.
      * intros x [<-|Hx]; [|destruct (J x Hx) as [S [H|H]]; split; auto; [left|right]; now right]. split; [|left; now left].
        split; [auto|]. exists am, aj, c, d. auto.
      * cbn [length]. rewrite S_INR. unfold dadd. cbn [fst]. eapply Rle_trans; [apply vlength_triangle|].
        destruct (pair_capped k am aj p Ri Rj) as [C _]; auto; [|lra]. apply (T am j aj); auto.
    + rewrite (pair_far k am aj F) in P. injection P as <-. cbn [fst]. exists js. split; auto. split; [|now apply KEEP].
      intros x Hx. destruct (J x Hx) as [S [H|H]]; split; auto; [left|right]; now right.
  - destruct (Nat.eqb_spec m j) as [->|Mj].
    + rewrite Hm in Ej. injection Ej as <-. rewrite (dadd_comm dzero), dadd_zero.
      destruct (sight_dec k ai am) as [(c & d & Hc & Hd & G)|F].
      * exists (i :: js). split; [constructor; auto|]. split.
        -- intros x [<-|Hx]; [|destruct (J x Hx) as [S [H|H]]; split; auto; [left|right]; now right]. split; [|right; now left].
           split; [auto|]. exists am, ai, d, c. rewrite gap_swap. auto 8.
        -- cbn [length]. rewrite S_INR. unfold dadd. cbn [fst]. eapply Rle_trans; [apply vlength_triangle|].
           destruct (pair_capped k ai am p Ri Rj) as [_ C]; auto; [|lra].
           intros (c' & d' & Hc' & Hd' & L). apply (T am i ai Hm Ei Nij). exists d', c'. rewrite gap_swap. auto.
      * rewrite (pair_far k ai am F) in P. injection P as <-. cbn [snd]. exists js. split; auto. split; [|now apply KEEP].
        intros x Hx. destruct (J x Hx) as [S [H|H]]; split; auto; [left|right]; now right.
    + exists js. split; auto. split; [intros x Hx; destruct (J x Hx) as [S [H|H]]; split; auto; [left|right]; now right|]. apply KEEP. cbn. veq; ring.
Qed.

(** ** Rows of the nodes *)
Lemma at_index {B} (p : agent -> B) l l' i a : map p l' = map p l -> nth_error l i = Some a -> exists b, nth_error l' i = Some b /\ p b = p a.
Proof.
  intros M H. apply (f_equal (fun q => nth_error q i)) in M. rewrite !nth_error_map, H in M. destruct (nth_error l' i) as [b|]; [|discriminate]. exists b. now injection M.
Qed.
Lemma forall2_at {A B} (R : A -> B -> Prop) l l' i a : Forall2 R l l' -> nth_error l i = Some a -> exists b, nth_error l' i = Some b /\ R a b.
Proof. intros F. revert i. induction F; intros [|i] H'; cbn in *; try discriminate; [injection H' as <-; eauto|eauto]. Qed.
Definition directed (a : agent) : Prop := vlength (a_target_direction a) <= 1.
Lemma adjust_at e s s' i a : run_node e Adjusting s = Ok s' -> nth_error (s_agents s) i = Some a -> exists b, nth_error (s_agents s') i = Some b /\
  a_force b = vadd (a_force a) (vscale (a_mass a / a_tau_adj a) (vsub (vscale (a_target_velocity a) (a_target_direction a)) (a_velocity a))).
Proof.
  cbn [run_node]. unfold adjust. destruct (looped (force_adjust_agents (s_agents s))) as [l|] eqn:F; [|discriminate]. cbn [rbind].
  apply looped_rows in F. intros E H. destruct (forall2_at _ _ _ i a F H) as (b & Hb & Eb). unfold force_adjust_row, force_adjust in Eb.
  destruct (Reqb (a_tau_adj a) 0); [discriminate|]. cbn [rbind] in Eb. injection Eb as <-.
  destruct (is_model (e_kind e) ThreeCircle).
  - destruct (looped (torque_adjust_agents l)) as [l'|] eqn:T; [|discriminate]. apply looped_rows in T. cbn [rbind] in E. injection E as <-. cbn [s_agents with_agents].
    destruct (forall2_at _ _ _ i _ T Hb) as (c & Hc & Ec). exists c. split; auto. unfold torque_adjust_row, torque_adjust in Ec. destruct (Reqb _ 0); [discriminate|]. cbn [rbind] in Ec. injection Ec as <-. reflexivity.
  - injection E as <-. eexists. split; [exact Hb|reflexivity].
Qed.
Lemma fluctuate_at e s s' i a : run_node e Fluctuation s = Ok s' -> nth_error (s_agents s) i = Some a -> exists b d, nth_error (s_agents s') i = Some b /\
  d = e_draws e (s_draws s) i /\ a_force b = vadd (a_force a) (force_fluctuation1 (a_mass a) (a_std_rand_force a) (fst (fst d)) (snd (fst d))).
Proof.
  cbn [run_node]. intros [= <-] H. cbn [s_agents]. rewrite (SimulationMore.fluctuate_nth _ _ _ 0 i a H). cbn [Nat.add]. destruct (e_draws e (s_draws s) i) as [[phi z] zt] eqn:D.
  eexists _, (phi, z, zt). split; [reflexivity|]. split; auto. unfold fluctuate_row. destruct (e_kind e); reflexivity.
Qed.
Lemma aa_at e s s' i a n : run_node e (AgentAgentInteractions aa_node_default) s = Ok s' -> (forall ps c, good_enumeration ps c (e_enum e ps c)) ->
  nth_error (s_agents s) i = Some a -> Forall (fun a => 0 <= a_radius a) (s_agents s) -> touches_nobody (e_kind e) (s_agents s) i -> company (e_kind e) (s_agents s) i n ->
  exists b f, nth_error (s_agents s') i = Some b /\ a_force b = vadd (a_force a) f /\ vlength f <= INR n * 2000.
Proof.
  cbn [run_node]. unfold aa_node_update, agent_agent_block_list. intros E G H RR T C.
  destruct (G (map a_position (s_agents s)) (node_cell_size aa_node_default)) as (G1 & G2 & _). set (pairs := e_enum e _ _) in *.
  rewrite agent_agent_over, over_total in E. destruct (total (e_kind e) (s_agents s) pairs) as [d|] eqn:D; [|discriminate]. cbn [rbind] in E. injection E as <-.
  destruct (total_capped (e_kind e) (s_agents s) i a H RR T pairs d G2) as (js & N & J & B); auto. { intros x y Hxy. apply (G1 x y Hxy). }
  exists (push (d i) a), (fst (d i)). cbn [s_agents with_agents]. rewrite push_all_nth, H. split; [reflexivity|]. split; [apply push_force|].
  eapply Rle_trans; [exact B|]. apply Rmult_le_compat_r; [lra|]. apply le_INR. apply C; auto. intros j Hj. apply (J j Hj).
Qed.
Lemma walls_at e s s' i a : run_node e AgentObstacleInteractions s = Ok s' -> nth_error (s_agents s) i = Some a -> touches_no_wall (e_kind e) (e_obstacles e) (s_agents s) i ->
  nth_error (s_agents s') i = Some a.
Proof.
  cbn [run_node]. intros [= <-] H T. cbn [s_agents with_agents]. destruct (forall2_at _ _ _ i a (agent_obstacle_rows (e_kind e) (s_agents s) (e_obstacles e)) H) as (b & Hb & _ & K).
  rewrite K in Hb; [exact Hb|]. intros o Ho N. exact (T a o H Ho N).
Qed.
Lemma integrator_at e s s' i a : run_node e integrator s = Ok s' -> nth_error (s_agents s) i = Some a ->
  a_mass a <> 0 /\ nth_error (s_agents s') i = Some (moved_row (e_kind e) DT a) /\ s_dt s' = DT.
Proof.
  unfold integrator. cbn [run_node]. unfold velocity_verlet_integrator. rewrite timestep_fixed. cbn [rbind]. cbv zeta. intros E H.
  assert (X : forall g, all_finite (map (option_map g) (map (translational_verlet DT) (s_agents s))) = Ok (s_agents s') -> a_mass a <> 0 /\ nth_error (s_agents s') i = Some (g (verlet_row DT a))).
  { intros g F. pose proof (all_finite_nth _ _ F i) as N. rewrite !nth_error_map, H in N. cbn [option_map] in N. unfold translational_verlet in N.
    assert (L : (i < length (s_agents s'))%nat).
    { assert (length (s_agents s') = length (s_agents s)); [|rewrite H0; apply nth_error_Some; congruence].
      clear - F. revert F. generalize (s_agents s') as l'. induction (s_agents s) as [|b l IH]; intros l'; cbn [map all_finite]; [now intros [= <-]|].
      destruct (option_map g (translational_verlet DT b)); [|discriminate]. destruct (all_finite _) as [l1|]; [|discriminate]. cbn [rbind]. intros [= <-]. cbn. f_equal. now apply IH. }
    apply nth_error_Some in L. destruct (Reqb (a_mass a) 0) eqn:M; [cbn in N; congruence|]. apply Reqb_false in M. split; auto. }
  unfold moved_row. destruct (e_kind e).
  - cbn [rbind fst snd] in E. destruct (all_finite _) as [l|] eqn:F; [|discriminate]. cbn [rbind] in E. injection E as <-. cbn [s_agents s_dt] in *.
    destruct (X (fun a => a)) as [X1 X2]; [|auto]. rewrite <- F. f_equal. rewrite map_map. apply map_ext. intros b. now destruct (translational_verlet DT b).
  - destruct (needs_inertia _); [discriminate|]. cbn [rbind fst snd] in E. destruct (all_finite _) as [l|] eqn:F; [|discriminate]. cbn [rbind] in E. injection E as <-. cbn [s_agents s_dt] in *.
    destruct (X _ F) as [X1 X2]. auto.
Qed.

(** ** Directions *)
Lemma nav_directed nav ts : forall r r', (forall t m dir, In t ts -> nav t = Ok (m, dir) -> forall i j d, (i < rows dir)%nat -> (j < cols dir)%nat -> at_ dir i j = Some d -> elen d <= 1) ->
  navigate_all nav ts r = Ok r' -> (forall a, In (Some a) r -> directed a) -> (forall a, In (Some a) r' -> directed a).
Proof.
  induction ts as [|t ts IH]; intros r r' M E D; cbn [navigate_all] in E; [now injection E as <-|].
  destruct (navigate_target nav t r) as [r1|] eqn:E1; [|discriminate]. cbn [rbind] in E. apply (IH r1 r'); auto. { intros; eapply M; eauto. now right. }
  destruct (nav t) as [[m dir]|] eqn:N.
  - rewrite (navigate_target_ok nav t r m dir N) in E1. injection E1 as <-. intros a Ha. apply in_map_iff in Ha as ([b|] & Eb & Hb); [|discriminate].
    pose proof (D b Hb) as Db. unfold nav_row in Eb. destruct (Z.eqb (a_target b) t); [|now injection Eb as <-]. destruct (indicer m (a_position b)) as [c w].
    destruct (is_inside w c (rows dir) (cols dir)) eqn:I.
    + destruct (at_ dir (Z.to_nat w) (Z.to_nat c)) as [d|] eqn:A; [|discriminate]. cbn in Eb. injection Eb as <-. unfold directed. cbn [a_target_direction set_target_direction].
      rewrite <- elen_vlength. unfold is_inside in I. rewrite !Bool.andb_true_iff, !Z.leb_le, !Z.ltb_lt in I. assert ((Z.to_nat w < rows dir)%nat /\ (Z.to_nat c < cols dir)%nat) as [I1 I2] by lia. exact (M t m dir (or_introl eq_refl) N _ _ _ I1 I2 A).
    + injection Eb as <-. exact Db.
  - unfold navigate_target in E1. destruct r as [|y r]; [injection E1 as <-; intros a []|]. rewrite N in E1. discriminate.
Qed.
Lemma all_finite_in r : forall l, all_finite r = Ok l -> forall a, In a l -> In (Some a) r.
Proof.
  intros l E a Ha. apply In_nth_error in Ha as [i Hi]. rewrite (all_finite_nth _ _ E i) in Hi. destruct (nth_error r i) as [[b|]|] eqn:N; try discriminate. injection Hi as <-. apply (nth_error_In _ _ N).
Qed.
Lemma unit_or_zero v : vlength (normalize v) <= 1.
Proof. destruct (vzero_dec v) as [->|N]; [rewrite normalize_zero, (proj2 (vlength_zero vzero)); lra || auto|rewrite normalize_unit; auto; lra]. Qed.
Lemma follow_directed (P : vec -> Prop) step fs : (forall i s s', step i s = Ok s' -> Forall P (lf_direction s) -> Forall P (lf_direction s')) ->
  forall s s', follow_all step fs s = Ok s' -> Forall P (lf_direction s) -> Forall P (lf_direction s').
Proof.
  intros H. induction fs as [|i fs IH]; intros s s' E D; cbn [follow_all] in E; [now injection E as <-|]. destruct (step i s) as [s1|] eqn:S; [|discriminate]. cbn [rbind] in E. eauto.
Qed.
Lemma forall_upd {A} (P : A -> Prop) l : forall i x, Forall P l -> P x -> Forall P (upd l i x).
Proof. induction l as [|y l IH]; intros [|i] x F H; cbn; auto; inversion F; subst; constructor; auto. Qed.
Lemma brute_directed asort fo le ps vs w phi ts ils obs sight s : leader_follower_interaction_brute asort fo le ps vs w phi ts ils obs sight = Ok s -> Forall (fun d => vlength d <= 1) (lf_direction s).
Proof.
  unfold leader_follower_interaction_brute. intros E. eapply follow_directed; [|exact E|].
  - intros i s1 s2. unfold follow_one. cbv zeta. destruct (choose_leader _ _ _ _ _ _ _ _ _ _) as [j| |].
    + intros [= <-] F. cbn [lf_direction]. apply forall_upd; auto. apply unit_or_zero.
    + unfold copy_target. destruct (if (_ <? 0)%Z then None else _); [|discriminate]. now intros [= <-].
    + destruct (negb _); [|now intros [= <-]]. unfold copy_target. destruct (if (_ <? 0)%Z then None else _); [|discriminate]. now intros [= <-].
  - cbn [lf_direction]. apply Forall_forall. intros d Hd. apply in_map_iff in Hd as (? & <- & _). rewrite (proj2 (vlength_zero vzero)); lra || auto.
Qed.
Lemma set_directed l : forall ds, Forall directed l -> Forall (fun d => vlength d <= 1) ds -> Forall directed (set_follower_directions l ds).
Proof.
  unfold set_follower_directions. intros ds L D. apply Forall_forall. intros a Ha. apply in_map_iff in Ha as ((b & d) & <- & Hb).
  rewrite Forall_forall in L, D. destruct (a_is_follower b); [apply (D d), (in_combine_r _ _ _ _ Hb)|apply (L b), (in_combine_l _ _ _ _ Hb)].
Qed.
Lemma put_directed l s h : Forall directed l -> Forall directed (use_familiar (put_lf l s) h).
Proof.
  intros L. rewrite Forall_forall in L. apply Forall_forall. intros a Ha. unfold use_familiar in Ha. apply in_map_iff in Ha as ((b & hb) & <- & Hb).
  apply in_combine_l in Hb. unfold put_lf in Hb. apply in_map_iff in Hb as ((c & (t & il)) & <- & Hc). apply in_combine_l in Hc. specialize (L c Hc). destruct (negb hb && _); exact L.
Qed.
Lemma node_directed e n s s' : maps_of_directions e -> run_node e n s = Ok s' -> Forall directed (s_agents s) -> Forall directed (s_agents s').
Proof.
  intros M E D. assert (K : (forall c, In c (writes n) -> unaffected c a_target_direction) -> Forall directed (s_agents s')).
  { intros U. pose proof (node_keeps a_target_direction e n s s' U E) as Q. rewrite Forall_forall in *. intros a Ha. apply (in_map a_target_direction) in Ha. rewrite Q in Ha.
    apply in_map_iff in Ha as (b & Eb & Hb). unfold directed. rewrite <- Eb. exact (D b Hb). }
  destruct n; try (solve [apply K; intros c Hc; cbn in Hc; repeat (destruct Hc as [<-|Hc]; [now intros ? ?|]); destruct Hc]); clear K; cbn [run_node] in E.
  - destruct (navigation_node _ _ _) as [r|] eqn:N; [|discriminate]. cbn [rbind] in E. destruct (all_finite r) as [l|] eqn:F; [|discriminate]. cbn [rbind] in E. injection E as <-. cbn [s_agents with_agents].
    apply Forall_forall. intros a Ha. apply (all_finite_in _ _ F) in Ha. unfold navigation_node in N. eapply nav_directed; [|exact N| |exact Ha].
    + intros t m dir _ Et. exact (M _ _ _ _ _ _ Et).
    + intros b Hb. apply in_map_iff in Hb as (c & [= <-] & Hc). rewrite Forall_forall in D. auto.
  - unfold leader_follower_node, leader_follower_interaction in E. destruct (leader_follower_interaction_brute _ _ _ _ _ _ _ _ _ _ _) as [l|] eqn:B; [|discriminate]. cbn [rbind fst snd] in E. injection E as <-. cbn [s_agents with_agents].
    apply set_directed; [now apply put_directed|]. exact (brute_directed _ _ _ _ _ _ _ _ _ _ _ _ B).
  - unfold leader_follower_with_herding_node, leader_follower_with_herding_interaction in E. destruct (find_nearest_neighbors _ _ _ _ _) as [nb|]; [|discriminate]. cbn [rbind] in E. cbv zeta in E.
    destruct (leader_follower_interaction_brute _ _ _ _ _ _ _ _ _ _ _) as [l|] eqn:B; [|discriminate]. cbn [rbind fst snd] in E. injection E as <-. cbn [s_agents with_agents].
    apply set_directed; [apply put_directed|].
    + apply Forall_forall. intros a Ha. apply in_map_iff in Ha as ((b & (d & h)) & <- & Hb). apply in_combine_l in Hb. rewrite Forall_forall in D. specialize (D b Hb). destruct h; exact D.
    + unfold normalize_nx2. apply Forall_forall. intros d Hd. apply in_map_iff in Hd as (v & <- & _). apply unit_or_zero.
Qed.
