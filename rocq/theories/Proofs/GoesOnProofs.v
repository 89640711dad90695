(** * Properly set up simulations go on *)
From Verif Require Import Model.Simulation Proofs.IntegratorProofs Spec.GoesOn Spec.Runs Proofs.RunProofs Spec.Touches Proofs.VecLemmas Proofs.ListLemmas Proofs.CollectiveProofs Proofs.MotionProofs Proofs.SteeringProofs Proofs.PartProofs
  Proofs.SimulationProofs Proofs.SimulationMore Proofs.PlacementProofs Proofs.CrowdProofs Proofs.CrowdApart.
From Coq Require Import Lra Lia.
Open Scope R_scope.

(** ** Rows *)
Lemma fst_combine {A B} (l : list A) : forall (l' : list B), length l' = length l -> map fst (combine l l') = l.
Proof. induction l as [|a l IH]; intros [|b l'] L; try discriminate; [reflexivity|]. cbn. f_equal. apply IH. cbn in L. lia. Qed.
Definition known (n : nat) (l : Z) : Prop := l = (-1)%Z \/ (0 <= l < Z.of_nat n)%Z.
Definition divisors (a : agent) := (a_mass a, a_tau_adj a, a_tau_0 a, a_inertia_rot a, a_tau_rot a).
Definition sturdy (k : kind) (d : R * R * R * R * R) : Prop :=
  let '(m, ta, t0, ir, tr) := d in m <> 0 /\ ta <> 0 /\ t0 <> 0 /\ (k = ThreeCircle -> ir <> 0 /\ tr <> 0).
Lemma fit_parts k n a : fit k n a <-> sturdy k (divisors a) /\ known n (a_index_leader a).
Proof. unfold fit, sturdy, divisors, known. tauto. Qed.
Lemma fit_list k n l : Forall (fit k n) l <-> Forall (sturdy k) (map divisors l) /\ Forall (known n) (map a_index_leader l).
Proof.
  rewrite !Forall_map. split.
  - intros F. split; eapply Forall_impl; try exact F; intros a H; now apply fit_parts in H.
  - intros [A B]. rewrite Forall_forall in *. intros a I. apply fit_parts. auto.
Qed.

Lemma loop_goes f l : (forall a, In a l -> exists a', f a = Ok a') -> exists l', loop_rows f l = (None, l') /\ Forall2 (fun a a' => f a = Ok a') l l'.
Proof.
  induction l as [|a l IH]; intros H; [exists []; split; auto|]. destruct (H a) as (a' & E); [now left|]. destruct IH as (l' & E' & F); [intros b I; apply H; now right|].
  exists (a' :: l'). cbn [loop_rows]. rewrite E, E'. split; auto.
Qed.

Lemma timestep_goes l dt_min dt_max : exists dt, adaptive_timestep l dt_min dt_max = Ok dt.
Proof.
  unfold adaptive_timestep. destruct (Reqb_spec (v_max l) 0) as [|E]; [eauto|]. destruct (np_max (map a_target_velocity l)) as [m|] eqn:Em; [|exfalso; destruct l; [now apply E|discriminate]].
  cbv zeta. destruct (Rltb _ _); [eauto|]. destruct (Rltb _ _); eauto.
Qed.

(** ** Pairs *)
Lemma over_goes k pairs : forall agents, Forall (fun a => a_tau_0 a <> 0) agents -> (forall i j, In (i, j) pairs -> (i < length agents)%nat /\ (j < length agents)%nat) ->
  exists agents', agent_agent k pairs agents = Ok agents'.
Proof.
  assert (Sf : forall ai aj g t, a_tau_0 ai <> 0 -> a_tau_0 aj <> 0 -> exists r, social_forces ai aj g t = Ok r).
  { intros ai aj g t H1 H2. unfold social_forces, magnitude. rewrite (proj2 (Reqb_false (a_tau_0 ai) 0) H1), (proj2 (Reqb_false (a_tau_0 aj) 0) H2). cbn [rbind]. eauto. }
  assert (Len : forall i f (l : list agent), length (modify i f l) = length l) by (intros i f l; unfold modify; destruct (nth_error l i); [apply upd_length|reflexivity]).
  assert (Kp : forall i f (l : list agent), (forall a, a_tau_0 (f a) = a_tau_0 a) -> Forall (fun a => a_tau_0 a <> 0) l -> Forall (fun a => a_tau_0 a <> 0) (modify i f l)).
  { intros i f l Hf F. unfold modify. destruct (nth_error l i) as [a|] eqn:E; [|exact F]. rewrite Forall_forall in *. intros b I. apply NeighborProofs.upd_in in I. destruct I as [-> | I]; [rewrite Hf; apply F; now apply nth_error_In in E|auto]. }
  induction pairs as [|[i j] pairs IH]; intros agents F P; [exists agents; now destruct k|].
  destruct (P i j) as [Li Lj]; [now left|]. apply nth_error_Some in Li. apply nth_error_Some in Lj.
  destruct (nth_error agents i) as [ai|] eqn:Ei; [clear Li|now destruct Li]. destruct (nth_error agents j) as [aj|] eqn:Ej; [clear Lj|now destruct Lj].
  assert (Ti : a_tau_0 ai <> 0) by (rewrite Forall_forall in F; apply F; now apply nth_error_In in Ei). assert (Tj : a_tau_0 aj <> 0) by (rewrite Forall_forall in F; apply F; now apply nth_error_In in Ej).
  assert (X : exists l1, (match k with Circular => interaction_agent_agent_circular i j agents | ThreeCircle => interaction_agent_agent_three_circle i j agents end) = Ok l1 /\ length l1 = length agents /\ Forall (fun a => a_tau_0 a <> 0) l1).
  { destruct k.
    - unfold interaction_agent_agent_circular. rewrite Ei, Ej. unfold pair_forces_circular. destruct (distance_circles _ _ _ _) as [h n]. destruct (Rltb h SIGTH_SOC); cbn [rbind]; [|eauto].
      assert (Y : exists r, force_social_circular ai aj = Ok r). { unfold force_social_circular. cbv zeta. destruct (coeff_d _ _ _); [|eauto]. destruct (_ || _)%bool; [eauto|]. destruct (_ || _)%bool; [eauto|]. now apply Sf. }
      destruct Y as [r ->]. cbn [rbind]. destruct (with_contact h n ai aj r) as [fi fj]. eexists. split; [reflexivity|]. rewrite !Len. split; [reflexivity|]. apply Kp; [reflexivity|]. apply Kp; [reflexivity|]. exact F.
    - unfold interaction_agent_agent_three_circle. rewrite Ei, Ej. unfold pair_forces_three_circle. destruct (distance_three_circles _ _ _ _) as [[[h n] mi] mj]. destruct h as [h|]; cbn [rbind]; [|eauto]. destruct (Rltb h SIGTH_SOC); cbn [rbind]; [|eauto].
      assert (Y : exists r, force_social_three_circle ai aj = Ok r). { unfold force_social_three_circle. cbv zeta. destruct (Reqb _ 0); [eauto|]. destruct (ts_best _) as [[[tau b] d]|]; [|eauto]. destruct (Rleb tau 0); [eauto|]. now apply Sf. }
      destruct Y as [r ->]. cbn [rbind]. destruct (with_contact h n ai aj r) as [fi fj]. cbn [rbind]. eexists. split; [reflexivity|]. rewrite !Len. split; [reflexivity|]. do 4 (apply Kp; [reflexivity|]). exact F. }
  destruct X as (l1 & E1 & L1 & F1). destruct (IH l1 F1) as (l2 & E2); [intros a b I; rewrite L1; apply P; now right|]. exists l2.
  destruct k; cbn [agent_agent over_pairs] in *; rewrite E1; exact E2.
Qed.

(** ** Directions *)
Lemma navigate_goes nav ts : forall l, (forall t, In t ts -> exists m dir, nav t = Ok (m, dir) /\ forall i j, (i < rows dir)%nat -> (j < cols dir)%nat -> at_ dir i j <> None) ->
  exists l', navigate_all nav ts (map Some l) = Ok (map Some l').
Proof.
  induction ts as [|t ts IH]; intros l H; [exists l; reflexivity|]. destruct (H t) as (m & dir & E & D); [now left|]. cbn [navigate_all]. rewrite (navigate_target_ok nav t _ m dir E). cbn [rbind].
  assert (X : exists l1, map (nav_row m dir t) (map Some l) = map Some l1).
  { clear IH H E. induction l as [|a l [l1 IH]]; [exists []; reflexivity|]. cbn [map]. rewrite IH. unfold nav_row at 1. destruct (Z.eqb (a_target a) t); [|exists (a :: l1); reflexivity].
    destruct (indicer m (a_position a)) as [c w]. destruct (is_inside w c (rows dir) (cols dir)) eqn:I; [|eexists (_ :: l1); reflexivity].
    unfold is_inside in I. rewrite !Bool.andb_true_iff, !Z.leb_le, !Z.ltb_lt in I. specialize (D (Z.to_nat w) (Z.to_nat c)). destruct (at_ dir (Z.to_nat w) (Z.to_nat c)) as [d|]; [eexists (_ :: l1); reflexivity|]. exfalso. apply D; lia || reflexivity. }
  destruct X as [l1 ->]. apply IH. intros u I. apply H. now right.
Qed.

(** ** Leaders *)
Lemma chosen_leader position velocity phi os sight i rem leaders d order j : choose_leader position velocity phi os sight i rem leaders d order = FollowLeader j -> In j leaders.
Proof.
  induction order as [|m order IH]; cbn; [discriminate|]. cbv zeta. destruct (Rltb sight (d m)); [exact IH|]. destruct (nth_error leaders m) as [j'|] eqn:E; [|exact IH].
  destruct (is_obstacle_between_points _ _ _); [destruct (_ && _)%bool; [discriminate|exact IH]|]. destruct (fst _); [|exact IH]. intros [= <-]. now apply nth_error_In in E.
Qed.
Lemma hidden_leader position velocity phi os sight i rem leaders d order : choose_leader position velocity phi os sight i rem leaders d order = LeaderHidden -> rem <> (-1)%Z.
Proof.
  induction order as [|m order IH]; cbn; [discriminate|]. cbv zeta. destruct (Rltb sight (d m)); [exact IH|]. destruct (nth_error leaders m) as [j'|] eqn:E; [|exact IH].
  destruct (is_obstacle_between_points _ _ _); [|destruct (fst _); [discriminate|exact IH]]. destruct (_ && _)%bool eqn:A; [|exact IH]. intros _ ->. now rewrite Bool.andb_true_iff in A.
Qed.
Lemma copy_goes n s i l : length (lf_target s) = n -> known n l -> l <> (-1)%Z -> exists s', copy_target s i l = Ok s' /\ lf_leader s' = lf_leader s.
Proof.
  intros L K N. destruct K as [K|K]; [contradiction|]. unfold copy_target. destruct (Z.ltb_spec l 0); [lia|].
  assert (X : nth_error (lf_target s) (Z.to_nat l) <> None) by (apply nth_error_Some; lia). destruct (nth_error (lf_target s) (Z.to_nat l)); [|contradiction]. eexists. split; reflexivity.
Qed.
Lemma known_nth n l i : Forall (known n) l -> known n (nth i l NO_LEADER).
Proof. intros F. destruct (nth_in_or_default i l NO_LEADER) as [I| ->]; [rewrite Forall_forall in F; auto|now left]. Qed.
Lemma follow_goes n ar position velocity w phi os sight leaders i s : lf_sized n s -> Forall (known n) (lf_leader s) -> (forall j, In j leaders -> (j < n)%nat) ->
  exists s', follow_one ar position velocity w phi os sight leaders i s = Ok s' /\ lf_sized n s' /\ Forall (known n) (lf_leader s').
Proof.
  intros Z K L. assert (X : exists s', follow_one ar position velocity w phi os sight leaders i s = Ok s' /\ Forall (known n) (lf_leader s')).
  { unfold follow_one. cbv zeta. pose proof (known_nth n (lf_leader s) i K) as Kn. destruct (choose_leader _ _ _ _ _ _ _ _ _ _) as [j| |] eqn:C.
    - eexists. split; [reflexivity|]. cbn [lf_leader]. apply chosen_leader, L in C. rewrite Forall_forall in *. intros x I. apply NeighborProofs.upd_in in I. destruct I as [-> | I]; [right; lia|auto].
    - apply hidden_leader in C. destruct (copy_goes n s i _ (proj1 Z) Kn C) as (s' & -> & E). exists s'. split; [reflexivity|]. now rewrite E.
    - destruct (nth i (lf_leader s) NO_LEADER =? NO_LEADER)%Z eqn:N; cbn [negb]; [eauto|]. apply Z.eqb_neq in N. destruct (copy_goes n s i _ (proj1 Z) Kn N) as (s' & -> & E). exists s'. split; [reflexivity|]. now rewrite E. }
  destruct X as (s' & E & K'). exists s'. split; [exact E|]. split; [|exact K']. eapply follow_one_sized; eauto.
Qed.
Lemma follow_all_goes n step : (forall i s, lf_sized n s -> Forall (known n) (lf_leader s) -> exists s', step i s = Ok s' /\ lf_sized n s' /\ Forall (known n) (lf_leader s')) ->
  forall is s, lf_sized n s -> Forall (known n) (lf_leader s) -> exists s', follow_all step is s = Ok s' /\ lf_sized n s' /\ Forall (known n) (lf_leader s').
Proof.
  intros H. induction is as [|i is IH]; intros s Z K; [exists s; cbn; auto|]. destruct (H i s Z K) as (s1 & E & Z1 & K1). cbn [follow_all]. rewrite E. cbn [rbind]. now apply IH.
Qed.
Lemma brute_goes ar fo ld position velocity w phi tg il os sight n : length ld = n -> length tg = n -> length il = n -> length position = n -> Forall (known n) il ->
  exists s, leader_follower_interaction_brute ar fo ld position velocity w phi tg il os sight = Ok s /\ lf_sized n s /\ Forall (known n) (lf_leader s).
Proof.
  intros L1 L2 L3 L4 K. unfold leader_follower_interaction_brute. apply follow_all_goes.
  - intros i s Z Ks. apply follow_goes; auto. intros j I. apply where_iff in I. rewrite <- L1. apply nth_error_Some. congruence.
  - unfold lf_sized. cbn. now rewrite !map_length.
  - exact K.
Qed.
Lemma put_leaders l s : lf_sized (length l) s -> map a_index_leader (put_lf l s) = lf_leader s.
Proof.
  intros (A & B & _). unfold put_lf. rewrite map_map. rewrite (map_ext _ (fun q : agent * (Z * Z) => snd (snd q))) by (intros [a [t x]]; reflexivity).
  revert s A B. induction l as [|a l IH]; intros [tg le di st] A B; cbn [lf_target lf_leader] in *.
  - now destruct le.
  - destruct tg as [|t tg]; [discriminate|]. destruct le as [|x le]; [discriminate|]. cbn. f_equal. apply (IH (LF tg le di st)); cbn; auto.
Qed.

(** ** Neighbours *)
Lemma set_neighbor_goes j l (r : Collective.row) : fst r <> [] -> exists r', set_neighbor j l r = Ok r' /\ fst r' <> [].
Proof.
  intros N. destruct r as [sl d]. cbn [fst] in *. unfold set_neighbor. destruct sl as [|x sl]; [contradiction|]. cbn [fst map argmax]. set (m := argmax_from _ _ _ _). clearbody m.
  assert (Lu : length (upd (x :: sl) m (Some j, l)) = S (length sl)) by now rewrite upd_length. destruct (upd (x :: sl) m (Some j, l)) as [|y u] eqn:E; [discriminate|]. cbn [map max_of]. eexists. split; [reflexivity|discriminate].
Qed.
Lemma offer_goes i j l (rs : list Collective.row) : (i < length rs)%nat -> Forall (fun r => fst r <> []) rs -> exists rs', offer i j l rs = Ok rs' /\ length rs' = length rs /\ Forall (fun r => fst r <> []) rs'.
Proof.
  intros L F. unfold offer. apply nth_error_Some in L. destruct (nth_error rs i) as [r|] eqn:E; [|contradiction]. destruct (Rltb l (snd r)); [|eauto].
  destruct (set_neighbor_goes j l r) as (r' & E' & N); [rewrite Forall_forall in F; apply F; now apply nth_error_In in E|]. rewrite E'. cbn [rbind]. eexists. split; [reflexivity|]. split; [apply upd_length|].
  rewrite Forall_forall in *. intros x I. apply NeighborProofs.upd_in in I. destruct I as [-> | I]; auto.
Qed.
Lemma neighbors_go position os pairs : (forall i j, In (i, j) pairs -> (i < length position)%nat /\ (j < length position)%nat) ->
  forall rs, length rs = length position -> Forall (fun r : Collective.row => fst r <> []) rs -> exists rs', neighbor_loop position os pairs rs = Ok rs' /\ length rs' = length position.
Proof.
  induction pairs as [|[i j] pairs IH]; intros P rs L F; [exists rs; split; auto|]. cbn [neighbor_loop]. destruct (P i j) as [Li Lj]; [now left|]. assert (P' : forall a b, In (a, b) pairs -> (a < length position)%nat /\ (b < length position)%nat) by (intros a b I; apply P; now right).
  pose proof Li as Li'. pose proof Lj as Lj'. apply nth_error_Some in Li'. apply nth_error_Some in Lj'. destruct (nth_error position i) as [xi|]; [|contradiction]. destruct (nth_error position j) as [xj|]; [|contradiction].
  destruct (is_obstacle_between_points xi xj os); [now apply IH|]. cbv zeta. destruct (offer_goes i j (vlength (vsub xi xj)) rs) as (r1 & -> & L1 & F1); [lia|exact F|]. cbn [rbind].
  destruct (offer_goes j i (vlength (vsub xi xj)) r1) as (r2 & -> & L2 & F2); [lia|exact F1|]. cbn [rbind]. apply IH; auto. lia.
Qed.

(** ** One node *)
Lemma keeps_divisors e n s s' : run_node e n s = Ok s' -> map divisors (s_agents s') = map divisors (s_agents s).
Proof. intros H. apply (node_keeps divisors e n s s'); [|exact H]. intros f I. destruct n; cbn in I; repeat (destruct I as [<- | I]; [now intros ? ?|]); destruct I. Qed.
Lemma keeps_leader e n s s' : ~ In IndexLeader (writes n) -> run_node e n s = Ok s' -> map a_index_leader (s_agents s') = map a_index_leader (s_agents s).
Proof. intros N H. apply (node_keeps a_index_leader e n s s'); [|exact H]. intros f I. destruct f; try (now intros ? ?); try contradiction; destruct n; cbn in I; intuition discriminate. Qed.
Lemma keeps_length e n s s' : run_node e n s = Ok s' -> length (s_agents s') = length (s_agents s).
Proof. intros H. apply keeps_divisors in H. apply (f_equal (@length _)) in H. now rewrite !map_length in H. Qed.

Lemma node_goes e n s : pairs_of_agents e -> provided e n -> Forall (fit (e_kind e) (length (s_agents s))) (s_agents s) ->
  exists s', run_node e n s = Ok s' /\ Forall (fit (e_kind e) (length (s_agents s'))) (s_agents s') /\ length (s_agents s') = length (s_agents s).
Proof.
  intros PA P F. set (N := length (s_agents s)) in *. assert (LF0 : In IndexLeader (writes n) -> exists s', run_node e n s = Ok s' /\ Forall (known N) (map a_index_leader (s_agents s'))).
  { apply fit_list in F. destruct F as [_ K]. destruct n; cbn; intros I; try (exfalso; intuition discriminate); clear I.
    - unfold leader_follower_node, leader_follower_interaction. destruct (brute_goes (e_argsort e) (map a_is_follower (s_agents s)) (map a_is_leader (s_agents s)) (map a_position (s_agents s)) (map a_velocity (s_agents s)) (40 / 100) (45 / 100 * PI)
        (map a_target (s_agents s)) (map a_index_leader (s_agents s)) (e_obstacles e) sight N) as (st & -> & Z & Ks); try apply map_length; [exact K|].
      cbn [rbind]. eexists. split; [reflexivity|]. cbn [s_agents with_agents fst snd]. pose proof (put_leaders (s_agents s) st Z) as E. destruct Z as (Z1 & Z2 & Z3 & Z4).
      assert (Lp : length (put_lf (s_agents s) st) = N) by (unfold put_lf; rewrite map_length, !combine_length; fold N; lia).
      rewrite directions_keeps; try (now intros ? ?); [|unfold use_familiar; rewrite map_length, combine_length; lia]. rewrite use_familiar_keeps; try (now intros ? ?); [|lia]. now rewrite E.
    - unfold leader_follower_with_herding_node, leader_follower_with_herding_interaction. cbv zeta. set (ps := map a_position (s_agents s)). assert (Lps : length ps = N) by apply map_length. unfold find_nearest_neighbors.
      destruct (neighbors_go ps (e_obstacles e) (e_enum e ps sight_follower) (PA ps sight_follower) (map (fun _ => (repeat (None, sight_follower) size_nearest_other, sight_follower)) ps)) as (rs & -> & Lr).
      { apply map_length. } { apply Forall_map, Forall_forall. intros x _. cbn [fst provided] in *. destruct size_nearest_other; [lia|discriminate]. }
      cbn [rbind]. set (herd := herding_interaction _ _ _ _ _ _). assert (Lh : length herd = N) by (unfold herd, herding_interaction; rewrite map_length, !combine_length, seq_length, !map_length; match goal with |- context [@length ?T rs] => change (@length T rs) with (@length Collective.row rs) end; rewrite Lr, Lps; fold N; lia).
      set (ags := map _ (combine (s_agents s) herd)). assert (La : length ags = N) by (unfold ags; rewrite map_length, combine_length; fold N; lia).
      assert (Ka : map a_index_leader ags = map a_index_leader (s_agents s)).
      { unfold ags. rewrite map_map. rewrite (map_ext _ (fun q : agent * (vec * bool) => a_index_leader (fst q))) by (intros [a [v []]]; reflexivity). rewrite <- (map_map fst a_index_leader). f_equal. now apply fst_combine. }
      destruct (brute_goes (e_argsort e) (map a_is_follower (s_agents s)) (map a_is_leader ags) ps (map a_velocity (s_agents s)) (40 / 100) (45 / 100 * PI)
        (map a_target ags) (map a_index_leader ags) (e_obstacles e) 20 N) as (st & -> & Z & Ks); try (rewrite map_length; exact La); [exact Lps|now rewrite Ka|].
      cbn [rbind]. eexists. split; [reflexivity|]. cbn [s_agents with_agents fst snd]. assert (Z' : lf_sized (length ags) st) by now rewrite La. pose proof (put_leaders ags st Z') as E. destruct Z as (Z1 & Z2 & Z3 & Z4).
      assert (Lp : length (put_lf ags st) = N) by (unfold put_lf; rewrite map_length, !combine_length; lia).
      rewrite directions_keeps; try (now intros ? ?); [|unfold normalize_nx2, use_familiar; rewrite !map_length, !combine_length, map_length, combine_length; lia]. rewrite use_familiar_keeps; try (now intros ? ?); [|rewrite map_length, combine_length; lia]. now rewrite E. }
  assert (G : exists s', run_node e n s = Ok s' /\ (In IndexLeader (writes n) -> Forall (known N) (map a_index_leader (s_agents s')))).
  { assert (D : In IndexLeader (writes n) \/ ~ In IndexLeader (writes n)) by (destruct n; cbn; intuition discriminate). destruct D as [D|D]; [destruct (LF0 D) as (s' & E & K); eauto|].
    assert (G : exists s', run_node e n s = Ok s'); [|destruct G as [s' E]; exists s'; split; [exact E|contradiction]].
    clear LF0. destruct n; cbn in D; try (exfalso; apply D; tauto); cbn [run_node]; try (eexists; reflexivity).
    - unfold velocity_verlet_integrator. destruct (timestep_goes (s_agents s) dt_min dt_max) as (dt & ->). cbn [rbind].
      assert (X : exists l, map (translational_verlet dt) (s_agents s) = map Some l).
      { clear - F. clearbody N. induction (s_agents s) as [|a l IH]; [exists []; reflexivity|]. inversion F as [|? ? Ha Hl]; subst. destruct IH as [l1 E]; [exact Hl|]. cbn [map]. rewrite E. unfold translational_verlet at 1. destruct Ha as (M & _). rewrite (proj2 (Reqb_false _ 0) M). eexists (_ :: l1). reflexivity. }
      destruct X as (l & ->). destruct (e_kind e) eqn:Ke.
      + cbn [rbind snd fst]. rewrite (proj2 (finite_rows _ _) eq_refl). cbn [rbind]. eauto.
      + assert (NI : needs_inertia (s_agents s) = false). { unfold needs_inertia. apply Bool.not_true_is_false. intros H. apply existsb_exists in H. destruct H as (a & I & H). apply Reqb_true in H. rewrite Forall_forall in F. destruct (F a I) as (_ & _ & _ & H3 & _). now destruct (H3 eq_refl). }
        rewrite NI. cbn [rbind snd fst]. rewrite map_map, <- (map_map (fun a => shoulders_row (rotational_verlet dt a)) Some). rewrite (proj2 (finite_rows _ _) eq_refl). cbn [rbind]. eauto.
    - unfold adjust, force_adjust_agents. destruct (loop_goes force_adjust_row (s_agents s)) as (l & -> & F2).
      { intros a I. rewrite Forall_forall in F. destruct (F a I) as (_ & T & _). unfold force_adjust_row, force_adjust. rewrite (proj2 (Reqb_false _ 0) T). cbn [rbind]. eauto. }
      cbn [looped rbind]. destruct (is_model (e_kind e) ThreeCircle) eqn:M; [|cbn [rbind]; eauto]. assert (Ke : e_kind e = ThreeCircle) by (destruct (e_kind e); [discriminate|reflexivity]).
      unfold torque_adjust_agents. destruct (loop_goes torque_adjust_row l) as (l' & -> & _); [|cbn [looped rbind]; eauto].
      intros a I. assert (T : a_tau_rot a <> 0).
      { clear - F F2 I Ke. clearbody N. induction F2 as [|b b' l l' Hb F2 IH]; [easy|]. inversion F as [|? ? Fb Fl]; subst. destruct I as [-> | I]; [|now apply IH]. unfold force_adjust_row in Hb. destruct (force_adjust _ _ _ _ _); [|discriminate]. cbn [rbind] in Hb. injection Hb as <-. cbn. destruct Fb as (_ & _ & _ & H & _). now destruct (H Ke). }
      unfold torque_adjust_row, torque_adjust. rewrite (proj2 (Reqb_false _ 0) T). cbn [rbind]. eauto.
    - unfold aa_node_update, agent_agent_block_list. destruct (over_goes (e_kind e) (e_enum e (map a_position (s_agents s)) (node_cell_size traits)) (s_agents s)) as (l & ->); [| |cbn [rbind]; eauto].
      + eapply Forall_impl; [|exact F]. intros a H. apply H.
      + intros i j I. apply PA in I. now rewrite map_length in I.
    - unfold navigation_node. destruct (navigate_goes (e_nav e step radius strength) (map Z.of_nat (seq 0 (length (e_targets e)))) (s_agents s)) as (l & ->).
      + intros t I. apply in_map_iff in I. destruct I as (u & <- & I). apply in_seq in I. apply P. lia.
      + cbn [rbind]. rewrite (proj2 (finite_rows _ _) eq_refl). cbn [rbind]. eauto.
    - unfold exit_detection_node. cbn [provided] in P. destruct (e_targets e); [contradiction|]. cbn [rbind]. eauto. }
  destruct G as (s' & E & K). exists s'. split; [exact E|]. pose proof (keeps_length e n s s' E) as L. split; [|exact L]. rewrite L. fold N. apply fit_list. apply fit_list in F. destruct F as [Fd Fk]. split; [now rewrite (keeps_divisors e n s s' E)|].
  assert (D : In IndexLeader (writes n) \/ ~ In IndexLeader (writes n)) by (destruct n; cbn; intuition discriminate). destruct D as [D|D]; [now apply K|now rewrite (keeps_leader e n s s' D E)].
Qed.

(** ** Updates *)
Lemma nodes_go e l : pairs_of_agents e -> (forall n, In n l -> provided e n) -> forall s, Forall (fit (e_kind e) (length (s_agents s))) (s_agents s) ->
  exists log s', runs e l s log s' /\ Forall (fit (e_kind e) (length (s_agents s'))) (s_agents s').
Proof.
  intros PA. induction l as [|n l IH]; intros P s F; [exists [], s; split; [constructor|exact F]|].
  destruct (node_goes e n s PA (P n (or_introl eq_refl)) F) as (s1 & E & F1 & _). destruct (IH (fun m I => P m (or_intror I)) s1 F1) as (log & s' & H & F'). eexists _, s'. split; [econstructor; eauto|exact F'].
Qed.
Lemma goes_on e x : pairs_of_agents e -> (forall n, In n (written_order x) -> provided e n) -> forall count s i, Forall (fit (e_kind e) (length (s_agents s))) (s_agents s) ->
  exists dts s', length dts = count /\ updates e x (s, i) dts (s', (i + count)%nat) /\ Forall (fit (e_kind e) (length (s_agents s'))) (s_agents s').
Proof.
  intros PA P. induction count as [|c IH]; intros s i F.
  - exists [], s. rewrite Nat.add_0_r. split; [reflexivity|]. split; [constructor|exact F].
  - destruct (nodes_go e _ PA P s F) as (log & s1 & H & F1). destruct (IH s1 (S i) F1) as (dts & s' & L & U & F'). exists (s_dt s1 :: dts), s'. split; [cbn; lia|]. split; [|exact F'].
    replace (i + S c)%nat with (S i + c)%nat by lia. apply (updates_next e x (s, i) (s1, S i)); [|exact U]. apply update_runs. eauto.
Qed.
Lemma ready_fit k n a : ready k a -> fit k n a.
Proof.
  intros (_ & _ & L & _ & _ & D & A). destruct D as (T1 & _ & T2 & _ & _ & _ & _ & _ & T3). destruct A as (_ & M & _ & _ & _ & _ & I). unfold fit. rewrite T1, T2. split; [lra|]. split; [lra|]. split; [lra|]. split; [intros K; destruct (T3 K) as [T4 _]; split; lra|now left].
Qed.
Lemma started_fit k rolled bodies targets spawn walls st n : fair_bodies bodies -> started k rolled bodies targets spawn walls st -> complete st -> Forall (fit k n) (ag_array st).
Proof.
  intros Hb S C. destruct (started_crowd _ _ _ _ _ _ _ Hb S) as (ps & Hf & H). apply Forall_forall. intros a I. apply In_nth_error in I. destruct I as [i E]. apply ready_fit.
  apply (crowd_adult k ps st i a Hf H); [|exact E]. unfold complete in C. rewrite C. apply nth_error_Some. congruence.
Qed.
Lemma started_unplaced k rolled bodies targets spawn walls st : fair_bodies bodies -> started k rolled bodies targets spawn walls st -> ~ complete st -> In zero_row (ag_array st).
Proof.
  intros Hb S C. destruct (started_crowd _ _ _ _ _ _ _ Hb S) as (ps & Hf & H). destruct (crowd_spec k ps st Hf H) as ((st0 & cs & N & ->) & _).
  apply wf_new in N as (W & K & _). destruct (wf_all (6/10) cs st0 W) as [W' _]. destruct W' as [_ Wi _ Wr _]. unfold complete in C. apply (nth_error_In _ (ag_index (place_all st0 cs))). apply Wr. lia.
Qed.

(** ** Time *)
Lemma node_dt e n s s' : run_node e n s = Ok s' -> match n with Integrator d d' => d = d' -> s_dt s' = d /\ s_time s' = s_time s + d | _ => s_dt s' = s_dt s /\ s_time s' = s_time s end.
Proof.
  intros H. destruct n; cbn [run_node] in H.
  2:{ intros <-. unfold velocity_verlet_integrator in H. rewrite IntegratorProofs.timestep_fixed in H. cbn [rbind] in H. destruct (e_kind e).
      - cbn [rbind snd fst] in H. destruct (all_finite _); [|discriminate]. cbn [rbind] in H. now injection H as <-.
      - destruct (needs_inertia _); [discriminate|]. cbn [rbind snd fst] in H. destruct (all_finite _); [|discriminate]. cbn [rbind] in H. now injection H as <-. }
  all: repeat match type of H with rbind ?r _ = Ok _ => destruct r; [|discriminate]; cbn [rbind] in H end; try (injection H as <-; split; reflexivity).
Qed.
Lemma runs_dt e l1 d l2 s log s' : runs e (l1 ++ Integrator d d :: l2) s log s' -> (forall n, In n (l1 ++ l2) -> plain n \/ n = Reset) -> s_dt s' = d /\ s_time s' = s_time s + d.
Proof.
  assert (Q : forall l s log s', runs e l s log s' -> (forall n, In n l -> plain n \/ n = Reset) -> s_dt s' = s_dt s /\ s_time s' = s_time s).
  { intros l s0 log0 s0' H. induction H as [s0|n l s0 s1 log0 s0' E H IH]; intros P; [auto|]. destruct IH as [I1 I2]; [intros m I; apply P; now right|]. pose proof (node_dt e n s0 s1 E) as D.
    assert (X : s_dt s1 = s_dt s0 /\ s_time s1 = s_time s0) by (destruct n; auto; destruct (P (Integrator dt_min dt_max)) as [Q|Q]; [now left|destruct Q|discriminate]). destruct X. split; congruence. }
  revert s log. induction l1 as [|n l1 IH]; intros s log H P; cbn [app] in H.
  - inversion H as [|? ? ? s1 log1 ? E H1]; subst. pose proof (node_dt e _ _ _ E eq_refl) as [D1 D2]. destruct (Q _ _ _ _ H1 P) as [Q1 Q2]. split; congruence.
  - inversion H as [|? ? ? s1 log1 ? E H1]; subst. pose proof (node_dt e _ _ _ E) as D. destruct (IH s1 log1 H1) as [I1 I2]; [intros m I; apply P; now right|].
    assert (X : s_time s1 = s_time s) by (destruct n; try apply D; destruct (P (Integrator dt_min dt_max)) as [Z|Z]; [now left|destruct Z|discriminate]). split; congruence.
Qed.
Lemma steady e x l1 d l2 : written_order x = l1 ++ Integrator d d :: l2 -> (forall n, In n (l1 ++ l2) -> plain n \/ n = Reset) ->
  forall s dts s', updates e x s dts s' -> dts = repeat d (length dts) /\ s_time (fst s') = s_time (fst s) + INR (length dts) * d.
Proof.
  intros W P s dts s' U. induction U as [s|s s1 dts s' E U [I1 I2]]; [split; [reflexivity|cbn; lra]|]. destruct s as [s i], s1 as [s1 i1]. apply update_runs in E. destruct E as (_ & log & E). rewrite W in E.
  destruct (runs_dt e l1 d l2 s log s1 E P) as [D1 D2]. cbn [fst] in *. split.
  - cbn [length repeat]. now rewrite D1, I1 at 1.
  - rewrite I2, D2. cbn [length]. rewrite S_INR. ring.
Qed.
Lemma shipped_parts range x : In x (shipped_logics range) -> In Adjusting (written_order x) /\ exists l1 l2, written_order x = l1 ++ Integrator (1/100) (1/100) :: l2 /\ forall n, In n (l1 ++ l2) -> plain n \/ n = Reset.
Proof.
  assert (C : forall y l1 l2, written_order y = l1 ++ Integrator (1/100) (1/100) :: l2 -> Forall (fun n => plain n \/ n = Reset) (l1 ++ l2) -> In Adjusting (l1 ++ l2) ->
    In Adjusting (written_order y) /\ exists l1 l2, written_order y = l1 ++ Integrator (1/100) (1/100) :: l2 /\ forall n, In n (l1 ++ l2) -> plain n \/ n = Reset).
  { intros y l1 l2 E F A. split; [rewrite E; apply in_app_or in A; apply in_or_app; cbn; tauto|]. exists l1, l2. split; [exact E|]. now apply Forall_forall. }
  intros [<-|[<-|[<-|[<-|[<-|[<-|[<-|[<-|[]]]]]]]]].
  8:{ apply (C _ [] [Adjusting; Orientation; Reset]); [reflexivity|cbn [app]; repeat (constructor; [first [now left|now right]|]); constructor|cbn; tauto]. }
  all: match goal with |- In _ (written_order ?x) /\ _ =>
      let l := eval cbv [written_order flat_map app leaf integrator agent_agent_node navigation herding logic_outdoor logic_hallway logic_outdoor_herding logic_rounding logic_avoid_obstacle logic_closed_room logic_four_exits] in (removelast (removelast (written_order x))) in
      let l := eval cbn [removelast] in l in apply (C _ l [Reset]) end; [reflexivity|cbn [app]; repeat (constructor; [first [now left|now right]|]); constructor|cbn; tauto].
Qed.
(** ** The loop around the updates *)
Lemma updates_steps e x exit : forall s dts s', updates e x s dts s' -> forall k, (forall j dts1 dts2 s1, dts = dts1 ++ dts2 -> length dts1 = j -> dts2 <> [] -> updates e x s dts1 s1 -> exit (k + j)%nat s1 = false) ->
  steps exit (simulation_update e x) k (length dts) s s'.
Proof.
  intros s dts s' U. induction U as [s|s s1 dts s' E U IH]; intros k H; [constructor|]. cbn [length]. econstructor; [|exact E|].
  - specialize (H 0%nat [] (s_dt (fst s1) :: dts) s). rewrite Nat.add_0_r in H. apply H; [reflexivity|reflexivity|discriminate|constructor].
  - apply IH. intros j d1 d2 s2 Ed L N U2. replace (S k + j)%nat with (k + S j)%nat by lia. apply (H (S j) (s_dt (fst s1) :: d1) d2 s2); [now rewrite Ed|cbn; lia|exact N|econstructor; eauto].
Qed.
