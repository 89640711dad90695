(** Force bookkeeping and counters of a simulation. *)
From Coq Require Import Lra Lia.
From Verif Require Export Spec.Loads Spec.Touches Proofs.WrittenProofs Proofs.VecLemmas Proofs.ListLemmas.
Open Scope R_scope.

Lemma nth_error_Some_lt {A} (l : list A) i x : nth_error l i = Some x -> (i < length l)%nat.
Proof. intros E. apply nth_error_Some. congruence. Qed.
Lemma nth_error_Some_ex {A} (l : list A) i : (i < length l)%nat -> exists x, nth_error l i = Some x.
Proof. intros H. destruct (nth_error l i) eqn:E; eauto. apply nth_error_None in E. lia. Qed.

(** ** Adding loads to rows *)
Definition load1 (l : vec * R) (a : agent) : agent := add_torque (snd l) (add_force (fst l) a).
Definition lmap (ls : list (vec * R)) (agents : list agent) : list agent := map (fun p => load1 (snd p) (fst p)) (combine agents ls).
Definition loaded (ls : list (vec * R)) (s : sim) : sim := with_agents s (lmap ls (s_agents s)).
Definition rmap {A B} (f : A -> B) (r : res A) : res B := match r with Ok x => Ok (f x) | Err e => Err e end.

Lemma lmap_cons l ls a agents : lmap (l :: ls) (a :: agents) = load1 l a :: lmap ls agents.
Proof. reflexivity. Qed.
Lemma lmap_map (g : agent -> agent) : (forall l a, g (load1 l a) = load1 l (g a)) -> forall ls agents, map g (lmap ls agents) = lmap ls (map g agents).
Proof. intros H ls agents. revert ls. induction agents as [|a agents IH]; intros [|l ls]; cbn; auto. rewrite H. f_equal. apply IH. Qed.
Lemma lmap_proj {B} (p : agent -> B) : (forall l a, p (load1 l a) = p a) -> forall ls agents, length ls = length agents -> map p (lmap ls agents) = map p agents.
Proof. intros H ls agents. revert ls. induction agents as [|a agents IH]; intros [|l ls] L; cbn in *; try lia; auto. rewrite H. f_equal. apply IH. lia. Qed.
Lemma lmap_combine {B} (g : agent -> B -> agent) : (forall l a x, g (load1 l a) x = load1 l (g a x)) ->
  forall ls agents xs, map (fun p => g (fst p) (snd p)) (combine (lmap ls agents) xs) = lmap ls (map (fun p => g (fst p) (snd p)) (combine agents xs)).
Proof.
  intros H ls agents. revert ls. induction agents as [|a agents IH]; intros ls xs; [reflexivity|]. destruct ls as [|l ls].
  - destruct xs; cbn; auto.
  - destruct xs as [|x xs]; auto. cbn. rewrite H. f_equal. apply IH.
Qed.
Lemma lmap_length ls agents : length ls = length agents -> length (lmap ls agents) = length agents.
Proof. intros L. unfold lmap. rewrite map_length, combine_length. lia. Qed.

(** ** Every node but Reset and Integrator commutes with added loads *)
Lemma loop_rows_load f : (forall l a, f (load1 l a) = rmap (load1 l) (f a)) -> forall ls agents, length ls = length agents ->
  looped (loop_rows f (lmap ls agents)) = rmap (lmap ls) (looped (loop_rows f agents)) /\
  (forall l, looped (loop_rows f agents) = Ok l -> length l = length agents).
Proof.
  intros H ls agents. revert ls. induction agents as [|a agents IH]; intros [|l ls] L; cbn in L; try lia.
  - split; auto. cbn. intros l [= <-]. reflexivity.
  - rewrite lmap_cons. cbn [loop_rows]. rewrite H. destruct (IH ls ltac:(lia)) as [E K]. destruct (f a) as [a'|x]; cbn [rmap].
    + destruct (loop_rows f (lmap ls agents)) as [[x|] r], (loop_rows f agents) as [[y|] r']; cbn in *; try discriminate.
      * split; [congruence|discriminate].
      * injection E as ->. split; [reflexivity|]. intros l' [= <-]. cbn. f_equal. now apply K.
    + split; [reflexivity|discriminate].
Qed.
Lemma adjust_load k ls agents : length ls = length agents ->
  adjust k (lmap ls agents) = rmap (lmap ls) (adjust k agents) /\ (forall l, adjust k agents = Ok l -> length l = length agents).
Proof.
  intros L. unfold adjust.
  assert (F : forall l a, force_adjust_row (load1 l a) = rmap (load1 l) (force_adjust_row a)).
  { intros l a. unfold force_adjust_row. cbn. destruct (force_adjust _ _ _ _ _); cbn; auto. f_equal. unfold load1, add_torque, add_force. cbn. unfold set_force, set_torque. cbn.
    f_equal; veq; lra. }
  assert (T : forall l a, torque_adjust_row (load1 l a) = rmap (load1 l) (torque_adjust_row a)).
  { intros l a. unfold torque_adjust_row. cbn. destruct (torque_adjust _ _ _ _ _ _); cbn; auto. f_equal. unfold load1, add_torque, add_force. cbn. unfold set_force, set_torque. cbn.
    f_equal; lra. }
  destruct (loop_rows_load _ F ls agents L) as [E K]. unfold force_adjust_agents. rewrite E. destruct (looped (loop_rows force_adjust_row agents)) as [l|x]; cbn; [|split; [auto|discriminate]].
  specialize (K l eq_refl). destruct (is_model k ThreeCircle); [|cbn; split; [auto|intros ? [= <-]; auto]].
  destruct (loop_rows_load _ T ls l ltac:(congruence)) as [E' K']. unfold torque_adjust_agents. rewrite E'. split; auto. intros l' E2. rewrite (K' l' E2). auto.
Qed.

Lemma load1_add_force l f a : add_force f (load1 l a) = load1 l (add_force f a).
Proof. unfold load1, add_torque, add_force, set_force, set_torque. cbn. f_equal; veq; lra. Qed.
Lemma load1_add_torque l t a : add_torque t (load1 l a) = load1 l (add_torque t a).
Proof. unfold load1, add_torque, add_force, set_force, set_torque. cbn. f_equal; lra. Qed.
Lemma lmap_nth ls agents : length ls = length agents -> forall i, nth_error (lmap ls agents) i =
  match nth_error agents i, nth_error ls i with Some a, Some l => Some (load1 l a) | _, _ => None end.
Proof.
  revert ls. induction agents as [|a agents IH]; intros [|l ls] L [|i]; cbn in *; try lia; auto. apply IH. lia.
Qed.
Lemma lmap_upd ls agents i l a : nth_error ls i = Some l -> upd (lmap ls agents) i (load1 l a) = lmap ls (upd agents i a).
Proof.
  revert ls i. induction agents as [|b agents IH]; intros [|x ls] [|i] E; cbn in *; try discriminate; auto.
  - injection E as ->. reflexivity.
  - f_equal. now apply IH.
Qed.
Lemma modify_load ls agents i f : length ls = length agents -> (forall l a, f (load1 l a) = load1 l (f a)) ->
  modify i f (lmap ls agents) = lmap ls (modify i f agents).
Proof.
  intros L H. unfold modify. rewrite lmap_nth by auto. destruct (nth_error agents i) as [a|] eqn:E; auto.
  destruct (nth_error ls i) as [l|] eqn:E'.
  - rewrite H. now apply lmap_upd.
  - apply nth_error_None in E'. apply nth_error_Some_lt in E. lia.
Qed.
Lemma modify_length i f agents : length (modify i f agents) = length agents.
Proof. unfold modify. destruct (nth_error agents i); auto. apply upd_length. Qed.

Lemma circular_pair_load ls agents i j : length ls = length agents ->
  interaction_agent_agent_circular i j (lmap ls agents) = rmap (lmap ls) (interaction_agent_agent_circular i j agents) /\
  (forall l, interaction_agent_agent_circular i j agents = Ok l -> length l = length agents).
Proof.
  intros L. unfold interaction_agent_agent_circular. rewrite !lmap_nth by auto.
  destruct (nth_error agents i) as [a|] eqn:Ea; [|split; [reflexivity|discriminate]].
  assert (exists l, nth_error ls i = Some l) as [l El] by (apply nth_error_Some_ex; apply nth_error_Some_lt in Ea; lia). rewrite El.
  destruct (nth_error agents j) as [b|] eqn:Eb; [|split; [reflexivity|discriminate]].
  assert (exists l, nth_error ls j = Some l) as [l' El'] by (apply nth_error_Some_ex; apply nth_error_Some_lt in Eb; lia). rewrite El'.
  change (pair_forces_circular (load1 l a) (load1 l' b)) with (pair_forces_circular a b).
  destruct (pair_forces_circular a b) as [[[fi fj]|]|x]; cbn [rbind rmap]; [| |split; [reflexivity|discriminate]].
  - split; [|intros ? [= <-]; now rewrite !modify_length].
    rewrite !modify_load; rewrite ?modify_length; auto using load1_add_force.
  - split; [reflexivity|now intros ? [= <-]].
Qed.
Lemma xs_of_load l a : xs_of (load1 l a) = xs_of a.
Proof. reflexivity. Qed.
Lemma rs_of_load l a : rs_of (load1 l a) = rs_of a.
Proof. reflexivity. Qed.
Lemma velocity_load l a : a_velocity (load1 l a) = a_velocity a.
Proof. reflexivity. Qed.
Lemma position_load l a : a_position (load1 l a) = a_position a.
Proof. reflexivity. Qed.
Lemma part_offset_load i l a : part_offset i (load1 l a) = part_offset i a.
Proof. reflexivity. Qed.
Lemma social_forces_load l l' a b g tau : social_forces (load1 l a) (load1 l' b) g tau = social_forces a b g tau.
Proof. reflexivity. Qed.
Lemma with_contact_load h n l l' a b fs : with_contact h n (load1 l a) (load1 l' b) fs = with_contact h n a b fs.
Proof. reflexivity. Qed.
Lemma three_circle_forces_load l l' a b : pair_forces_three_circle (load1 l a) (load1 l' b) = pair_forces_three_circle a b.
Proof.
  unfold pair_forces_three_circle, force_social_three_circle, three_circle_scan. cbv zeta. rewrite !xs_of_load, !rs_of_load, !velocity_load, !position_load.
  destruct (distance_three_circles _ _ _ _) as [[[h n] m] m']. destruct h as [h|]; [|reflexivity].
  destruct (Rltb _ _); [|reflexivity]. destruct (Reqb _ _); cbn [rbind]; [now rewrite with_contact_load|].
  destruct (ts_best _) as [[[tau bm] dm]|]; cbn [rbind]; [|now rewrite with_contact_load]. destruct (Rleb _ _); cbn [rbind]; [now rewrite with_contact_load|].
  rewrite !part_offset_load, social_forces_load. destruct (social_forces _ _ _ _); cbn [rbind]; [now rewrite with_contact_load|reflexivity].
Qed.
Lemma three_circle_pair_load ls agents i j : length ls = length agents ->
  interaction_agent_agent_three_circle i j (lmap ls agents) = rmap (lmap ls) (interaction_agent_agent_three_circle i j agents) /\
  (forall l, interaction_agent_agent_three_circle i j agents = Ok l -> length l = length agents).
Proof.
  intros L. unfold interaction_agent_agent_three_circle. rewrite !lmap_nth by auto.
  destruct (nth_error agents i) as [a|] eqn:Ea; [|split; [reflexivity|discriminate]].
  assert (exists l, nth_error ls i = Some l) as [l El] by (apply nth_error_Some_ex; apply nth_error_Some_lt in Ea; lia). rewrite El.
  destruct (nth_error agents j) as [b|] eqn:Eb; [|split; [reflexivity|discriminate]].
  assert (exists l, nth_error ls j = Some l) as [l' El'] by (apply nth_error_Some_ex; apply nth_error_Some_lt in Eb; lia). rewrite El'.
  rewrite three_circle_forces_load.
  destruct (pair_forces_three_circle a b) as [[[[[fi fj] mi] mj]|]|x]; cbn [rbind rmap]; [| |split; [reflexivity|discriminate]].
  - split; [|intros ? [= <-]; now rewrite !modify_length].
    rewrite !modify_load; rewrite ?modify_length; auto using load1_add_force, load1_add_torque.
  - split; [reflexivity|now intros ? [= <-]].
Qed.
Lemma over_pairs_load f : (forall ls agents i j, length ls = length agents -> f i j (lmap ls agents) = rmap (lmap ls) (f i j agents) /\
    (forall l, f i j agents = Ok l -> length l = length agents)) ->
  forall pairs ls agents, length ls = length agents -> over_pairs f pairs (lmap ls agents) = rmap (lmap ls) (over_pairs f pairs agents) /\
    (forall l, over_pairs f pairs agents = Ok l -> length l = length agents).
Proof.
  intros H. induction pairs as [|[i j] pairs IH]; intros ls agents L; cbn [over_pairs]; [split; [reflexivity|now intros ? [= <-]]|].
  destruct (H ls agents i j L) as [E K]. rewrite E. destruct (f i j agents) as [l|x]; cbn [rbind rmap]; [|split; [reflexivity|discriminate]].
  specialize (K l eq_refl). destruct (IH ls l ltac:(congruence)) as [E' K']. split; auto. intros l' E2. rewrite (K' l' E2). auto.
Qed.
Lemma agent_agent_load enum t k ls agents : length ls = length agents ->
  aa_node_update enum t k (lmap ls agents) = rmap (lmap ls) (aa_node_update enum t k agents) /\
  (forall l, aa_node_update enum t k agents = Ok l -> length l = length agents).
Proof.
  intros L. unfold aa_node_update, agent_agent_block_list. rewrite (lmap_proj a_position) by auto. unfold agent_agent.
  destruct k; apply over_pairs_load; auto using circular_pair_load, three_circle_pair_load.
Qed.
Lemma obstacle_load k o ls agents : agent_obstacle k (lmap ls agents) o = lmap ls (agent_obstacle k agents o).
Proof.
  assert (C : forall l x a, obstacle_circular (load1 l a) x = load1 l (obstacle_circular a x)).
  { intros l x a. unfold obstacle_circular. cbn. destruct (distance_circle_line _ _ _ _) as [[h n]|]; auto. destruct (Rltb h 0); auto. apply load1_add_force. }
  assert (T : forall l x a, obstacle_three_circle (load1 l a) x = load1 l (obstacle_three_circle a x)).
  { intros l x a. unfold obstacle_three_circle. change (xs_of (load1 l a)) with (xs_of a). change (rs_of (load1 l a)) with (rs_of a).
    destruct (distance_three_circle_line _ _ _ _) as [[[h n] m]|]; auto. destruct (Rltb h 0); auto. cbn. rewrite load1_add_force. apply load1_add_torque. }
  unfold agent_obstacle. destruct k; apply lmap_map; intros l a; revert a; induction o as [|x o IH]; intros a; cbn; auto; rewrite ?C, ?T; apply IH.
Qed.
Lemma fluctuate_row_load k l a phi z zt : fluctuate_row k (load1 l a) phi z zt = load1 l (fluctuate_row k a phi z zt).
Proof.
  set (F := force_fluctuation1 (a_mass a) (a_std_rand_force a) phi z). destruct k.
  - change (add_force F (load1 l a) = load1 l (add_force F a)). apply load1_add_force.
  - set (T := torque_fluctuation1 (a_inertia_rot a) (a_std_rand_torque a) zt).
    change (add_torque T (add_force F (load1 l a)) = load1 l (add_torque T (add_force F a))). rewrite load1_add_force. apply load1_add_torque.
Qed.
Lemma fluctuate_load k d ls : forall agents i, length ls = length agents -> fluctuate k d i (lmap ls agents) = lmap ls (fluctuate k d i agents).
Proof.
  induction ls as [|l ls IH]; intros [|a agents] i L; cbn in L; try lia; auto. rewrite lmap_cons. cbn [fluctuate]. destruct (d i) as [[phi z] zt].
  rewrite lmap_cons. f_equal; [|apply IH; lia]. apply fluctuate_row_load.
Qed.
Lemma fluctuate_length k d agents : forall i, length (fluctuate k d i agents) = length agents.
Proof. induction agents as [|a agents IH]; intros i; cbn; auto. destruct (d i) as [[phi z] zt]. cbn. now rewrite IH. Qed.

(** *** Steering nodes *)
Definition olmap (ls : list (vec * R)) (r : list (option agent)) : list (option agent) := map (fun p => option_map (load1 (snd p)) (fst p)) (combine r ls).
Lemma olmap_some ls agents : map Some (lmap ls agents) = olmap ls (map Some agents).
Proof. revert ls. induction agents as [|a agents IH]; intros [|l ls]; cbn; auto. f_equal. apply IH. Qed.
Lemma masked_load {B} (p : agent -> B) t : (forall l a, p (load1 l a) = p a) -> forall ls r, length ls = length r -> map p (masked t (olmap ls r)) = map p (masked t r).
Proof.
  intros H ls r. revert ls. induction r as [|x r IH]; intros [|l ls] L; cbn in L; try lia; auto. unfold olmap, masked in *. cbn.
  rewrite !map_app. rewrite IH by lia. f_equal. destruct x as [a|]; cbn; auto. destruct (a_target a =? t)%Z; cbn; auto. now rewrite H.
Qed.
Lemma scatter_load t ls : forall r ds, length ls = length r -> scatter t (olmap ls r) ds = olmap ls (scatter t r ds) /\ length (scatter t r ds) = length r.
Proof.
  induction ls as [|l ls IH]; intros [|x r] ds L; cbn in L; try lia; auto. destruct x as [a|].
  - change (olmap (l :: ls) (Some a :: r)) with (Some (load1 l a) :: olmap ls r). cbn [scatter]. change (a_target (load1 l a)) with (a_target a).
    destruct (a_target a =? t)%Z; [destruct ds as [|d ds]; [auto|]|].
    + destruct (IH r ds ltac:(lia)) as [E K]. cbn. rewrite E, K. split; auto. destruct d; reflexivity.
    + destruct (IH r ds ltac:(lia)) as [E K]. cbn. rewrite E, K. auto.
  - change (olmap (l :: ls) (None :: r)) with (None :: olmap ls r). cbn [scatter]. destruct (IH r ds ltac:(lia)) as [E K]. cbn. rewrite E, K. auto.
Qed.
Lemma navigate_target_load nav t ls r : length ls = length r ->
  navigate_target nav t (olmap ls r) = rmap (olmap ls) (navigate_target nav t r) /\ (forall r', navigate_target nav t r = Ok r' -> length r' = length r).
Proof.
  intros L. unfold navigate_target. destruct r as [|x r]; [destruct ls; [split; [reflexivity|now intros ? [= <-]]|discriminate]|].
  destruct ls as [|l ls]; [discriminate|]. set (R := x :: r) in *. set (LS := l :: ls) in *.
  assert (E0 : exists y z, olmap LS R = y :: z) by (cbn; eauto). destruct E0 as (y & z & E0). rewrite E0. cbn [rmap]. rewrite <- E0. clear E0 y z.
  destruct (nav t) as [[m dir]|e]; cbn [rbind]; [|split; [reflexivity|discriminate]].
  rewrite (masked_load (fun a => let '(c, w) := indicer m (a_position a) in (w, c)) t) by auto.
  rewrite (masked_load a_target_direction t) by auto.
  destruct (getdefault _ _ _) as [ds|e]; cbn [rbind rmap]; [|split; [reflexivity|discriminate]].
  destruct (scatter_load t LS R ds L) as [E K]. rewrite E. split; auto. now intros ? [= <-].
Qed.
Lemma navigate_all_load nav ts : forall ls r, length ls = length r ->
  navigate_all nav ts (olmap ls r) = rmap (olmap ls) (navigate_all nav ts r) /\ (forall r', navigate_all nav ts r = Ok r' -> length r' = length r).
Proof.
  induction ts as [|t ts IH]; intros ls r L; cbn [navigate_all]; [split; [reflexivity|now intros ? [= <-]]|].
  destruct (navigate_target_load nav t ls r L) as [E K]. rewrite E. destruct (navigate_target nav t r) as [r1|e]; cbn [rbind rmap]; [|split; [reflexivity|discriminate]].
  specialize (K r1 eq_refl). destruct (IH ls r1 ltac:(congruence)) as [E' K']. split; auto. intros r' H. rewrite (K' r' H). auto.
Qed.
Lemma all_finite_load ls : forall r, length ls = length r -> all_finite (olmap ls r) = rmap (lmap ls) (all_finite r) /\ (forall l, all_finite r = Ok l -> length l = length r).
Proof.
  induction ls as [|l ls IH]; intros [|x r] L; cbn in L; try lia; [split; [reflexivity|now intros ? [= <-]]|].
  destruct (IH r ltac:(lia)) as [E K]. destruct x as [a|]; cbn; [|split; [reflexivity|discriminate]].
  change (map (fun p => option_map (load1 (snd p)) (fst p)) (combine r ls)) with (olmap ls r). rewrite E. destruct (all_finite r) as [q|e]; cbn; [|split; [reflexivity|discriminate]].
  split; auto. intros ? [= <-]. cbn. now rewrite K.
Qed.
Lemma navigation_load nav n ls agents : length ls = length agents ->
  (do r <- navigation_node nav n (lmap ls agents); all_finite r) = rmap (lmap ls) (do r <- navigation_node nav n agents; all_finite r) /\
  (forall l, (do r <- navigation_node nav n agents; all_finite r) = Ok l -> length l = length agents).
Proof.
  intros L. unfold navigation_node. rewrite olmap_some. destruct (navigate_all_load nav (map Z.of_nat (seq 0 n)) ls (map Some agents)) as [E K]; [now rewrite map_length|].
  rewrite E. destruct (navigate_all nav _ (map Some agents)) as [r|e]; cbn [rbind rmap]; [|split; [reflexivity|discriminate]].
  specialize (K r eq_refl). rewrite map_length in K. destruct (all_finite_load ls r ltac:(congruence)) as [E' K']. split; auto. intros l H. rewrite (K' l H). auto.
Qed.

Lemma put_lf_load ls agents s : put_lf (lmap ls agents) s = lmap ls (put_lf agents s).
Proof.
  unfold put_lf. set (xs := combine _ _).
  rewrite (map_ext _ (fun p : agent * (Z * Z) => set_index_leader (snd (snd p)) (set_target (fst (snd p)) (fst p)))) by (intros [a [t l]]; reflexivity).
  rewrite (map_ext (fun '(a, (t, l)) => _) (fun p : agent * (Z * Z) => set_index_leader (snd (snd p)) (set_target (fst (snd p)) (fst p)))) by (intros [a [t l]]; reflexivity).
  apply (lmap_combine (fun a x => set_index_leader (snd x) (set_target (fst x) a))). reflexivity.
Qed.
Lemma use_familiar_load ls agents has : use_familiar (lmap ls agents) has = lmap ls (use_familiar agents has).
Proof.
  unfold use_familiar. set (g := fun (a : agent) (h : bool) => if negb h && a_is_follower a then set_target (a_familiar_exit a) a else a).
  rewrite (map_ext _ (fun p : agent * bool => g (fst p) (snd p))) by (intros [a h]; reflexivity).
  rewrite (map_ext (fun '(a, h) => if negb h && a_is_follower a then set_target (a_familiar_exit a) a else a) (fun p : agent * bool => g (fst p) (snd p))) by (intros [a h]; reflexivity).
  apply (lmap_combine g). intros l a x. unfold g. change (a_is_follower (load1 l a)) with (a_is_follower a). destruct (negb x && a_is_follower a); reflexivity.
Qed.
Lemma directions_load ls agents ds : set_follower_directions (lmap ls agents) ds = lmap ls (set_follower_directions agents ds).
Proof.
  unfold set_follower_directions. set (g := fun (a : agent) (d : vec) => if a_is_follower a then set_target_direction d a else a).
  rewrite (map_ext _ (fun p : agent * vec => g (fst p) (snd p))) by (intros [a h]; reflexivity).
  rewrite (map_ext (fun '(a, d) => if a_is_follower a then set_target_direction d a else a) (fun p : agent * vec => g (fst p) (snd p))) by (intros [a h]; reflexivity).
  apply (lmap_combine g). intros l a x. unfold g. change (a_is_follower (load1 l a)) with (a_is_follower a). destruct (a_is_follower a); reflexivity.
Qed.
Lemma leader_follower_load ar o sight ls agents : length ls = length agents ->
  leader_follower_node ar o sight (lmap ls agents) = rmap (lmap ls) (leader_follower_node ar o sight agents).
Proof.
  intros L. unfold leader_follower_node, leader_follower_interaction.
  rewrite (lmap_proj a_is_follower), (lmap_proj a_is_leader), (lmap_proj a_position), (lmap_proj a_velocity), (lmap_proj a_target), (lmap_proj a_index_leader) by auto.
  destruct (leader_follower_interaction_brute _ _ _ _ _ _ _ _ _ _ _) as [s|e]; cbn [rbind rmap fst snd]; auto.
  now rewrite put_lf_load, use_familiar_load, directions_load.
Qed.
Lemma neighbor_loop_length position o pairs : forall rows rows', neighbor_loop position o pairs rows = Ok rows' -> length rows' = length rows.
Proof.
  assert (O : forall i j l rows rows', offer i j l rows = Ok rows' -> length rows' = length rows).
  { intros i j l rows rows'. unfold offer. destruct (nth_error rows i) as [r|]; [|discriminate]. destruct (Rltb l (snd r)); [|now intros [= <-]].
    destruct (set_neighbor j l r); cbn; [|discriminate]. intros [= <-]. apply upd_length. }
  induction pairs as [|[i j] pairs IH]; intros rows rows'; cbn; [now intros [= <-]|].
  destruct (nth_error position i); [|discriminate]. destruct (nth_error position j); [|discriminate]. destruct (is_obstacle_between_points _ _ _); [apply IH|].
  destruct (offer i j _ rows) as [r1|] eqn:E1; cbn; [|discriminate]. destruct (offer j i _ r1) as [r2|] eqn:E2; cbn; [|discriminate].
  intros H. rewrite (IH _ _ H). rewrite (O _ _ _ _ _ E2). apply (O _ _ _ _ _ E1).
Qed.
Lemma nearest_length position sight k pairs o nb : find_nearest_neighbors position sight k pairs o = Ok nb -> length nb = length position.
Proof.
  unfold find_nearest_neighbors. destruct (neighbor_loop _ _ _ _) as [rows|] eqn:E; cbn; [|discriminate]. intros [= <-]. rewrite map_length.
  apply neighbor_loop_length in E. now rewrite map_length in E.
Qed.
Lemma herding_load ar enum o sight k ls agents : length ls = length agents ->
  leader_follower_with_herding_node ar enum o sight k (lmap ls agents) = rmap (lmap ls) (leader_follower_with_herding_node ar enum o sight k agents).
Proof.
  intros L. unfold leader_follower_with_herding_node, leader_follower_with_herding_interaction. cbv zeta.
  rewrite (lmap_proj a_is_follower), (lmap_proj a_position), (lmap_proj a_velocity) by auto.
  destruct (find_nearest_neighbors _ _ _ _ _) as [nb|e] eqn:En; cbn [rbind rmap]; auto.
  set (herd := herding_interaction _ _ _ _ _ _). set (g := fun (a : agent) (x : vec * bool) => if snd x then set_target NO_TARGET a else a).
  assert (HG : forall l, map (fun '(a, (_, h)) => if (h : bool) then set_target NO_TARGET a else a) (combine l herd) = map (fun p => g (fst p) (snd p)) (combine l herd))
    by (intros l; apply map_ext; intros [a [d h]]; reflexivity).
  rewrite !HG. rewrite (lmap_combine g) by (intros l a [d [|]]; reflexivity). set (agents1 := map (fun p => g (fst p) (snd p)) (combine agents herd)).
  destruct (Nat.eq_dec (length ls) (length agents1)) as [L1|L1].
  - rewrite (lmap_proj a_is_leader), (lmap_proj a_target), (lmap_proj a_index_leader) by auto.
    destruct (leader_follower_interaction_brute _ _ _ _ _ _ _ _ _ _ _) as [s|e]; cbn [rbind rmap fst snd]; auto.
    now rewrite put_lf_load, use_familiar_load, directions_load.
  - exfalso. apply L1. unfold agents1. rewrite map_length, combine_length.
    assert (length herd = length agents); [|lia].
    unfold herd, herding_interaction. rewrite map_length, !combine_length, seq_length, !map_length. apply nearest_length in En. rewrite map_length in En. lia.
Qed.

Lemma exit_detection_load ts o range ls agents : length ls = length agents ->
  exit_detection_node ts o range (lmap ls agents) = rmap (lmap ls) (exit_detection_node ts o range agents).
Proof.
  intros L. unfold exit_detection_node. destruct ts as [|t ts]; auto. cbv zeta. rewrite (lmap_proj a_position) by auto. cbn [rmap]. f_equal.
  set (xs := exit_detection _ _ _ _). set (g := fun (a : agent) (x : Z * bool) => if a_is_follower a && snd x then set_is_follower false (set_target (fst x) a) else a).
  assert (HG : forall l, map (fun '(a, (t, has)) => if (a_is_follower a && has)%bool then set_is_follower false (set_target t a) else a) (combine l xs)
     = map (fun p => g (fst p) (snd p)) (combine l xs)) by (intros l; apply map_ext; intros [a [d h]]; reflexivity).
  rewrite !HG. apply (lmap_combine g). intros l a x. unfold g. change (a_is_follower (load1 l a)) with (a_is_follower a). destruct (a_is_follower a && snd x); reflexivity.
Qed.
Lemma orientation_load k ls agents : orientation_node k (lmap ls agents) = lmap ls (orientation_node k agents).
Proof. unfold orientation_node. destruct (is_model k ThreeCircle); auto. apply lmap_map. reflexivity. Qed.
Lemma inside_load inside ls agents : length ls = length agents ->
  inside_domain inside (lmap ls agents) = (lmap ls (fst (inside_domain inside agents)), snd (inside_domain inside agents)).
Proof.
  intros L. unfold inside_domain. cbn [fst snd]. f_equal; [apply lmap_map; reflexivity|].
  revert ls L. induction agents as [|a agents IH]; intros [|l ls] L; cbn in L; try lia; auto. rewrite lmap_cons. cbn [filter].
  change (a_active (load1 l a)) with (a_active a). change (a_position (load1 l a)) with (a_position a). destruct (xorb _ _); cbn; rewrite IH by lia; auto.
Qed.

Lemma node_load e n ls s : plain n -> length ls = length (s_agents s) -> run_node e n (loaded ls s) = rmap (loaded ls) (run_node e n s).
Proof.
  intros P L. destruct n; cbn [plain] in P; try contradiction; unfold run_node; cbv zeta;
    change (s_agents (loaded ls s)) with (lmap ls (s_agents s)).
  - cbn [rmap]. rewrite fluctuate_load by auto. reflexivity.
  - destruct (adjust_load (e_kind e) ls (s_agents s) L) as [E _]. rewrite E. clear E. destruct (adjust _ _); reflexivity.
  - destruct (agent_agent_load (e_enum e) traits (e_kind e) ls (s_agents s) L) as [E _]. rewrite E. clear E. destruct (aa_node_update _ _ _ _); reflexivity.
  - rewrite obstacle_load. reflexivity.
  - destruct (navigation_load (e_nav e step radius strength) (length (e_targets e)) ls (s_agents s) L) as [E _].
    destruct (navigation_node _ _ (lmap ls (s_agents s))) as [r|x]; cbn [rbind] in *.
    + rewrite E. destruct (navigation_node _ _ (s_agents s)) as [r'|x]; cbn [rbind] in *; [|reflexivity]. destruct (all_finite r'); reflexivity.
    + destruct (navigation_node _ _ (s_agents s)) as [r'|y]; cbn [rbind rmap] in *; [|congruence]. destruct (all_finite r'); cbn in *; congruence.
  - rewrite leader_follower_load by auto. destruct (leader_follower_node _ _ _ _); reflexivity.
  - rewrite herding_load by auto. destruct (leader_follower_with_herding_node _ _ _ _ _ _); reflexivity.
  - rewrite exit_detection_load by auto. destruct (exit_detection_node _ _ _ _); reflexivity.
  - rewrite orientation_load. reflexivity.
  - rewrite inside_load by auto. destruct (inside_domain _ _); reflexivity.
Qed.

(** ** Sums of contributions *)
Definition loads (s : sim) : list (vec * R) := map (fun a => (a_force a, a_torque a)) (s_agents s).
Lemma load1_back a : load1 (a_force a, a_torque a) (set_torque 0 (set_force vzero a)) = a.
Proof.
  unfold load1, add_torque, add_force. cbn [fst snd].
  change (a_torque (set_force (vadd (a_force (set_torque 0 (set_force vzero a))) (a_force a)) (set_torque 0 (set_force vzero a)))) with 0.
  change (a_force (set_torque 0 (set_force vzero a))) with vzero.
  replace (vadd vzero (a_force a)) with (a_force a) by (veq; lra). replace (0 + a_torque a) with (a_torque a) by lra. now destruct a.
Qed.
Lemma unloaded_loads s : loaded (loads s) (unloaded s) = s.
Proof.
  destruct s as [l dt t i d]. unfold loaded, unloaded, loads, with_agents, lmap. cbn [s_agents s_dt s_time s_inactive s_draws]. f_equal.
  induction l as [|a l IH]; [reflexivity|]. cbn [map combine fst snd]. rewrite load1_back. f_equal. exact IH.
Qed.
Lemma node_adds e n s s' : plain n -> run_node e n s = Ok s' ->
  exists u, run_node e n (unloaded s) = Ok u /\ forall i a, nth_error (s_agents s') i = Some a ->
    exists b c, nth_error (s_agents s) i = Some b /\ nth_error (s_agents u) i = Some c /\ a = load1 (a_force b, a_torque b) c.
Proof.
  intros P E. rewrite <- (unloaded_loads s) in E. rewrite node_load in E; auto.
  2: { unfold loads, unloaded, with_agents. cbn. now rewrite !map_length. }
  destruct (run_node e n (unloaded s)) as [u|]; [|discriminate]. injection E as <-. exists u. split; auto. intros i a H.
  unfold loaded, with_agents, lmap in H. cbn [s_agents] in H. rewrite nth_error_map in H. destruct (nth_error (combine (s_agents u) (loads s)) i) as [[c l]|] eqn:K; [|discriminate].
  injection H as <-. cbn [fst snd]. assert (K2 : nth_error (s_agents u) i = Some c /\ nth_error (loads s) i = Some l).
  { clear - K. revert i K. generalize (s_agents u) (loads s). induction l0 as [|x l0 IH]; intros [|y l1] [|i] K; try discriminate; [injection K as <- <-; auto|]. exact (IH l1 i K). }
  destruct K2 as [K2 K3]. unfold loads in K3. rewrite nth_error_map in K3. destruct (nth_error (s_agents s) i) as [b|] eqn:E; [|discriminate]. injection K3 as <-.
  exists b, c. auto.
Qed.

Lemma run_sums e l s log s' : runs e l s log s' -> (forall n, In n l -> plain n) -> forall i a, nth_error (s_agents s') i = Some a ->
  exists b cs, nth_error (s_agents s) i = Some b /\ Forall2 (fun p c => contributes e i (fst p) (snd p) (fst c) (snd c)) log cs /\
    a_force a = vadd (a_force b) (vsum (map fst cs)) /\ a_torque a = a_torque b + rsum (map snd cs).
Proof.
  induction 1 as [s|n l s s1 log s' H R IH]; intros P i a Ha.
  - exists a, []. split; auto. split; [constructor|]. cbn. split; [veq; lra|lra].
  - destruct (IH (fun m Hm => P m (or_intror Hm)) i a Ha) as (b1 & cs & Hb1 & F & Ef & Et).
    destruct (node_adds e n s s1 (P n (or_introl eq_refl)) H) as (u & Hu & K). destruct (K i b1 Hb1) as (b & c & Hb & Hc & ->).
    exists b, ((a_force c, a_torque c) :: cs). split; auto. split.
    + constructor; auto. exists u, c. auto.
    + rewrite Ef, Et. cbn [map fst snd]. change (vsum (a_force c :: map fst cs)) with (vadd (a_force c) (vsum (map fst cs))).
      change (rsum (a_torque c :: map snd cs)) with (a_torque c + rsum (map snd cs)).
      generalize (vsum (map fst cs)) (rsum (map snd cs)). intros v r. unfold load1, add_torque, add_force. cbn. split; [veq; lra|lra].
Qed.

(** ** Reset and Integrator *)
Lemma reset_clears e s s' : run_node e Reset s = Ok s' -> at_rest_loads (e_kind e) s'.
Proof.
  intros [= <-] a. cbn. intros H. apply in_map_iff in H as (b & <- & _). unfold reset_row. destruct (e_kind e); cbn; auto. split; auto. discriminate.
Qed.
Lemma all_finite_nth r : forall l, all_finite r = Ok l -> forall i, nth_error l i = match nth_error r i with Some (Some a) => Some a | _ => None end.
Proof.
  induction r as [|[x|] r IH]; intros l E; cbn in E; try discriminate.
  - injection E as <-. now intros [|i].
  - destruct (all_finite r) as [q|]; [|discriminate]. injection E as <-. intros [|i]; cbn; auto.
Qed.
Lemma integrator_remembers e dmin dmax s s' : run_node e (Integrator dmin dmax) s = Ok s' -> forall i a, nth_error (s_agents s') i = Some a ->
  exists b, nth_error (s_agents s) i = Some b /\ a_force_prev a = a_force b /\ (e_kind e = ThreeCircle -> a_torque_prev a = a_torque b).
Proof.
  cbn [run_node]. unfold velocity_verlet_integrator. destruct (adaptive_timestep _ _ _) as [dt|]; cbn [rbind]; [|discriminate].
  assert (T : forall b c, translational_verlet dt b = Some c -> a_force_prev c = a_force b /\ a_torque c = a_torque b).
  { intros b c. unfold translational_verlet. destruct (Reqb _ _); [discriminate|]. intros [= <-]. auto. }
  destruct (e_kind e).
  - cbn [rbind fst snd]. destruct (all_finite _) as [l|] eqn:E; [|discriminate]. cbn [rbind]. intros [= <-] i a. cbn [s_agents]. intros Ha.
    rewrite (all_finite_nth _ _ E) in Ha. rewrite nth_error_map in Ha. destruct (nth_error (s_agents s) i) as [b|]; [|discriminate]. cbn in Ha.
    destruct (translational_verlet dt b) as [c|] eqn:Ec; [|discriminate]. injection Ha as <-. exists b. split; auto. split; [now apply T|discriminate].
  - destruct (needs_inertia _); [discriminate|]. cbn [rbind fst snd]. destruct (all_finite _) as [l|] eqn:E; [|discriminate]. cbn [rbind]. intros [= <-] i a. cbn [s_agents]. intros Ha.
    rewrite (all_finite_nth _ _ E) in Ha. rewrite !nth_error_map in Ha. destruct (nth_error (s_agents s) i) as [b|]; [|discriminate]. cbn in Ha.
    destruct (translational_verlet dt b) as [c|] eqn:Ec; [|discriminate]. injection Ha as <-. exists b. split; auto. destruct (T b c Ec) as [T1 T2].
    split; auto.
Qed.

(** ** What the other nodes leave alone *)
Section Keeps.
  Context {B : Type} (p : agent -> B).
  Hypothesis ins_force : unaffected Force p.
  Hypothesis ins_torque : unaffected Torque p.
  Hypothesis ins_target : unaffected Target p.
  Hypothesis ins_direction : unaffected TargetDirection p.
  Hypothesis ins_leader : unaffected IndexLeader p.
  Hypothesis ins_follower : unaffected IsFollower p.
  Lemma map_keeps g l : (forall a, p (g a) = p a) -> map p (map g l) = map p l.
  Proof. intros H. rewrite map_map. now apply map_ext. Qed.
  Lemma combine_keeps {C} (g : agent -> C -> agent) (l : list agent) (xs : list C) : (forall a x, p (g a x) = p a) -> length xs = length l ->
    map p (map (fun q => g (fst q) (snd q)) (combine l xs)) = map p l.
  Proof. intros H. revert xs. induction l as [|a l IH]; intros [|x xs] L; cbn in *; try lia; auto. rewrite H. f_equal. apply IH. lia. Qed.
  Lemma loop_keeps f l : (forall a a', f a = Ok a' -> p a' = p a) -> forall l', looped (loop_rows f l) = Ok l' -> map p l' = map p l.
  Proof.
    intros H. induction l as [|a l IH]; intros l' E; cbn in E; [now injection E as <-|]. destruct (f a) as [a'|] eqn:Ea; [|discriminate].
    destruct (loop_rows f l) as [[x|] r]; cbn in E; [discriminate|]. injection E as <-. cbn. f_equal; auto.
  Qed.
  Lemma upd_keeps l i a b : nth_error l i = Some a -> p b = p a -> map p (upd l i b) = map p l.
  Proof. revert i. induction l as [|x l IH]; intros [|i] E H; cbn in *; try discriminate; [injection E as ->; now rewrite H|]. f_equal. now apply IH. Qed.
  Lemma modify_keeps i f l : (forall a, p (f a) = p a) -> map p (modify i f l) = map p l.
  Proof. intros H. unfold modify. destruct (nth_error l i) eqn:E; auto. now apply (upd_keeps l i a). Qed.
  Lemma add_force_keeps v a : p (add_force v a) = p a.
  Proof. apply ins_force. Qed.
  Lemma add_torque_keeps v a : p (add_torque v a) = p a.
  Proof. apply ins_torque. Qed.
  Lemma pairs_keeps f : (forall i j l l', f i j l = Ok l' -> map p l' = map p l) -> forall pairs l l', over_pairs f pairs l = Ok l' -> map p l' = map p l.
  Proof.
    intros H. induction pairs as [|[i j] pairs IH]; intros l l' E; cbn in E; [now injection E as <-|]. destruct (f i j l) as [l1|] eqn:E1; [|discriminate].
    cbn in E. rewrite (IH _ _ E). apply (H _ _ _ _ E1).
  Qed.
  Lemma agent_agent_keeps k pairs l l' : agent_agent k pairs l = Ok l' -> map p l' = map p l.
  Proof.
    unfold agent_agent. destruct k; apply pairs_keeps; intros i j l0 l1.
    - unfold interaction_agent_agent_circular. destruct (nth_error l0 i); [|discriminate]. destruct (nth_error l0 j); [|discriminate].
      destruct (pair_forces_circular _ _) as [[[fi fj]|]|]; cbn; [| |discriminate]; intros [= <-]; auto. rewrite !modify_keeps; auto using add_force_keeps.
    - unfold interaction_agent_agent_three_circle. destruct (nth_error l0 i); [|discriminate]. destruct (nth_error l0 j); [|discriminate].
      destruct (pair_forces_three_circle _ _) as [[[[[fi fj] mi] mj]|]|]; cbn [rbind]; [| |discriminate]; intros [= <-]; auto.
      rewrite !modify_keeps; auto using add_force_keeps, add_torque_keeps.
  Qed.
  Lemma fluctuate_keeps k d l : forall i, map p (fluctuate k d i l) = map p l.
  Proof.
    induction l as [|a l IH]; intros i; cbn [fluctuate]; auto. destruct (d i) as [[phi z] zt]. cbn [map]. f_equal; auto.
    unfold fluctuate_row. destruct k; rewrite ?ins_torque, ins_force; auto.
  Qed.
  Lemma obstacle_keeps k l o : map p (agent_obstacle k l o) = map p l.
  Proof.
    unfold agent_obstacle. destruct k; apply map_keeps; intros a; revert a; induction o as [|x o IH]; intros a; cbn; auto; rewrite IH.
    - unfold obstacle_circular. destruct (distance_circle_line _ _ _ _) as [[h n]|]; auto. destruct (Rltb h 0); auto. apply add_force_keeps.
    - unfold obstacle_three_circle. destruct (distance_three_circle_line _ _ _ _) as [[[h n] m]|]; auto. destruct (Rltb h 0); auto.
      rewrite add_torque_keeps. apply add_force_keeps.
  Qed.
  (** Rows that may have become NaN. *)
  Definition same_or_nan (r : option agent) (b : B) : Prop := match r with Some a => p a = b | None => True end.
  Lemma scatter_keeps t : forall r ds bs, Forall2 same_or_nan r bs -> Forall2 same_or_nan (scatter t r ds) bs.
  Proof.
    intros r. induction r as [|[a|] r IH]; intros ds bs H; inversion H as [|? b ? bs' H1 H2]; subst; cbn [scatter]; auto; try (constructor; auto).
    destruct (a_target a =? t)%Z; [destruct ds as [|[d|] ds]; [auto| |]|]; constructor; auto; cbn in *; try (now rewrite ins_direction); auto.
  Qed.
  Lemma navigate_keeps nav ts : forall r r' bs, navigate_all nav ts r = Ok r' -> Forall2 same_or_nan r bs -> Forall2 same_or_nan r' bs.
  Proof.
    induction ts as [|t ts IH]; intros r r' bs E H; cbn [navigate_all] in E; [now injection E as <-|].
    destruct (navigate_target nav t r) as [r1|] eqn:E1; [|discriminate]. cbn [rbind] in E. apply (IH r1); auto.
    unfold navigate_target in E1. destruct r as [|x r]; [now injection E1 as <-|]. destruct (nav t) as [[m dir]|]; [|discriminate]. cbn [rbind] in E1.
    destruct (getdefault _ _ _) as [ds|]; [|discriminate]. injection E1 as <-. exact (scatter_keeps t (x :: r) ds bs H).
  Qed.
  Lemma finite_keeps r : forall l bs, all_finite r = Ok l -> Forall2 same_or_nan r bs -> map p l = bs.
  Proof.
    induction r as [|[a|] r IH]; intros l bs E H; inversion H; subst; cbn in E; try discriminate; [now injection E as <-|].
    destruct (all_finite r) as [q|]; [|discriminate]. injection E as <-. cbn. f_equal; auto.
  Qed.
  Lemma navigation_keeps nav n l r l' : navigation_node nav n l = Ok r -> all_finite r = Ok l' -> map p l' = map p l.
  Proof.
    intros E F. apply (finite_keeps r); auto. apply (navigate_keeps _ _ _ _ _ E). clear. induction l; constructor; cbn; auto.
  Qed.
  (** Following. *)
  Definition lf_sized (n : nat) (s : lf_state) : Prop := length (lf_target s) = n /\ length (lf_leader s) = n /\ length (lf_direction s) = n /\ length (lf_strategy s) = n.
  Lemma follow_all_sized n step : (forall i s s', step i s = Ok s' -> lf_sized n s -> lf_sized n s') -> forall is s s', follow_all step is s = Ok s' -> lf_sized n s -> lf_sized n s'.
  Proof.
    intros H. induction is as [|i is IH]; intros s s' E S; cbn in E; [now injection E as <-|]. destruct (step i s) as [s1|] eqn:E1; [|discriminate]. cbn in E. eauto.
  Qed.
  Lemma follow_one_sized n ar position velocity w phi o sight leaders i s s' :
    follow_one ar position velocity w phi o sight leaders i s = Ok s' -> lf_sized n s -> lf_sized n s'.
  Proof.
    unfold follow_one, copy_target, lf_sized. cbv zeta. intros E S. destruct (choose_leader _ _ _ _ _ _ _ _ _ _).
    - injection E as <-. cbn. now rewrite !upd_length.
    - destruct (if (_ <? _)%Z then _ else _); [|discriminate]. injection E as <-. cbn. now rewrite !upd_length.
    - destruct (negb _); [|now injection E as <-]. destruct (if (_ <? _)%Z then _ else _); [|discriminate]. injection E as <-. cbn. now rewrite !upd_length.
  Qed.
  Lemma brute_sized ar f ld (position velocity : list vec) w phi tg il o sight s n : length tg = n -> length il = n -> length position = n ->
    leader_follower_interaction_brute ar f ld position velocity w phi tg il o sight = Ok s -> lf_sized n s.
  Proof.
    intros A1 A2 A3 E. unfold leader_follower_interaction_brute in E. apply (follow_all_sized n) in E; auto.
    - intros i s0 s1. apply follow_one_sized.
    - unfold lf_sized. cbn. now rewrite !map_length.
  Qed.
  Lemma put_lf_keeps l s : lf_sized (length l) s -> map p (put_lf l s) = map p l.
  Proof.
    intros (A1 & A2 & _). unfold put_lf.
    rewrite (map_ext _ (fun q : agent * (Z * Z) => set_index_leader (snd (snd q)) (set_target (fst (snd q)) (fst q)))) by (intros [a [t x]]; reflexivity).
    apply (combine_keeps (fun a x => set_index_leader (snd x) (set_target (fst x) a))).
    - intros a x. now rewrite ins_leader, ins_target.
    - rewrite combine_length. lia.
  Qed.
  Lemma use_familiar_keeps l has : length has = length l -> map p (use_familiar l has) = map p l.
  Proof.
    intros L. unfold use_familiar. set (g := fun (a : agent) (h : bool) => if negb h && a_is_follower a then set_target (a_familiar_exit a) a else a).
    rewrite (map_ext _ (fun q : agent * bool => g (fst q) (snd q))) by (intros [a h]; reflexivity). apply (combine_keeps g); auto.
    intros a x. unfold g. destruct (_ && _); auto.
  Qed.
  Lemma directions_keeps l ds : length ds = length l -> map p (set_follower_directions l ds) = map p l.
  Proof.
    intros L. unfold set_follower_directions. set (g := fun (a : agent) (d : vec) => if a_is_follower a then set_target_direction d a else a).
    rewrite (map_ext _ (fun q : agent * vec => g (fst q) (snd q))) by (intros [a h]; reflexivity). apply (combine_keeps g); auto.
    intros a x. unfold g. destruct (a_is_follower a); auto.
  Qed.
  Lemma length_map_eq (l l' : list agent) : map p l = map p l' -> length l = length l'.
  Proof. intros E. rewrite <- (map_length p l), E. apply map_length. Qed.
  Lemma leader_follower_keeps ar o sight l l' : leader_follower_node ar o sight l = Ok l' -> map p l' = map p l.
  Proof.
    unfold leader_follower_node, leader_follower_interaction. destruct (leader_follower_interaction_brute _ _ _ _ _ _ _ _ _ _ _) as [s|] eqn:E; [|discriminate].
    cbn [rbind fst snd]. intros [= <-]. apply (brute_sized _ _ _ _ _ _ _ _ _ _ _ _ (length l)) in E; rewrite ?map_length; auto. pose proof E as (E1 & E2 & E3 & E4).
    pose proof (put_lf_keeps l s E) as P1. pose proof (length_map_eq _ _ P1) as L1. pose proof (use_familiar_keeps (put_lf l s) (lf_strategy s) ltac:(congruence)) as P2.
    pose proof (length_map_eq _ _ P2) as L2. rewrite directions_keeps by congruence. congruence.
  Qed.
  Lemma herding_keeps ar enum o sight k l l' : leader_follower_with_herding_node ar enum o sight k l = Ok l' -> map p l' = map p l.
  Proof.
    unfold leader_follower_with_herding_node, leader_follower_with_herding_interaction. cbv zeta.
    destruct (find_nearest_neighbors _ _ _ _ _) as [nb|] eqn:En; [|discriminate]. cbn [rbind].
    set (herd := herding_interaction _ _ _ _ _ _). assert (Lh : length herd = length l).
    { unfold herd, herding_interaction. rewrite map_length, !combine_length, seq_length, !map_length. apply nearest_length in En. rewrite map_length in En. lia. }
    set (g := fun (a : agent) (x : vec * bool) => if snd x then set_target NO_TARGET a else a).
    rewrite (map_ext (fun '(a, (_, h)) => _) (fun q : agent * (vec * bool) => g (fst q) (snd q))) by (intros [a [d h]]; reflexivity).
    set (l1 := map _ (combine l herd)). assert (P0 : map p l1 = map p l).
    { apply (combine_keeps g); auto. intros a [d [|]]; cbn; auto. }
    pose proof (length_map_eq _ _ P0) as L0.
    destruct (leader_follower_interaction_brute _ _ _ _ _ _ _ _ _ _ _) as [s|] eqn:E; [|discriminate]. cbn [rbind fst snd]. intros [= <-].
    apply (brute_sized _ _ _ _ _ _ _ _ _ _ _ _ (length l1)) in E; rewrite ?map_length; auto. pose proof E as (E1 & E2 & E3 & E4).
    pose proof (put_lf_keeps l1 s E) as P1. pose proof (length_map_eq _ _ P1) as L1.
    match goal with |- map p (set_follower_directions (use_familiar _ ?h) ?d) = _ =>
      pose proof (use_familiar_keeps (put_lf l1 s) h ltac:(rewrite map_length, combine_length; lia)) as P2; pose proof (length_map_eq _ _ P2) as L2;
      rewrite (directions_keeps _ d) by (unfold normalize_nx2; rewrite !map_length, combine_length; lia) end.
    congruence.
  Qed.
  Lemma exit_keeps ts o range l l' : exit_detection_node ts o range l = Ok l' -> map p l' = map p l.
  Proof.
    unfold exit_detection_node. destruct ts as [|t ts]; [discriminate|]. cbv zeta. intros [= <-].
    set (g := fun (a : agent) (x : Z * bool) => if a_is_follower a && snd x then set_is_follower false (set_target (fst x) a) else a).
    rewrite (map_ext (fun '(a, (_, h)) => _) (fun q : agent * (Z * bool) => g (fst q) (snd q))) by (intros [a [d h]]; reflexivity).
    apply (combine_keeps g).
    - intros a x. unfold g. destruct (_ && _); auto. now rewrite ins_follower, ins_target.
    - unfold exit_detection. now rewrite !map_length.
  Qed.
End Keeps.
Lemma plain_keeps {B} (p : agent -> B) e n s s' : plain n -> (forall f, In f (writes n) -> unaffected f p) -> run_node e n s = Ok s' -> map p (s_agents s') = map p (s_agents s).
Proof.
  intros P A. destruct n; cbn [plain] in P; try contradiction; cbn [writes] in A; unfold run_node; cbv zeta.
  - intros [= <-]. apply fluctuate_keeps; apply A; cbn; auto.
  - unfold adjust. destruct (looped (force_adjust_agents _)) as [l|] eqn:E; cbn [rbind]; [|discriminate].
    apply (loop_keeps p force_adjust_row) in E.
    2: { intros a a'. unfold force_adjust_row. destruct (force_adjust _ _ _ _ _); cbn [rbind]; [|discriminate]. intros [= <-]. apply (A Force). cbn; auto. }
    destruct (is_model _ _); [|cbn [rbind]; intros [= <-]; exact E].
    destruct (looped (torque_adjust_agents l)) as [l'|] eqn:E'; cbn [rbind]; [|discriminate]. intros [= <-]. cbn. rewrite <- E.
    apply (loop_keeps p torque_adjust_row) in E'; auto.
    intros a a'. unfold torque_adjust_row. destruct (torque_adjust _ _ _ _ _ _); cbn [rbind]; [|discriminate]. intros [= <-]. apply (A Torque). cbn; auto.
  - destruct (aa_node_update _ _ _ _) as [l|] eqn:E; [|discriminate]. cbn. intros [= <-]. apply (agent_agent_keeps p) in E; auto; apply A; cbn; auto.
  - intros [= <-]. apply obstacle_keeps; apply A; cbn; auto.
  - destruct (navigation_node _ _ _) as [r|] eqn:E; [|discriminate]. cbn [rbind]. destruct (all_finite r) as [l|] eqn:F; [|discriminate]. cbn. intros [= <-].
    apply (navigation_keeps p) with (l' := l) in E; auto. apply A; cbn; auto.
  - destruct (leader_follower_node _ _ _ _) as [l|] eqn:E; [|discriminate]. cbn. intros [= <-]. apply (leader_follower_keeps p) in E; auto; apply A; cbn; auto.
  - destruct (leader_follower_with_herding_node _ _ _ _ _ _) as [l|] eqn:E; [|discriminate]. cbn. intros [= <-]. apply (herding_keeps p) in E; auto; apply A; cbn; auto.
  - destruct (exit_detection_node _ _ _ _) as [l|] eqn:E; [|discriminate]. cbn. intros [= <-]. apply (exit_keeps p) in E; auto; apply A; cbn; auto.
  - intros [= <-]. unfold orientation_node. destruct (is_model _ _); auto. apply map_keeps. intros a. apply (A TargetOrientation). cbn; auto.
  - intros [= <-]. apply map_keeps. intros a. apply (A Active). cbn; auto.
Qed.
Lemma reset_keeps {B} (p : agent -> B) e s s' : unaffected Force p -> unaffected Torque p -> run_node e Reset s = Ok s' -> map p (s_agents s') = map p (s_agents s).
Proof.
  intros IF IT [= <-]. apply map_keeps. intros a. unfold reset_row. destruct (is_model _ _); rewrite ?IT, IF; auto.
Qed.
Lemma integrator_keeps {B} (p : agent -> B) e dmin dmax s s' : (forall c, In c (writes (Integrator dmin dmax)) -> unaffected c p) -> run_node e (Integrator dmin dmax) s = Ok s' -> map p (s_agents s') = map p (s_agents s).
Proof.
  intros A. pose proof (A Position ltac:(cbn; tauto)) as I1. pose proof (A Velocity ltac:(cbn; tauto)) as I2. pose proof (A ForcePrev ltac:(cbn; tauto)) as I3.
  pose proof (A Angle ltac:(cbn; tauto)) as I4. pose proof (A AngularVelocity ltac:(cbn; tauto)) as I5. pose proof (A TorquePrev ltac:(cbn; tauto)) as I6.
  pose proof (A LeftShoulder ltac:(cbn; tauto)) as I7. pose proof (A RightShoulder ltac:(cbn; tauto)) as I8. clear A.
  cbn [run_node]. unfold velocity_verlet_integrator. cbv zeta. destruct (adaptive_timestep _ _ _) as [dt|]; [|discriminate]. cbn [rbind].
  assert (T : forall a b, translational_verlet dt a = Some b -> p b = p a).
  { intros a b. unfold translational_verlet. destruct (Reqb _ _); [discriminate|]. intros [= <-]. now rewrite I1, I2, I3. }
  assert (RO : forall a, p (shoulders_row (rotational_verlet dt a)) = p a).
  { intros a. unfold shoulders_row, rotational_verlet. cbv zeta. now rewrite I8, I7, I4, I5, I6. }
  assert (TT : Forall2 (same_or_nan p) (map (translational_verlet dt) (s_agents s)) (map p (s_agents s))).
  { clear - T. induction (s_agents s); cbn; constructor; auto. unfold same_or_nan. destruct (translational_verlet dt a) eqn:E; auto. }
  destruct (e_kind e).
  - cbn [rbind fst snd]. destruct (all_finite _) as [l|] eqn:E; [|discriminate]. cbn [rbind]. intros [= <-]. cbn. apply (finite_keeps p _ _ _ E TT).
  - destruct (needs_inertia _); [discriminate|]. cbn [rbind fst snd]. destruct (all_finite _) as [l|] eqn:E; [|discriminate]. cbn [rbind]. intros [= <-]. cbn.
    apply (finite_keeps p _ _ _ E). clear - TT RO. induction TT as [|r b rs bs H TT IH]; cbn [map]; constructor; auto.
    destruct r as [a|]; cbn in *; auto. now rewrite RO.
Qed.
Lemma node_keeps {B} (p : agent -> B) e n s s' : (forall f, In f (writes n) -> unaffected f p) -> run_node e n s = Ok s' -> map p (s_agents s') = map p (s_agents s).
Proof.
  intros A H. destruct n; try (refine (plain_keeps p e _ s s' _ A H); exact Logic.I).
  - apply (reset_keeps p e s s' (A Force ltac:(cbn; tauto)) (A Torque ltac:(cbn; tauto)) H).
  - exact (integrator_keeps p e dt_min dt_max s s' A H).
Qed.
Lemma run_keeps {B} (p : agent -> B) e l s log s' : runs e l s log s' -> (forall n f, In n l -> In f (writes n) -> unaffected f p) -> map p (s_agents s') = map p (s_agents s).
Proof.
  induction 1 as [s|n l s s1 log s' H R IH]; intros A; auto. rewrite IH by (intros m f Hm; apply (A m); now right).
  apply (node_keeps p e n); auto. intros f. apply A. now left.
Qed.

(** ** Updates as runs of the written order *)
Lemma update_nodes_runs e ns is : forall l s s', map (nth_error ns) is = map Some l ->
  (update_nodes (node_effect e ns) is s = (s', None) <-> exists log, runs e l s log s').
Proof.
  induction is as [|i is IH]; intros [|n l] s s' E; cbn in E; try discriminate.
  - cbn. split; [intros [= <-]; exists []; constructor|]. intros [log H]. now inversion H.
  - injection E as E1 E2. cbn [update_nodes]. unfold node_effect at 1. rewrite E1. destruct (run_node e n s) as [s1|x] eqn:R.
    + rewrite (IH l s1 s' E2). split.
      * intros [log H]. exists ((n, s) :: log). econstructor; eauto.
      * intros [log H]. inversion H as [|? ? ? s2 log' ? H1 H2]; subst. exists log'. replace s1 with s2 by congruence. auto.
    + split; [discriminate|]. intros [log H]. inversion H. congruence.
Qed.
Lemma update_runs e x s k s' k' : simulation_update e x (s, k) = ((s', k'), None) <-> k' = S k /\ exists log, runs e (written_order x) s log s'.
Proof.
  unfold simulation_update, logic_of. destruct (construct_postorder class_name x no_nodes [] reach_start eq_refl) as (r & f & ns & -> & R & Hr & Er & M).
  unfold update. rewrite Er. cbn [fst snd]. rewrite <- (update_nodes_runs e ns _ _ s s' M). destruct (update_nodes _ _ s) as [s1 [ex|]]; split.
  - discriminate.
  - intros [_ K]. discriminate.
  - intros [= -> <-]. auto.
  - intros [-> [= ->]]. auto.
Qed.
Lemma runs_app e l1 l2 : forall s log s', runs e (l1 ++ l2) s log s' <-> exists log1 m log2, log = log1 ++ log2 /\ runs e l1 s log1 m /\ runs e l2 m log2 s'.
Proof.
  induction l1 as [|n l1 IH]; intros s log s'; cbn.
  - split; [intros H; exists [], s, log; repeat split; auto; constructor|]. intros (log1 & m & log2 & -> & H1 & H2). inversion H1; subst. auto.
  - split.
    + intros H. inversion H as [|? ? ? s1 log' ? H1 H2]; subst. apply IH in H2 as (log1 & m & log2 & -> & H2 & H3).
      exists ((n, s) :: log1), m, log2. repeat split; auto. econstructor; eauto.
    + intros (log1 & m & log2 & -> & H1 & H2). inversion H1 as [|? ? ? s1 log' ? H3 H4]; subst. cbn. econstructor; eauto. apply IH. eauto 6.
Qed.
Lemma run_one e n s log s' : runs e [n] s log s' <-> run_node e n s = Ok s' /\ log = [(n, s)].
Proof.
  split.
  - intros H. inversion H as [|? ? ? s1 log' ? H1 H2]; subst. inversion H2; subst. auto.
  - intros [H ->]. econstructor; eauto. constructor.
Qed.

(** ** Force bookkeeping *)
Lemma keeps_previous n c : plain n \/ n = Reset -> In c (writes n) -> unaffected c (fun a => (a_force_prev a, a_torque_prev a)).
Proof. intros P H. destruct n; cbn in *; try (destruct P as [[]|?]; discriminate); repeat (destruct H as [<-|H]; [now intros ? ?|]); destruct H. Qed.
Section Bookkeeping.
  Variables (e : env) (x : expr node) (l1 l2 : list node) (dmin dmax : R).
  Hypothesis Hx : written_order x = l1 ++ Integrator dmin dmax :: l2 ++ [Reset].
  Hypothesis P1 : forall n, In n l1 -> plain n.
  Hypothesis P2 : forall n, In n l2 -> plain n.

  Lemma update_parts s k s' k' : simulation_update e x (s, k) = ((s', k'), None) ->
    exists log m m' m'', runs e l1 s log m /\ run_node e (Integrator dmin dmax) m = Ok m' /\ (exists log', runs e l2 m' log' m'') /\ run_node e Reset m'' = Ok s' /\ k' = S k.
  Proof.
    intros H. apply update_runs in H as [-> [log H]]. rewrite Hx in H. apply runs_app in H as (log1 & m & log2 & -> & H1 & H2).
    inversion H2 as [|? ? ? m' log' ? H3 H4]; subst. apply runs_app in H4 as (log3 & m'' & log4 & -> & H4 & H5). apply run_one in H5 as [H5 _].
    exists log1, m, m', m''. eauto 10.
  Qed.
  Lemma updates_clear s dts s' : updates e x s dts s' -> at_rest_loads (e_kind e) (fst s) -> at_rest_loads (e_kind e) (fst s').
  Proof.
    induction 1 as [s|[s k] [s1 k1] dts s' H U IH]; auto. intros _. apply IH. destruct (update_parts _ _ _ _ H) as (log & m & m' & m'' & _ & _ & _ & H4 & _).
    now apply (reset_clears e m'').
  Qed.
  Lemma forces_at_integrator s log m : at_rest_loads (e_kind e) s -> runs e l1 s log m -> forall i a, nth_error (s_agents m) i = Some a ->
    exists cs, Forall2 (fun p c => contributes e i (fst p) (snd p) (fst c) (snd c)) log cs /\
      a_force a = vsum (map fst cs) /\ (e_kind e = ThreeCircle -> a_torque a = rsum (map snd cs)).
  Proof.
    intros Z H i a Ha. destruct (run_sums e l1 s log m H P1 i a Ha) as (b & cs & Hb & F & Ef & Et).
    exists cs. split; auto. destruct (Z b (nth_error_In _ _ Hb)) as [Zf Zt]. split.
    - rewrite Ef, Zf. veq; lra.
    - intros K. rewrite Et, Zt by auto. lra.
  Qed.
  Lemma previous_force s k s' k' : simulation_update e x (s, k) = ((s', k'), None) ->
    exists log m, runs e l1 s log m /\ forall i a', nth_error (s_agents s') i = Some a' -> exists a, nth_error (s_agents m) i = Some a /\
      a_force_prev a' = a_force a /\ (e_kind e = ThreeCircle -> a_torque_prev a' = a_torque a).
  Proof.
    intros H. destruct (update_parts _ _ _ _ H) as (log & m & m' & m'' & H1 & H2 & [log' H3] & H4 & _). exists log, m. split; auto. intros i a' Ha'.
    assert (K : map (fun a => (a_force_prev a, a_torque_prev a)) (s_agents s') = map (fun a => (a_force_prev a, a_torque_prev a)) (s_agents m')).
    { apply (run_keeps (fun a => (a_force_prev a, a_torque_prev a)) e (l2 ++ [Reset]) m' (log' ++ [(Reset, m'')])).
      - apply runs_app. exists log', m'', [(Reset, m'')]. repeat split; auto. now apply run_one.
      - intros n c Hn. assert (Pn : plain n \/ n = Reset) by (apply in_app_iff in Hn as [Hn|[<-|[]]]; auto). now apply keeps_previous. }
    apply (f_equal (fun l => nth_error l i)) in K. rewrite !nth_error_map, Ha' in K. destruct (nth_error (s_agents m') i) as [b|] eqn:Hb; [|discriminate]. injection K as Kf Kt.
    destruct (integrator_remembers e dmin dmax m m' H2 i b Hb) as (a & Ha & Ef & Et). exists a. split; auto. split; [congruence|]. intros T. rewrite Kt. now apply Et.
  Qed.
  (** The force of the previous update still stands in [force_prev] when the integrator
      runs. *)
  Lemma previous_kept s log m : runs e l1 s log m -> map (fun a => (a_force_prev a, a_torque_prev a)) (s_agents m) = map (fun a => (a_force_prev a, a_torque_prev a)) (s_agents s).
  Proof. intros H. apply (run_keeps (fun a => (a_force_prev a, a_torque_prev a)) e l1 s log m); auto. intros n c Hn. apply keeps_previous. auto. Qed.
End Bookkeeping.

(** ** Time *)
Lemma run_time e l s log s' : runs e l s log s' -> (forall n, In n l -> plain n \/ n = Reset) -> s_time s' = s_time s /\ s_dt s' = s_dt s.
Proof.
  induction 1 as [s|n l s s1 log s' H R IH]; intros P; auto. destruct (IH (fun m Hm => P m (or_intror Hm))) as [E1 E2]. rewrite E1, E2. clear - H P.
  assert (Pn : plain n \/ n = Reset) by (apply P; now left). destruct n; try (destruct Pn as [[]| ?]; discriminate); cbn [run_node] in H; cbv zeta in H;
    repeat match type of H with
    | rbind ?r _ = _ => destruct r; cbn [rbind] in H; [|discriminate]
    end; try (injection H as <-; auto).
Qed.
Lemma integrator_time e dmin dmax s s' : run_node e (Integrator dmin dmax) s = Ok s' -> s_time s' = s_time s + s_dt s'.
Proof.
  cbn [run_node]. destruct (velocity_verlet_integrator _ _ _ _) as [[dt r]|]; [|discriminate]. cbn [rbind fst snd]. destruct (all_finite r); [|discriminate]. cbn. now intros [= <-].
Qed.
Lemma updates_time e x l1 l2 dmin dmax : written_order x = l1 ++ Integrator dmin dmax :: l2 -> (forall n, In n (l1 ++ l2) -> plain n \/ n = Reset) ->
  forall s dts s', updates e x s dts s' -> s_time (fst s') = s_time (fst s) + rsum dts /\ snd s' = (snd s + length dts)%nat.
Proof.
  intros Hx P s dts s' U. induction U as [s|[s k] [s1 k1] dts s' H U [IH1 IH2]]; [cbn; split; [lra|lia]|].
  apply update_runs in H as [-> [log H]]. rewrite Hx in H. apply runs_app in H as (log1 & m & log2 & -> & H1 & H2). inversion H2 as [|? ? ? m' log' ? H3 H4]; subst.
  destruct (run_time e l1 s log1 m H1) as [T1 _]; [intros; apply P; apply in_app_iff; auto|]. destruct (run_time e l2 m' log' s1 H4) as [T2 D2]; [intros; apply P; apply in_app_iff; auto|].
  pose proof (integrator_time _ _ _ _ _ H3) as T3. cbn [fst snd length] in *. split; [|lia]. rewrite IH1. cbn [rsum fold_right]. fold (rsum dts). rewrite T2, D2, T3, T1. lra.
Qed.

(** ** Steering gives no force *)
Lemma steering_contributes_nothing e i n s f t : ~ In Force (writes n) -> contributes e i n s f t -> f = vzero /\ t = 0.
Proof.
  intros NF (s' & a & H & Ha & <- & <-). pose proof (node_keeps (fun a => (a_force a, a_torque a)) e n (unloaded s) s') as K.
  assert (A : forall c, In c (writes n) -> unaffected c (fun a => (a_force a, a_torque a))).
  { intros c Hc. destruct n; cbn in *; try (exfalso; apply NF; now left); repeat (destruct Hc as [<-|Hc]; [now intros ? ?|]); destruct Hc. }
  specialize (K A H). apply (f_equal (fun l => nth_error l i)) in K. rewrite !nth_error_map, Ha in K. cbn [option_map] in K.
  unfold unloaded in K. cbn [s_agents with_agents] in K. rewrite nth_error_map in K. destruct (nth_error (s_agents s) i) as [b|]; [|discriminate]. cbn in K. now injection K.
Qed.

(** ** The domain *)
Lemma inside_node e s s' : run_node e InsideDomain s = Ok s' ->
  s_agents s' = map (fun a => set_active (e_inside e (a_position a)) a) (s_agents s) /\
  s_inactive s' = (s_inactive s + length (filter (fun a => xorb (a_active a) (e_inside e (a_position a))) (s_agents s)))%nat.
Proof. cbn. now intros [= <-]. Qed.
Lemma other_inactive e n s s' : n <> InsideDomain -> run_node e n s = Ok s' -> s_inactive s' = s_inactive s.
Proof.
  intros N H. destruct n; try contradiction; cbn [run_node] in H; cbv zeta in H;
    repeat match type of H with
    | rbind ?r _ = _ => destruct r; cbn [rbind] in H; [|discriminate]
    end; now injection H as <-.
Qed.
Lemma other_active e n s s' : n <> InsideDomain -> run_node e n s = Ok s' -> map a_active (s_agents s') = map a_active (s_agents s).
Proof.
  intros N H. apply (node_keeps a_active e n); auto. intros c Hc. destruct n; try contradiction; cbn in Hc; repeat (destruct Hc as [<-|Hc]; [now intros ? ?|]); destruct Hc.
Qed.
Lemma outside_count_map s s' : map a_active (s_agents s') = map a_active (s_agents s) -> outside_count s' = outside_count s.
Proof.
  unfold outside_count. generalize (s_agents s). generalize (s_agents s'). induction l as [|a l IH]; intros [|b l'] E; cbn in E; try discriminate; auto.
  injection E as E1 E2. cbn. rewrite E1. destruct (a_active b); cbn; auto.
Qed.
Lemma inside_counts e l : (forall a, In a l -> a_active a = false -> e_inside e (a_position a) = false) ->
  (length (filter (fun a => negb (a_active a)) l) + length (filter (fun a => xorb (a_active a) (e_inside e (a_position a))) l))%nat =
  length (filter (fun a => negb (a_active a)) (map (fun a => set_active (e_inside e (a_position a)) a) l)).
Proof.
  induction l as [|a l IH]; intros H; auto. cbn [filter map]. specialize (IH (fun b Hb => H b (or_intror Hb))). pose proof (H a (or_introl eq_refl)) as Ha.
  change (a_active (set_active (e_inside e (a_position a)) a)) with (e_inside e (a_position a)).
  destruct (a_active a); destruct (e_inside e (a_position a)); cbn [negb xorb]; cbn [length]; try lia; try (specialize (Ha eq_refl); discriminate).
Qed.
Lemma run_inactive e l s log s' : runs e l s log s' -> s_inactive s = outside_count s ->
  (forall s1 a, In (InsideDomain, s1) log -> In a (s_agents s1) -> a_active a = false -> e_inside e (a_position a) = false) -> s_inactive s' = outside_count s'.
Proof.
  induction 1 as [s|n l s s1 log s' H R IH]; intros E K; auto. apply IH; [|intros s2 a Hs; apply K; now right].
  assert (D : n = InsideDomain \/ n <> InsideDomain) by (destruct n; (now left) || (right; discriminate)). destruct D as [-> |D].
  - destruct (inside_node e s s1 H) as [E1 E2]. rewrite E2, E. unfold outside_count. rewrite E1. apply inside_counts. intros a. apply K. now left.
  - rewrite (other_inactive e n s s1 D H), E. symmetry. apply outside_count_map. now apply (other_active e n).
Qed.
(** The counter adds up every change of state. *)
Lemma run_toggles e l s log s' : runs e l s log s' ->
  s_inactive s' = (s_inactive s + list_sum (map (fun p : node * sim => match fst p with InsideDomain => length (filter (fun a => xorb (a_active a) (e_inside e (a_position a))) (s_agents (snd p))) | _ => 0%nat end) log))%nat.
Proof.
  induction 1 as [s|n l s s1 log s' H R IH]; [cbn; lia|]. cbn [map list_sum fst snd fold_right]. rewrite IH.
  change (list_sum (?a :: ?b)) with (a + list_sum b)%nat.
  assert (D : n = InsideDomain \/ n <> InsideDomain) by (destruct n; (now left) || (right; discriminate)). destruct D as [-> |D].
  - destruct (inside_node e s s1 H) as [E1 E2]. rewrite E2. unfold list_sum. lia.
  - rewrite (other_inactive e n s s1 D H). unfold list_sum. destruct n; try contradiction; lia.
Qed.
Lemma updates_run e x s dts s' : updates e x s dts s' -> exists log, runs e (concat (repeat (written_order x) (length dts))) (fst s) log (fst s').
Proof.
  induction 1 as [s|[s k] [s1 k1] dts s' H U [log IH]]; [exists []; constructor|]. apply update_runs in H as [_ [log1 H]]. exists (log1 ++ log). cbn [length repeat concat fst].
  apply runs_app. eauto 8.
Qed.
