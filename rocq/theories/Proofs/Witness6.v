(** Concrete agents for the interaction and integrator properties. *)
From Coq Require Import Lra Lia Permutation.
From Verif Require Export Proofs.InteractionProofs Proofs.IntegratorProofs.
Open Scope R_scope.

Definition person (x v : vec) : agent :=
  set_radius (1/4) (set_mass 80 (set_k_soc (3/2) (set_tau_0 3 (set_position x (set_velocity v
  (set_mu 100 (set_kappa 10 (set_damping 1 zero_row)))))))).
Definition pi := person (V 2 0) (V (-1) 0).
Definition pj := person (V 0 0) (V 0 0).
Lemma sq_half : sqrt (1/4) = 1/2.
Proof. replace (1/4) with ((1/2) * (1/2)) by lra. apply sqrt_square. lra. Qed.
Lemma dist_2 : edist (V 2 0) (V 0 0) = 2.
Proof. unfold edist. cbn. replace (_ + _) with (2 * 2) by ring. apply sqrt_square. lra. Qed.
Lemma pgap : gap (a_position pi, a_radius pi) (a_position pj, a_radius pj) = 3/2.
Proof. unfold gap. cbn. unfold person; cbn. rewrite dist_2. lra. Qed.
Definition pmag : R := (2 / (3/2) + 1 / 3) * exp (- (3/2) / 3) / ((3/2) * (3/2)).
Lemma pmag_bounds : 1/3 <= pmag <= 1.
Proof.
  unfold pmag. pose proof (exp_ineq1_le (- (3/2) / 3)) as L.
  assert (U : exp (- (3/2) / 3) <= 1). { rewrite <- exp_0. left. apply exp_increasing. lra. }
  split; lra.
Qed.
Lemma pforce : force_social_circular pi pj = Ok (V (120 * pmag) 0, V (- (120 * pmag)) 0).
Proof.
  unfold force_social_circular, coeff_d, coeff_a, coeff_b, coeff_c, np_sqrt, dot, vsub. cbn [a_position a_velocity a_radius pi pj].
  change (a_position pi) with (V 2 0). change (a_position pj) with (V 0 0). change (a_velocity pi) with (V (-1) 0).
  change (a_velocity pj) with (V 0 0). change (a_radius pi) with (1/4). change (a_radius pj) with (1/4). cbn [vx vy].
  replace (- ((2 - 0) * (-1 - 0) + (0 - 0) * (0 - 0))) with 2 by lra.
  replace ((-1 - 0) * (-1 - 0) + (0 - 0) * (0 - 0)) with 1 by lra.
  replace (2 * 2 - 1 * ((2 - 0) * (2 - 0) + (0 - 0) * (0 - 0) - (1 / 4 + 1 / 4) * (1 / 4 + 1 / 4))) with (1/4) by lra.
  rewrite sq_half. rdec. cbn [orb]. cbv zeta. replace ((2 - 1/2) / 1) with (3/2) by lra. rdec. cbn [orb].
  unfold social_forces, magnitude. change (a_tau_0 pi) with 3. change (a_tau_0 pj) with 3. rdec. cbn [rbind].
  fold pmag. change (a_mass pi) with 80. change (a_mass pj) with 80. change (a_k_soc pi) with (3/2). change (a_k_soc pj) with (3/2).
  pose proof pmag_bounds as B.
  replace (vadd vzero _) with (V (120 * pmag) 0).
  2:{ unfold gradient_circle_circle. veq; field. }
  replace (vsub vzero _) with (V (- (120 * pmag)) 0).
  2:{ unfold gradient_circle_circle. veq; field. }
  unfold truncate. rewrite <- !elen_vlength. unfold F_SOC_MAX.
  assert (E1 : elen (V (120 * pmag) 0) = 120 * pmag).
  { unfold elen, edist. cbn. replace (_ + _) with ((120 * pmag) * (120 * pmag)) by ring. apply sqrt_square. lra. }
  assert (E2 : elen (V (- (120 * pmag)) 0) = 120 * pmag).
  { unfold elen, edist. cbn. replace (_ + _) with ((120 * pmag) * (120 * pmag)) by ring. apply sqrt_square. lra. }
  rewrite E1, E2. rdec. reflexivity.
Qed.
Lemma enum_two cell : good_enumeration (map a_position [pi; pj]) cell [(0, 1)]%nat.
Proof.
  split; [|split].
  - intros i j [[= <- <-]|[]]. cbn. lia.
  - cbn. constructor; [tauto|constructor].
  - intros i j x y Hij Hi Hj _. left. left.
    assert (j < 2)%nat by (change 2%nat with (length (map a_position [pi; pj])); apply nth_error_Some; congruence).
    f_equal; lia.
Qed.
(** The interaction node with a sight of 1 m and a cap of 1 N: two agents whose
    skins are 1.5 m apart get a social force of at least 40 N. *)
Lemma traits_ignored : exists agents', 
  aa_node_update (fun _ _ => [(0, 1)]%nat) (AANode 1 (3/10) 1 None) Circular [pi; pj] = Ok agents' /\
  (1 < gap (a_position pi, a_radius pi) (a_position pj, a_radius pj)) /\
  exists b, nth_error agents' 0 = Some b /\ 40 <= elen (a_force b).
Proof.
  unfold aa_node_update, agent_agent_block_list. rewrite agent_agent_over, over_total. cbn [total]. unfold delta. cbn [fst snd nth_error].
  unfold pair_push, pair_forces_circular. pose proof (distance_circles_fst (a_position pi) (a_radius pi) (a_position pj) (a_radius pj)) as E.
  destruct (distance_circles _ _ _ _) as [h n]. cbn [fst] in E. subst h. rewrite pgap. unfold SIGTH_SOC. rdec. rewrite pforce. cbn [rbind].
  unfold with_contact. rdec. cbn [rbind]. eexists. split; [reflexivity|]. split; [lra|].
  eexists. split; [reflexivity|]. rewrite push_force. unfold on. cbn [Nat.eqb dadd fst snd dzero].
  replace (vadd (a_force pi) _) with (V (120 * pmag) 0).
  2:{ change (a_force pi) with vzero. veq; ring. }
  pose proof pmag_bounds. assert (E1 : elen (V (120 * pmag) 0) = 120 * pmag).
  { unfold elen, edist. cbn. replace (_ + _) with ((120 * pmag) * (120 * pmag)) by ring. apply sqrt_square. lra. }
  rewrite E1. lra.
Qed.
(** Any sight of 3 m or more gives the result of 3 m. *)
Lemma sight_no_effect enum agents n : (forall c, good_enumeration (map a_position agents) c (enum (map a_position agents) c)) ->
  (forall a, In a agents -> 0 <= a_radius a <= nd_max_agent_radius n) -> nd_cell_size n = None -> 3 <= nd_sight_soc n ->
  aa_node_update enum n Circular agents =
  aa_node_update enum (AANode 3 (nd_max_agent_radius n) (nd_f_soc_max n) None) Circular agents.
Proof.
  intros G HR HC HS. unfold aa_node_update, agent_agent_block_list, node_cell_size. rewrite HC. cbn [nd_cell_size nd_sight_soc nd_max_agent_radius].
  rewrite (cell_list_complete agents _ _ (nd_max_agent_radius n) (G _)); auto; [|lra].
  rewrite (cell_list_complete agents _ _ (nd_max_agent_radius n) (G _)); auto; lra.
Qed.
Lemma default_node_complete enum agents : (forall c, good_enumeration (map a_position agents) c (enum (map a_position agents) c)) ->
  (forall a, In a agents -> 0 <= a_radius a <= 3/10) ->
  aa_node_update enum aa_node_default Circular agents = agent_agent Circular (all_pairs (length agents)) agents.
Proof.
  intros G HR. unfold aa_node_update, agent_agent_block_list. apply (cell_list_complete agents _ (node_cell_size aa_node_default) (3/10)); auto.
  unfold node_cell_size. cbn. lra.
Qed.
Lemma default_node_nothing_missed enum k agents others : (forall c, good_enumeration (map a_position agents) c (enum (map a_position agents) c)) ->
  (forall a, In a agents -> body_within k a (3/10)) ->
  let pairs := enum (map a_position agents) (18/5) in
  (forall i j, In (i, j) others -> (i < length agents)%nat /\ (j < length agents)%nat /\ i <> j /\
     ~ In (i, j) pairs /\ ~ In (j, i) pairs) ->
  aa_node_update enum aa_node_default k agents = agent_agent k (pairs ++ others) agents.
Proof.
  intros G HB pairs HO. unfold aa_node_update, agent_agent_block_list.
  assert (E : node_cell_size aa_node_default = 18/5) by (unfold node_cell_size; cbn; lra). rewrite E.
  symmetry. apply (nothing_missed k agents pairs others (18/5) (3/10)); auto; try lra. apply G.
Qed.
