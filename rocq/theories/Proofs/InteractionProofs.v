(** Agent-agent and agent-obstacle interaction. *)
From Coq Require Import Lra Lia Psatz Permutation Compare_dec.
From Verif Require Export Spec.Pairs Model.Interactions Proofs.PowerLaw3Proofs Proofs.MotionProofs.
Open Scope R_scope.

(** Addition to force and torque. *)
Definition push (d : vec * R) (a : agent) : agent :=
  set_torque (a_torque a + snd d) (set_force (vadd (a_force a) (fst d)) a).
Definition dadd (d e : vec * R) : vec * R := (vadd (fst d) (fst e), snd d + snd e).
Definition dzero : vec * R := (vzero, 0).
Lemma dadd_assoc a b c : dadd a (dadd b c) = dadd (dadd a b) c.
Proof. unfold dadd; cbn. f_equal; try ring; veq; ring. Qed.
Lemma dadd_comm a b : dadd a b = dadd b a.
Proof. unfold dadd; cbn. f_equal; try ring; veq; ring. Qed.
Lemma dadd_zero a : dadd a dzero = a.
Proof. destruct a as [[x y] t]. unfold dadd, dzero; cbn. f_equal; try ring; veq; ring. Qed.
Lemma sf_sf f g a : set_force f (set_force g a) = set_force f a. Proof. now destruct a. Qed.
Lemma st_st f g a : set_torque f (set_torque g a) = set_torque f a. Proof. now destruct a. Qed.
Lemma sf_st f t a : set_force f (set_torque t a) = set_torque t (set_force f a). Proof. now destruct a. Qed.
Lemma af_sf f a : a_force (set_force f a) = f. Proof. now destruct a. Qed.
Lemma af_st t a : a_force (set_torque t a) = a_force a. Proof. now destruct a. Qed.
Lemma at_sf f a : a_torque (set_force f a) = a_torque a. Proof. now destruct a. Qed.
Lemma at_st t a : a_torque (set_torque t a) = t. Proof. now destruct a. Qed.
Lemma sf_same a : set_force (a_force a) a = a. Proof. now destruct a. Qed.
Lemma st_same a : set_torque (a_torque a) a = a. Proof. now destruct a. Qed.
Lemma push_push d e a : push d (push e a) = push (dadd e d) a.
Proof.
  unfold push, dadd. cbn [fst snd]. rewrite at_st, af_st, af_sf, sf_st, sf_sf, st_st. f_equal; [ring|]. f_equal. veq; ring.
Qed.
Lemma push_zero a : push dzero a = a.
Proof.
  unfold push, dzero. cbn [fst snd]. rewrite Rplus_0_r. replace (vadd (a_force a) vzero) with (a_force a) by (veq; ring).
  now rewrite sf_same, st_same.
Qed.
Lemma push_force d a : a_force (push d a) = vadd (a_force a) (fst d).
Proof. unfold push. now rewrite af_st, af_sf. Qed.
Lemma push_torque d a : a_torque (push d a) = a_torque a + snd d.
Proof. unfold push. now rewrite at_st. Qed.
Lemma push_position d a : a_position (push d a) = a_position a. Proof. now destruct a. Qed.
Lemma push_velocity d a : a_velocity (push d a) = a_velocity a. Proof. now destruct a. Qed.
Lemma push_radius d a : a_radius (push d a) = a_radius a. Proof. now destruct a. Qed.
Lemma push_r_t d a : a_r_t (push d a) = a_r_t a. Proof. now destruct a. Qed.
Lemma push_r_s d a : a_r_s (push d a) = a_r_s a. Proof. now destruct a. Qed.
Lemma push_r_ts d a : a_r_ts (push d a) = a_r_ts a. Proof. now destruct a. Qed.
Lemma push_orientation d a : a_orientation (push d a) = a_orientation a. Proof. now destruct a. Qed.
Lemma push_mass d a : a_mass (push d a) = a_mass a. Proof. now destruct a. Qed.
Lemma push_k_soc d a : a_k_soc (push d a) = a_k_soc a. Proof. now destruct a. Qed.
Lemma push_tau_0 d a : a_tau_0 (push d a) = a_tau_0 a. Proof. now destruct a. Qed.
Lemma push_mu d a : a_mu (push d a) = a_mu a. Proof. now destruct a. Qed.
Lemma push_kappa d a : a_kappa (push d a) = a_kappa a. Proof. now destruct a. Qed.
Lemma push_damping d a : a_damping (push d a) = a_damping a. Proof. now destruct a. Qed.
Lemma push_position_ls d a : a_position_ls (push d a) = a_position_ls a. Proof. now destruct a. Qed.
Lemma push_position_rs d a : a_position_rs (push d a) = a_position_rs a. Proof. now destruct a. Qed.
Ltac push_fields := rewrite ?push_position, ?push_velocity, ?push_radius, ?push_r_t, ?push_r_s, ?push_r_ts, ?push_orientation, ?push_mass, ?push_k_soc, ?push_tau_0, ?push_mu, ?push_kappa, ?push_damping, ?push_position_ls, ?push_position_rs.
Lemma push_xs d a : xs_of (push d a) = xs_of a.
Proof. unfold xs_of. now push_fields. Qed.
Lemma push_rs d a : rs_of (push d a) = rs_of a.
Proof. unfold rs_of. now push_fields. Qed.

Lemma add_force_push f a : add_force f a = push (f, 0) a.
Proof. unfold add_force, push. cbn [fst snd]. rewrite Rplus_0_r. rewrite <- (at_sf (vadd (a_force a) f) a), st_same. reflexivity. Qed.
Lemma add_torque_push t a : add_torque t a = push (vzero, t) a.
Proof.
  unfold add_torque, push. cbn [fst snd]. replace (vadd (a_force a) vzero) with (a_force a) by (veq; ring). now rewrite sf_same.
Qed.
Lemma push_unfold d a : push d a = set_torque (a_torque a + snd d) (set_force (vadd (a_force a) (fst d)) a).
Proof. reflexivity. Qed.
#[global] Opaque push.
(** Adding to each row. *)
Fixpoint imap {A B} (f : nat -> A -> B) (n : nat) (l : list A) : list B :=
  match l with [] => [] | a :: l => f n a :: imap f (S n) l end.
Lemma imap_nth {A B} (f : nat -> A -> B) l : forall n m, nth_error (imap f n l) m = option_map (f (n + m)%nat) (nth_error l m).
Proof.
  induction l as [|a l IH]; intros n [|m]; cbn; auto.
  - now rewrite Nat.add_0_r.
  - rewrite IH. now rewrite Nat.add_succ_r.
Qed.
Lemma imap_length {A B} (f : nat -> A -> B) l : forall n, length (imap f n l) = length l.
Proof. induction l; intros; cbn; auto. Qed.
Lemma imap_ext {A B} (f g : nat -> A -> B) l : forall n, (forall m a, nth_error l m = Some a -> f (n + m)%nat a = g (n + m)%nat a) ->
  imap f n l = imap g n l.
Proof.
  intros n H. apply nth_error_ext. intros m. rewrite !imap_nth. destruct (nth_error l m) eqn:E; cbn; auto. f_equal. auto.
Qed.
Definition push_all (d : nat -> vec * R) (agents : list agent) : list agent := imap (fun m => push (d m)) 0 agents.
Lemma push_all_nth d agents m : nth_error (push_all d agents) m = option_map (push (d m)) (nth_error agents m).
Proof. unfold push_all. now rewrite imap_nth. Qed.
Lemma push_all_length d agents : length (push_all d agents) = length agents. Proof. apply imap_length. Qed.
Lemma push_all_push_all d e agents : push_all d (push_all e agents) = push_all (fun m => dadd (e m) (d m)) agents.
Proof.
  apply nth_error_ext. intros m. rewrite !push_all_nth. destruct (nth_error agents m); cbn; auto. now rewrite push_push.
Qed.
Lemma push_all_ext d e agents : (forall m, (m < length agents)%nat -> d m = e m) -> push_all d agents = push_all e agents.
Proof.
  intros H. apply nth_error_ext. intros m. rewrite !push_all_nth. destruct (nth_error agents m) eqn:E; cbn; auto.
  rewrite H; auto. apply nth_error_Some. now rewrite E.
Qed.
Lemma push_all_zero agents : push_all (fun _ => dzero) agents = agents.
Proof.
  apply nth_error_ext. intros m. rewrite push_all_nth. destruct (nth_error agents m); cbn; auto. now rewrite push_zero.
Qed.

(** Contribution of one pair of agents to both. *)
Definition pair_push (k : kind) (ai aj : agent) : res ((vec * R) * (vec * R)) :=
  match k with
  | Circular =>
      do fs <- pair_forces_circular ai aj;
      match fs with
      | None => Ok (dzero, dzero)
      | Some (fi, fj) => Ok ((fi, 0), (fj, 0))
      end
  | ThreeCircle =>
      do fs <- pair_forces_three_circle ai aj;
      match fs with
      | None => Ok (dzero, dzero)
      | Some (fi, fj, mi, mj) => Ok ((fi, cross mi fi), (fj, cross mj fj))
      end
  end.
Definition on (i : nat) (d : vec * R) (m : nat) : vec * R := if Nat.eqb m i then d else dzero.
Definition delta (k : kind) (agents : list agent) (ij : nat * nat) : res (nat -> vec * R) :=
  match nth_error agents (fst ij), nth_error agents (snd ij) with
  | Some ai, Some aj => do p <- pair_push k ai aj; Ok (fun m => dadd (on (fst ij) (fst p) m) (on (snd ij) (snd p) m))
  | _, _ => Err IndexError
  end.
Definition one_pair (k : kind) : nat -> nat -> list agent -> res (list agent) :=
  match k with Circular => interaction_agent_agent_circular | ThreeCircle => interaction_agent_agent_three_circle end.
Lemma agent_agent_over k pairs agents : agent_agent k pairs agents = over_pairs (one_pair k) pairs agents.
Proof. now destruct k. Qed.

Lemma modify_nth i f agents m : nth_error (modify i f agents) m = option_map (if Nat.eqb m i then f else (fun a => a)) (nth_error agents m).
Proof.
  unfold modify. destruct (nth_error agents i) as [a|] eqn:E.
  - destruct (Nat.eqb_spec m i) as [->|N].
    + rewrite upd_nth_eq, E; [reflexivity|]. apply nth_error_Some. now rewrite E.
    + rewrite upd_nth_neq by auto. now destruct (nth_error agents m).
  - destruct (Nat.eqb_spec m i) as [->|N]; [now rewrite E|]. now destruct (nth_error agents m).
Qed.
Lemma step_delta k i j agents : one_pair k i j agents = do d <- delta k agents (i, j); Ok (push_all d agents).
Proof.
  unfold delta. cbn [fst snd].
  destruct k; cbn [one_pair]; unfold interaction_agent_agent_circular, interaction_agent_agent_three_circle, pair_push;
    destruct (nth_error agents i) as [ai|] eqn:Ei; auto; destruct (nth_error agents j) as [aj|] eqn:Ej; auto.
  - destruct (pair_forces_circular ai aj) as [[[fi fj]|]|e]; cbn [rbind]; auto; f_equal; apply nth_error_ext; intros m;
      rewrite push_all_nth, ?modify_nth; destruct (nth_error agents m) as [a|]; cbn [option_map]; auto; f_equal;
      unfold on; destruct (Nat.eqb_spec m i), (Nat.eqb_spec m j); cbn [fst snd]; rewrite ?add_force_push, ?push_push;
      rewrite ?(dadd_comm dzero), ?dadd_zero, ?push_zero; auto.
  - destruct (pair_forces_three_circle ai aj) as [[[[[fi fj] mi] mj]|]|e]; cbn [rbind]; auto; f_equal; apply nth_error_ext; intros m;
      rewrite push_all_nth, ?modify_nth; destruct (nth_error agents m) as [a|]; cbn [option_map]; auto; f_equal;
      unfold on; destruct (Nat.eqb_spec m i), (Nat.eqb_spec m j); cbn [fst snd]; rewrite ?add_force_push, ?add_torque_push, ?push_push;
      rewrite ?(dadd_comm dzero), ?dadd_zero, ?push_zero; auto; f_equal; unfold dadd; cbn; f_equal; try (veq; ring); try ring.
Qed.

(** Forces and torques do not influence the contributions. *)
Lemma offset_push p d a : part_offset p (push d a) = part_offset p a.
Proof. unfold part_offset. now push_fields. Qed.
Lemma social_push d e ai aj g t : social_forces (push d ai) (push e aj) g t = social_forces ai aj g t.
Proof. unfold social_forces. now push_fields. Qed.
Lemma contact_push h n d e ai aj fs : with_contact h n (push d ai) (push e aj) fs = with_contact h n ai aj fs.
Proof. unfold with_contact. now push_fields. Qed.
Lemma fsc_push d e ai aj : force_social_circular (push d ai) (push e aj) = force_social_circular ai aj.
Proof.
  unfold force_social_circular. push_fields. destruct (coeff_d _ _ _); [|reflexivity]. cbv zeta. now rewrite social_push.
Qed.
Lemma fs3_push d e ai aj : force_social_three_circle (push d ai) (push e aj) = force_social_three_circle ai aj.
Proof.
  unfold force_social_three_circle, three_circle_scan. rewrite !push_xs, !push_rs. push_fields. cbv zeta.
  destruct (Reqb _ 0); [reflexivity|]. destruct (ts_best _) as [[[t b] d0]|]; [|reflexivity]. now rewrite social_push, !offset_push.
Qed.
Lemma pair_push_push k d e ai aj : pair_push k (push d ai) (push e aj) = pair_push k ai aj.
Proof.
  destruct k; unfold pair_push, pair_forces_circular, pair_forces_three_circle.
  - rewrite fsc_push. push_fields. destruct (distance_circles _ _ _ _) as [h n]. destruct (Rltb h SIGTH_SOC); [|reflexivity].
    destruct (force_social_circular ai aj); cbn [rbind]; [|reflexivity]. now rewrite contact_push.
  - rewrite fs3_push, !push_xs, !push_rs. destruct (distance_three_circles _ _ _ _) as [[[[h|] n] m0] m1]; [|reflexivity].
    destruct (Rltb h SIGTH_SOC); [|reflexivity].
    destruct (force_social_three_circle ai aj); cbn [rbind]; [|reflexivity]. now rewrite contact_push.
Qed.
Lemma delta_push k d agents ij : delta k (push_all d agents) ij = delta k agents ij.
Proof.
  unfold delta. rewrite !push_all_nth. destruct (nth_error agents (fst ij)), (nth_error agents (snd ij)); cbn [option_map]; [|reflexivity..].
  now rewrite pair_push_push.
Qed.

(** Sum of the contributions of a list of pairs. *)
Fixpoint total (k : kind) (agents : list agent) (pairs : list (nat * nat)) : res (nat -> vec * R) :=
  match pairs with
  | [] => Ok (fun _ => dzero)
  | p :: pairs => do d <- delta k agents p; do e <- total k agents pairs; Ok (fun m => dadd (d m) (e m))
  end.
Lemma total_push k d agents pairs : total k (push_all d agents) pairs = total k agents pairs.
Proof. induction pairs; cbn; auto. now rewrite delta_push, IHpairs. Qed.
Lemma over_total k pairs : forall agents, over_pairs (one_pair k) pairs agents = do d <- total k agents pairs; Ok (push_all d agents).
Proof.
  induction pairs as [|[i j] pairs IH]; intros agents; cbn [over_pairs total].
  - cbn. now rewrite push_all_zero.
  - rewrite step_delta. destruct (delta k agents (i, j)) as [d|e]; cbn [rbind]; auto.
    rewrite IH, total_push. destruct (total k agents pairs) as [e|]; cbn [rbind]; auto.
    now rewrite push_all_push_all.
Qed.

(** ** Only force and torque change *)
Lemma total_absent k agents pairs : forall d m, total k agents pairs = Ok d ->
  (forall i j, In (i, j) pairs -> m <> i /\ m <> j) -> d m = dzero.
Proof.
  induction pairs as [|[i j] pairs IH]; intros d m E H; cbn [total] in E.
  - now injection E as <-.
  - destruct (delta k agents (i, j)) as [d1|] eqn:E1; [|discriminate]. cbn [rbind] in E.
    destruct (total k agents pairs) as [d2|] eqn:E2; [|discriminate]. injection E as <-.
    rewrite (IH d2 m eq_refl) by (intros; apply H; now right).
    destruct (H i j) as [Hi Hj]; [now left|]. rewrite dadd_zero. revert E1. unfold delta. cbn [fst snd].
    destruct (nth_error agents i), (nth_error agents j); try discriminate. destruct (pair_push k a a0); [|discriminate].
    intros [= <-]. unfold on. rewrite (proj2 (Nat.eqb_neq m i) Hi), (proj2 (Nat.eqb_neq m j) Hj). apply dadd_zero.
Qed.
Lemma total_circular agents pairs : forall d m, total Circular agents pairs = Ok d -> snd (d m) = 0.
Proof.
  induction pairs as [|[i j] pairs IH]; intros d m E; cbn [total] in E.
  - now injection E as <-.
  - destruct (delta Circular agents (i, j)) as [d1|] eqn:E1; [|discriminate]. cbn [rbind] in E.
    destruct (total Circular agents pairs) as [d2|] eqn:E2; [|discriminate]. injection E as <-.
    cbn [dadd snd]. rewrite (IH d2 m eq_refl). revert E1. unfold delta. cbn [fst snd].
    destruct (nth_error agents i), (nth_error agents j); try discriminate. unfold pair_push.
    destruct (pair_forces_circular a a0) as [[[fi fj]|]|]; cbn [rbind]; try discriminate;
    intros [= <-]; unfold on; destruct (Nat.eqb m i), (Nat.eqb m j); cbn; ring.
Qed.
Lemma agent_agent_local k pairs agents agents' : agent_agent k pairs agents = Ok agents' ->
  length agents' = length agents /\
  forall m a, nth_error agents m = Some a ->
    exists f t, nth_error agents' m = Some (set_torque t (set_force f a)) /\
      (k = Circular -> t = a_torque a) /\
      ((forall i j, In (i, j) pairs -> m <> i /\ m <> j) -> nth_error agents' m = Some a).
Proof.
  rewrite agent_agent_over, over_total. destruct (total k agents pairs) as [d|] eqn:E; [|discriminate]. intros [= <-].
  split; [apply push_all_length|]. intros m a Ha. rewrite push_all_nth, Ha. cbn [option_map].
  exists (vadd (a_force a) (fst (d m))), (a_torque a + snd (d m)). split; [reflexivity|]. split.
  - intros ->. rewrite (total_circular _ _ _ m E). ring.
  - intros H. rewrite (total_absent _ _ _ _ _ E H). now rewrite push_zero.
Qed.

(** ** Agents out of sight *)
Lemma pair_far k ai aj : (forall c d, In c (body k ai) -> In d (body k aj) -> 3 <= gap c d) -> pair_push k ai aj = Ok (dzero, dzero).
Proof.
  intros H. destruct k; unfold pair_push.
  - unfold pair_forces_circular. pose proof (distance_circles_fst (a_position ai) (a_radius ai) (a_position aj) (a_radius aj)) as E.
    destruct (distance_circles _ _ _ _) as [h n]. cbn in E. subst h. unfold SIGTH_SOC.
    specialize (H (a_position ai, a_radius ai) (a_position aj, a_radius aj)). cbn in H. specialize (H (or_introl eq_refl) (or_introl eq_refl)).
    rewrite (proj2 (Rltb_false _ _)) by auto. reflexivity.
  - unfold pair_forces_three_circle.
    destruct (distance_three_circles_spec (xs_of ai) (rs_of ai) (xs_of aj) (rs_of aj)) as (h & n & m0 & m1 & i & j & Hi & Hj & E & Eh & _).
    rewrite E. unfold SIGTH_SOC. rewrite (proj2 (Rltb_false _ _)); auto. subst h. apply H.
    + now apply tget_body. + now apply tget_body.
Qed.
Lemma delta_far k agents i j ai aj : nth_error agents i = Some ai -> nth_error agents j = Some aj ->
  (forall c d, In c (body k ai) -> In d (body k aj) -> 3 <= gap c d) ->
  exists d, delta k agents (i, j) = Ok d /\ forall m, d m = dzero.
Proof.
  intros Ei Ej H. unfold delta. cbn [fst snd]. rewrite Ei, Ej, pair_far by auto. cbn [rbind]. eexists. split; [reflexivity|].
  intros m. cbn. unfold on. destruct (Nat.eqb m i), (Nat.eqb m j); apply dadd_zero.
Qed.

(** Equality of totals, up to the domain of the functions. *)
Definition teq (x y : res (nat -> vec * R)) : Prop :=
  match x, y with Ok d, Ok e => forall m, d m = e m | Err a, Err b => a = b | _, _ => False end.
Lemma teq_refl x : teq x x. Proof. destruct x; cbn; auto. Qed.
Lemma teq_trans x y z : teq x y -> teq y z -> teq x z.
Proof. destruct x, y, z; cbn; try tauto; intros; congruence || (rewrite H; auto). Qed.
Lemma teq_sym x y : teq x y -> teq y x. Proof. destruct x, y; cbn; auto. Qed.
Lemma teq_over k pairs pairs' agents : teq (total k agents pairs) (total k agents pairs') ->
  agent_agent k pairs agents = agent_agent k pairs' agents.
Proof.
  intros H. rewrite !agent_agent_over, !over_total. destruct (total k agents pairs), (total k agents pairs'); cbn in *; try tauto.
  - f_equal. apply push_all_ext. auto.
  - now subst.
Qed.
Lemma far_pairs_dropped k agents i j ai aj l1 l2 : nth_error agents i = Some ai -> nth_error agents j = Some aj ->
  (forall c d, In c (body k ai) -> In d (body k aj) -> 3 <= gap c d) ->
  agent_agent k (l1 ++ (i, j) :: l2) agents = agent_agent k (l1 ++ l2) agents.
Proof.
  intros Ei Ej H. apply teq_over. destruct (delta_far k agents i j ai aj Ei Ej H) as (d & E & Z).
  induction l1 as [|p l1 IH]; cbn [total app].
  - rewrite E. cbn [rbind]. destruct (total k agents l2); cbn; auto. intros m. now rewrite Z, dadd_comm, dadd_zero.
  - destruct (delta k agents p); cbn [rbind]; [|reflexivity].
    destruct (total k agents (l1 ++ (i, j) :: l2)), (total k agents (l1 ++ l2)); cbn in *; try tauto.
    intros m. now rewrite IH.
Qed.

(** ** Errors *)
Lemma fsc_err ai aj e : force_social_circular ai aj = Err e -> e = ZeroDivisionError.
Proof.
  unfold force_social_circular. destruct (coeff_d _ _ _); [|discriminate]. destruct (_ || _); [discriminate|].
  cbv zeta. destruct (_ || _); [discriminate|]. apply social_err.
Qed.
Lemma fs3_err ai aj e : force_social_three_circle ai aj = Err e -> e = ZeroDivisionError.
Proof.
  unfold force_social_three_circle. destruct (Reqb _ 0); [discriminate|]. cbv zeta.
  destruct (ts_best _) as [[[tau b] d]|]; [|discriminate]. destruct (Rleb tau 0); [discriminate|]. apply social_err.
Qed.
Lemma pair_push_err k ai aj e : pair_push k ai aj = Err e -> e = ZeroDivisionError.
Proof.
  destruct k; unfold pair_push, pair_forces_circular, pair_forces_three_circle.
  - destruct (distance_circles _ _ _ _) as [h n]. destruct (Rltb h SIGTH_SOC); [|discriminate].
    destruct (force_social_circular ai aj) eqn:E; cbn [rbind].
    + destruct (with_contact h n ai aj a); discriminate.
    + intros [= <-]. now apply fsc_err in E.
  - destruct (distance_three_circles _ _ _ _) as [[[[h|] n] m0] m1]; [|discriminate]. destruct (Rltb h SIGTH_SOC); [|discriminate].
    destruct (force_social_three_circle ai aj) eqn:E; cbn [rbind].
    + destruct (with_contact h n ai aj a); discriminate.
    + intros [= <-]. now apply fs3_err in E.
Qed.
Lemma delta_err k agents i j e : (i < length agents)%nat -> (j < length agents)%nat -> delta k agents (i, j) = Err e -> e = ZeroDivisionError.
Proof.
  intros Hi Hj. unfold delta. cbn [fst snd]. apply nth_error_Some in Hi, Hj.
  destruct (nth_error agents i); [|tauto]. destruct (nth_error agents j); [|tauto].
  destruct (pair_push k a a0) eqn:E; cbn [rbind]; [discriminate|]. intros [= <-]. now apply pair_push_err in E.
Qed.
Lemma total_err k agents pairs e : in_range agents pairs -> total k agents pairs = Err e -> e = ZeroDivisionError.
Proof.
  induction pairs as [|[i j] pairs IH]; intros R; cbn [total]; [discriminate|].
  destruct (R i j) as [Hi Hj]; [now left|].
  destruct (delta k agents (i, j)) eqn:E; cbn [rbind]; [|intros [= <-]; now apply delta_err in E].
  destruct (total k agents pairs) eqn:E2; cbn [rbind]; [discriminate|]. intros [= <-]. apply IH; auto. intros ? ? ?. apply R. now right.
Qed.

(** ** Order of the pairs *)
Lemma total_perm k agents pairs pairs' : Permutation pairs pairs' -> in_range agents pairs ->
  teq (total k agents pairs) (total k agents pairs').
Proof.
  induction 1 as [|[i j] l l' HP IH|[i j] [i' j'] l|l l' l'' H1 IH1 H2 IH2]; intros R; cbn [total].
  - apply teq_refl.
  - destruct (delta k agents (i, j)); cbn [rbind]; [|reflexivity].
    assert (IH' : teq (total k agents l) (total k agents l')) by (apply IH; intros ? ? ?; apply R; now right).
    destruct (total k agents l), (total k agents l'); cbn in *; try tauto. intros m. now rewrite IH'.
  - destruct (R i j) as [Hi Hj]; [cbn; auto|]. destruct (R i' j') as [Hi' Hj']; [cbn; auto|].
    destruct (delta k agents (i, j)) as [d|e] eqn:E; destruct (delta k agents (i', j')) as [d'|e'] eqn:E'; cbn [rbind].
    + destruct (total k agents l); cbn [rbind teq]; auto. intros m. rewrite !dadd_assoc. f_equal. apply dadd_comm.
    + cbn. auto.
    + destruct (total k agents l); cbn; auto.
    + cbn. apply delta_err in E, E'; auto. congruence.
  - apply teq_trans with (total k agents l'); auto. apply IH2. intros a b Hab. apply R.
    apply Permutation_in with (1 := Permutation_sym H1). auto.
Qed.
Lemma order_irrelevant k agents pairs pairs' : Permutation pairs pairs' -> in_range agents pairs ->
  agent_agent k pairs agents = agent_agent k pairs' agents.
Proof. intros. now apply teq_over, total_perm. Qed.

(** ** Superposition *)
Lemma agent_agent_sum k pairs agents agents' : agent_agent k pairs agents = Ok agents' ->
  exists parts : list (list agent),
    Forall2 (fun p l => agent_agent k [p] agents = Ok l) pairs parts /\
    forall m a a', nth_error agents m = Some a -> nth_error agents' m = Some a' ->
      exists bs, Forall2 (fun l b => nth_error l m = Some b) parts bs /\
        a_force a' = vadd (a_force a) (vsum (map (fun b => vsub (a_force b) (a_force a)) bs)) /\
        a_torque a' = a_torque a + rsum (map (fun b => a_torque b - a_torque a) bs).
Proof.
  rewrite agent_agent_over, over_total. destruct (total k agents pairs) as [d|] eqn:E; [|discriminate]. intros [= <-].
  revert d E. induction pairs as [|p pairs IH]; intros d E; cbn [total] in E.
  - injection E as <-. exists []. split; [constructor|]. intros m a a' Ha Ha'. exists []. split; [constructor|].
    rewrite push_all_zero in Ha'. rewrite Ha in Ha'. injection Ha' as <-. cbn. split; [|ring].
    destruct (a_force a). unfold vadd, vzero; cbn. f_equal; ring.
  - destruct (delta k agents p) as [d1|] eqn:E1; [|discriminate]. cbn [rbind] in E.
    destruct (total k agents pairs) as [d2|] eqn:E2; [|discriminate]. injection E as <-.
    destruct (IH d2 eq_refl) as (parts & F & H). exists (push_all d1 agents :: parts). split.
    + constructor; auto. rewrite agent_agent_over, over_total. cbn [total]. rewrite E1. cbn [rbind]. f_equal. apply push_all_ext.
      intros m _. apply dadd_zero.
    + intros m a a' Ha Ha'. rewrite push_all_nth, Ha in Ha'. cbn [option_map] in Ha'. injection Ha' as <-.
      destruct (H m a (push (d2 m) a) Ha) as (bs & Fb & Hf & Ht).
      { now rewrite push_all_nth, Ha. }
      exists (push (d1 m) a :: bs). split; [constructor; auto; now rewrite push_all_nth, Ha|].
      cbn [map vsum rsum fold_right]. fold (vsum (map (fun b => vsub (a_force b) (a_force a)) bs)).
      fold (rsum (map (fun b => a_torque b - a_torque a) bs)).
      rewrite push_force in Hf. rewrite push_torque in Ht. rewrite !push_force, !push_torque. unfold dadd. cbn [fst snd]. split; [|lra].
      apply vec_eq; apply (f_equal (fun v => (vx v, vy v))) in Hf; injection Hf as Hx Hy; revert Hx Hy; vunfold; intros; lra.
Qed.

(** ** Momentum *)
Definition radii_nonneg (a : agent) : Prop := 0 <= a_radius a.
Lemma with_contact_opposite h n ai aj f : same_coefficients ai aj ->
  snd (with_contact h n ai aj (f, vneg f)) = vneg (fst (with_contact h n ai aj (f, vneg f))).
Proof.
  intros (_ & _ & _ & H1 & H2 & H3). unfold with_contact. destruct (Rltb h 0); cbn [fst snd]; auto.
  rewrite H1, H2, H3. veq; ring.
Qed.
Lemma pair_push_opposite k ai aj p : same_coefficients ai aj -> radii_nonneg ai -> radii_nonneg aj ->
  pair_push k ai aj = Ok p -> fst (snd p) = vneg (fst (fst p)).
Proof.
  intros S Ri Rj. pose proof S as (S1 & S2 & S3 & _). destruct k; unfold pair_push, pair_forces_circular, pair_forces_three_circle.
  - destruct (distance_circles _ _ _ _) as [h n]. destruct (Rltb h SIGTH_SOC).
    2:{ intros [= <-]. cbn. now rewrite vneg_zero. }
    destruct (force_social_circular ai aj) as [[fi fj]|] eqn:E; [|discriminate]. cbn [rbind].
    apply fsc_opposite in E; auto. subst fj. pose proof (with_contact_opposite h n ai aj fi S) as W.
    destruct (with_contact h n ai aj (fi, vneg fi)). intros [= <-]. exact W.
  - destruct (distance_three_circles _ _ _ _) as [[[[h|] n] m0] m1].
    2:{ intros [= <-]. cbn. now rewrite vneg_zero. }
    destruct (Rltb h SIGTH_SOC).
    2:{ intros [= <-]. cbn. now rewrite vneg_zero. }
    destruct (force_social_three_circle ai aj) as [[fi fj]|] eqn:E; [|discriminate]. cbn [rbind].
    apply three_circle_opposite in E; auto. subst fj. pose proof (with_contact_opposite h n ai aj fi S) as W.
    destruct (with_contact h n ai aj (fi, vneg fi)). intros [= <-]. exact W.
Qed.
Fixpoint dsum (d : nat -> vec * R) (n k : nat) : vec :=
  match k with O => vzero | S k => vadd (fst (d n)) (dsum d (S n) k) end.
Lemma push_all_sum d agents : vsum (map a_force (push_all d agents)) = vadd (vsum (map a_force agents)) (dsum d 0 (length agents)).
Proof.
  unfold push_all. generalize 0%nat as n. induction agents as [|a l IH]; intros n; cbn.
  - unfold vadd, vzero; cbn. f_equal; ring.
  - fold (vsum (map a_force (imap (fun m => push (d m)) (S n) l))) (vsum (map a_force l)). rewrite IH.
    rewrite push_force. veq; ring.
Qed.
Lemma dsum_add d e n k : dsum (fun m => dadd (d m) (e m)) n k = vadd (dsum d n k) (dsum e n k).
Proof. revert n. induction k; intros n; cbn; [veq; ring|]. rewrite IHk. veq; ring. Qed.
Lemma dsum_zero n k : dsum (fun _ => dzero) n k = vzero.
Proof. revert n. induction k; intros n; cbn; auto. rewrite IHk. veq; ring. Qed.
Lemma dsum_out i x n k : (i < n \/ n + k <= i)%nat -> dsum (on i x) n k = vzero.
Proof.
  revert n. induction k; intros n H; cbn; auto. unfold on at 1. destruct (Nat.eqb_spec n i); [lia|]. rewrite IHk by lia. veq; cbn; ring.
Qed.
Lemma dsum_on i x n k : (n <= i < n + k)%nat -> dsum (on i x) n k = fst x.
Proof.
  revert n. induction k; intros n H; cbn; [lia|]. unfold on at 1. destruct (Nat.eqb_spec n i).
  - rewrite dsum_out by lia. destruct (fst x) as [a b]. veq; cbn; ring.
  - rewrite IHk by lia. veq; cbn; ring.
Qed.
Lemma dsum_ext d e n k : (forall m, d m = e m) -> dsum d n k = dsum e n k.
Proof. intros H. revert n. induction k; intros n; cbn; auto. now rewrite H, IHk. Qed.
Lemma total_momentum k agents pairs : forall d,
  (forall a b, In a agents -> In b agents -> same_coefficients a b) -> (forall a, In a agents -> radii_nonneg a) ->
  total k agents pairs = Ok d -> dsum d 0 (length agents) = vzero.
Proof.
  induction pairs as [|[i j] pairs IH]; intros d S R E; cbn [total] in E.
  - injection E as <-. apply dsum_zero.
  - destruct (delta k agents (i, j)) as [d1|] eqn:E1; [|discriminate]. cbn [rbind] in E.
    destruct (total k agents pairs) as [d2|] eqn:E2; [|discriminate]. injection E as <-.
    rewrite dsum_add, (IH d2 S R eq_refl). revert E1. unfold delta. cbn [fst snd].
    destruct (nth_error agents i) as [ai|] eqn:Ei; [|discriminate]. destruct (nth_error agents j) as [aj|] eqn:Ej; [|discriminate].
    destruct (pair_push k ai aj) as [p|] eqn:Ep; [|discriminate]. intros [= <-].
    assert (Hi : (i < length agents)%nat) by (apply nth_error_Some; now rewrite Ei).
    assert (Hj : (j < length agents)%nat) by (apply nth_error_Some; now rewrite Ej).
    rewrite (dsum_add (on i (fst p)) (on j (snd p))), !dsum_on by lia.
    apply nth_error_In in Ei, Ej. apply pair_push_opposite in Ep; auto. rewrite Ep. veq; ring.
Qed.
Lemma momentum_conserved k pairs agents agents' :
  (forall a b, In a agents -> In b agents -> same_coefficients a b) -> (forall a, In a agents -> 0 <= a_radius a) ->
  agent_agent k pairs agents = Ok agents' -> vsum (map a_force agents') = vsum (map a_force agents).
Proof.
  intros S R. rewrite agent_agent_over, over_total. destruct (total k agents pairs) as [d|] eqn:E; [|discriminate]. intros [= <-].
  rewrite push_all_sum, (total_momentum k agents pairs d S R E). destruct (vsum _) as [x y]. unfold vadd; cbn. f_equal; ring.
Qed.

(** ** Cell lists *)
(** Swapping the two agents of a pair, for circular agents. *)
Lemma pair_push_swap ai aj : pair_push Circular aj ai =
  do p <- pair_push Circular ai aj; Ok (snd p, fst p).
Proof.
  unfold pair_push, pair_forces_circular.
  rewrite (distance_circles_swap (a_position ai) (a_radius ai) (a_position aj) (a_radius aj)).
  destruct (distance_circles (a_position ai) (a_radius ai) (a_position aj) (a_radius aj)) as [h n]. cbn [fst snd].
  destruct (Rltb h SIGTH_SOC); cbn [rbind]; auto.
  rewrite fsc_swap. destruct (force_social_circular ai aj) as [[fi fj]|]; cbn [rbind swap_res]; auto.
  cbn [fst snd]. unfold with_contact. destruct (Rltb h 0); cbn [fst snd rbind]; [|reflexivity].
  replace (rotate270 (vneg n)) with (vneg (rotate270 n)) by (veq; ring).
  replace (vsub (a_velocity aj) (a_velocity ai)) with (vneg (vsub (a_velocity ai) (a_velocity aj))) by (veq; ring).
  rewrite !contact_negate. cbn [fst snd]. f_equal. f_equal; f_equal; veq; ring.
Qed.
Lemma delta_swap agents i j : teq (delta Circular agents (j, i)) (delta Circular agents (i, j)).
Proof.
  unfold delta. cbn [fst snd]. destruct (nth_error agents i) as [ai|], (nth_error agents j) as [aj|]; try apply teq_refl.
  rewrite pair_push_swap. destruct (pair_push Circular ai aj); cbn [rbind teq fst snd]; auto. intros m. apply dadd_comm.
Qed.
Lemma total_teq k agents l l' : Forall2 (fun p q => teq (delta k agents p) (delta k agents q)) l l' ->
  teq (total k agents l) (total k agents l').
Proof.
  induction 1; cbn [total]; [apply teq_refl|].
  destruct (delta k agents x), (delta k agents y); cbn [teq] in H; cbn [rbind]; try tauto.
  destruct (total k agents l), (total k agents l'); cbn in *; try tauto. intros m. now rewrite H, IHForall2.
Qed.
Lemma total_orient agents l : teq (total Circular agents l) (total Circular agents (map orient l)).
Proof.
  apply total_teq. induction l as [|[i j] l IH]; cbn [map]; constructor; auto. unfold orient. cbn [fst snd].
  destruct (i <? j)%nat; [apply teq_refl|apply delta_swap].
Qed.
Lemma total_drop k agents (keep : nat * nat -> bool) l :
  (forall p, In p l -> keep p = false -> exists d, delta k agents p = Ok d /\ forall m, d m = dzero) ->
  teq (total k agents l) (total k agents (filter keep l)).
Proof.
  induction l as [|p l IH]; intros H; cbn [total filter]; [apply teq_refl|].
  assert (IH' : teq (total k agents l) (total k agents (filter keep l))) by (apply IH; intros; apply H; auto; now right).
  destruct (keep p) eqn:K.
  - cbn [total]. destruct (delta k agents p); cbn [rbind]; [|now cbn].
    destruct (total k agents l), (total k agents (filter keep l)); cbn in *; try tauto. intros m. now rewrite IH'.
  - destruct (H p) as (d & E & Z); auto; [now left|]. rewrite E. cbn [rbind].
    destruct (total k agents l), (total k agents (filter keep l)); cbn in *; try tauto. intros m. now rewrite IH', Z, dadd_comm, dadd_zero.
Qed.

Lemma all_pairs_in n i j : In (i, j) (all_pairs n) <-> (i < j < n)%nat.
Proof.
  unfold all_pairs. rewrite filter_In, in_prod_iff, !in_seq. cbn [fst snd]. rewrite Nat.ltb_lt. lia.
Qed.
Lemma NoDup_app_disjoint {A} (l1 l2 : list A) : NoDup l1 -> NoDup l2 -> (forall x, In x l1 -> In x l2 -> False) -> NoDup (l1 ++ l2).
Proof.
  induction 1; cbn; intros H2 D; auto. constructor.
  - rewrite in_app_iff. intros [|]; [contradiction|]. apply (D x); cbn; auto.
  - apply IHNoDup; auto. intros y Hy. apply (D y). now right.
Qed.
Lemma NoDup_prod {A B} (l1 : list A) (l2 : list B) : NoDup l1 -> NoDup l2 -> NoDup (list_prod l1 l2).
Proof.
  intros H1 H2. induction H1 as [|a l1 Ha H1 IH]; cbn; [constructor|].
  apply NoDup_app_disjoint; auto.
  - apply FinFun.Injective_map_NoDup; auto. intros x y [= ->]. reflexivity.
  - intros [x y] Hx Hy. apply in_map_iff in Hx as (z & [= <- <-] & _). apply in_prod_iff in Hy as [? _]. contradiction.
Qed.
Lemma all_pairs_nodup n : NoDup (all_pairs n).
Proof. apply NoDup_filter, NoDup_prod; apply seq_NoDup. Qed.

Lemma cell_list_complete agents pairs cell_size rmax : good_enumeration (map a_position agents) cell_size pairs ->
  3 + 2 * rmax <= cell_size -> (forall a, In a agents -> 0 <= a_radius a <= rmax) ->
  agent_agent Circular pairs agents = agent_agent Circular (all_pairs (length agents)) agents.
Proof.
  intros (G1 & G2 & G3) Hc HR. rewrite map_length in G1.
  assert (O : forall p, In p pairs -> (fst (orient p) < snd (orient p) < length agents)%nat).
  { intros [i j] Hp. destruct (G1 i j Hp) as (? & ? & ?). unfold orient. cbn [fst snd]. destruct (Nat.ltb_spec i j); cbn; lia. }
  set (near := fun p : nat * nat => match nth_error agents (fst p), nth_error agents (snd p) with
     | Some ai, Some aj => Rltb (gap (a_position ai, a_radius ai) (a_position aj, a_radius aj)) 3
     | _, _ => true end).
  assert (FAR : forall p, near p = false -> exists d, delta Circular agents p = Ok d /\ forall m, d m = dzero).
  { intros [i j]. unfold near. cbn [fst snd]. destruct (nth_error agents i) as [ai|] eqn:Ei; [|discriminate].
    destruct (nth_error agents j) as [aj|] eqn:Ej; [|discriminate]. rewrite Rltb_false. intros K.
    apply (delta_far Circular agents i j ai aj Ei Ej). intros c d [<-|[]] [<-|[]]. lra. }
  apply teq_over. apply teq_trans with (1 := total_orient agents pairs).
  apply teq_trans with (total Circular agents (filter near (map orient pairs))).
  { apply total_drop. auto. }
  apply teq_trans with (total Circular agents (filter near (all_pairs (length agents)))).
  2:{ apply teq_sym, total_drop. auto. }
  apply total_perm.
  2:{ intros i j H. apply filter_In in H as [H _]. apply in_map_iff in H as (p & E & Hp). apply O in Hp. rewrite E in Hp. cbn in Hp. lia. }
  apply NoDup_Permutation.
  - now apply NoDup_filter.
  - apply NoDup_filter, all_pairs_nodup.
  - intros [i j]. rewrite !filter_In, all_pairs_in, in_map_iff. split.
    + intros [(p & E & Hp) Hn]. apply O in Hp. rewrite E in Hp. cbn in Hp. auto.
    + intros [Hij Hn]. split; auto.
      unfold near in Hn. cbn [fst snd] in Hn.
      destruct (nth_error agents i) as [ai|] eqn:Ei; [|apply nth_error_None in Ei; lia].
      destruct (nth_error agents j) as [aj|] eqn:Ej; [|apply nth_error_None in Ej; lia].
      apply Rltb_true in Hn. unfold gap in Hn. cbn [fst snd] in Hn.
      pose proof (HR ai (nth_error_In _ _ Ei)). pose proof (HR aj (nth_error_In _ _ Ej)).
      destruct (G3 i j (a_position ai) (a_position aj)) as [K|K]; try (rewrite nth_error_map, ?Ei, ?Ej; reflexivity); try lia; try lra.
      * exists (i, j). split; auto. unfold orient. cbn [fst snd]. now rewrite (proj2 (Nat.ltb_lt i j)) by lia.
      * exists (j, i). split; auto. unfold orient. cbn [fst snd]. now rewrite (proj2 (Nat.ltb_ge j i)) by lia.
Qed.

(** ** Obstacles *)
Lemma vec_eq_dec' (a b : vec) : a = b \/ a <> b.
Proof. destruct (veqb a b) eqn:E; [left; now apply veqb_true|right; intros K; apply veqb_true in K; congruence]. Qed.
Definition wall_push (k : kind) (a : agent) (o : obstacle) : vec * R :=
  match k with
  | Circular =>
      match distance_circle_line (a_position a) (a_radius a) (p0 o) (p1 o) with
      | None => dzero
      | Some (h, n) => if Rltb h 0 then (force_contact h n (a_velocity a) (rotate270 n) (a_mu a) (a_kappa a) (a_damping a), 0) else dzero
      end
  | ThreeCircle =>
      match distance_three_circle_line (xs_of a) (rs_of a) (p0 o) (p1 o) with
      | None => dzero
      | Some (h, n, r) => if Rltb h 0 then
            let f := force_contact h n (a_velocity a) (rotate270 n) (a_mu a) (a_kappa a) (a_damping a) in (f, cross r f) else dzero
      end
  end.
Definition one_wall (k : kind) : agent -> obstacle -> agent :=
  match k with Circular => obstacle_circular | ThreeCircle => obstacle_three_circle end.
Lemma one_wall_push k a o : one_wall k a o = push (wall_push k a o) a.
Proof.
  destruct k; cbn [one_wall wall_push]; unfold obstacle_circular, obstacle_three_circle.
  - destruct (distance_circle_line _ _ _ _) as [[h n]|]; [|now rewrite push_zero]. destruct (Rltb h 0); [|now rewrite push_zero].
    now rewrite add_force_push.
  - destruct (distance_three_circle_line _ _ _ _) as [[[h n] r]|]; [|now rewrite push_zero]. destruct (Rltb h 0); [|now rewrite push_zero].
    rewrite add_force_push, add_torque_push, push_push. f_equal. unfold dadd; cbn. f_equal; try ring; veq; ring.
Qed.
Lemma wall_push_push k d a o : wall_push k (push d a) o = wall_push k a o.
Proof. destruct k; unfold wall_push; rewrite ?push_xs, ?push_rs; now push_fields. Qed.
Definition walls_push (k : kind) (a : agent) (l : list obstacle) : vec * R := fold_right (fun o d => dadd (wall_push k a o) d) dzero l.
Lemma walls_push_push k d a l : walls_push k (push d a) l = walls_push k a l.
Proof. induction l; cbn [walls_push fold_right]; [reflexivity|]. fold (walls_push k (push d a) l) (walls_push k a l). now rewrite wall_push_push, IHl. Qed.
Lemma walls_fold k l : forall a, fold_left (one_wall k) l a = push (walls_push k a l) a.
Proof.
  induction l as [|o l IH]; intros a; cbn; [now rewrite push_zero|].
  now rewrite IH, one_wall_push, push_push, walls_push_push.
Qed.
Lemma agent_obstacle_push k agents obs : agent_obstacle k agents obs = map (fun a => push (walls_push k a obs) a) agents.
Proof. destruct k; apply map_ext; intros a; [apply (walls_fold Circular)|apply (walls_fold ThreeCircle)]. Qed.
Lemma obstacle_order k agents obs obs' : Permutation obs obs' -> agent_obstacle k agents obs = agent_obstacle k agents obs'.
Proof.
  intros P. rewrite !agent_obstacle_push. apply map_ext. intros a. f_equal.
  unfold walls_push in *. induction P; cbn; auto; [now rewrite IHP| |congruence]. rewrite !dadd_assoc. f_equal. apply dadd_comm.
Qed.
Lemma obstacle_none k agents : agent_obstacle k agents [] = agents.
Proof. rewrite agent_obstacle_push. rewrite <- (map_id agents) at 2. apply map_ext. intros a. apply push_zero. Qed.
Lemma circ_line_at a b x r h n : a <> b -> distance_circle_line x r a b = Some (h, n) ->
  exists e q, segment_distance a b x e /\ h = e - r /\ on_segment a b q /\ edist x q = e /\ direction_from_to q x n.
Proof.
  intros H E. destruct (distance_circle_line_spec x r a b H) as (e & q & m & E' & A & B & C & D).
  rewrite E in E'. injection E' as -> ->. exists e, q. auto.
Qed.
Lemma wall_far k a o : p0 o <> p1 o -> ~ body_hits_wall (body k a) (p0 o) (p1 o) -> wall_push k a o = dzero.
Proof.
  intros Hp H. destruct k; cbn [wall_push].
  - pose proof (circle_line_neg (a_position a) (a_radius a) (p0 o) (p1 o) Hp) as [K _].
    destruct (distance_circle_line _ _ _ _) as [[h n]|]; auto. cbn in K. destruct (Rltb h 0); auto. exfalso. apply H.
    destruct K as (q & Hq & Hd); auto. exists (a_position a, a_radius a), q. cbn. auto.
  - pose proof (three_line_neg (xs_of a) (rs_of a) (p0 o) (p1 o) Hp) as [K _].
    destruct (distance_three_circle_line _ _ _ _) as [[[h n] m]|]; auto. cbn in K. destruct (Rltb h 0); auto. exfalso. apply H. auto.
Qed.
Lemma wall_degenerate k a o : p0 o = p1 o -> wall_push k a o = dzero.
Proof.
  intros E. destruct k; cbn [wall_push]; rewrite E; [now rewrite distance_circle_line_degenerate|now rewrite distance_three_circle_line_degenerate].
Qed.
(** Force of a wall that is hit, in terms of the closest point. *)
Lemma wall_near k a o : body_hits_wall (body k a) (p0 o) (p1 o) -> p0 o <> p1 o ->
  exists c q n, In c (body k a) /\ on_segment (p0 o) (p1 o) q /\ direction_from_to q (fst c) n /\
    segment_distance (p0 o) (p1 o) (fst c) (edist (fst c) q) /\ edist (fst c) q < snd c /\
    (forall c' e, In c' (body k a) -> segment_distance (p0 o) (p1 o) (fst c') e -> edist (fst c) q - snd c <= e - snd c') /\
    let f := force_contact (edist (fst c) q - snd c) n (a_velocity a) (rotate270 n) (a_mu a) (a_kappa a) (a_damping a) in
    fst (wall_push k a o) = f /\
    snd (wall_push k a o) = match k with Circular => 0
      | ThreeCircle => outer (vsub (vsub (fst c) (vscale (snd c) n)) (a_position a)) f end.
Proof.
  intros Hh Hp. destruct k; cbn [wall_push].
  - pose proof (circle_line_neg (a_position a) (a_radius a) (p0 o) (p1 o) Hp) as [_ K].
    destruct (distance_circle_line_spec (a_position a) (a_radius a) (p0 o) (p1 o) Hp) as (e & q & n & E & Hq & He & Hs & Hd).
    rewrite E in *. cbn in K.
    assert (K' : Rltb (e - a_radius a) 0 = true).
    { apply K. destruct Hh as (c & q' & [<-|[]] & Hq' & Hd'). eauto. }
    rewrite K'. apply Rltb_true in K'. exists (a_position a, a_radius a), q, n. cbn [fst snd body]. rewrite He.
    repeat split; auto; try lra; try apply Hs; try apply Hd. { now left. }
    intros c' e' [<-|[]] Hs'. cbn in *. destruct Hs as [Hs1 Hs2], Hs' as [Hs1' Hs2']. pose proof (Hs2 _ Hs1'). lra.
  - pose proof (three_line_neg (xs_of a) (rs_of a) (p0 o) (p1 o) Hp) as [_ K].
    destruct (distance_three_circle_line_spec (xs_of a) (rs_of a) (p0 o) (p1 o) Hp) as (h & n & m & i & Hi & E & Ei & Hmin & Em).
    rewrite E in *. cbn in K. assert (K' : Rltb h 0 = true) by now apply K.
    rewrite K'. apply Rltb_true in K'. cbn [fst snd].
    destruct (circ_line_at _ _ _ _ _ _ Hp Ei) as (e & q & Hs & Eh & Hq & He & Hd).
    exists (tget (xs_of a) i, tget (rs_of a) i), q, n. cbn [fst snd]. rewrite He. rewrite Eh in *.
    split; [now apply tget_body|]. repeat split; auto; try lra; try apply Hs; try apply Hd.
    + intros c' e' Hc' Hs'. apply body_tget in Hc' as (i' & Hi' & ->). cbn [fst snd] in *.
      destruct (distance_circle_line_spec (tget (xs_of a) i') (tget (rs_of a) i') (p0 o) (p1 o) Hp) as (e2 & q2 & n2 & E2 & _ & _ & Hs2 & _).
      pose proof (Hmin _ _ _ Hi' E2). destruct Hs2 as [P1 P2], Hs' as [P3 P4]. pose proof (P2 _ P3). lra.
    + rewrite Em. reflexivity.
Qed.
Lemma walls_circular a obs : snd (walls_push Circular a obs) = 0.
Proof.
  unfold walls_push. induction obs as [|o obs IHo]; cbn -[wall_push]; auto. rewrite IHo.
  unfold wall_push. destruct (distance_circle_line _ _ _ _) as [[h n]|]; [destruct (Rltb h 0)|]; cbn; ring.
Qed.
Lemma walls_far k a obs : (forall o, In o obs -> p0 o <> p1 o -> ~ body_hits_wall (body k a) (p0 o) (p1 o)) ->
  walls_push k a obs = dzero.
Proof.
  unfold walls_push. induction obs as [|o obs IH]; intros H; cbn; auto. rewrite IH by (intros; apply H; auto; now right). rewrite dadd_zero.
  destruct (vec_eq_dec' (p0 o) (p1 o)) as [E|E]; [now apply wall_degenerate|]. apply wall_far; auto. apply H; auto. now left.
Qed.
Lemma agent_obstacle_rows k agents obs : Forall2 (fun a b =>
    (exists f t, b = set_torque t (set_force f a) /\ (k = Circular -> t = a_torque a)) /\
    ((forall o, In o obs -> p0 o <> p1 o -> ~ body_hits_wall (body k a) (p0 o) (p1 o)) -> b = a)) agents (agent_obstacle k agents obs).
Proof.
  rewrite agent_obstacle_push. induction agents as [|a l IH]; cbn; constructor; auto. split.
  - eexists _, _. split; [apply push_unfold|]. intros ->. rewrite walls_circular. ring.
  - intros H. rewrite walls_far by auto. apply push_zero.
Qed.
Lemma body_far k ai aj rho cell : body_within k ai rho -> body_within k aj rho -> 3 + 2 * rho <= cell ->
  cell <= edist (a_position ai) (a_position aj) -> forall c d, In c (body k ai) -> In d (body k aj) -> 3 <= gap c d.
Proof.
  intros Bi Bj Hc He c d Hi Hj. unfold gap. pose proof (Bi c Hi) as Ri. pose proof (Bj d Hj) as Rj.
  pose proof (edist_triangle (a_position ai) (fst c) (a_position aj)).
  pose proof (edist_triangle (fst c) (fst d) (a_position aj)).
  rewrite (edist_sym (a_position ai) (fst c)) in *. lra.
Qed.
Lemma nothing_missed k agents pairs others cell rho : good_enumeration (map a_position agents) cell pairs ->
  3 + 2 * rho <= cell -> (forall a, In a agents -> body_within k a rho) ->
  (forall i j, In (i, j) others -> (i < length agents)%nat /\ (j < length agents)%nat /\ i <> j /\
     ~ In (i, j) pairs /\ ~ In (j, i) pairs) ->
  agent_agent k (pairs ++ others) agents = agent_agent k pairs agents.
Proof.
  intros (G1 & G2 & G3) Hc HB HO. rewrite <- (app_nil_r pairs) at 2. revert HO.
  induction others as [|[i j] others IH]; intros HO; [reflexivity|].
  destruct (HO i j) as (Hi & Hj & Hij & N1 & N2); [now left|].
  destruct (nth_error agents i) as [ai|] eqn:Ei; [|apply nth_error_None in Ei; lia].
  destruct (nth_error agents j) as [aj|] eqn:Ej; [|apply nth_error_None in Ej; lia].
  assert (L : cell <= edist (a_position ai) (a_position aj)).
  { destruct (Rle_dec cell (edist (a_position ai) (a_position aj))) as [|L]; auto. exfalso. apply Rnot_le_lt in L.
    destruct (lt_eq_lt_dec i j) as [[K|K]|K]; [|contradiction|].
    - destruct (G3 i j (a_position ai) (a_position aj)); auto; rewrite nth_error_map, ?Ei, ?Ej; auto.
    - destruct (G3 j i (a_position aj) (a_position ai)); auto; try (rewrite nth_error_map, ?Ei, ?Ej; auto). rewrite edist_sym; auto. }
  rewrite (far_pairs_dropped k agents i j ai aj).
  3:{ exact Ej. } 2:{ exact Ei. }
  2:{ apply (body_far k ai aj rho cell); auto; apply HB; eapply nth_error_In; eauto. }
  apply IH. intros; apply HO; now right.
Qed.
Lemma obstacle_sum k a obs : exists bs b, agent_obstacle k [a] obs = [b] /\
  Forall2 (fun o b => agent_obstacle k [a] [o] = [b]) obs bs /\
  a_force b = vadd (a_force a) (vsum (map (fun b => vsub (a_force b) (a_force a)) bs)) /\
  a_torque b = a_torque a + rsum (map (fun b => a_torque b - a_torque a) bs).
Proof.
  exists (map (fun o => push (wall_push k a o) a) obs), (push (walls_push k a obs) a).
  rewrite agent_obstacle_push. split; [reflexivity|]. split.
  - induction obs as [|o obs IH]; cbn [map]; constructor; auto. rewrite agent_obstacle_push. cbn [map walls_push fold_right]. now rewrite dadd_zero.
  - rewrite push_force, push_torque. unfold walls_push. induction obs as [|o obs IH].
    + cbn. split; [|reflexivity]. reflexivity.
    + cbn [map fold_right vsum rsum dadd fst snd]. fold (vsum (map (fun b => vsub (a_force b) (a_force a)) (map (fun o => push (wall_push k a o) a) obs))).
      fold (rsum (map (fun b => a_torque b - a_torque a) (map (fun o => push (wall_push k a o) a) obs))).
      destruct IH as [IH1 IH2]. split.
      * rewrite push_force. apply (f_equal (fun v => (vx v, vy v))) in IH1. injection IH1 as Hx Hy. revert Hx Hy. vunfold. intros. f_equal; lra.
      * rewrite push_torque. lra.
Qed.
Lemma obstacle_hit k a o : p0 o <> p1 o -> body_hits_wall (body k a) (p0 o) (p1 o) ->
  exists c q n f, In c (body k a) /\ on_segment (p0 o) (p1 o) q /\ direction_from_to q (fst c) n /\
    segment_distance (p0 o) (p1 o) (fst c) (edist (fst c) q) /\ edist (fst c) q < snd c /\
    (forall c' e, In c' (body k a) -> segment_distance (p0 o) (p1 o) (fst c') e -> edist (fst c) q - snd c <= e - snd c') /\
    f = force_contact (edist (fst c) q - snd c) n (a_velocity a) (rotate270 n) (a_mu a) (a_kappa a) (a_damping a) /\
    agent_obstacle k [a] [o] = [set_torque (a_torque a + match k with Circular => 0
      | ThreeCircle => outer (vsub (vsub (fst c) (vscale (snd c) n)) (a_position a)) f end) (set_force (vadd (a_force a) f) a)].
Proof.
  intros Hp Hh. destruct (wall_near k a o Hh Hp) as (c & q & n & H1 & H2 & H3 & H4 & H5 & H6 & H7 & H8).
  exists c, q, n, (fst (wall_push k a o)). repeat (split; [assumption|]).
  rewrite agent_obstacle_push. cbn [map walls_push fold_right]. rewrite dadd_zero, push_unfold, H8, H7. reflexivity.
Qed.

(** ** The value for one pair *)
Lemma with_contact_touching h n ai aj fs : with_contact h n ai aj fs =
  (vadd (fst fs) (touching_force h n (vsub (a_velocity ai) (a_velocity aj)) ai),
   vsub (snd fs) (touching_force h n (vsub (a_velocity ai) (a_velocity aj)) aj)).
Proof.
  unfold with_contact, touching_force. destruct (Rltb_spec h 0); destruct (Rlt_dec h 0); try lra; auto.
  destruct fs as [[a b] [c d]]. cbn. f_equal; veq; ring.
Qed.
Lemma pair_value_circular ai aj fi fj : force_social_circular ai aj = Ok (fi, fj) ->
  let h := gap (a_position ai, a_radius ai) (a_position aj, a_radius aj) in
  let v := vsub (a_velocity ai) (a_velocity aj) in
  h < 3 -> exists n, direction_from_to (a_position aj) (a_position ai) n /\
    agent_agent Circular [(0, 1)]%nat [ai; aj] =
      Ok [set_force (vadd (a_force ai) (vadd fi (touching_force h n v ai))) ai;
          set_force (vadd (a_force aj) (vsub fj (touching_force h n v aj))) aj].
Proof.
  intros E h v Hh. exists (snd (distance_circles (a_position ai) (a_radius ai) (a_position aj) (a_radius aj))).
  split; [apply distance_circles_normal|]. cbn [agent_agent over_pairs]. unfold interaction_agent_agent_circular. cbn [nth_error].
  unfold pair_forces_circular. rewrite (surjective_pairing (distance_circles _ _ _ _)), distance_circles_fst. fold h.
  unfold SIGTH_SOC. rewrite (proj2 (Rltb_true _ _) Hh), E. cbn [rbind]. rewrite with_contact_touching. cbn [fst snd]. fold v. reflexivity.
Qed.
Lemma pair_value_three_circle ai aj fi fj : force_social_three_circle ai aj = Ok (fi, fj) ->
  let v := vsub (a_velocity ai) (a_velocity aj) in
  (exists c d, In c (body ThreeCircle ai) /\ In d (body ThreeCircle aj) /\ gap c d < 3) ->
  exists i j n, (i < 3)%nat /\ (j < 3)%nat /\
    let c := (tget (xs_of ai) i, tget (rs_of ai) i) in
    let d := (tget (xs_of aj) j, tget (rs_of aj) j) in
    let h := gap c d in
    (forall c' d', In c' (body ThreeCircle ai) -> In d' (body ThreeCircle aj) -> h <= gap c' d') /\
    direction_from_to (fst d) (fst c) n /\
    let Fi := vadd fi (touching_force h n v ai) in
    let Fj := vsub fj (touching_force h n v aj) in
    agent_agent ThreeCircle [(0, 1)]%nat [ai; aj] =
      Ok [set_torque (a_torque ai + outer (vsub (vadd (fst c) (vscale (snd c) n)) (a_position ai)) Fi)
            (set_force (vadd (a_force ai) Fi) ai);
          set_torque (a_torque aj + outer (vsub (vsub (tget (xs_of ai) j) (vscale (snd d) n)) (a_position aj)) Fj)
            (set_force (vadd (a_force aj) Fj) aj)].
Proof.
  intros E v (c0 & d0 & Hc & Hd & Hg).
  destruct (distance_three_circles_spec (xs_of ai) (rs_of ai) (xs_of aj) (rs_of aj)) as (h & n & m0 & m1 & i & j & Hi & Hj & ED & Eh & Hmin & Hn & E0 & E1).
  exists i, j, n. split; [auto|]. split; [auto|]. cbv zeta. cbn [fst snd].
  assert (M : forall c' d', In c' (body ThreeCircle ai) -> In d' (body ThreeCircle aj) -> h <= gap c' d').
  { intros c' d' H1 H2. apply body_tget in H1 as (i' & Hi' & ->). apply body_tget in H2 as (j' & Hj' & ->). now apply Hmin. }
  unfold circ in Eh. split; [now rewrite <- Eh|]. split; [auto|]. rewrite <- Eh.
  rewrite agent_agent_over, over_total. cbn [total]. unfold delta. cbn [fst snd nth_error]. unfold pair_push, pair_forces_three_circle.
  rewrite ED. unfold SIGTH_SOC. pose proof (M c0 d0 Hc Hd). rewrite (proj2 (Rltb_true h 3)) by lra. rewrite E. cbn [rbind].
  rewrite with_contact_touching. cbn [fst snd rbind]. fold v. f_equal. subst m0 m1.
  change (t_0 (xs_of ai)) with (a_position ai). change (t_0 (xs_of aj)) with (a_position aj).
  unfold push_all. cbn [imap]. unfold on. cbn [Nat.eqb]. rewrite !dadd_zero, (dadd_comm dzero), dadd_zero, !push_unfold. reflexivity.
Qed.
