(** * The nodes of a simulation in another coordinate system: whole arrays *)
From Coq Require Import Lra Lia.
From Verif Require Import Proofs.VecLemmas Proofs.SimulationProofs.
From Verif Require Export Proofs.FrameRows.
Open Scope R_scope.

Lemma Forall2_map_both {A B} (R : A -> A -> Prop) (S : B -> B -> Prop) (f g : A -> B) l l' :
  (forall a b, R a b -> S (f a) (g b)) -> Forall2 R l l' -> Forall2 S (map f l) (map g l').
Proof. intros H G. induction G; cbn; constructor; auto. Qed.
Lemma Forall2_map_eq {A B} (R : A -> A -> Prop) (f g : A -> B) l l' :
  (forall a b, R a b -> g b = f a) -> Forall2 R l l' -> map g l' = map f l.
Proof. intros H G. induction G; cbn; [reflexivity|]. f_equal; auto. Qed.
Lemma Forall2_nth2 {A B} (R : A -> B -> Prop) l l' i : Forall2 R l l' ->
  match nth_error l i, nth_error l' i with Some a, Some b => R a b | None, None => True | _, _ => False end.
Proof. intros H. revert i. induction H; intros [|i]; cbn; auto. apply IHForall2. Qed.
Lemma Forall2_upd {A B} (R : A -> B -> Prop) l l' i a b : Forall2 R l l' -> R a b -> Forall2 R (upd l i a) (upd l' i b).
Proof. intros H G. revert i. induction H; intros [|i]; cbn; constructor; auto. Qed.
Lemma Forall2_length2 {A B} (R : A -> B -> Prop) l l' : Forall2 R l l' -> length l' = length l.
Proof. induction 1; cbn; auto. Qed.

Section Nodes.
  Variable F : frame.
  Hypothesis HF : proper F.
  Variable k : kind.
  Notation L := (vect F).
  Notation P := (point F).
  Notation "a ~~ b" := (seen k F a b) (at level 70).
  Notation same := (Forall2 (seen k F)).

  Lemma frame_positions l l' : same l l' -> map a_position l' = map P (map a_position l).
  Proof. intros H. rewrite map_map. apply (Forall2_map_eq (seen k F)); auto. intros a b G. apply (sn_position _ _ _ _ G). Qed.
  Lemma frame_velocities l l' : same l l' -> map a_velocity l' = map L (map a_velocity l).
  Proof. intros H. rewrite map_map. apply (Forall2_map_eq (seen k F)); auto. intros a b G. apply (sn_velocity _ _ _ _ G). Qed.

  Lemma frame_loop f l l' : (forall a b, a ~~ b -> res_seen (seen k F) (f a) (f b)) -> same l l' ->
    res_seen same (looped (loop_rows f l)) (looped (loop_rows f l')).
  Proof.
    intros H G. induction G as [|a b l l' K G IH]; [constructor|]. cbn [loop_rows]. pose proof (H a b K) as S.
    destruct (f a) as [x|x], (f b) as [y|y]; cbn in S; try contradiction; [|exact S].
    destruct (loop_rows f l) as [[ex|] m], (loop_rows f l') as [[ex'|] m']; cbn in IH |- *; try contradiction; auto.
  Qed.
  Lemma frame_adjust l l' : same l l' -> res_seen same (adjust k l) (adjust k l').
  Proof.
    intros H. unfold adjust. pose proof (frame_loop force_adjust_row l l' (frame_force_adjust F k) H) as G. unfold force_adjust_agents.
    destruct (looped (loop_rows force_adjust_row l)) as [m|x], (looped (loop_rows force_adjust_row l')) as [m'|x']; cbn in G; try contradiction; cbn [rbind]; [|exact G].
    destruct (is_model k ThreeCircle) eqn:K; [|exact G]. apply frame_loop; [|exact G]. intros a b. apply frame_torque_adjust. now destruct k.
  Qed.
  Lemma frame_fluctuation d d' : (forall i, let '(phi, z, zt) := d i in let '(phi', z', zt') := d' i in
      V (cos phi') (sin phi') = L (V (cos phi) (sin phi)) /\ z' = z /\ zt' = zt) ->
    forall l l', same l l' -> forall i, same (fluctuate k d i l) (fluctuate k d' i l').
  Proof.
    intros D l l' H. induction H as [|a b l l' K H IH]; intros i; cbn; [constructor|]. specialize (D i). destruct (d i) as [[phi z] zt], (d' i) as [[phi' z'] zt'].
    destruct D as (D & -> & ->). constructor; auto. now apply frame_fluctuate.
  Qed.

  (** ** Pairs *)
  Lemma frame_modify i f g l l' : (forall a b, a ~~ b -> f a ~~ g b) -> same l l' -> same (modify i f l) (modify i g l').
  Proof.
    intros H G. unfold modify. pose proof (Forall2_nth2 _ _ _ i G) as N. destruct (nth_error l i), (nth_error l' i); try contradiction; auto. apply Forall2_upd; auto.
  Qed.
  Lemma frame_add_force f a b : a ~~ b -> add_force f a ~~ add_force (L f) b.
  Proof. intros H. apply sn_set_force; [exact H|]. rewrite (sn_force _ _ _ _ H). symmetry. apply vect_add. Qed.
  Lemma frame_add_torque t a b : a ~~ b -> add_torque t a ~~ add_torque t b.
  Proof. intros H. apply sn_set_torque; [exact H|]. now rewrite (sn_torque _ _ _ _ H). Qed.
  Lemma frame_circular_pair i j l l' : same l l' -> res_seen same (interaction_agent_agent_circular i j l) (interaction_agent_agent_circular i j l').
  Proof.
    intros H. unfold interaction_agent_agent_circular. pose proof (Forall2_nth2 _ _ _ i H) as A. pose proof (Forall2_nth2 _ _ _ j H) as B.
    destruct (nth_error l i) as [a|], (nth_error l' i) as [a'|]; try contradiction; [|reflexivity].
    destruct (nth_error l j) as [b|], (nth_error l' j) as [b'|]; try contradiction; [|reflexivity].
    pose proof (frame_pair_circular F HF k _ _ _ _ A B) as S. destruct (pair_forces_circular a b) as [o|x], (pair_forces_circular a' b') as [o'|x']; cbn in S; try contradiction; cbn [rbind]; [|exact S].
    subst o'. destruct o as [[f1 f2]|]; [|exact H]. cbn. apply frame_modify; [apply frame_add_force|]. apply frame_modify; [apply frame_add_force|exact H].
  Qed.
  Lemma frame_three_pair i j l l' : k = ThreeCircle -> same l l' -> res_seen same (interaction_agent_agent_three_circle i j l) (interaction_agent_agent_three_circle i j l').
  Proof.
    intros K H. unfold interaction_agent_agent_three_circle. pose proof (Forall2_nth2 _ _ _ i H) as A. pose proof (Forall2_nth2 _ _ _ j H) as B.
    destruct (nth_error l i) as [a|], (nth_error l' i) as [a'|]; try contradiction; [|reflexivity].
    destruct (nth_error l j) as [b|], (nth_error l' j) as [b'|]; try contradiction; [|reflexivity].
    pose proof (frame_pair_three F HF k _ _ _ _ K A B) as S. destruct (pair_forces_three_circle a b) as [o|x], (pair_forces_three_circle a' b') as [o'|x']; cbn in S; try contradiction; cbn [rbind]; [|exact S].
    subst o'. destruct o as [[[[f1 f2] m1] m2]|]; [|exact H]. cbn [option_map res_seen]. rewrite !vect_cross, (frame_flip1 F k _ _ K A), !Rmult_1_l by exact HF.
    apply frame_modify; [apply frame_add_torque|]. apply frame_modify; [apply frame_add_torque|]. apply frame_modify; [apply frame_add_force|]. apply frame_modify; [apply frame_add_force|exact H].
  Qed.
  Lemma frame_over_pairs f pairs : (forall i j l l', same l l' -> res_seen same (f i j l) (f i j l')) -> forall l l', same l l' -> res_seen same (over_pairs f pairs l) (over_pairs f pairs l').
  Proof.
    intros H. induction pairs as [|[i j] pairs IH]; intros l l' G; [exact G|]. cbn [over_pairs]. pose proof (H i j l l' G) as S.
    destruct (f i j l), (f i j l'); cbn in S; try contradiction; cbn [rbind]; auto.
  Qed.
  Lemma frame_agent_agent pairs l l' : same l l' -> res_seen same (agent_agent k pairs l) (agent_agent k pairs l').
  Proof.
    intros H. assert (G : forall k0, k0 = k -> res_seen same (agent_agent k0 pairs l) (agent_agent k0 pairs l')); [|now apply G]. intros [] K; unfold agent_agent.
    - apply frame_over_pairs; auto. intros. now apply frame_circular_pair.
    - apply frame_over_pairs; auto. intros. apply frame_three_pair; auto.
  Qed.
  Lemma frame_obstacles os l l' : same l l' -> same (agent_obstacle k l os) (agent_obstacle k l' (map (wall F) os)).
  Proof.
    intros H. assert (G : forall k0, k0 = k -> same (agent_obstacle k0 l os) (agent_obstacle k0 l' (map (wall F) os))); [|now apply G]. intros [] K; unfold agent_obstacle.
    - apply (Forall2_map_both (seen k F)); auto. clear - HF. induction os as [|o os IH]; intros a b G; [exact G|]. apply IH. now apply frame_obstacle_circular.
    - apply (Forall2_map_both (seen k F)); auto. clear - HF K. induction os as [|o os IH]; intros a b G; [exact G|]. apply IH. apply frame_obstacle_three; auto.
  Qed.
  Lemma frame_orientation l l' : same l l' -> same (orientation_node k l) (orientation_node k l').
  Proof.
    intros H. unfold orientation_node. destruct (is_model k ThreeCircle) eqn:K; [|exact H]. apply (Forall2_map_both (seen k F)); auto. intros a b. apply frame_orient. now destruct k.
  Qed.

  (** ** The integrator *)
  Lemma frame_v_max l l' : same l l' -> v_max l' = v_max l.
  Proof.
    intros H. unfold v_max. generalize 0. induction H as [|a b l l' K H IH]; intros m; [reflexivity|]. cbn [fold_left]. rewrite (sn_velocity _ _ _ _ K), vect_length by exact HF. apply IH.
  Qed.
  Lemma frame_timestep l l' a b : same l l' -> adaptive_timestep l' a b = adaptive_timestep l a b.
  Proof.
    intros H. unfold adaptive_timestep. rewrite (frame_v_max _ _ H). replace (map a_target_velocity l') with (map a_target_velocity l); [reflexivity|].
    symmetry. apply (Forall2_map_eq (seen k F)); auto. intros x y G. apply (sn_target_velocity _ _ _ _ G).
  Qed.
  Lemma frame_inertia l l' : same l l' -> needs_inertia l' = needs_inertia l.
  Proof. intros H. unfold needs_inertia. induction H as [|a b l l' K H IH]; [reflexivity|]. cbn. now rewrite IH, (sn_inertia_rot _ _ _ _ K). Qed.
  Definition osame (o o' : option agent) : Prop := match o, o' with Some a, Some b => a ~~ b | None, None => True | _, _ => False end.
  Lemma frame_finite r r' : Forall2 osame r r' -> res_seen same (all_finite r) (all_finite r').
  Proof.
    intros H. induction H as [|a b r r' K H IH]; [constructor|]. cbn [all_finite]. destruct a as [a|], b as [b|]; cbn in K; try contradiction; [|reflexivity].
    destruct (all_finite r), (all_finite r'); cbn in IH |- *; try contradiction; auto.
  Qed.
  Lemma frame_verlet l l' a b : same l l' -> res_seen (fun x y => fst y = fst x /\ Forall2 osame (snd x) (snd y)) (velocity_verlet_integrator k l a b) (velocity_verlet_integrator k l' a b).
  Proof.
    intros H. unfold velocity_verlet_integrator. rewrite (frame_timestep _ _ a b H). destruct (adaptive_timestep l a b) as [dt|x]; [|reflexivity]. cbn [rbind].
    assert (M : Forall2 osame (map (translational_verlet dt) l) (map (translational_verlet dt) l')).
    { apply (Forall2_map_both (seen k F)); auto. intros x y G. apply (frame_translational F k dt x y G). }
    assert (Q : forall k0, k0 = k -> res_seen (fun x y => fst y = fst x /\ Forall2 osame (snd x) (snd y))
      (match k0 with Circular => Ok (dt, map (translational_verlet dt) l)
       | ThreeCircle => if needs_inertia l then Err ZeroDivisionError else Ok (dt, map (option_map (fun x => shoulders_row (rotational_verlet dt x))) (map (translational_verlet dt) l)) end)
      (match k0 with Circular => Ok (dt, map (translational_verlet dt) l')
       | ThreeCircle => if needs_inertia l' then Err ZeroDivisionError else Ok (dt, map (option_map (fun x => shoulders_row (rotational_verlet dt x))) (map (translational_verlet dt) l')) end)); [|now apply Q].
    intros [] K; [split; [reflexivity|exact M]|]. rewrite (frame_inertia _ _ H). destruct (needs_inertia l); [reflexivity|]. split; [reflexivity|]. cbn [snd].
    apply (Forall2_map_both osame); auto. intros [x|] [y|] G; cbn in G |- *; try contradiction; auto. apply frame_shoulders; auto. apply frame_rotational; auto.
  Qed.

  (** ** Domain and exits *)
  Lemma frame_inside (i i' : vec -> bool) l l' : (forall p, i' (P p) = i p) -> same l l' ->
    same (fst (inside_domain i l)) (fst (inside_domain i' l')) /\ snd (inside_domain i' l') = snd (inside_domain i l).
  Proof.
    intros E H. unfold inside_domain. cbn [fst snd]. split.
    - apply (Forall2_map_both (seen k F)); auto. intros a b G. apply sn_set_active; [exact G|]. now rewrite (sn_position _ _ _ _ G).
    - induction H as [|a b l l' K H IH]; [reflexivity|]. cbn [filter]. rewrite (sn_active _ _ _ _ K), (sn_position _ _ _ _ K), E. destruct (xorb _ _); cbn [length]; auto.
  Qed.
  Lemma frame_detect ps x os : forall c st, detect c (map P ps) (P x) (map (wall F) os) st = detect c ps x os st.
  Proof.
    induction ps as [|p ps IH]; intros c st; [reflexivity|]. cbn [map detect]. rewrite frame_between, point_sub, vect_length by exact HF. apply IH.
  Qed.
  Lemma frame_exits ts os range l l' : ~ In [] ts -> same l l' ->
    res_seen same (exit_detection_node ts os range l) (exit_detection_node (map (map P) ts) (map (wall F) os) range l').
  Proof.
    intros N H. assert (M : map vmean (map (map P) ts) = map P (map vmean ts)).
    { clear - N. induction ts as [|u us IH]; [reflexivity|]. cbn [map]. f_equal; [|apply IH; intros I; apply N; right; exact I].
      unfold vmean. rewrite map_length. apply point_mean. intros ->. apply N. left. reflexivity. }
    assert (E : forall us (l : list agent) os, exit_detection_node us os range l =
      if (match us with [] => true | _ => false end) then Err ValueError else Ok (map (fun '(a, (t, has)) => if a_is_follower a && has then set_is_follower false (set_target t a) else a)
              (combine l (exit_detection (map vmean us) (map a_position l) os range)))) by (intros []; reflexivity).
    rewrite !E, M. replace (match map (map P) ts with [] => true | _ => false end) with (match ts with [] => true | _ => false end) by (destruct ts; reflexivity).
    destruct (match ts with [] => true | _ => false end); [reflexivity|]. cbn [res_seen]. rewrite (frame_positions _ _ H).
    set (cs := map vmean ts). clearbody cs. clear M E N ts. unfold exit_detection. rewrite !map_map.
    induction H as [|a b l l' K H IH]; [constructor|]. cbn [map combine]. constructor; [|exact IH]. rewrite frame_detect.
    destruct (snd (detect 0 cs (a_position a) os (range, None))) as [c|]; rewrite (sn_is_follower _ _ _ _ K); destruct (a_is_follower a); cbn [andb]; auto. 
    apply sn_set_is_follower; auto. apply sn_set_target; auto.
  Qed.

  (** ** Navigation *)
  Lemma indicer_answer m dir p d : (let '(i, j) := (let '(c, w) := indicer m p in (w, c)) in
      if is_inside i j (rows dir) (cols dir) then at_ dir (Z.to_nat i) (Z.to_nat j) else Some d) =
    match answer (m, dir) p with Some o => o | None => Some d end.
  Proof. unfold answer. destruct (indicer m p) as [c w]. destruct (is_inside _ _ _ _); reflexivity. Qed.
  Definition nav_seen (nav nav' : Z -> res (mesh * grid (option vec))) : Prop := forall t,
    res_seen (fun md md' => forall p, answer md' (P p) = option_map (option_map L) (answer md p)) (nav t) (nav' t).
  Lemma frame_masked t r r' : Forall2 osame r r' -> same (masked t r) (masked t r').
  Proof.
    intros H. induction H as [|a b r r' K H IH]; [constructor|]. cbn [masked flat_map]. fold (masked t r). fold (masked t r'). destruct a as [a|], b as [b|]; cbn in K; try contradiction; auto.
    rewrite (sn_target _ _ _ _ K). destruct (Z.eqb _ _); cbn [app]; auto.
  Qed.
  Lemma frame_scatter t r r' : Forall2 osame r r' -> forall ds, Forall2 osame (scatter t r ds) (scatter t r' (map (option_map L) ds)).
  Proof.
    intros H. induction H as [|a b r r' K H IH]; intros ds; [constructor|]. cbn [scatter]. destruct a as [a|], b as [b|]; cbn in K; try contradiction; [|constructor; auto; exact I].
    rewrite (sn_target _ _ _ _ K). destruct (Z.eqb _ _); [|constructor; auto]. destruct ds as [|d ds]; cbn [map]; [constructor; auto|]. constructor; auto.
    destruct d as [d|]; cbn; auto. apply sn_set_target_direction; auto.
  Qed.
  Lemma frame_getdefault m dir m' dir' sel sel' : (forall p, answer (m', dir') (P p) = option_map (option_map L) (answer (m, dir) p)) -> same sel sel' ->
    res_seen (fun x y => y = map (option_map L) x)
      (getdefault (map (fun a => let '(c, w) := indicer m (a_position a) in (w, c)) sel) dir (map a_target_direction sel))
      (getdefault (map (fun a => let '(c, w) := indicer m' (a_position a) in (w, c)) sel') dir' (map a_target_direction sel')).
  Proof.
    intros A H. unfold getdefault. rewrite !map_length, !Nat.eqb_refl. cbn [res_seen]. induction H as [|a b sel sel' K H IH]; [reflexivity|]. cbn [map combine].
    f_equal; [|exact IH]. pose proof (indicer_answer m dir (a_position a) (a_target_direction a)) as X. pose proof (indicer_answer m' dir' (a_position b) (a_target_direction b)) as Y.
    destruct (indicer m (a_position a)) as [c w], (indicer m' (a_position b)) as [c' w']. rewrite X, Y. rewrite (sn_position _ _ _ _ K), (sn_target_direction _ _ _ _ K), A.
    destruct (answer (m, dir) (a_position a)) as [[o|]|]; reflexivity.
  Qed.
  Lemma frame_navigate nav nav' ts : nav_seen nav nav' -> forall r r', Forall2 osame r r' ->
    res_seen (Forall2 osame) (navigate_all nav ts r) (navigate_all nav' ts r').
  Proof.
    intros N. induction ts as [|t ts IH]; intros r r' H; [exact H|]. cbn [navigate_all].
    assert (S : res_seen (Forall2 osame) (navigate_target nav t r) (navigate_target nav' t r')).
    { unfold navigate_target. pose proof (N t) as Nt. pose proof (frame_masked t r r' H) as M. pose proof (frame_scatter t r r' H) as Sc.
      destruct H; [constructor|]. destruct (nav t) as [[m dir]|ex], (nav' t) as [[m' dir']|ex']; cbn in Nt; try contradiction; cbn [rbind]; [|exact Nt].
      pose proof (frame_getdefault m dir m' dir' _ _ Nt M) as G. destruct (getdefault (map _ (masked t (x :: l))) dir _) as [ds|ex1], (getdefault (map _ (masked t (y :: l'))) dir' _) as [ds'|ex1']; cbn in G; try contradiction; cbn [rbind]; [|exact G].
      subst ds'. apply Sc. }
    destruct (navigate_target nav t r), (navigate_target nav' t r'); cbn in S; try contradiction; cbn [rbind]; auto.
  Qed.
  Lemma frame_navigation nav nav' n l l' : nav_seen nav nav' -> same l l' -> res_seen (Forall2 osame) (navigation_node nav n l) (navigation_node nav' n l').
  Proof. intros N H. apply frame_navigate; auto. apply (Forall2_map_both (seen k F)); auto. Qed.

  (** ** Leaders and herds *)
  Lemma frame_herding x1 x2 v1 v2 phi : herding_relationship (P x1) (P x2) (L v1) (L v2) phi = herding_relationship x1 x2 v1 v2 phi.
  Proof. unfold herding_relationship. now rewrite point_sub, !vect_normalize, !vect_length, !vect_dot by exact HF. Qed.
  Lemma nth_point i l : (i < length l)%nat -> nth i (map P l) vzero = P (nth i l vzero).
  Proof. intros H. rewrite (nth_indep _ vzero (P vzero)) by (rewrite map_length; exact H). apply map_nth. Qed.
  Lemma nth_vect i l : nth i (map L l) vzero = L (nth i l vzero).
  Proof. rewrite <- (vect_zero F) at 1. apply map_nth. Qed.
  Lemma frame_neighbors ps os pairs : forall r, neighbor_loop (map P ps) (map (wall F) os) pairs r = neighbor_loop ps os pairs r.
  Proof.
    induction pairs as [|[i j] pairs IH]; intros r; [reflexivity|]. cbn [neighbor_loop]. rewrite !nth_error_map. destruct (nth_error ps i) as [xi|]; cbn [option_map]; [|reflexivity].
    destruct (nth_error ps j) as [xj|]; cbn [option_map]; [|reflexivity]. rewrite frame_between, point_sub, vect_length by exact HF.
    destruct (is_obstacle_between_points xi xj os); [apply IH|]. cbn zeta. destruct (offer i j _ r) as [r1|]; cbn [rbind]; [|reflexivity]. destruct (offer j i _ r1) as [r2|]; cbn [rbind]; [apply IH|reflexivity].
  Qed.
  Lemma frame_nearest ps sight n pairs os : find_nearest_neighbors (map P ps) sight n pairs (map (wall F) os) = find_nearest_neighbors ps sight n pairs os.
  Proof. unfold find_nearest_neighbors. rewrite map_map. now rewrite frame_neighbors. Qed.
  Lemma frame_followed ps vs phi i ns : followed_neighbors (map P ps) (map L vs) phi i ns = map (fun '(x, v) => (P x, L v)) (followed_neighbors ps vs phi i ns).
  Proof.
    induction ns as [|n ns IH]; [reflexivity|]. unfold followed_neighbors in *. cbn [flat_map]. rewrite map_app, IH. f_equal. destruct n as [j|]; [|reflexivity].
    rewrite !nth_error_map. destruct (nth_error ps i), (nth_error ps j), (nth_error vs i), (nth_error vs j); cbn [option_map]; try reflexivity. rewrite frame_herding. now destruct (fst _).
  Qed.
  Lemma frame_herd_direction h ps vs w phi i ns : (i < length ps)%nat ->
    herding_direction h (map P ps) (map L vs) w phi i ns = (L (fst (herding_direction h ps vs w phi i ns)), snd (herding_direction h ps vs w phi i ns)).
  Proof.
    intros Hi. destruct h; [|unfold herding_direction; cbn; now rewrite vect_zero].
    assert (E : forall qs us, herding_direction true qs us w phi i ns = let f := followed_neighbors qs us phi i ns in
      if Nat.eqb (length f) 0 then (vzero, false) else
      (normalize (weighted_average (normalize (vsub (vdiv (vsum (map fst f)) (INR (length f))) (nth i qs vzero))) (normalize (vsum (map snd f))) w), true))
      by (intros qs us; unfold herding_direction; cbn zeta; destruct (followed_neighbors qs us phi i ns); reflexivity).
    rewrite !E, frame_followed. clear E. cbn zeta. generalize (followed_neighbors ps vs phi i ns). intros f0. rewrite !map_length, !map_map.
    destruct (Nat.eqb (length f0) 0) eqn:N; [cbn; now rewrite vect_zero|]. cbn [fst snd]. f_equal.
    replace (map (fun x => fst (let '(x0, v) := x in (P x0, L v))) f0) with (map P (map fst f0)) by (rewrite map_map; apply map_ext; now intros []).
    replace (map (fun x => snd (let '(x0, v) := x in (P x0, L v))) f0) with (map L (map snd f0)) by (rewrite map_map; apply map_ext; now intros []).
    rewrite <- (map_length fst f0) at 1. rewrite point_mean by (destruct f0; discriminate). rewrite map_length, nth_point, point_sub, vect_sum, !vect_normalize, vect_average, vect_normalize by (exact HF || exact Hi). reflexivity.
  Qed.
  Lemma frame_herd hs ps vs ns w phi :
    herding_interaction hs (map P ps) (map L vs) ns w phi = map (fun '(d, h) => (L d, h)) (herding_interaction hs ps vs ns w phi).
  Proof.
    unfold herding_interaction. rewrite map_length, map_map. apply map_ext_in. intros [i [h n]] I. apply in_combine_l in I. apply in_seq in I.
    rewrite frame_herd_direction by lia. now destruct (herding_direction h ps vs w phi i n).
  Qed.

  Lemma where_true_lt m i : In i (where_true m) -> (i < length m)%nat.
  Proof. unfold where_true. rewrite in_map_iff. intros ([j b] & <- & H). apply filter_In in H as [H _]. apply in_combine_l in H. apply in_seq in H. cbn in *. lia. Qed.
  Lemma frame_choose ps vs phi os sight i rem leaders d order : (i < length ps)%nat -> (forall j, In j leaders -> (j < length ps)%nat) ->
    choose_leader (map P ps) (map L vs) phi (map (wall F) os) sight i rem leaders d order = choose_leader ps vs phi os sight i rem leaders d order.
  Proof.
    intros Hi Hl. induction order as [|q order IH]; [reflexivity|]. cbn [choose_leader]. rewrite IH. destruct (Rltb sight (d q)); [reflexivity|].
    destruct (nth_error leaders q) as [j|] eqn:J; [|reflexivity]. apply nth_error_In in J. apply Hl in J. cbn zeta. now rewrite !nth_point, !nth_vect, frame_between, frame_herding by assumption.
  Qed.
  Definition lf_seen (s s' : lf_state) : Prop :=
    lf_target s' = lf_target s /\ lf_leader s' = lf_leader s /\ lf_direction s' = map L (lf_direction s) /\ lf_strategy s' = lf_strategy s.
  Lemma upd_map {A B} (f : A -> B) l i x : upd (map f l) i (f x) = map f (upd l i x).
  Proof. revert i. induction l; intros [|i]; cbn; congruence. Qed.
  Lemma frame_copy_target s s' i z : lf_seen s s' -> res_seen lf_seen (copy_target s i z) (copy_target s' i z).
  Proof. intros (A & B & C & D). unfold copy_target. rewrite A, B, C, D. destruct (if (z <? 0)%Z then None else _); [|reflexivity]. repeat split. Qed.
  Lemma frame_follow_one srt ps vs w phi os sight leaders i s s' : (i < length ps)%nat -> (forall j, In j leaders -> (j < length ps)%nat) -> lf_seen s s' ->
    res_seen lf_seen (follow_one srt ps vs w phi os sight leaders i s) (follow_one srt (map P ps) (map L vs) w phi (map (wall F) os) sight leaders i s').
  Proof.
    intros Hi Hl G. pose proof G as (A & B & C & D). unfold follow_one. rewrite B. rewrite nth_point by exact Hi.
    replace (map (fun j => vlength (vsub (P (nth i ps vzero)) (nth j (map P ps) vzero))) leaders) with (map (fun j => vlength (vsub (nth i ps vzero) (nth j ps vzero))) leaders)
      by (apply map_ext_in; intros j J; now rewrite nth_point, point_sub, vect_length by auto).
    rewrite frame_choose by assumption. set (o := srt _). cbn zeta.
    destruct (choose_leader ps vs phi os sight i _ leaders _ o) as [j| |] eqn:E.
    - cbn [res_seen]. assert (J : (j < length ps)%nat).
      { clear - E Hl. clearbody o. revert E. induction o as [|q o IH]; cbn [choose_leader]; [discriminate|]. destruct (Rltb _ _); [exact IH|]. destruct (nth_error leaders q) as [j'|] eqn:J; [|exact IH].
        cbn zeta. destruct (is_obstacle_between_points _ _ os); [destruct (_ && _); [discriminate|exact IH]|]. destruct (fst _); [|exact IH]. intros [= <-]. apply Hl. eapply nth_error_In. exact J. }
      rewrite nth_point, nth_vect, point_sub, !vect_normalize, vect_average, vect_normalize by assumption. unfold lf_seen. cbn. rewrite A, C, D, upd_map. repeat split.
    - now apply frame_copy_target.
    - destruct (negb _); [now apply frame_copy_target|exact G].
  Qed.
  Lemma frame_follow_all (f f' : nat -> lf_state -> res lf_state) is : (forall i s s', In i is -> lf_seen s s' -> res_seen lf_seen (f i s) (f' i s')) ->
    forall s s', lf_seen s s' -> res_seen lf_seen (follow_all f is s) (follow_all f' is s').
  Proof.
    intros H. induction is as [|i is IH]; intros s s' G; [exact G|]. cbn [follow_all]. pose proof (H i s s' (or_introl eq_refl) G) as S.
    destruct (f i s), (f' i s'); cbn in S; try contradiction; cbn [rbind]; auto. apply IH; auto. intros; apply H; auto. now right.
  Qed.
  Lemma frame_brute srt fs ls ps vs w phi ts il os sight : length fs = length ps -> length ls = length ps ->
    res_seen lf_seen (leader_follower_interaction_brute srt fs ls ps vs w phi ts il os sight)
      (leader_follower_interaction_brute srt fs ls (map P ps) (map L vs) w phi ts il (map (wall F) os) sight).
  Proof.
    intros A B. unfold leader_follower_interaction_brute. apply frame_follow_all.
    - intros i s s' I G. apply where_true_lt in I. apply frame_follow_one; auto; [lia|]. intros j J. apply where_true_lt in J. lia.
    - unfold lf_seen. cbn. rewrite !map_map. repeat split. apply map_ext. intros _. symmetry. apply vect_zero.
  Qed.
  Lemma frame_put l l' s s' : same l l' -> lf_seen s s' -> same (put_lf l s) (put_lf l' s').
  Proof.
    intros H (A & B & _ & _). unfold put_lf. rewrite A, B. generalize (combine (lf_target s) (lf_leader s)). induction H as [|a b l l' K H IH]; intros [|[t m] c]; cbn [combine map]; constructor; auto.
    apply sn_set_index_leader; auto. apply sn_set_target; auto.
  Qed.
  Lemma frame_familiar l l' h : same l l' -> same (use_familiar l h) (use_familiar l' h).
  Proof.
    intros H. unfold use_familiar. revert h. induction H as [|a b l l' K H IH]; intros [|t h]; cbn [combine map]; constructor; auto.
    rewrite (sn_is_follower _ _ _ _ K). destruct (negb t && a_is_follower a); auto. rewrite (sn_familiar_exit _ _ _ _ K). apply sn_set_target; auto.
  Qed.
  Lemma frame_directions l l' d : same l l' -> same (set_follower_directions l d) (set_follower_directions l' (map L d)).
  Proof.
    intros H. unfold set_follower_directions. revert d. induction H as [|a b l l' K H IH]; intros [|t h]; cbn [combine map]; constructor; auto.
    rewrite (sn_is_follower _ _ _ _ K). destruct (a_is_follower a); auto. apply sn_set_target_direction; auto.
  Qed.
  Lemma same_map {B} (f : agent -> B) l l' : (forall a b, a ~~ b -> f b = f a) -> same l l' -> map f l' = map f l.
  Proof. intros E H. apply (Forall2_map_eq (seen k F)); auto. Qed.
  Lemma frame_leader_follower srt os sight l l' : same l l' ->
    res_seen same (leader_follower_node srt os sight l) (leader_follower_node srt (map (wall F) os) sight l').
  Proof.
    intros H. unfold leader_follower_node, leader_follower_interaction. rewrite (frame_positions _ _ H), (frame_velocities _ _ H).
    rewrite (same_map a_is_follower l l'), (same_map a_is_leader l l'), (same_map a_target l l'), (same_map a_index_leader l l')
      by (auto; intros a b G; first [apply (sn_is_follower _ _ _ _ G)|apply (sn_is_leader _ _ _ _ G)|apply (sn_target _ _ _ _ G)|apply (sn_index_leader _ _ _ _ G)]).
    pose proof (frame_brute srt (map a_is_follower l) (map a_is_leader l) (map a_position l) (map a_velocity l) (40/100) (45/100*PI) (map a_target l) (map a_index_leader l) os sight) as S.
    rewrite !map_length in S. specialize (S eq_refl eq_refl).
    destruct (leader_follower_interaction_brute srt _ _ (map a_position l) _ _ _ _ _ os _) as [s|ex], (leader_follower_interaction_brute srt _ _ (map P _) _ _ _ _ _ _ _) as [s'|ex'];
      cbn in S; try contradiction; cbn [rbind]; [|exact S]. cbn [res_seen fst snd]. pose proof S as (_ & _ & E & E2). rewrite E, E2. apply frame_directions, frame_familiar, frame_put; auto.
  Qed.
  Lemma frame_leader_herding srt enum enum' os sight n l l' : (forall c, enum' (map P (map a_position l)) c = enum (map a_position l) c) -> same l l' ->
    res_seen same (leader_follower_with_herding_node srt enum os sight n l) (leader_follower_with_herding_node srt enum' (map (wall F) os) sight n l').
  Proof.
    intros En H. unfold leader_follower_with_herding_node, leader_follower_with_herding_interaction. rewrite (frame_positions _ _ H), (frame_velocities _ _ H).
    rewrite (same_map a_is_follower l l') by (auto; intros a b G; apply (sn_is_follower _ _ _ _ G)). rewrite En, frame_nearest.
    destruct (find_nearest_neighbors (map a_position l) sight n _ os) as [ns|ex] eqn:En2; cbn [rbind]; [|reflexivity]. rewrite frame_herd.
    set (herd := herding_interaction _ (map a_position l) _ ns _ _).
    assert (G : same (map (fun '(a, (_, h)) => if (h : bool) then set_target NO_TARGET a else a) (combine l herd))
                     (map (fun '(a, (_, h)) => if (h : bool) then set_target NO_TARGET a else a) (combine l' (map (fun '(d, h) => (L d, h)) herd)))).
    { clearbody herd. clear - H HF. revert herd. induction H as [|a b l l' K H IH]; intros [|[d h] herd]; cbn [combine map]; constructor; auto. destruct h; auto. apply sn_set_target; auto. }
    assert (Hd : length herd = Nat.min (length l) (length ns)) by (unfold herd, herding_interaction; rewrite map_length, !combine_length, seq_length, !map_length; lia).
    set (l2 := map _ (combine l herd)) in *. set (l2' := map _ (combine l' _)) in *.
    rewrite (same_map a_is_leader l2 l2'), (same_map a_target l2 l2'), (same_map a_index_leader l2 l2')
      by (auto; intros a b G'; first [apply (sn_is_leader _ _ _ _ G')|apply (sn_target _ _ _ _ G')|apply (sn_index_leader _ _ _ _ G')]).
    assert (Ln : length ns = length l).
    { apply nearest_length in En2. now rewrite map_length in En2. }
    pose proof (frame_brute srt (map a_is_follower l) (map a_is_leader l2) (map a_position l) (map a_velocity l) (40/100) (45/100*PI) (map a_target l2) (map a_index_leader l2) os 20) as S.
    assert (L2 : length l2 = length l) by (unfold l2; rewrite map_length, combine_length; lia).
    rewrite !map_length in S. specialize (S eq_refl L2).
    destruct (leader_follower_interaction_brute srt _ _ (map a_position l) _ _ _ _ _ os _) as [s|ex], (leader_follower_interaction_brute srt _ _ (map P _) _ _ _ _ _ _ _) as [s'|ex'];
      cbn in S; try contradiction; cbn [rbind]; [|exact S]. cbn [res_seen fst snd]. pose proof S as (_ & _ & E & E2). rewrite E, E2.
    replace (map (fun '((_, h), st) => (h || st)%bool) (combine (map (fun '(d, h) => (L d, h)) herd) (lf_strategy s))) with (map (fun '((_, h), st) => (h || st)%bool) (combine herd (lf_strategy s))).
    2:{ clear. generalize (lf_strategy s). induction herd as [|[d h] herd IH]; intros [|b bs]; cbn; auto. now rewrite IH. }
    replace (normalize_nx2 (map (fun '(dl, (dh, _)) => weighted_average dl dh (65/100)) (combine (map L (lf_direction s)) (map (fun '(d, h) => (L d, h)) herd))))
      with (map L (normalize_nx2 (map (fun '(dl, (dh, _)) => weighted_average dl dh (65/100)) (combine (lf_direction s) herd)))).
    2:{ clear - HF. unfold normalize_nx2. rewrite !map_map. generalize (lf_direction s). induction herd as [|[d h] herd IH]; intros [|b bs]; cbn [combine map]; auto. rewrite IH. f_equal. now rewrite vect_average, vect_normalize by exact HF. }
    apply frame_directions, frame_familiar, frame_put; auto.
  Qed.
End Nodes.
