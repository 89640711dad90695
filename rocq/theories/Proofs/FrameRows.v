(** * The nodes of a simulation in another coordinate system *)
From Coq Require Import Lra Lia.
From Verif Require Import Proofs.VecLemmas Proofs.Vector2DProofs.
From Verif Require Export Proofs.FrameProofs Spec.Frames.
Open Scope R_scope.

Lemma fluctuate_if k a phi z zt : fluctuate_row k a phi z zt =
  let a := set_force (vadd (a_force a) (force_fluctuation1 (a_mass a) (a_std_rand_force a) phi z)) a in
  if is_model k ThreeCircle then set_torque (a_torque a + torque_fluctuation1 (a_inertia_rot a) (a_std_rand_torque a) zt) a else a.
Proof. destruct k; reflexivity. Qed.

Section Rows.
  Variable F : frame.
  Hypothesis HF : proper F.
  Variable k : kind.
  Notation L := (vect F).
  Notation P := (point F).
  Notation e := (f_flip F).
  Notation "a ~~ b" := (seen k F a b) (at level 70).

  Ltac closed H := destruct H; constructor; cbn; auto.
  Lemma sn_set_force a b f f' : a ~~ b -> f' = L f -> set_force f a ~~ set_force f' b. Proof. intros H E. closed H. Qed.
  Lemma sn_set_force_prev a b f f' : a ~~ b -> f' = L f -> set_force_prev f a ~~ set_force_prev f' b. Proof. intros H E. closed H. Qed.
  Lemma sn_set_velocity a b f f' : a ~~ b -> f' = L f -> set_velocity f a ~~ set_velocity f' b. Proof. intros H E. closed H. Qed.
  Lemma sn_set_target_direction a b f f' : a ~~ b -> f' = L f -> set_target_direction f a ~~ set_target_direction f' b. Proof. intros H E. closed H. Qed.
  Lemma sn_set_position a b f f' : a ~~ b -> f' = P f -> set_position f a ~~ set_position f' b. Proof. intros H E. closed H. Qed.
  Lemma sn_set_torque a b f f' : a ~~ b -> f' = f -> set_torque f a ~~ set_torque f' b. Proof. intros H E. closed H. Qed.
  Lemma sn_set_torque_prev a b f f' : a ~~ b -> f' = f -> set_torque_prev f a ~~ set_torque_prev f' b. Proof. intros H E. closed H. Qed.
  Lemma sn_set_angular_velocity a b f f' : a ~~ b -> f' = f -> set_angular_velocity f a ~~ set_angular_velocity f' b. Proof. intros H E. closed H. Qed.
  Lemma sn_set_active a b f f' : a ~~ b -> f' = f -> set_active f a ~~ set_active f' b. Proof. intros H E. closed H. Qed.
  Lemma sn_set_target a b f f' : a ~~ b -> f' = f -> set_target f a ~~ set_target f' b. Proof. intros H E. closed H. Qed.
  Lemma sn_set_is_follower a b f f' : a ~~ b -> f' = f -> set_is_follower f a ~~ set_is_follower f' b. Proof. intros H E. closed H. Qed.
  Lemma sn_set_index_leader a b f f' : a ~~ b -> f' = f -> set_index_leader f a ~~ set_index_leader f' b. Proof. intros H E. closed H. Qed.

  (** Orientations are compared as directions. *)
  Notation U x := (V (cos x) (sin x)).
  Lemma sn_set_orientation a b o o' : a ~~ b -> U o' = L (U o) -> (only_moved F -> o' = o) -> set_orientation o a ~~ set_orientation o' b.
  Proof.
    intros H E M. destruct H; constructor; cbn; auto. intros K. destruct (sn_body K) as (B1 & B2 & B3 & B4 & B5 & B6).
    repeat match goal with |- _ /\ _ => split end; auto. intros O. split; auto. apply (B6 O).
  Qed.
  Lemma sn_set_target_orientation a b o o' : a ~~ b -> (k = ThreeCircle -> only_moved F -> o' = o) -> set_target_orientation o a ~~ set_target_orientation o' b.
  Proof.
    intros H M. destruct H; constructor; cbn; auto. intros K. destruct (sn_body K) as (B1 & B2 & B3 & B4 & B5 & B6).
    repeat match goal with |- _ /\ _ => split end; auto. intros O. split; auto. apply (B6 O).
  Qed.
  Lemma sn_set_shoulders a b l l' r r' : a ~~ b -> l' = P l -> r' = P r -> set_position_rs r (set_position_ls l a) ~~ set_position_rs r' (set_position_ls l' b).
  Proof.
    intros H El Er. destruct H; constructor; cbn; auto. intros K. destruct (sn_body K) as (B1 & _ & _ & B4 & B5 & B6). auto 10.
  Qed.

  Ltac cols H := rewrite ?(sn_active _ _ _ _ H), ?(sn_target _ _ _ _ H), ?(sn_is_leader _ _ _ _ H), ?(sn_is_follower _ _ _ _ H), ?(sn_index_leader _ _ _ _ H),
    ?(sn_familiar_exit _ _ _ _ H), ?(sn_radius _ _ _ _ H), ?(sn_r_t _ _ _ _ H), ?(sn_r_s _ _ _ _ H), ?(sn_r_ts _ _ _ _ H), ?(sn_mass _ _ _ _ H),
    ?(sn_inertia_rot _ _ _ _ H), ?(sn_target_velocity _ _ _ _ H), ?(sn_target_angular_velocity _ _ _ _ H), ?(sn_position _ _ _ _ H), ?(sn_velocity _ _ _ _ H),
    ?(sn_target_direction _ _ _ _ H), ?(sn_force _ _ _ _ H), ?(sn_force_prev _ _ _ _ H), ?(sn_tau_adj _ _ _ _ H), ?(sn_k_soc _ _ _ _ H), ?(sn_tau_0 _ _ _ _ H),
    ?(sn_mu _ _ _ _ H), ?(sn_kappa _ _ _ _ H), ?(sn_damping _ _ _ _ H), ?(sn_std_rand_force _ _ _ _ H), ?(sn_std_rand_torque _ _ _ _ H), ?(sn_tau_rot _ _ _ _ H),
    ?(sn_angular_velocity _ _ _ _ H), ?(sn_torque _ _ _ _ H), ?(sn_torque_prev _ _ _ _ H).

  (** ** Nodes that treat every row alone *)
  Lemma frame_reset a b : a ~~ b -> reset_row k a ~~ reset_row k b.
  Proof. intros H. unfold reset_row. assert (G : set_force vzero a ~~ set_force vzero b) by (apply sn_set_force; [exact H|symmetry; apply vect_zero]). destruct (is_model k ThreeCircle); [apply sn_set_torque; auto|exact G]. Qed.
  Lemma frame_force_adjust a b : a ~~ b -> res_seen (seen k F) (force_adjust_row a) (force_adjust_row b).
  Proof.
    intros H. unfold force_adjust_row, force_adjust. cols H. destruct (Reqb (a_tau_adj a) 0); cbn [rbind res_seen]; [reflexivity|].
    apply sn_set_force; [exact H|]. now rewrite vect_add, vect_scale, vect_sub, vect_scale.
  Qed.
  Lemma frame_torque_adjust a b : k = ThreeCircle -> a ~~ b -> res_seen (seen k F) (torque_adjust_row a) (torque_adjust_row b).
  Proof.
    intros K H. unfold torque_adjust_row, torque_adjust. cols H. destruct (Reqb (a_tau_rot a) 0); cbn [rbind res_seen]; [reflexivity|].
    apply sn_set_torque; [exact H|]. destruct (sn_body _ _ _ _ H K) as (_ & _ & _ & _ & [M|Z] & O).
    - destruct (O M) as [-> ->]. reflexivity.
    - rewrite Z. rewrite !Rmult_0_r. reflexivity.
  Qed.
  Lemma frame_orient a b : k = ThreeCircle -> a ~~ b -> orient_row a ~~ orient_row b.
  Proof.
    intros K H. unfold orient_row. apply sn_set_target_orientation; [exact H|]. intros _ (C & S & E). cols H. f_equal. unfold vect. rewrite C, S, E. destruct (a_target_direction a) as [d1 d2]. veq; ring.
  Qed.
  Lemma frame_fluctuate a b phi z zt phi' : a ~~ b -> U phi' = L (U phi) -> fluctuate_row k a phi z zt ~~ fluctuate_row k b phi' z zt.
  Proof.
    intros H E. rewrite !fluctuate_if. cbv zeta.
    assert (G : set_force (vadd (a_force a) (force_fluctuation1 (a_mass a) (a_std_rand_force a) phi z)) a ~~
                set_force (vadd (a_force b) (force_fluctuation1 (a_mass b) (a_std_rand_force b) phi' z)) b).
    { apply sn_set_force; [exact H|]. cols H. unfold force_fluctuation1. rewrite vect_add, vect_scale, <- E. reflexivity. }
    destruct (is_model k ThreeCircle); [|exact G]. apply sn_set_torque; [exact G|]. cols G. reflexivity.
  Qed.
  Lemma unit_wrap x : U (wrap_to_pi x) = U x.
  Proof.
    destruct (wrap_turns x) as (n & ->). rewrite cos_plus, sin_plus.
    assert (C : cos (2 * PI * IZR n) = 1 /\ sin (2 * PI * IZR n) = 0).
    { destruct (Z_le_gt_dec 0 n).
      - replace (2 * PI * IZR n) with (0 + 2 * INR (Z.to_nat n) * PI). { rewrite cos_period, sin_period, cos_0, sin_0. auto. }
        rewrite INR_IZR_INZ, Z2Nat.id by lia. ring.
      - replace (2 * PI * IZR n) with (- (0 + 2 * INR (Z.to_nat (- n)) * PI)). { rewrite cos_neg, sin_neg, cos_period, sin_period, cos_0, sin_0. split; ring. }
        rewrite INR_IZR_INZ, Z2Nat.id, opp_IZR by lia. ring. }
    destruct C as [-> ->]. f_equal; ring.
  Qed.
  Lemma unit_turn x x' d : e = 1 -> U x' = L (U x) -> U (x' + d) = L (U (x + d)).
  Proof.
    intros E H. pose proof (f_equal vx H) as Hc. pose proof (f_equal vy H) as Hs. cbn in Hc, Hs. rewrite E in Hc, Hs.
    rewrite !cos_plus, !sin_plus. unfold vect. cbn [vx vy]. rewrite E, Hc, Hs. f_equal; ring.
  Qed.
  Lemma frame_shoulders a b : k = ThreeCircle -> a ~~ b -> shoulders_row a ~~ shoulders_row b.
  Proof.
    intros K H. destruct (sn_body _ _ _ _ H K) as (E & _ & _ & O & _). unfold shoulders_row, unit_vector. cols H. rewrite O, vect_rotate270, E by exact HF.
    apply sn_set_shoulders; [exact H| |]; [rewrite point_minus|rewrite point_add]; f_equal; rewrite vect_scale; f_equal; destruct (L _) as [u1 u2]; veq; ring.
  Qed.
  Lemma frame_rotational dt a b : k = ThreeCircle -> a ~~ b -> rotational_verlet dt a ~~ rotational_verlet dt b.
  Proof.
    intros K H. pose proof (sn_body _ _ _ _ H K) as (E & _ & _ & O & _ & M). unfold rotational_verlet. cols H.
    apply sn_set_orientation.
    - apply sn_set_angular_velocity; [|reflexivity]. apply sn_set_torque_prev; auto.
    - rewrite !unit_wrap. now apply unit_turn.
    - intros G. destruct (M G) as [-> _]. reflexivity.
  Qed.
  Lemma frame_translational dt a b : a ~~ b ->
    match translational_verlet dt a, translational_verlet dt b with Some x, Some y => x ~~ y | None, None => True | _, _ => False end.
  Proof.
    intros H. unfold translational_verlet. cols H. destruct (Reqb (a_mass a) 0); [exact I|].
    apply sn_set_position; [apply sn_set_velocity; [apply sn_set_force_prev; [exact H|reflexivity]|]|].
    - rewrite vect_add, vect_scale, vect_div, vect_add, !vect_div. reflexivity.
    - rewrite point_add, vect_add, !vect_scale, !vect_div, vect_add, vect_scale, vect_div, vect_add, !vect_div. reflexivity.
  Qed.
  Lemma frame_obstacle_circular a b o : a ~~ b -> obstacle_circular a o ~~ obstacle_circular b (wall F o).
  Proof.
    intros H. unfold obstacle_circular, wall. cbn [p0 p1]. cols H. rewrite frame_circle_line by exact HF. destruct (distance_circle_line _ _ _ _) as [[h n]|]; [|exact H].
    destruct (Rltb h 0); [|exact H]. apply sn_set_force; [exact H|]. cols H. rewrite vect_add. f_equal. apply frame_contact; [exact HF|]. apply vect_rotate270. exact HF.
  Qed.
  Lemma frame_xs a b : k = ThreeCircle -> a ~~ b -> xs_of b = tmap P (xs_of a).
  Proof. intros K H. destruct (sn_body _ _ _ _ H K) as (_ & A & B & _). unfold xs_of, tmap. cbn. now rewrite A, B, (sn_position _ _ _ _ H). Qed.
  Lemma frame_rs a b : a ~~ b -> rs_of b = rs_of a.
  Proof. intros H. unfold rs_of. now cols H. Qed.
  Lemma frame_flip1 a b : k = ThreeCircle -> a ~~ b -> e = 1.
  Proof. intros K H. apply (sn_body _ _ _ _ H K). Qed.
  Lemma frame_obstacle_three a b o : k = ThreeCircle -> a ~~ b -> obstacle_three_circle a o ~~ obstacle_three_circle b (wall F o).
  Proof.
    intros K H. unfold obstacle_three_circle, wall. cbn [p0 p1]. rewrite (frame_xs _ _ K H), (frame_rs _ _ H), frame_three_circle_line by exact HF.
    destruct (distance_three_circle_line _ _ _ _) as [[[h n] m]|]; [|exact H]. destruct (Rltb h 0); [|exact H]. cols H.
    rewrite (frame_contact F HF h n (a_velocity a) (rotate270 n)) by (apply vect_rotate270; exact HF).
    set (f := force_contact _ _ _ _ _ _ _). assert (G : add_force f a ~~ add_force (L f) b). { apply sn_set_force; [exact H|]. cols H. symmetry. apply vect_add. }
    apply sn_set_torque; [exact G|]. cols G. rewrite vect_cross, (frame_flip1 _ _ K H) by exact HF. ring.
  Qed.

  (** ** Pairs *)
  Lemma frame_social a b a' b' g t : a ~~ a' -> b ~~ b' ->
    res_seen (fun x y => y = (L (fst x), L (snd x))) (social_forces a b g t) (social_forces a' b' (L g) t).
  Proof.
    intros H G. unfold social_forces, magnitude. cols H. cols G. destruct (Reqb (a_tau_0 a) 0); [reflexivity|]. cbn [rbind]. destruct (Reqb (a_tau_0 b) 0); [reflexivity|]. cbn [rbind res_seen fst snd].
    rewrite <- !vect_truncate by exact HF. now rewrite vect_add, vect_sub, !vect_scale, vect_zero.
  Qed.
  Lemma frame_social_circular a b a' b' : a ~~ a' -> b ~~ b' ->
    res_seen (fun x y => y = (L (fst x), L (snd x))) (force_social_circular a b) (force_social_circular a' b').
  Proof.
    intros H G. unfold force_social_circular. cols H. cols G. rewrite !point_sub, <- !vect_sub.
    destruct (frame_coeffs F HF (vsub (a_position a) (a_position b)) (vsub (a_velocity a) (a_velocity b)) (a_radius a + a_radius b)) as (-> & -> & ->).
    assert (Z : @res_seen (vec * vec) (fun x y => y = (L (fst x), L (snd x))) (Ok (vzero, vzero)) (Ok (vzero, vzero))) by (cbn; now rewrite vect_zero).
    destruct (coeff_d _ _ _) as [d|]; [|exact Z]. destruct (_ || _)%bool; [exact Z|]. destruct (_ || _)%bool; [exact Z|].
    rewrite frame_gradient_circle. now apply frame_social.
  Qed.
  Lemma frame_with_contact h n a b a' b' fs : a ~~ a' -> b ~~ b' ->
    with_contact h (L n) a' b' (L (fst fs), L (snd fs)) = (L (fst (with_contact h n a b fs)), L (snd (with_contact h n a b fs))).
  Proof.
    intros H G. unfold with_contact. cols H. cols G. destruct (Rltb h 0); [|reflexivity]. cbn [fst snd]. rewrite <- vect_sub.
    rewrite !(frame_contact F HF h n (vsub (a_velocity a) (a_velocity b)) (rotate270 n)) by (apply vect_rotate270; exact HF). now rewrite vect_add, vect_sub.
  Qed.
  Lemma frame_pair_circular a b a' b' : a ~~ a' -> b ~~ b' ->
    res_seen (fun x y => y = option_map (fun fs => (L (fst fs), L (snd fs))) x) (pair_forces_circular a b) (pair_forces_circular a' b').
  Proof.
    intros H G. unfold pair_forces_circular. cols H. cols G. rewrite frame_circles by exact HF. destruct (distance_circles _ _ _ _) as [h n]. cbn [fst snd].
    destruct (Rltb h SIGTH_SOC); [|reflexivity]. pose proof (frame_social_circular _ _ _ _ H G) as S.
    destruct (force_social_circular a b) as [[f1 f2]|x], (force_social_circular a' b') as [fs|y]; cbn in S; try contradiction; cbn [rbind res_seen]; [|exact S].
    subst fs. cbn [option_map]. f_equal. exact (frame_with_contact h n _ _ _ _ (f1, f2) H G).
  Qed.
  Lemma part_offset_turned part a a' : k = ThreeCircle -> a ~~ a' -> part_offset part a' = L (part_offset part a).
  Proof.
    intros K H. destruct (sn_body _ _ _ _ H K) as (E & _ & _ & O & _). unfold part_offset. cols H.
    assert (Q : vscale (a_r_ts a) (V (sin (a_orientation a')) (- cos (a_orientation a'))) = L (vscale (a_r_ts a) (V (sin (a_orientation a)) (- cos (a_orientation a))))).
    { pose proof (f_equal vx O) as Hc. pose proof (f_equal vy O) as Hs. cbn in Hc, Hs. rewrite E in Hc, Hs. unfold vect. rewrite E. veq; rewrite ?Hc, ?Hs; ring. }
    rewrite Q. destruct part as [|[|[|part]]]; rewrite ?vect_add, ?vect_sub, ?vect_zero; reflexivity.
  Qed.
  Lemma frame_tscan x r y q v l : forall s, fold_left (tscan_step (tmap P x) r (tmap P y) q (L v)) l s = fold_left (tscan_step x r y q v) l s.
  Proof.
    induction l as [|[i j] l IH]; intros s; [reflexivity|]. cbn [fold_left]. rewrite IH. f_equal. unfold tscan_step. rewrite !tget_tmap, !point_sub.
    destruct (frame_coeffs F HF (vsub (tget x i) (tget y j)) v (tget r i + tget q j)) as (-> & -> & ->). reflexivity.
  Qed.
  Lemma frame_social_three a b a' b' : k = ThreeCircle -> a ~~ a' -> b ~~ b' ->
    res_seen (fun x y => y = (L (fst x), L (snd x))) (force_social_three_circle a b) (force_social_three_circle a' b').
  Proof.
    intros K H G. unfold force_social_three_circle, three_circle_scan. rewrite (frame_xs _ _ K H), (frame_xs _ _ K G), (frame_rs _ _ H), (frame_rs _ _ G). cols H. cols G.
    rewrite !point_sub, <- !vect_sub, frame_tscan. unfold coeff_a. rewrite vect_dot by exact HF.
    assert (Z : @res_seen (vec * vec) (fun x y => y = (L (fst x), L (snd x))) (Ok (vzero, vzero)) (Ok (vzero, vzero))) by (cbn; now rewrite vect_zero).
    destruct (Reqb _ 0); [exact Z|]. set (s := fold_left _ _ _). destruct (ts_best s) as [[[t bm] dm]|]; [|exact Z]. destruct (Rleb t 0); [exact Z|].
    rewrite (part_offset_turned _ _ _ K H), (part_offset_turned _ _ _ K G), <- vect_sub, frame_gradient_three. now apply frame_social.
  Qed.
  Lemma frame_pair_three a b a' b' : k = ThreeCircle -> a ~~ a' -> b ~~ b' ->
    res_seen (fun x y => y = option_map (fun '(f1, f2, m1, m2) => (L f1, L f2, L m1, L m2)) x) (pair_forces_three_circle a b) (pair_forces_three_circle a' b').
  Proof.
    intros K H G. unfold pair_forces_three_circle. rewrite (frame_xs _ _ K H), (frame_xs _ _ K G), (frame_rs _ _ H), (frame_rs _ _ G), frame_three_circles by exact HF.
    destruct (distance_three_circles _ _ _ _) as [[[[h|] n] m1] m2]; [|reflexivity]. destruct (Rltb h SIGTH_SOC); [|reflexivity].
    pose proof (frame_social_three _ _ _ _ K H G) as S.
    destruct (force_social_three_circle a b) as [[f1 f2]|x], (force_social_three_circle a' b') as [fs|y]; cbn in S; try contradiction; cbn [rbind]; [|exact S].
    subst fs. pose proof (frame_with_contact h n _ _ _ _ (f1, f2) H G) as C. cbn [fst snd] in C. rewrite C. destruct (with_contact h n a b (f1, f2)) as [g1 g2]. reflexivity.
  Qed.
End Rows.
