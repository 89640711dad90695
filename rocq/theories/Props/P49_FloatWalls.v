(** * Property C148: contact with walls in double precision *)
From Coq Require Import Reals ZArith List Lra Lia.
From Flocq Require Import Core.
From Verif Require Import Model.Floats Model.Distance Model.Motion Proofs.VecLemmas Proofs.FloatProofs Proofs.FloatCases Proofs.FloatForcesProofs Proofs.FloatContact.
From Verif Require Import Proofs.FloatWallsProofs.
Import ListNotations.
Open Scope R_scope.

(** The rounding error of a force of contact: eight units of rounding of its summands. *)
Theorem C148_contact : forall (c : vec -> R) h n v t mu kappa damping, c = vx \/ c = vy ->
  (forall z, In z [h; mu; kappa; damping; c n; c t] -> Rabs z <= powerRZ 2 100) ->
  Rabs (c (f_force_contact h n v t mu kappa damping) - c (force_contact h n v t mu kappa damping)) <=
    8 * powerRZ 2 (-53) * (Rabs h * (Rabs mu * Rabs (c n) + Rabs kappa * (Rabs (vx v * vx t) + Rabs (vy v * vy t)) * Rabs (c t)) +
                           Rabs damping * (Rabs (vx v * vx n) + Rabs (vy v * vy n)) * Rabs (c n)) + powerRZ 2 (-767).
Proof.
  intros c h n v t mu kappa damping C B. set (b := powerRZ 2 100) in *. assert (B1 : 1 <= b). { unfold b. rewrite <- pow2. change 1 with (bpow radix2 0). apply bpow_le. lia. }
  assert (K := app_contact b B1 h mu kappa damping (vx v) (vy v) (vx t) (vy t) (vx n) (vy n) (c n) (c t)). 
  destruct K as [K1 K2]; try (apply B; cbn; tauto). assert (P7 := pow7).
  assert (E1 : c (f_force_contact h n v t mu kappa damping) = rnd (rnd (- h * rnd (rnd (mu * c n) - rnd (rnd (kappa * rnd (rnd (vx v * vx t) + rnd (vy v * vy t))) * c t))) + rnd (rnd (damping * rnd (rnd (vx v * vx n) + rnd (vy v * vy n))) * c n))) by (destruct C as [-> | ->]; reflexivity).
  assert (E2 : c (force_contact h n v t mu kappa damping) = - h * (mu * c n - kappa * (vx v * vx t + vy v * vy t) * c t) + damping * (vx v * vx n + vy v * vy n) * c n) by (destruct C as [-> | ->]; reflexivity).
  rewrite E1, E2. eapply Rle_trans; [exact K2|].
  assert (T1 : 256 * (b * b * b) * T = powerRZ 2 (-767)).
  { unfold b, T. rewrite <- !pow2. replace 256 with (bpow radix2 8) by (cbn; lra). rewrite <- !bpow_plus. reflexivity. }
  rewrite T1. apply Rplus_le_compat_r. unfold summands in *. fold U. apply Rmult_le_compat_r; auto. eapply Rle_trans; [apply Rabs_pos|exact K1].
Qed.
Print Assumptions C148_contact.
(** Nobody beside a wall along an axis is pushed by it without overlapping it, whichever
    end the wall starts from. *)
Theorem C148_no_touch : forall hypot along across o c a, exact_on_axes hypot -> axes along across -> wall_doubles o -> body_doubles a -> beside along across o c a ->
  a_radius a <= Rabs (across (a_position a) - c) -> f_obstacle_circular hypot a o = a.
Proof.
  intros hypot along across o c a H AX W D B L. unfold f_obstacle_circular. destruct (beside_wall hypot H along across o c a AX W D B) as (n & -> & _). rewrite Rlt_bool_false; auto.
  apply rnd_pos. assert (F : fmt (a_radius a)) by (apply double_fmt; apply D). pose proof (rnd_above _ _ F L). lra.
Qed.
Print Assumptions C148_no_touch.
(** Somebody who stands still and overlaps the wall is pushed straight away from it, by
    [mu] times the overlap up to rounding. *)
Theorem C148_still : forall hypot along across o c a, exact_on_axes hypot -> axes along across -> wall_doubles o -> body_doubles a -> beside along across o c a ->
  a_velocity a = vzero -> a_force a = vzero -> 0 <= a_mu a -> across (a_position a) <> c -> Rabs (across (a_position a) - c) < a_radius a ->
  let f := a_force (f_obstacle_circular hypot a o) in let overlap := a_radius a - Rabs (across (a_position a) - c) in
  along f = 0 /\ (c < across (a_position a) -> 0 <= across f) /\ (across (a_position a) < c -> across f <= 0) /\
  Rabs (Rabs (across f) - a_mu a * overlap) <= 3 * powerRZ 2 (-53) * (a_mu a * a_radius a) + powerRZ 2 (-1074).
Proof.
  intros hypot along across o c a H AX W D B V0 F0 M N L f overlap. unfold f, f_obstacle_circular. clear f. destruct (beside_wall hypot H along across o c a AX W D B) as (n & -> & N1 & N2 & K).
  assert (Fr : fmt (a_radius a)) by (apply double_fmt; apply D). assert (Fm : fmt (a_mu a)) by (apply double_fmt; apply D).
  assert (Fp : fmt (across (a_position a)) /\ fmt c).
  { destruct D as [[P1 P2] _], W as [[Q1 Q2] _], B as (E0 & _). destruct AX as [[-> ->] | [-> ->]]; subst c; split; now apply double_fmt. }
  set (g := across (a_position a) - c) in *. set (r := a_radius a) in *. set (mu := a_mu a) in *. set (h := rnd (rnd (Rabs g) - r)).
  assert (Rg : rnd (Rabs g) <= r) by (apply rnd_below; auto; lra). assert (Hh : h <= 0) by (apply rnd_neg; lra).
  assert (G0 : 0 <= Rabs g) by apply Rabs_pos. assert (Rg0 : 0 <= rnd (Rabs g)) by (apply rnd_pos; auto).
  assert (Z : let e := a_force (if Rlt_bool h 0 then f_add_force (f_force_contact h n (a_velocity a) (rotate270 n) mu (a_kappa a) (a_damping a)) a else a) in along e = 0 /\ across e = across n * rnd (- h * mu)).
  { cbv zeta. destruct (Rlt_bool_spec h 0) as [Hn|Hn].
    - destruct (K h) as [_ K2]. destruct (K2 N) as [K3 K4]. clear K K2. rewrite V0 in *.
      assert (U' : across n = 1 \/ across n = -1). { rewrite N2. unfold rsign. fold g. destruct (Rltb 0 g) eqn:P1; auto. apply Rltb_false in P1. rewrite (proj2 (Rltb_true _ _)) by (unfold g in *; lra). auto. }
      assert (E : forall w, along (f_vadd vzero w) = rnd (along w) /\ across (f_vadd vzero w) = rnd (across w)) by (intros w; rewrite f_vadd_zero; destruct AX as [[-> ->] | [-> ->]]; auto).
      unfold f_add_force. change (a_force (set_force ?z a)) with z. rewrite F0. fold mu. destruct (E (f_force_contact h n vzero (rotate270 n) mu (a_kappa a) (a_damping a))) as [-> ->]. rewrite K3, K4.
      assert (ZA : along vzero = 0 /\ across vzero = 0) by (destruct AX as [[-> ->] | [-> ->]]; auto). destruct ZA as [-> ->]. rewrite !Rmult_0_r, !rnd0, !Rmult_0_r, !Rplus_0_r, !rnd0. split; auto. rewrite !out by auto. now rewrite !rnd_rnd.
    - assert (h = 0) as -> by lra. rewrite F0, Ropp_0, Rmult_0_l, rnd0, Rmult_0_r. destruct AX as [[-> ->] | [-> ->]]; auto. }
  cbv zeta in Z. destruct Z as [-> ->]. assert (P0 : 0 <= rnd (- h * mu)) by (apply rnd_pos; nra). split; auto. rewrite N2.
  assert (SP : 0 < g -> rsign g = 1) by (intros P; unfold rsign; now rewrite (proj2 (Rltb_true _ _))).
  assert (SN : g < 0 -> rsign g = -1) by (intros P; unfold rsign; rewrite (proj2 (Rltb_false _ _)), (proj2 (Rltb_true _ _)) by lra; auto).
  split; [intros P; rewrite SP by (unfold g; lra); lra|]. split; [intros P; rewrite SN by (unfold g; lra); lra|].
  assert (Eabs : Rabs (rsign g * rnd (- h * mu)) = rnd (- h * mu)). { apply Rabs_pos_eq in P0. destruct (Rlt_or_le 0 g) as [P|P]; [rewrite SP by auto|rewrite SN by (unfold g in *; lra)]; rewrite Rabs_mult, P0, ?Rabs_R1, ?(Rabs_left (-1)) by lra; ring. }
  rewrite Eabs. fold U.
  assert (D1 : Rabs (rnd (Rabs g) - Rabs g) <= U * Rabs g).
  { destruct Fp as [Fp1 Fp2]. rewrite <- rnd_abs. eapply Rle_trans; [apply Rabs_triang_inv2|]. unfold g, Rminus at 1 2 4. apply plus_off; auto. now apply generic_format_opp. }
  assert (D2 : Rabs (h - (rnd (Rabs g) - r)) <= U * Rabs (rnd (Rabs g) - r)) by (apply plus_off; [apply rnd_fmt|now apply generic_format_opp]).
  assert (D3 := rnd_far (- h * mu)). assert (U0 := U_pos). assert (Us : U <= / 1000) by (rewrite U_val; lra).
  apply Rabs_le_inv in D1. rewrite (Rabs_left1 (rnd (Rabs g) - r)) in D2 by lra. apply Rabs_le_inv in D2. rewrite (Rabs_pos_eq (- h * mu)) in D3 by nra.
  assert (X : Rabs (- h - overlap) <= (U + U * U) * r /\ - h <= (1 + U) * r).
  { unfold overlap. split; [apply Rabs_le|]; nra. }
  destruct X as [X1 X2]. assert (T2 : powerRZ 2 (-1074) = 2 * T). { unfold T. rewrite <- pow2. replace 2 with (bpow radix2 1) by (cbn; lra). rewrite <- bpow_plus. reflexivity. } rewrite T2. pose proof T_pos.
  assert (R0 : 0 <= r) by lra. replace (rnd (- h * mu) - mu * overlap) with ((rnd (- h * mu) - - h * mu) + mu * (- h - overlap)) by ring.
  eapply Rle_trans; [apply Rabs_triang|]. rewrite (Rabs_mult mu), (Rabs_pos_eq mu) by auto. assert (mu * Rabs (- h - overlap) <= mu * ((U + U * U) * r)) by (apply Rmult_le_compat_l; auto).
  assert (0 <= mu * r) by nra. assert (U * (- h * mu) <= U * ((1 + U) * r * mu)) by (apply Rmult_le_compat_l; [lra|apply Rmult_le_compat_r; auto]). assert (U * U * (mu * r) <= U * / 1000 * (mu * r)) by (apply Rmult_le_compat_r; auto; nra). assert (0 <= U * (mu * r)) by nra. nra.
Qed.
Print Assumptions C148_still.
(** Friction never speeds anybody up along the wall. *)
Theorem C148_slides : forall hypot along across o c a, exact_on_axes hypot -> axes along across -> wall_doubles o -> body_doubles a -> beside along across o c a ->
  a_force a = vzero -> 0 <= a_kappa a -> let f := a_force (f_obstacle_circular hypot a o) in
  (0 <= along (a_velocity a) -> along f <= 0) /\ (along (a_velocity a) <= 0 -> 0 <= along f).
Proof.
  intros hypot along across o c a H AX W D B F0 M f. unfold f, f_obstacle_circular. clear f. destruct (beside_wall hypot H along across o c a AX W D B) as (n & -> & N1 & N2 & K).
  set (h := rnd _). assert (ZA : along vzero = 0) by (destruct AX as [[-> ->] | [-> ->]]; auto). destruct (Rlt_bool_spec h 0) as [Hn|Hn]; [|rewrite F0, ZA; lra].
  unfold f_add_force. change (a_force (set_force ?z a)) with z. rewrite F0. assert (E : forall w, along (f_vadd vzero w) = rnd (along w)) by (intros w; rewrite f_vadd_zero; destruct AX as [[-> ->] | [-> ->]]; auto). rewrite E.
  destruct (K h) as [K1 K2]. destruct (Req_dec (across (a_position a)) c) as [Q|Q]; [rewrite (K1 Q), ZA, rnd0; lra|]. destruct (K2 Q) as [_ ->]. rewrite rnd_rnd.
  split; intros L; [apply rnd_neg|apply rnd_pos]; [assert (0 <= rnd (a_kappa a * along (a_velocity a))) by (apply rnd_pos; nra)|assert (rnd (a_kappa a * along (a_velocity a)) <= 0) by (apply rnd_neg; nra)]; nra.
Qed.
Print Assumptions C148_slides.
(** Whoever stands exactly on the line of the wall is not pushed at all. *)
Theorem C148_on_the_line : forall hypot along across o c a, exact_on_axes hypot -> axes along across -> wall_doubles o -> body_doubles a -> beside along across o c a ->
  across (a_position a) = c -> a_force (f_obstacle_circular hypot a o) = a_force a.
Proof.
  intros hypot along across o c a H AX W D B Q. unfold f_obstacle_circular. destruct (beside_wall hypot H along across o c a AX W D B) as (n & -> & _ & _ & K). set (h := rnd _).
  destruct (Rlt_bool_spec h 0); auto. unfold f_add_force. change (a_force (set_force ?z a)) with z. destruct (K h) as [K1 _]. rewrite (K1 Q). destruct D as (_ & _ & [D1 D2] & _). apply double_fmt in D1, D2.
  destruct (a_force a) as [fx fy]. unfold f_vadd, vzero. cbn in *. rewrite !Rplus_0_r, !rnd_id by auto. reflexivity.
Qed.
Print Assumptions C148_on_the_line.

(** In a room with walls along the axes, whoever keeps off the lines of all of them by a
    radius is not pushed by any, beside them or beyond their ends. *)
Theorem C148_room : forall hypot agents obstacles, exact_on_axes hypot -> above_coordinates hypot ->
  (forall o, In o obstacles -> wall_doubles o) -> (forall a, In a agents -> body_doubles a) ->
  (forall a o, In a agents -> In o obstacles -> exists along across c, axes along across /\ on_line along across o c /\ a_radius a <= Rabs (across (a_position a) - c)) ->
  f_agent_circular_obstacle hypot agents obstacles = agents.
Proof.
  intros hypot agents obstacles H HC W D F. unfold f_agent_circular_obstacle. rewrite <- (map_id agents) at 2. apply map_ext_in. intros a A. specialize (D a A). assert (F' : forall o, In o obstacles -> f_obstacle_circular hypot a o = a).
  { intros o O. destruct (F a o A O) as (along & across & c & AX & L & R0). pose proof (far_wall hypot H along across o c a HC AX (W o O) D L R0) as P. unfold f_obstacle_circular. destruct (f_distance_circle_line _ _ _ _ _) as [h n]. cbn [fst] in P. now rewrite Rlt_bool_false. }
  clear F W. induction obstacles as [|o l IH]; auto. cbn [fold_left]. rewrite (F' o) by now left. apply IH. intros o' O. apply F'. now right.
Qed.
Print Assumptions C148_room.

(** ** Cases *)
(** Two metres of wall along the second axis, given from the top, and somebody of half a
    metre who overlaps it by a quarter of a metre and stands still. *)
Definition wall48 : obstacle := Obs (V 0 2) (V 0 0).
Definition body48 : agent := set_mu 1024 (set_radius (/ 2) (set_position (V (/ 4) 1) zero_row)).
Lemma dbl m e x : (Z.abs m < 2 ^ 53)%Z -> (-1074 <= e)%Z -> x = IZR m * powerRZ 2 e -> Spec.Doubles.double x. Proof. intros. now exists m, e. Qed.
Example C148_case : exact_on_axes exact_hypot /\ above_coordinates exact_hypot /\ axes vy vx /\ wall_doubles wall48 /\ body_doubles body48 /\ beside vy vx wall48 0 body48 /\
  a_velocity body48 = vzero /\ a_force body48 = vzero /\ vx (a_position body48) <> 0 /\ Rabs (vx (a_position body48) - 0) < a_radius body48.
Proof.
  assert (D0 : Spec.Doubles.double 0) by (apply (dbl 0 0); cbn; lia || lra). assert (D1 : Spec.Doubles.double 1) by (apply (dbl 1 0); cbn; lia || lra). assert (D2 : Spec.Doubles.double 2) by (apply (dbl 2 0); cbn; lia || lra).
  assert (DH : Spec.Doubles.double (/ 2)) by (apply (dbl 1 (-1)); [lia|lia|]; rewrite <- pow2; cbn; lra). assert (DQ : Spec.Doubles.double (/ 4)) by (apply (dbl 1 (-2)); [lia|lia|]; rewrite <- pow2; cbn; lra). assert (DM : Spec.Doubles.double 1024) by (apply (dbl 1024 0); cbn; lia || lra).
  split; [|split; [|split; [now right|]]].
  - intros d D. apply double_fmt in D. unfold exact_hypot, Spec.Doubles.norm2. cbn [fst snd]. rewrite !Rmult_0_l, Rplus_0_l, Rplus_0_r. fold (Rsqr d). rewrite sqrt_Rsqr_abs, rnd_id by now apply fmt_abs. auto.
  - intros x y X Y. apply double_fmt in X, Y. unfold exact_hypot. destruct (FloatSums.norm2_comp (x, y)) as [C1 C2]. cbn [fst snd] in *. split; apply rnd_above; auto; now apply fmt_abs.
  - repeat split; cbn; auto; try lra. + rewrite Rmin_right; lra. + rewrite Rmax_left; lra. + rewrite Rminus_0_r, Rabs_pos_eq; lra.
Qed.
