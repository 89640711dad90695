(** * Walls parallel to an axis in float64 *)
From Coq Require Import Reals ZArith List Lra Lia.
From Flocq Require Import Core Plus_error.
From Verif Require Import Model.Floats Model.Distance Proofs.VecLemmas Proofs.FloatProofs Proofs.FloatSums Proofs.FloatGeomProofs Proofs.FloatForcesProofs.
From Verif Require Export Model.FloatWalls Spec.FloatWalls.
Import ListNotations.
Open Scope R_scope.

Lemma rnd0 : rnd 0 = 0. Proof. apply rnd_id, generic_format_0. Qed.
Lemma rnd_rnd x : rnd (rnd x) = rnd x. Proof. apply rnd_id, rnd_fmt. Qed.
Lemma fmt_abs x : fmt x -> fmt (Rabs x). Proof. apply generic_format_abs. Qed.
Lemma rnd_pos x : 0 <= x -> 0 <= rnd x. Proof. intros H. rewrite <- rnd0. now apply rnd_le. Qed.
Lemma rnd_neg x : x <= 0 -> rnd x <= 0. Proof. intros H. rewrite <- rnd0. now apply rnd_le. Qed.
Lemma rnd_abs x : Rabs (rnd x) = rnd (Rabs x).
Proof. unfold rnd. symmetry. apply round_NE_abs; auto with typeclass_instances. Qed.
(** A difference of doubles vanishes only if they are equal, so it keeps its sign. *)
Lemma minus_zero x y : fmt x -> fmt y -> rnd (x - y) = 0 -> x = y.
Proof.
  intros X Y H. destruct (Req_dec x y) as [|N]; auto. exfalso. assert (M : x + - y <> 0) by lra.
  apply (round_plus_neq_0 radix2 double_exp ZnearestE x (- y) X) in M; auto. now apply generic_format_opp.
Qed.
Lemma minus_lt x y : fmt x -> fmt y -> (rnd (x - y) < 0 <-> x < y).
Proof.
  intros X Y. split.
  - intros H. destruct (Rlt_le_dec x y); auto. pose proof (rnd_pos (x - y)). lra.
  - intros H. pose proof (rnd_neg (x - y)) as L. destruct (Req_dec (rnd (x - y)) 0) as [Z|Z]; [|lra]. apply minus_zero in Z; auto. lra.
Qed.
Lemma minus_gt x y : fmt x -> fmt y -> (0 < rnd (x - y) <-> y < x).
Proof. intros X Y. pose proof (minus_lt y x Y X) as M. replace (y - x) with (- (x - y)) in M by ring. rewrite rnd_opp in M. split; intros H; [apply M; lra|apply M in H; lra]. Qed.
Lemma rsign_minus x y : fmt x -> fmt y -> rsign (rnd (x - y)) = rsign (x - y).
Proof.
  intros X Y. unfold rsign. destruct (Rltb 0 (x - y)) eqn:P.
  - apply Rltb_true in P. rewrite (proj2 (Rltb_true _ _)); auto. apply (minus_gt x y X Y); lra.
  - apply Rltb_false in P. rewrite (proj2 (Rltb_false _ _)) by (apply Rnot_lt_le; intros Q; apply (proj1 (minus_gt x y X Y)) in Q; lra). destruct (Rltb (x - y) 0) eqn:N.
    + apply Rltb_true in N. rewrite (proj2 (Rltb_true _ _)); auto. apply (minus_lt x y X Y); lra.
    + apply Rltb_false in N. rewrite (proj2 (Rltb_false _ _)); auto. apply Rnot_lt_le; intros Q; apply (proj1 (minus_lt x y X Y)) in Q; lra.
Qed.
Definition unit_ (s : R) : Prop := s = 1 \/ s = -1.
Lemma unit_mult s x : unit_ s -> fmt x -> rnd (s * x) = s * x.
Proof. intros [-> | ->] F; apply rnd_id; [rewrite Rmult_1_l; auto|]. replace (-1 * x) with (- x) by ring. now apply generic_format_opp. Qed.

Section Wall.
  Context (hypot : R -> R -> R) (H : exact_on_axes hypot).
  (** The direction of a wall along an axis. *)
  Lemma dir d : d <> 0 -> exists s, unit_ s /\ d / Rabs d = s /\ Rabs d = s * d.
  Proof. intros D. destruct (Rle_or_lt 0 d). { exists 1. rewrite Rabs_pos_eq by auto. split; [now left|]. split; [field; auto|ring]. } { exists (-1). rewrite Rabs_left by auto. split; [now right|]. split; [field; auto|ring]. } Qed.
  Lemma l_t_range s x y0 y1 : unit_ s -> fmt x -> fmt y0 -> fmt y1 -> Rabs (rnd (y1 - y0)) = s * rnd (y1 - y0) -> y0 <> y1 -> Rmin y0 y1 <= x <= Rmax y0 y1 ->
    - Rabs (rnd (y1 - y0)) <= rnd (- (s * rnd (x - y1)) - s * rnd (x - y0)) <= Rabs (rnd (y1 - y0)).
  Proof.
    intros S X Y0 Y1 A N B. assert (F : fmt (Rabs (rnd (y1 - y0)))) by apply fmt_abs, rnd_fmt.
    assert (G : forall p q, 0 <= p <= Rabs (rnd (y1 - y0)) -> 0 <= q <= Rabs (rnd (y1 - y0)) -> - Rabs (rnd (y1 - y0)) <= rnd (p - q) <= Rabs (rnd (y1 - y0))).
    { intros p q P Q. split; [apply rnd_above; [now apply generic_format_opp|lra]|apply rnd_below; auto; lra]. }
    assert (Z : - (s * rnd (x - y1)) - s * rnd (x - y0) = s * rnd (y1 - x) - s * rnd (x - y0)) by (replace (y1 - x) with (- (x - y1)) by ring; rewrite rnd_opp; ring). rewrite Z. clear Z. rewrite A in *.
    destruct S as [-> | ->].
    - assert (y0 < y1). { destruct (Rlt_le_dec y0 y1) as [|L]; auto. assert (y1 - y0 < 0) by lra. assert (rnd (y1 - y0) < 0) by (apply minus_lt; auto; lra). pose proof (Rabs_pos (rnd (y1 - y0))). lra. }
      rewrite Rmin_left, Rmax_right in B by lra. apply G; rewrite !Rmult_1_l; split; try (apply rnd_pos; lra); apply rnd_le; lra.
    - assert (y1 < y0). { destruct (Rlt_le_dec y1 y0) as [|L]; auto. assert (0 < rnd (y1 - y0)) by (apply minus_gt; auto; lra). pose proof (Rabs_pos (rnd (y1 - y0))). lra. }
      rewrite Rmin_right, Rmax_left in B by lra. assert (O : forall z, -1 * rnd z = rnd (- z)) by (intros z; rewrite rnd_opp; ring). rewrite !O in *. apply G; split; try (apply rnd_pos; lra); apply rnd_le; lra.
  Qed.
  Lemma unit_neg s : unit_ s -> unit_ (- s). Proof using. intros [-> | ->]; [right|left]; lra. Qed.
  Lemma unit_rnd s : unit_ s -> rnd s = s. Proof using. intros S. rewrite <- (Rmult_1_r s). apply unit_mult; auto. apply (FloatCells.fmt_int 1); lia. Qed.
  Lemma unit_sign s z : unit_ s -> rsign (s * z) = s * rsign z.
  Proof using.
    intros [-> | ->]; unfold rsign; [rewrite Rmult_1_l; destruct (Rltb 0 z); [|destruct (Rltb z 0)]; ring|].
    destruct (Rltb 0 z) eqn:P; [apply Rltb_true in P|apply Rltb_false in P].
    - rewrite (proj2 (Rltb_false _ _)), (proj2 (Rltb_true _ _)) by lra. lra.
    - destruct (Rltb z 0) eqn:N; [apply Rltb_true in N|apply Rltb_false in N]; [rewrite (proj2 (Rltb_true _ _)) by lra; lra|]. rewrite !(proj2 (Rltb_false _ _)) by lra. lra.
  Qed.
  Lemma unit_abs s z : unit_ s -> Rabs (s * z) = Rabs z.
  Proof using. intros [-> | ->]; rewrite Rabs_mult, ?Rabs_R1, ?(Rabs_left (-1)) by lra; lra. Qed.
  Lemma sign_unit z : rsign z = 0 \/ unit_ (rsign z).
  Proof using. unfold rsign, unit_. destruct (Rltb 0 z); auto. destruct (Rltb z 0); auto. Qed.
  Lemma sign_fmt z : rnd (rsign z) = rsign z.
  Proof using. destruct (sign_unit z) as [-> | S]; [apply rnd0|now apply unit_rnd]. Qed.
  Lemma sq s : unit_ s -> s * s = 1. Proof using. intros [-> | ->]; lra. Qed.
  Lemma distance_vertical c y0 y1 x y r : fmt c -> fmt y0 -> fmt y1 -> fmt x -> fmt y -> y0 <> y1 -> Rmin y0 y1 <= y <= Rmax y0 y1 ->
    f_distance_circle_line hypot (V x y) r (V c y0) (V c y1) = (rnd (rnd (Rabs (x - c)) - r), V (rsign (x - c)) 0).
  Proof.
    intros C Y0 Y1 X Y N B. unfold f_distance_circle_line. cbv zeta. assert (D : rnd (y1 - y0) <> 0) by (intros Z; apply minus_zero in Z; auto).
    destruct (dir _ D) as (s & S & Ds & As). unfold f_vsub, f_vdiv. cbn [vx vy]. rewrite (Rminus_diag_eq c c eq_refl), rnd0. destruct (H (rnd (y1 - y0)) (proj2 (double_fmt _) (rnd_fmt _))) as [-> _]. rewrite Ds.
    replace (0 / Rabs (rnd (y1 - y0))) with 0 by (unfold Rdiv; ring). rewrite rnd0, (unit_rnd s S).
    unfold f_dot, rotate90. cbn [vx vy]. rewrite !Rmult_0_l, rnd0, !Rplus_0_l, !(unit_mult s) by (auto using rnd_fmt).
    destruct (l_t_range s y y0 y1 S Y Y0 Y1 As N B) as [L1 L2]. rewrite !Rlt_bool_false by auto. pose proof (unit_neg s S) as S'. rewrite Rplus_0_r, rnd_rnd, (unit_mult (- s)) by auto using rnd_fmt.
    rewrite (unit_abs (- s)), (unit_sign (- s)), rsign_minus, rnd_abs by auto. unfold f_scale. cbn [vx vy]. rewrite Rmult_0_r, rnd0.
    replace (- s * rsign (x - c) * - s) with (s * s * rsign (x - c)) by ring. rewrite (sq s S), Rmult_1_l, sign_fmt. reflexivity.
  Qed.
  Lemma distance_horizontal c x0 x1 x y r : fmt c -> fmt x0 -> fmt x1 -> fmt x -> fmt y -> x0 <> x1 -> Rmin x0 x1 <= x <= Rmax x0 x1 ->
    f_distance_circle_line hypot (V x y) r (V x0 c) (V x1 c) = (rnd (rnd (Rabs (y - c)) - r), V 0 (rsign (y - c))).
  Proof.
    intros C Y0 Y1 X Y N B. unfold f_distance_circle_line. cbv zeta. assert (D : rnd (x1 - x0) <> 0) by (intros Z; apply minus_zero in Z; auto).
    destruct (dir _ D) as (s & S & Ds & As). unfold f_vsub, f_vdiv. cbn [vx vy]. rewrite (Rminus_diag_eq c c eq_refl), rnd0. destruct (H (rnd (x1 - x0)) (proj2 (double_fmt _) (rnd_fmt _))) as [_ ->]. rewrite Ds.
    replace (0 / Rabs (rnd (x1 - x0))) with 0 by (unfold Rdiv; ring). rewrite rnd0, (unit_rnd s S).
    unfold f_dot, rotate90. cbn [vx vy]. rewrite Ropp_0, !Rmult_0_l, rnd0, !Rplus_0_l, !Rplus_0_r, !rnd_rnd, !(unit_mult s) by (auto using rnd_fmt).
    destruct (l_t_range s x x0 x1 S X Y0 Y1 As N B) as [L1 L2]. rewrite !Rlt_bool_false by auto.
    rewrite (unit_abs s), (unit_sign s), rsign_minus, rnd_abs by auto. unfold f_scale. cbn [vx vy]. rewrite Rmult_0_r, rnd0.
    replace (s * rsign (y - c) * s) with (s * s * rsign (y - c)) by ring. rewrite (sq s S), Rmult_1_l, sign_fmt. reflexivity.
  Qed.
  (** The force of contact there. *)
  Lemma out s z : unit_ s -> rnd (s * z) = s * rnd z.
  Proof using. intros [-> | ->]; [now rewrite !Rmult_1_l|]. replace (-1 * z) with (- z) by ring. rewrite rnd_opp. ring. Qed.
  Lemma unit_fmt s z : unit_ s -> fmt z -> fmt (s * z).
  Proof using. intros [-> | ->] F; [now rewrite Rmult_1_l|]. replace (-1 * z) with (- z) by ring. now apply generic_format_opp. Qed.
  Lemma contact_vertical h s ax ay mu kappa damping : unit_ s -> fmt ax -> fmt ay -> fmt mu ->
    f_force_contact h (V s 0) (V ax ay) (rotate270 (V s 0)) mu kappa damping = V (rnd (s * rnd (- h * mu) + rnd (damping * ax))) (rnd (h * rnd (kappa * ay))).
  Proof using.
    intros S F1 F2 F3. unfold f_force_contact, rotate270, f_dot, f_scale, f_vadd, f_vsub. cbn [vx vy]. rewrite ?Rmult_0_r, ?rnd0, ?Rplus_0_l, ?Rplus_0_r, ?Rminus_0_l, ?Rminus_0_r, ?rnd_rnd.
    rewrite (Rmult_comm mu s), (Rmult_comm ax s), (Rmult_comm ay (- s)), !(out s), !(out (- s)), !(rnd_id ax), !(rnd_id ay), !(rnd_id mu) by (auto using unit_neg, rnd_fmt).
    replace (damping * (s * ax)) with (s * (damping * ax)) by ring. replace (kappa * (- s * ay)) with (- s * (kappa * ay)) by ring. replace (- h * (s * mu)) with (s * (- h * mu)) by ring. rewrite !(out s), !(out (- s)) by auto using unit_neg.
    replace (s * rnd (damping * ax) * s) with (s * s * rnd (damping * ax)) by ring. replace (- s * rnd (kappa * ay) * - s) with (s * s * rnd (kappa * ay)) by ring. rewrite !(sq s S), !Rmult_1_l, ?rnd_opp, !rnd_rnd.
    replace (- h * - rnd (kappa * ay)) with (h * rnd (kappa * ay)) by ring. reflexivity.
  Qed.
  Lemma contact_horizontal h s ax ay mu kappa damping : unit_ s -> fmt ax -> fmt ay -> fmt mu ->
    f_force_contact h (V 0 s) (V ax ay) (rotate270 (V 0 s)) mu kappa damping = V (rnd (h * rnd (kappa * ax))) (rnd (s * rnd (- h * mu) + rnd (damping * ay))).
  Proof using.
    intros S F1 F2 F3. unfold f_force_contact, rotate270, f_dot, f_scale, f_vadd, f_vsub. cbn [vx vy]. rewrite ?Ropp_0, ?Rmult_0_r, ?rnd0, ?Rplus_0_l, ?Rplus_0_r, ?Rminus_0_l, ?Rminus_0_r, ?rnd_rnd.
    rewrite (Rmult_comm mu s), (Rmult_comm ax s), (Rmult_comm ay s), !(out s), !(rnd_id ax), !(rnd_id ay), !(rnd_id mu) by (auto using unit_neg, rnd_fmt).
    replace (damping * (s * ay)) with (s * (damping * ay)) by ring. replace (kappa * (s * ax)) with (s * (kappa * ax)) by ring. replace (- h * (s * mu)) with (s * (- h * mu)) by ring. rewrite !(out s) by auto using unit_neg.
    replace (s * rnd (damping * ay) * s) with (s * s * rnd (damping * ay)) by ring. replace (s * rnd (kappa * ax) * s) with (s * s * rnd (kappa * ax)) by ring. rewrite !(sq s S), !Rmult_1_l, ?rnd_opp, !rnd_rnd.
    replace (- h * - rnd (kappa * ax)) with (h * rnd (kappa * ax)) by ring. reflexivity.
  Qed.
  Lemma contact_zero h v mu kappa damping : f_force_contact h (V 0 0) v (rotate270 (V 0 0)) mu kappa damping = vzero.
  Proof using.
    unfold f_force_contact, rotate270, f_dot, f_scale, f_vadd, f_vsub, vzero. cbn [vx vy].
    rewrite ?Ropp_0, ?Rmult_0_r, ?rnd0, ?Rplus_0_l, ?Rminus_0_r, ?rnd0, ?Rmult_0_r, ?rnd0, ?Rplus_0_l, ?rnd0, ?Rmult_0_r, ?rnd0. reflexivity.
  Qed.
  (** Both together; the coordinates by name. *)
  Lemma beside_wall along across o c a : axes along across -> wall_doubles o -> body_doubles a -> beside along across o c a ->
    exists n, f_distance_circle_line hypot (a_position a) (a_radius a) (p0 o) (p1 o) = (rnd (rnd (Rabs (across (a_position a) - c)) - a_radius a), n) /\
      along n = 0 /\ across n = rsign (across (a_position a) - c) /\
      forall h, let f := f_force_contact h n (a_velocity a) (rotate270 n) (a_mu a) (a_kappa a) (a_damping a) in
        (across (a_position a) = c -> f = vzero) /\
        (across (a_position a) <> c -> across f = rnd (across n * rnd (- h * a_mu a) + rnd (a_damping a * across (a_velocity a))) /\ along f = rnd (h * rnd (a_kappa a * along (a_velocity a)))).
  Proof.
    intros AX [[A1 A2] [A3 A4]] ([B1 B2] & [B3 B4] & _ & B5 & B6 & _) (E0 & E1 & N & B).
    rewrite double_fmt in A1, A2, A3, A4, B1, B2, B3, B4, B5, B6. destruct o as [[x0 y0] [x1 y1]], (a_position a) as [x y], (a_velocity a) as [ax ay].
    cbn [p0 p1] in *.
    assert (SU : forall z, z <> c -> unit_ (rsign (z - c))).
    { intros z Z. unfold rsign, unit_. destruct (Rltb 0 (z - c)) eqn:P; auto. apply Rltb_false in P. rewrite (proj2 (Rltb_true _ _)) by lra. auto. }
    assert (S0 : rsign (c - c) = 0) by (unfold rsign; rewrite !(proj2 (Rltb_false _ _)) by lra; reflexivity).
    destruct AX as [[-> ->] | [-> ->]]; cbn [vx vy] in *; subst c.
    - subst y1. exists (V 0 (rsign (y - y0))). rewrite distance_horizontal by auto. cbn [vx vy]. repeat split; try (rewrite contact_horizontal by auto; reflexivity). intros ->. rewrite S0. apply contact_zero.
    - subst x1. exists (V (rsign (x - x0)) 0). rewrite distance_vertical by auto. cbn [vx vy]. repeat split; try (rewrite contact_vertical by auto; reflexivity). intros ->. rewrite S0. apply contact_zero.
  Qed.
  (** Anywhere, the distance is not below the distance to the line of the wall. *)
  Lemma far_wall along across o c a : above_coordinates hypot -> axes along across -> wall_doubles o -> body_doubles a -> on_line along across o c ->
    a_radius a <= Rabs (across (a_position a) - c) -> 0 <= fst (f_distance_circle_line hypot (a_position a) (a_radius a) (p0 o) (p1 o)).
  Proof.
    intros HC AX [[A1 A2] [A3 A4]] ([B1 B2] & _ & _ & B5 & _) (E0 & E1 & N) L. rewrite double_fmt in A1, A2, A3, A4, B1, B2, B5.
    destruct o as [[x0 y0] [x1 y1]], (a_position a) as [x y]. set (r := a_radius a) in *. cbn [p0 p1] in *. unfold f_distance_circle_line. cbv zeta.
    assert (DH : forall p q, Rabs (rnd p) <= hypot (rnd p) (rnd q) /\ Rabs (rnd q) <= hypot (rnd p) (rnd q)) by (intros p q; apply HC; apply double_fmt, rnd_fmt).
    assert (R1 : r <= rnd (Rabs (across (V x y) - c))) by (apply rnd_above; auto).
    destruct AX as [[-> ->] | [-> ->]]; cbn [vx vy] in *; subst c; [subst y1|subst x1]; unfold f_vsub; cbn [vx vy].
    - match goal with |- context[Rlt_bool ?p ?q] => destruct (Rlt_bool p q) end; [cbn [fst]; apply rnd_pos; destruct (DH (x - x0) (y - y0)) as [_ G]; rewrite rnd_abs in G; lra|].
      match goal with |- context[Rlt_bool ?p ?q] => destruct (Rlt_bool p q) end; [cbn [fst]; apply rnd_pos; destruct (DH (x - x1) (y - y0)) as [_ G]; rewrite rnd_abs in G; lra|]. cbn [fst]. apply rnd_pos.
      assert (D : rnd (x1 - x0) <> 0) by (intros Z; apply minus_zero in Z; auto). destruct (dir _ D) as (s & S & Ds & As).
      rewrite (Rminus_diag_eq y0 y0 eq_refl), rnd0. destruct (H (rnd (x1 - x0)) (proj2 (double_fmt _) (rnd_fmt _))) as [_ ->]. unfold f_vdiv, f_dot, rotate90. cbn [vx vy]. rewrite Ds.
      replace (0 / Rabs (rnd (x1 - x0))) with 0 by (unfold Rdiv; ring). rewrite rnd0, (unit_rnd s S), Ropp_0, !Rmult_0_l, rnd0, Rplus_0_l, rnd_rnd, (unit_mult s), (unit_abs s), rnd_abs by auto using rnd_fmt. lra.
    - match goal with |- context[Rlt_bool ?p ?q] => destruct (Rlt_bool p q) end; [cbn [fst]; apply rnd_pos; destruct (DH (x - x0) (y - y0)) as [G _]; rewrite rnd_abs in G; lra|].
      match goal with |- context[Rlt_bool ?p ?q] => destruct (Rlt_bool p q) end; [cbn [fst]; apply rnd_pos; destruct (DH (x - x0) (y - y1)) as [G _]; rewrite rnd_abs in G; lra|]. cbn [fst]. apply rnd_pos.
      assert (D : rnd (y1 - y0) <> 0) by (intros Z; apply minus_zero in Z; auto). destruct (dir _ D) as (s & S & Ds & As).
      rewrite (Rminus_diag_eq x0 x0 eq_refl), rnd0. destruct (H (rnd (y1 - y0)) (proj2 (double_fmt _) (rnd_fmt _))) as [-> _]. unfold f_vdiv, f_dot, rotate90. cbn [vx vy]. rewrite Ds.
      replace (0 / Rabs (rnd (y1 - y0))) with 0 by (unfold Rdiv; ring). rewrite rnd0, (unit_rnd s S), !Rmult_0_l, rnd0, Rplus_0_r, rnd_rnd, (unit_mult (- s)), (unit_abs (- s)), rnd_abs by auto using rnd_fmt, unit_neg. lra.
  Qed.
End Wall.
