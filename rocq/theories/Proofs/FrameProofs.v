(** * The equations of motion in another coordinate system *)
From Coq Require Import Lra Lia.
From Verif Require Import Proofs.VecLemmas Proofs.Vector2DProofs Spec.Frames.
Open Scope R_scope.

(** ** Vectors *)
Section Vectors.
  Variable F : frame.
  Hypothesis HF : proper F.
  Notation L := (vect F).
  Notation P := (point F).
  Notation e := (f_flip F).

  Lemma flip2 : e * e = 1.
  Proof using HF. destruct HF as [_ [-> | ->]]; lra. Qed.
  Lemma turn2 : f_cos F * f_cos F + f_sin F * f_sin F = 1.
  Proof using HF. destruct HF as [H _]. nra. Qed.
  Lemma vect_zero : L vzero = vzero. Proof using. unfold vect, vzero. veq; ring. Qed.
  Lemma vect_add a b : L (vadd a b) = vadd (L a) (L b). Proof using. unfold vect. destruct a, b. veq; ring. Qed.
  Lemma vect_sub a b : L (vsub a b) = vsub (L a) (L b). Proof using. unfold vect. destruct a, b. veq; ring. Qed.
  Lemma vect_neg a : L (vneg a) = vneg (L a). Proof using. unfold vect. destruct a. veq; ring. Qed.
  Lemma vect_scale k a : L (vscale k a) = vscale k (L a). Proof using. unfold vect. destruct a. veq; ring. Qed.
  Lemma vect_div a k : L (vdiv a k) = vdiv (L a) k. Proof using. unfold vect. destruct a. veq; unfold Rdiv; ring. Qed.
  Lemma point_sub a b : vsub (P a) (P b) = L (vsub a b). Proof using. unfold point, vect. destruct a, b. veq; ring. Qed.
  Lemma point_add a v : P (vadd a v) = vadd (P a) (L v). Proof using. unfold point, vect. destruct a, v. veq; ring. Qed.
  Lemma point_minus a v : P (vsub a v) = vsub (P a) (L v). Proof using. unfold point, vect. destruct a, v. veq; ring. Qed.
  Lemma vect_dot a b : dot (L a) (L b) = dot a b.
  Proof using HF.
    unfold dot, vect. destruct a as [a1 a2], b as [b1 b2]. cbn [vx vy]. pose proof flip2 as E. pose proof turn2 as T.
    transitivity ((f_cos F * f_cos F + f_sin F * f_sin F) * (a1 * b1) + (f_cos F * f_cos F + f_sin F * f_sin F) * (e * e) * (a2 * b2)); [ring|]. rewrite E, T. ring.
  Qed.
  Lemma vect_cross a b : cross (L a) (L b) = e * cross a b.
  Proof using HF.
    unfold cross, vect. destruct a as [a1 a2], b as [b1 b2]. cbn [vx vy]. pose proof turn2 as T.
    transitivity ((f_cos F * f_cos F + f_sin F * f_sin F) * (e * (a1 * b2 - a2 * b1))); [ring|]. rewrite T. ring.
  Qed.
  Lemma vect_length a : vlength (L a) = vlength a.
  Proof using HF. pose proof (vect_dot a a) as H. unfold vlength. unfold dot in H. rewrite H. reflexivity. Qed.
  Lemma vect_rotate270 a : rotate270 (L a) = vscale e (L (rotate270 a)).
  Proof using HF.
    unfold rotate270, vect. destruct a as [a1 a2]. pose proof flip2 as E. unfold vscale. cbn [vx vy]. f_equal.
    - transitivity (f_sin F * a1 * 1 + f_cos F * (e * a2)); [ring|]. rewrite <- E. ring.
    - transitivity (- (f_cos F * a1 * 1) + f_sin F * (e * a2)); [ring|]. rewrite <- E. ring.
  Qed.
  Lemma vect_rotate90 a : rotate90 (L a) = vscale e (L (rotate90 a)).
  Proof using HF.
    unfold rotate90, vect. destruct a as [a1 a2]. pose proof flip2 as E. unfold vscale. cbn [vx vy]. f_equal.
    - transitivity (- (f_sin F * a1 * 1) - f_cos F * (e * a2)); [ring|]. rewrite <- E. ring.
    - transitivity (f_cos F * a1 * 1 - f_sin F * (e * a2)); [ring|]. rewrite <- E. ring.
  Qed.
  Lemma vect_truncate a l : truncate (L a) l = L (truncate a l).
  Proof using HF. unfold truncate. rewrite vect_length. destruct (Rltb l (vlength a)); [symmetry; apply vect_scale|reflexivity]. Qed.
  Lemma vect_normalize a : normalize (L a) = L (normalize a).
  Proof using HF. unfold normalize. rewrite vect_length. destruct (negb _); [symmetry; apply vect_div|reflexivity]. Qed.
  Lemma vect_average a b w : weighted_average (L a) (L b) w = L (weighted_average a b w).
  Proof using. unfold weighted_average. now rewrite vect_add, !vect_scale. Qed.
  Lemma vect_sum l : vsum (map L l) = L (vsum l).
  Proof using. induction l as [|a l IH]; cbn [map vsum fold_right]; [symmetry; apply vect_zero|]. fold (vsum (map L l)). fold (vsum l). now rewrite IH, vect_add. Qed.
  Lemma point_mean l : l <> [] -> vdiv (vsum (map P l)) (INR (length l)) = P (vdiv (vsum l) (INR (length l))).
  Proof using.
    intros N. assert (G : INR (length l) <> 0) by (destruct l; [congruence|apply not_0_INR; discriminate]).
    assert (S : vsum (map P l) = vadd (vscale (INR (length l)) (f_shift F)) (L (vsum l))).
    { clear N G. induction l as [|a l IH]; [cbn [map vsum fold_right length INR]; rewrite vect_zero; veq; ring|].
      cbn [map vsum fold_right length]. fold (vsum (map P l)). fold (vsum l). rewrite IH, vect_add, S_INR. destruct (vsum l) as [u1 u2], a as [a1 a2].
      unfold point, vect. destruct (f_shift F) as [t1 t2]. veq; ring. }
    rewrite S. destruct (vsum l) as [u1 u2]. unfold point, vect. destruct (f_shift F) as [t1 t2]. veq; field; exact G.
  Qed.
  Lemma flip_flip x : e * (e * x) = x. Proof using HF. rewrite <- Rmult_assoc, flip2. ring. Qed.
  Lemma flip_zero x : Reqb (e * x) 0 = Reqb x 0.
  Proof using HF. pose proof flip2. unfold Reqb. destruct (Req_EM_T (e * x) 0) as [A|A], (Req_EM_T x 0) as [B|B]; auto; exfalso; [|apply A; rewrite B; ring]. apply B. rewrite <- (flip_flip x), A. ring. Qed.
  Lemma flip_ratio x y : y <> 0 -> e * x / (e * y) = x / y.
  Proof using HF. intros N. field. split; auto. destruct HF as [_ [-> | ->]]; lra. Qed.

  (** ** Distances *)
  Lemma frame_circles x0 r0 x1 r1 : distance_circles (P x0) r0 (P x1) r1 = (fst (distance_circles x0 r0 x1 r1), L (snd (distance_circles x0 r0 x1 r1))).
  Proof using HF.
    unfold distance_circles. rewrite point_sub, vect_length. cbn [fst snd]. destruct (Reqb _ 0); f_equal; [symmetry; apply vect_zero|symmetry; apply vect_div].
  Qed.
  Definition tmap {A B} (f : A -> B) (t : tri A) : tri B := T3 (f (t_0 t)) (f (t_1 t)) (f (t_2 t)).
  Lemma tget_tmap {A B} (f : A -> B) t i : tget (tmap f t) i = f (tget t i).
  Proof using. destruct t, i as [|[|i]]; reflexivity. Qed.
  Lemma frame_scan33 x0 r0 x1 r1 l : forall h n i j,
    fold_left (scan33_step (tmap P x0) r0 (tmap P x1) r1) l (h, L n, i, j) =
    let '(h, n, i, j) := fold_left (scan33_step x0 r0 x1 r1) l (h, n, i, j) in (h, L n, i, j).
  Proof using HF.
    induction l as [|[a b] l IH]; intros h n i j; [reflexivity|]. cbn [fold_left]. unfold scan33_step at 2 4. rewrite !tget_tmap, frame_circles.
    destruct (distance_circles (tget x0 a) (tget r0 a) (tget x1 b) (tget r1 b)) as [h' n']. cbn [fst snd]. destruct (match h with Some _ => _ | None => _ end); apply IH.
  Qed.
  Lemma frame_three_circles x0 r0 x1 r1 :
    distance_three_circles (tmap P x0) r0 (tmap P x1) r1 =
    let '(h, n, m0, m1) := distance_three_circles x0 r0 x1 r1 in (h, L n, L m0, L m1).
  Proof using HF.
    unfold distance_three_circles. rewrite <- vect_zero at 1. rewrite frame_scan33. destruct (fold_left _ _ _) as [[[h n] i] j].
    rewrite !tget_tmap. unfold tmap. cbn [t_0]. rewrite <- !vect_scale, <- point_add, <- point_minus, !point_sub. reflexivity.
  Qed.
  Lemma frame_circle_line x r q0 q1 : distance_circle_line (P x) r (P q0) (P q1) =
    match distance_circle_line x r q0 q1 with Some (h, n) => Some (h, L n) | None => None end.
  Proof using HF.
    unfold distance_circle_line. rewrite !point_sub, !vect_length. destruct (Reqb (vlength (vsub q1 q0)) 0); [reflexivity|]. rewrite <- vect_div, !vect_dot.
    set (lt := - dot _ _ - dot _ _). destruct (Rltb _ lt); [now rewrite <- vect_div|]. destruct (Rltb lt _); [now rewrite <- vect_div|].
    rewrite vect_rotate90. set (n := rotate90 _). set (a := vsub x q0).
    assert (D : dot (vscale e (L n)) (L a) = e * dot n a). { rewrite <- (vect_dot n a). destruct (L n) as [u1 u2], (L a) as [w1 w2]. unfold dot, vscale. cbn [vx vy]. ring. }
    rewrite D. assert (A : Rabs (e * dot n a) = Rabs (dot n a)). { rewrite Rabs_mult. destruct HF as [_ [-> | ->]]; [rewrite Rabs_R1; ring|]. replace (-1) with (- (1)) by lra. rewrite Rabs_Ropp, Rabs_R1; ring. }
    rewrite A. do 2 f_equal. rewrite vect_scale. assert (S : rsign (e * dot n a) = e * rsign (dot n a)).
    { unfold rsign. destruct HF as [_ [-> | ->]].
      - rewrite !Rmult_1_l. reflexivity.
      - generalize (dot n a). intros q. unfold Rltb. repeat destruct (Rlt_dec _ _); lra. }
    rewrite S. destruct (L n) as [u1 u2]. unfold vscale. cbn [vx vy]. pose proof flip2 as E. f_equal; (match goal with |- _ = ?s * ?v => transitivity ((e * e) * (s * v)); [ring|rewrite E; ring] end).
  Qed.
  Lemma frame_scan3 x r q0 q1 l : forall h n i,
    fold_left (scan3_step (tmap P x) r (P q0) (P q1)) l (h, L n, i) = let '(h, n, i) := fold_left (scan3_step x r q0 q1) l (h, n, i) in (h, L n, i).
  Proof using HF.
    induction l as [|a l IH]; intros h n i; [reflexivity|]. cbn [fold_left]. unfold scan3_step at 2 4. rewrite !tget_tmap, frame_circle_line.
    destruct (distance_circle_line _ _ _ _) as [[h' n']|]; [|apply IH]. destruct (match h with Some _ => _ | None => _ end); apply IH.
  Qed.
  Lemma frame_three_circle_line x r q0 q1 : distance_three_circle_line (tmap P x) r (P q0) (P q1) =
    match distance_three_circle_line x r q0 q1 with Some (h, n, m) => Some (h, L n, L m) | None => None end.
  Proof using HF.
    unfold distance_three_circle_line. rewrite <- vect_zero at 1. rewrite frame_scan3. destruct (fold_left _ _ _) as [[[h|] n] i]; [|reflexivity].
    rewrite !tget_tmap. unfold tmap. cbn [t_0]. rewrite <- !vect_scale, <- point_minus, !point_sub. reflexivity.
  Qed.
  Lemma frame_line_intersect x0 x1 y0 y1 : line_intersect (P x0) (P x1) (P y0) (P y1) = line_intersect x0 x1 y0 y1.
  Proof using HF.
    unfold line_intersect. rewrite !point_sub.
    pose proof (fun a b => vect_cross a b) as C. unfold cross in C. rewrite !C, flip_zero.
    destruct (Reqb _ 0) eqn:D; [reflexivity|]. apply Reqb_false in D. now rewrite !flip_ratio by exact D.
  Qed.
  Definition wall (o : obstacle) : obstacle := Obs (P (p0 o)) (P (p1 o)).
  Lemma frame_between a b os : is_obstacle_between_points (P a) (P b) (map wall os) = is_obstacle_between_points a b os.
  Proof using HF. induction os as [|o os IH]; [reflexivity|]. cbn [map is_obstacle_between_points wall p0 p1]. now rewrite frame_line_intersect, IH. Qed.

  (** ** Forces *)
  Lemma frame_contact h n v t mu kappa damping t' : t' = vscale e (L t) ->
    force_contact h (L n) (L v) t' mu kappa damping = L (force_contact h n v t mu kappa damping).
  Proof using HF.
    intros ->. unfold force_contact. rewrite vect_add, !vect_scale, vect_sub, !vect_scale, vect_dot. f_equal. f_equal. f_equal.
    assert (D : dot (L v) (vscale e (L t)) = e * dot v t). { rewrite <- (vect_dot v t). destruct (L v) as [u1 u2], (L t) as [w1 w2]. unfold dot, vscale. cbn [vx vy]. ring. }
    rewrite D. destruct (L t) as [u1 u2]. unfold vscale. cbn [vx vy]. pose proof flip2 as E. f_equal; (match goal with |- _ = ?s * ?v => transitivity ((e * e) * (s * v)); [ring|rewrite E; ring] end).
  Qed.
  Lemma frame_gradient_circle x v a b d : gradient_circle_circle (L x) (L v) a b d = L (gradient_circle_circle x v a b d).
  Proof using. unfold gradient_circle_circle. now rewrite vect_div, vect_sub, vect_div, vect_add, !vect_scale. Qed.
  Lemma frame_gradient_three x v r a b d : gradient_three_circle (L x) (L v) (L r) a b d = L (gradient_three_circle x v r a b d).
  Proof using. unfold gradient_three_circle. now rewrite vect_div, vect_sub, vect_div, vect_add, !vect_scale, vect_add, vect_scale. Qed.
  Lemma frame_coeffs x v r : coeff_a (L v) = coeff_a v /\ coeff_b (L x) (L v) = coeff_b x v /\ coeff_d (L x) (L v) r = coeff_d x v r.
  Proof using HF. unfold coeff_d, coeff_c, coeff_a, coeff_b. rewrite !vect_dot. auto. Qed.
End Vectors.
