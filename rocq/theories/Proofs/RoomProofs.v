(** * Proofs about the example fields *)
From Verif Require Import Model.ExampleFields Spec.Rooms Proofs.VecLemmas.
From Coq Require Import Ranalysis Lra Psatz Classical.
Open Scope R_scope.

(** ** Segments and rectangles *)
Lemma seg_sym : forall a b p, on_segment a b p -> on_segment b a p.
Proof.
  intros a b p (t & Ht & ->). exists (1 - t). split; [lra|]. unfold along. f_equal; ring.
Qed.
Lemma seg_h : forall x0 x1 y p, x0 <= x1 -> (on_segment (V x0 y) (V x1 y) p <-> vy p = y /\ x0 <= vx p <= x1).
Proof.
  intros x0 x1 y [a b] Hx. split.
  - intros (t & Ht & E). unfold along in E. cbn in *. injection E as -> ->. split; [lra|]. split; nra.
  - cbn. intros (-> & Ha). destruct (Req_dec x0 x1) as [->|N].
    + exists 0. split; [lra|]. unfold along; cbn. f_equal; lra.
    + exists ((a - x0) / (x1 - x0)). assert (x1 - x0 > 0) by lra. split.
      * split; [apply Rmult_le_pos; [lra|left; apply Rinv_0_lt_compat; lra]|].
        apply Rmult_le_reg_r with (x1 - x0); [lra|]. unfold Rdiv. rewrite Rmult_assoc, Rinv_l; lra.
      * unfold along; cbn. f_equal; [field; lra|ring].
Qed.
Lemma seg_v : forall x y0 y1 p, y0 <= y1 -> (on_segment (V x y0) (V x y1) p <-> vx p = x /\ y0 <= vy p <= y1).
Proof.
  intros x y0 y1 [a b] Hy. split.
  - intros (t & Ht & E). unfold along in E. cbn in *. injection E as -> ->. split; [lra|]. split; nra.
  - cbn. intros (-> & Ha). destruct (Req_dec y0 y1) as [->|N].
    + exists 0. split; [lra|]. unfold along; cbn. f_equal; lra.
    + exists ((b - y0) / (y1 - y0)). assert (y1 - y0 > 0) by lra. split.
      * split; [apply Rmult_le_pos; [lra|left; apply Rinv_0_lt_compat; lra]|].
        apply Rmult_le_reg_r with (y1 - y0); [lra|]. unfold Rdiv. rewrite Rmult_assoc, Rinv_l; lra.
      * unfold along; cbn. f_equal; [ring|field; lra].
Qed.
Lemma seg_h' : forall x0 x1 y p, x1 <= x0 -> (on_segment (V x0 y) (V x1 y) p <-> vy p = y /\ x1 <= vx p <= x0).
Proof. intros x0 x1 y p H. rewrite <- (seg_h x1 x0 y p H). split; apply seg_sym. Qed.
Lemma seg_v' : forall x y0 y1 p, y1 <= y0 -> (on_segment (V x y0) (V x y1) p <-> vx p = x /\ y1 <= vy p <= y0).
Proof. intros x y0 y1 p H. rewrite <- (seg_v x y1 y0 p H). split; apply seg_sym. Qed.

Definition rect (x0 x1 y0 y1 : R) (p : vec) : Prop := x0 <= vx p <= x1 /\ y0 <= vy p <= y1.
Definition ring (x0 x1 y0 y1 : R) (p : vec) : Prop :=
  rect x0 x1 y0 y1 p /\ (vx p = x0 \/ vx p = x1 \/ vy p = y0 \/ vy p = y1).

Lemma rect_convex : forall x0 x1 y0 y1, convex_set (rect x0 x1 y0 y1).
Proof.
  intros x0 x1 y0 y1 [a b] [c d] p Ha Hb (t & Ht & ->). unfold rect, along in *; cbn in *.
  repeat split; nra.
Qed.
(** A set whose hull is asked has the four corners and lies in the rectangle. *)
Lemma rect_hull : forall (S : vec -> Prop) x0 x1 y0 y1 p, x0 <= x1 -> y0 <= y1 ->
  hull_of S (V x0 y0) -> hull_of S (V x1 y0) -> hull_of S (V x1 y1) -> hull_of S (V x0 y1) ->
  (forall q, S q -> rect x0 x1 y0 y1 q) ->
  (hull_of S p <-> rect x0 x1 y0 y1 p).
Proof.
  intros S x0 x1 y0 y1 p Hx Hy A B C D Hin. split.
  - intros H. apply (H _ (rect_convex x0 x1 y0 y1)). exact Hin.
  - intros (Px & Py) K CK SK. destruct p as [px py]; cbn in *.
    apply CK with (V px y0) (V px y1).
    + apply CK with (V x0 y0) (V x1 y0); [apply A|apply B|apply seg_h; cbn; auto]; assumption.
    + apply CK with (V x0 y1) (V x1 y1); [apply D|apply C|apply seg_h; cbn; auto]; assumption.
    + apply seg_v; cbn; auto.
Qed.
Lemma hull_has : forall (S : vec -> Prop) p, S p -> hull_of S p.
Proof. intros S p H C _ HC. apply HC. exact H. Qed.

Lemma poly_region : forall x0 x1 y0 y1 p, x0 <= x1 -> y0 <= y1 ->
  (region (SPoly [V x0 y0; V x1 y0; V x1 y1; V x0 y1]) p <-> rect x0 x1 y0 y1 p).
Proof.
  intros x0 x1 y0 y1 p Hx Hy. cbn [region]. apply rect_hull; try assumption; try (apply hull_has; cbn; auto).
  intros q Hq. cbn in Hq. unfold rect. intuition subst; cbn; lra.
Qed.
Lemma poly_region' : forall x0 x1 y0 y1 p, x0 <= x1 -> y0 <= y1 ->
  (region (SPoly [V x0 y0; V x0 y1; V x1 y1; V x1 y0]) p <-> rect x0 x1 y0 y1 p).
Proof.
  intros x0 x1 y0 y1 p Hx Hy. cbn [region]. apply rect_hull; try assumption; try (apply hull_has; cbn; auto).
  intros q Hq. cbn in Hq. unfold rect. intuition subst; cbn; lra.
Qed.
Lemma exterior_region : forall x0 x1 y0 y1 p, x0 <= x1 -> y0 <= y1 ->
  (region (exterior (SPoly [V x0 y0; V x1 y0; V x1 y1; V x0 y1])) p <-> ring x0 x1 y0 y1 p).
Proof.
  intros x0 x1 y0 y1 p Hx Hy. cbn [exterior region app on_line].
  rewrite (seg_h x0 x1), (seg_v x1), (seg_h' x1 x0), (seg_v' x0) by assumption. unfold ring, rect. lra.
Qed.
Lemma exterior_region' : forall x0 x1 y0 y1 p, x0 <= x1 -> y0 <= y1 ->
  (region (exterior (SPoly [V x0 y0; V x0 y1; V x1 y1; V x1 y0])) p <-> ring x0 x1 y0 y1 p).
Proof.
  intros x0 x1 y0 y1 p Hx Hy. cbn [exterior region app on_line].
  rewrite (seg_h x0 x1), (seg_v' x1), (seg_h' x1 x0), (seg_v x0) by assumption. unfold ring, rect. lra.
Qed.

(** ** Distances *)
Lemma edist_x : forall p q, Rabs (vx q - vx p) <= edist p q.
Proof.
  intros p q. unfold edist. rewrite <- sqrt_Rsqr_abs. apply sqrt_le_1_alt.
  pose proof (Rle_0_sqr (vy p - vy q)) as N. unfold Rsqr in *. lra.
Qed.
Lemma edist_y : forall p q, Rabs (vy q - vy p) <= edist p q.
Proof.
  intros p q. unfold edist. rewrite <- sqrt_Rsqr_abs. apply sqrt_le_1_alt.
  pose proof (Rle_0_sqr (vx p - vx q)) as N. unfold Rsqr in *. lra.
Qed.
Lemma edist_near : forall p q eps, edist p q < eps ->
  vx p - eps < vx q < vx p + eps /\ vy p - eps < vy q < vy p + eps.
Proof.
  intros p q eps H. pose proof (edist_x p q) as A. pose proof (edist_y p q) as B.
  assert (A' : Rabs (vx q - vx p) < eps) by lra. assert (B' : Rabs (vy q - vy p) < eps) by lra.
  apply Rabs_def2 in A'. apply Rabs_def2 in B'. lra.
Qed.
Lemma edist_same : forall p, edist p p = 0.
Proof. intros p. unfold edist. replace (_ + _) with 0 by ring. apply sqrt_0. Qed.

(** The closure of a part of the ring is in the ring. *)
Lemma ring_closed : forall x0 x1 y0 y1 p,
  (forall eps, 0 < eps -> exists q, edist p q < eps /\ ring x0 x1 y0 y1 q) -> ring x0 x1 y0 y1 p.
Proof.
  intros x0 x1 y0 y1 p H.
  assert (Hr : rect x0 x1 y0 y1 p).
  { apply NNPP. intros N.
    assert (E : exists eps, 0 < eps /\ (vx p + eps < x0 \/ x1 < vx p - eps \/ vy p + eps < y0 \/ y1 < vy p - eps)).
    { unfold rect in N. destruct (Rlt_dec (vx p) x0). { exists ((x0 - vx p) / 2). lra. }
      destruct (Rlt_dec x1 (vx p)). { exists ((vx p - x1) / 2). lra. }
      destruct (Rlt_dec (vy p) y0). { exists ((y0 - vy p) / 2). lra. }
      destruct (Rlt_dec y1 (vy p)). { exists ((vy p - y1) / 2). lra. }
      exfalso. apply N. lra. }
    destruct E as (eps & He & E). destruct (H eps He) as (q & Hd & Hq).
    apply edist_near in Hd. unfold ring, rect in Hq. lra. }
  split; [exact Hr|]. apply NNPP. intros N. unfold rect in Hr.
  set (eps := Rmin (Rmin (vx p - x0) (x1 - vx p)) (Rmin (vy p - y0) (y1 - vy p))).
  assert (He : 0 < eps /\ eps <= vx p - x0 /\ eps <= x1 - vx p /\ eps <= vy p - y0 /\ eps <= y1 - vy p).
  { unfold eps. pose proof (Rmin_l (Rmin (vx p - x0) (x1 - vx p)) (Rmin (vy p - y0) (y1 - vy p))).
    pose proof (Rmin_r (Rmin (vx p - x0) (x1 - vx p)) (Rmin (vy p - y0) (y1 - vy p))).
    pose proof (Rmin_l (vx p - x0) (x1 - vx p)). pose proof (Rmin_r (vx p - x0) (x1 - vx p)).
    pose proof (Rmin_l (vy p - y0) (y1 - vy p)). pose proof (Rmin_r (vy p - y0) (y1 - vy p)).
    split; [|lra]. apply Rmin_glb_lt; apply Rmin_glb_lt; apply Rnot_le_lt; intro; apply N; lra. }
  destruct He as (He & H1). destruct (H eps He) as (q & Hd & Hq).
  apply edist_near in Hd. unfold ring, rect in Hq. lra.
Qed.

(** ** Ways out of a rectangle *)
Lemma rmax_abs : forall a b, Rmax a b = (a + b + Rabs (a - b)) / 2.
Proof. intros a b. unfold Rmax. destruct (Rle_dec a b); [rewrite Rabs_left1 by lra | rewrite Rabs_right by lra]; lra. Qed.
Lemma rmax_spec : forall a b, (Rmax a b = a /\ b <= a) \/ (Rmax a b = b /\ a <= b).
Proof. intros a b. unfold Rmax. destruct (Rle_dec a b); lra. Qed.
Lemma rmax_continuous : forall f g, continuity f -> continuity g -> continuity (fun t => Rmax (f t) (g t)).
Proof.
  intros f g Hf Hg.
  assert (E : continuity (fun t => (f t + g t + Rabs (f t - g t)) / 2)).
  { assert (A : continuity (fun t => f t + g t)) by (apply continuity_plus; assumption).
    assert (B : continuity (fun t => f t - g t)) by (apply continuity_minus; assumption).
    assert (C : continuity (fun t => Rabs (f t - g t))).
    { exact (continuity_comp (fun t => f t - g t) Rabs B Rcontinuity_abs). }
    assert (D : continuity (fun t => f t + g t + Rabs (f t - g t))) by exact (continuity_plus _ _ A C).
    apply (continuity_mult _ (fun _ => / 2) D). apply continuity_const. unfold constant. reflexivity. }
  intros t. apply (continuity_pt_locally_ext (fun t => (f t + g t + Rabs (f t - g t)) / 2) _ 1 t Rlt_0_1).
  - intros y _. symmetry. apply rmax_abs.
  - apply E.
Qed.
Lemma way_crosses : forall g x0 x1 y0 y1, way g -> rect x0 x1 y0 y1 (g 0) -> ~ rect x0 x1 y0 y1 (g 1) ->
  exists t, 0 <= t <= 1 /\ ring x0 x1 y0 y1 (g t).
Proof.
  intros g x0 x1 y0 y1 (Cx & Cy) H0 H1.
  set (f := fun t => Rmax (Rmax (x0 - vx (g t)) (vx (g t) - x1)) (Rmax (y0 - vy (g t)) (vy (g t) - y1))).
  assert (Cf : continuity f).
  { unfold f. apply rmax_continuous; apply rmax_continuous.
    - apply continuity_minus; [apply continuity_const; unfold constant; reflexivity|exact Cx].
    - apply continuity_minus; [exact Cx|apply continuity_const; unfold constant; reflexivity].
    - apply continuity_minus; [apply continuity_const; unfold constant; reflexivity|exact Cy].
    - apply continuity_minus; [exact Cy|apply continuity_const; unfold constant; reflexivity]. }
  assert (F0 : f 0 <= 0). { unfold f, rect in *. repeat apply Rmax_lub; lra. }
  assert (F1 : 0 <= f 1).
  { apply Rnot_lt_le. intros N. apply H1. unfold f in N.
    pose proof (Rmax_l (Rmax (x0 - vx (g 1)) (vx (g 1) - x1)) (Rmax (y0 - vy (g 1)) (vy (g 1) - y1))).
    pose proof (Rmax_r (Rmax (x0 - vx (g 1)) (vx (g 1) - x1)) (Rmax (y0 - vy (g 1)) (vy (g 1) - y1))).
    pose proof (Rmax_l (x0 - vx (g 1)) (vx (g 1) - x1)). pose proof (Rmax_r (x0 - vx (g 1)) (vx (g 1) - x1)).
    pose proof (Rmax_l (y0 - vy (g 1)) (vy (g 1) - y1)). pose proof (Rmax_r (y0 - vy (g 1)) (vy (g 1) - y1)).
    unfold rect. lra. }
  assert (FF : f 0 * f 1 <= 0) by nra.
  destruct (IVT_cor f 0 1 Cf Rle_0_1 FF) as (t & Ht & Hz).
  exists t. split; [exact Ht|]. unfold f in Hz. unfold ring, rect.
  pose proof (rmax_spec (x0 - vx (g t)) (vx (g t) - x1)) as A.
  pose proof (rmax_spec (y0 - vy (g t)) (vy (g t) - y1)) as B.
  pose proof (rmax_spec (Rmax (x0 - vx (g t)) (vx (g t) - x1)) (Rmax (y0 - vy (g t)) (vy (g t) - y1))) as C.
  lra.
Qed.

(** ** Building fields *)
Lemma float_trait_ok : forall lo x, lo <= x -> float_trait lo None x = Ok x.
Proof. intros lo x H. unfold float_trait. rewrite (proj2 (Rltb_false x lo)) by lra. reflexivity. Qed.
Lemma float_trait_ok2 : forall lo hi x, lo <= x <= hi -> float_trait lo (Some hi) x = Ok x.
Proof. intros lo hi x H. unfold float_trait. rewrite (proj2 (Rltb_false x lo)), (proj2 (Rltb_false hi x)) by lra. reflexivity. Qed.

Section Build.
  Variables is_valid is_empty is_polygon : shape -> bool.
  Hypothesis HP : predicates is_valid is_empty is_polygon.

  Lemma set_obstacles_ok : forall o p f, sound o -> region o p ->
    set_obstacles is_valid is_empty o f = Ok (Field (f_domain f) (Some o) (f_targets f) (f_spawns f)).
  Proof.
    intros o p f Ho Hp. unfold set_obstacles, assign_obstacles, validated.
    rewrite (sound_valid _ _ _ HP o Ho), (filled _ _ _ HP o p Hp). reflexivity.
  Qed.
  Lemma set_domain_ok : forall d p f, sound d -> region d p -> is_polygon d = true ->
    set_domain is_valid is_empty is_polygon d f = Ok (Field (Some d) (f_obstacles f) (f_targets f) (f_spawns f)).
  Proof.
    intros d p f Hd Hp Hpoly. unfold set_domain. rewrite Hpoly. unfold assign_domain, validated.
    rewrite (sound_valid _ _ _ HP d Hd), (filled _ _ _ HP d p Hp). reflexivity.
  Qed.
  Lemma assemble_ok : forall o p ts ss ringv q, sound o -> region o p -> sound (SPoly ringv) -> region (SPoly ringv) q ->
    assemble is_valid is_empty is_polygon o ts ss (SPoly ringv) = Ok (Field (Some (SPoly ringv)) (Some o) ts ss).
  Proof.
    intros o p ts ss ringv q Ho Hp Hd Hq. unfold assemble. rewrite (set_obstacles_ok o p) by assumption. cbn [rbind].
    rewrite (set_domain_ok _ q) by (try assumption; apply (polygons _ _ _ HP)). reflexivity.
  Qed.
End Build.

Lemma sound_rect : forall x0 x1 y0 y1, x0 <> x1 -> y0 <> y1 -> sound (SPoly [V x0 y0; V x1 y0; V x1 y1; V x0 y1]).
Proof. intros. cbn. exists x0, x1, y0, y1. auto. Qed.
Lemma sound_rect' : forall x0 x1 y0 y1, x0 <> x1 -> y0 <> y1 -> sound (SPoly [V x0 y0; V x0 y1; V x1 y1; V x1 y0]).
Proof. intros. cbn. exists x0, x1, y0, y1. auto. Qed.
Lemma sound_line : forall a b rest, a <> b -> sound (SLine (a :: b :: rest)).
Proof. intros a b rest H. cbn. exists a, b. auto. Qed.

(** Part of a ring left by a target. *)
Lemma minus_ring : forall a b x0 x1 y0 y1 p,
  (forall q, region a q <-> ring x0 x1 y0 y1 q) ->
  (region (SMinus a b) p -> ring x0 x1 y0 y1 p) /\
  (ring x0 x1 y0 y1 p -> ~ region b p -> region (SMinus a b) p).
Proof.
  intros a b x0 x1 y0 y1 p E. split.
  - intros H. apply ring_closed. intros eps He. cbn [region] in H. destruct (H eps He) as (q & Hd & Ha & _).
    exists q. split; [exact Hd|]. apply E. exact Ha.
  - intros H N. cbn [region]. intros eps He. exists p. rewrite edist_same. split; [exact He|]. split; [apply E; exact H|exact N].
Qed.

(** A segment that ends at a point of the rectangle and starts inside. *)
Lemma into_rect : forall x0 x1 y0 y1 a q p, x0 < vx a < x1 -> y0 < vy a < y1 -> rect x0 x1 y0 y1 q ->
  on_segment a q p -> p = q \/ (x0 < vx p < x1 /\ y0 < vy p < y1).
Proof.
  intros x0 x1 y0 y1 [ax ay] [qx qy] p Hx Hy Hq (t & Ht & ->). unfold rect, along in *; cbn in *.
  destruct (Req_dec t 1) as [->|N].
  - left. f_equal; ring.
  - right. assert (0 < 1 - t) by lra. repeat split; nra.
Qed.
