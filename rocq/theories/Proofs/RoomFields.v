(** * The example fields with fixed shapes *)
From Verif Require Import Model.ExampleFields Spec.Rooms Proofs.VecLemmas Proofs.RoomProofs.
From Coq Require Import Ranalysis Lra Psatz Classical.
Open Scope R_scope.

Lemma in_domain_iff : forall d o ts ss p, in_domain (Field (Some d) o ts ss) p <-> region d p.
Proof. intros. unfold in_domain. cbn. split; [intros (d' & E & H); injection E as <-; exact H|eauto]. Qed.
Lemma on_obstacle_iff : forall d o ts ss p, on_obstacle (Field d (Some o) ts ss) p <-> region o p.
Proof. intros. unfold on_obstacle. cbn. split; [intros (d' & E & H); injection E as <-; exact H|eauto]. Qed.
Lemma on_target_1 : forall d o t ss p, on_target (Field d o [t] ss) p <-> region t p.
Proof. intros. unfold on_target. cbn. split; [intros (d' & [<-|[]] & H); exact H|eauto]. Qed.
Lemma in_spawn_1 : forall d o ts s p, in_spawn (Field d o ts [s]) p <-> region s p.
Proof. intros. unfold in_spawn. cbn. split; [intros (d' & [<-|[]] & H); exact H|eauto]. Qed.
Lemma in_spawn_2 : forall d o ts s s' p, in_spawn (Field d o ts [s; s']) p <-> region s p \/ region s' p.
Proof.
  intros. unfold in_spawn. cbn. split; [intros (d' & [<-|[<-|[]]] & H); auto|].
  intros [H|H]; eauto.
Qed.
Lemma on_target_2 : forall d o t t' ss p, on_target (Field d o [t; t'] ss) p <-> region t p \/ region t' p.
Proof.
  intros. unfold on_target. cbn. split; [intros (d' & [<-|[<-|[]]] & H); auto|].
  intros [H|H]; eauto.
Qed.

Lemma left_by_ring : forall f x0 x1 y0 y1,
  (forall p, in_domain f p <-> rect x0 x1 y0 y1 p) ->
  (forall p, ring x0 x1 y0 y1 p -> on_obstacle f p \/ on_target f p) ->
  left_through_targets_only f.
Proof.
  intros f x0 x1 y0 y1 D B g Hg H0 H1. rewrite D in H0, H1.
  destruct (way_crosses g x0 x1 y0 y1 Hg H0 H1) as (t & Ht & Hr). exists t. split; [exact Ht|]. apply B. exact Hr.
Qed.

(** Coordinates of the points of a segment. *)
Ltac on_seg H := let t := fresh "t" in let Ht := fresh "Ht" in
  destruct H as (t & Ht & ->); unfold along; cbn [vx vy].

Lemma mix_lt : forall a x y t, 0 <= t <= 1 -> a < x -> a < y -> a < x + t * (y - x).
Proof. intros a x y t Ht Hx Hy. destruct (Req_dec t 0) as [->|N]; [lra|]. assert (0 < t) by lra. nra. Qed.
Lemma mix_gt : forall a x y t, 0 <= t <= 1 -> x < a -> y < a -> x + t * (y - x) < a.
Proof. intros a x y t Ht Hx Hy. destruct (Req_dec t 0) as [->|N]; [lra|]. assert (0 < t) by lra. nra. Qed.

Lemma way_along : forall p q, way (along p q).
Proof. intros p q. split; unfold along; cbn [vx vy]; reg. Qed.
(** Who walks in a room without doors stays there. *)
Lemma walk_stays : forall f x0 x1 y0 y1 p q,
  (forall x, ring x0 x1 y0 y1 x -> on_obstacle f x) ->
  walk f p q -> rect x0 x1 y0 y1 p -> rect x0 x1 y0 y1 q.
Proof.
  intros f x0 x1 y0 y1 p q B W. induction W as [p N|p q r S W IH]; intros H; [exact H|]. apply IH.
  apply NNPP. intros N.
  assert (E0 : along p q 0 = p) by (destruct p; unfold along; cbn; f_equal; ring).
  assert (E1 : along p q 1 = q) by (destruct q; unfold along; cbn; f_equal; ring).
  destruct (way_crosses (along p q) x0 x1 y0 y1 (way_along p q)) as (t & Ht & Hr).
  - rewrite E0. exact H.
  - rewrite E1. exact N.
  - apply (S (along p q t)); [exists t; auto|]. apply B. exact Hr.
Qed.

Section Fields.
  Variables is_valid is_empty is_polygon : shape -> bool.
  Hypothesis HP : predicates is_valid is_empty is_polygon.

  (** *** Rounding *)
  Section Rounding.
    Variables w h r : R.
    Hypotheses (Hw : 0 < w) (Hh : 0 < h) (Hr : 0 < r <= 1).
    Let domain := SPoly [V 0 0; V 0 h; V w h; V w 0].
    Let target := SLine [V 0 (h / 2); V 0 h].
    Let spawn := SPoly [V 0 0; V 0 (h / 2); V (w / 2) (h / 2); V (w / 2) 0].
    Let wall := SLine [V 0 (h / 2); V (w * r) (h / 2)].
    Let obstacles := SJoin wall (SMinus (exterior domain) target).
    Definition rounding_field : field shape := Field (Some domain) (Some obstacles) [target] [spawn].

    Lemma rounding_wr : 0 < w * r <= w. Proof. nra. Qed.
    Lemma rounding_dom : forall p, region domain p <-> rect 0 w 0 h p.
    Proof. intros p. apply poly_region'; lra. Qed.
    Lemma rounding_ext : forall p, region (exterior domain) p <-> ring 0 w 0 h p.
    Proof. intros p. apply exterior_region'; lra. Qed.
    Lemma rounding_spawn : forall p, region spawn p <-> rect 0 (w/2) 0 (h/2) p.
    Proof. intros p. apply poly_region'; lra. Qed.
    Lemma rounding_target : forall p, region target p <-> vx p = 0 /\ h / 2 <= vy p <= h.
    Proof. intros p. unfold target. cbn [region on_line]. rewrite seg_v by lra. tauto. Qed.
    Lemma rounding_wall : forall p, region wall p <-> vy p = h / 2 /\ 0 <= vx p <= w * r.
    Proof. pose proof rounding_wr. intros p. unfold wall. cbn [region on_line]. rewrite seg_h by lra. tauto. Qed.
    Lemma rounding_rest : forall p, (region (SMinus (exterior domain) target) p -> ring 0 w 0 h p) /\
      (ring 0 w 0 h p -> ~ region target p -> region (SMinus (exterior domain) target) p).
    Proof. intros p. apply minus_ring. exact rounding_ext. Qed.
    Lemma rounding_obs : forall p, (region obstacles p -> (vy p = h / 2 /\ 0 <= vx p <= w * r) \/ ring 0 w 0 h p) /\
      ((vy p = h / 2 /\ 0 <= vx p <= w * r) \/ (ring 0 w 0 h p /\ ~ (vx p = 0 /\ h / 2 <= vy p <= h)) -> region obstacles p).
    Proof.
      intros p. unfold obstacles. cbn [region]. fold (region (SMinus (exterior domain) target) p).
      rewrite rounding_wall. destruct (rounding_rest p) as (A & B). rewrite rounding_target in B. split.
      - intros [H|H]; [left; exact H|right; apply A; exact H].
      - intros [H|(H & N)]; [left; exact H|right; apply B; assumption].
    Qed.
    Lemma rounding_ok : rounding is_valid is_empty is_polygon w h r = Ok rounding_field.
    Proof.
      unfold rounding. rewrite !float_trait_ok by lra. cbn [rbind]. rewrite float_trait_ok2 by lra. cbn [rbind].
      pose proof rounding_wr.
      apply (assemble_ok _ _ _ HP obstacles (V 0 (h/2)) _ _ _ (V 0 0)).
      - cbn [sound obstacles]. split; [|split].
        + apply sound_line. intros E. injection E. lra.
        + apply sound_line. intros E. injection E. lra.
        + apply sound_line. intros E. injection E. lra.
      - apply rounding_obs. left. cbn. lra.
      - apply sound_rect'; lra.
      - apply (proj2 (rounding_dom _)). unfold rect; cbn; lra.
    Qed.
    Lemma rounding_contains : contains_all rounding_field.
    Proof.
      pose proof rounding_wr as W.
      intros p [H|[H|H]]; unfold rounding_field in *; rewrite in_domain_iff, rounding_dom.
      - rewrite on_obstacle_iff in H. apply rounding_obs in H. unfold ring, rect in *. lra.
      - rewrite on_target_1, rounding_target in H. unfold rect. lra.
      - rewrite in_spawn_1, rounding_spawn in H. unfold rect in *. lra.
    Qed.
    Lemma rounding_left : left_through_targets_only rounding_field.
    Proof.
      apply (left_by_ring _ 0 w 0 h).
      - intros p. unfold rounding_field. rewrite in_domain_iff. apply rounding_dom.
      - intros p Hp. unfold rounding_field. rewrite on_obstacle_iff, on_target_1.
        destruct (classic (region target p)) as [T|T]; [right; exact T|left].
        apply rounding_obs. right. rewrite rounding_target in T. auto.
    Qed.
    Lemma rounding_open : targets_open rounding_field [V 0 (h / 2); V 0 h].
    Proof.
      pose proof rounding_wr as W.
      intros p T O. unfold rounding_field in *. rewrite on_target_1, rounding_target in T. rewrite on_obstacle_iff in O.
      destruct p as [x y]; cbn in T. destruct T as (-> & Hy).
      destruct (Req_dec y (h/2)) as [->|N1]; [left; reflexivity|].
      destruct (Req_dec y h) as [->|N2]; [right; left; reflexivity|]. exfalso.
      unfold obstacles in O. destruct O as [O|O].
      - change (region wall (V 0 y)) in O. rewrite rounding_wall in O. cbn in O. lra.
      - set (eps := Rmin (Rmin (y - h/2) (h - y)) w).
        assert (He : 0 < eps /\ eps <= y - h/2 /\ eps <= h - y /\ eps <= w).
        { unfold eps. pose proof (Rmin_l (Rmin (y - h/2) (h - y)) w). pose proof (Rmin_r (Rmin (y - h/2) (h - y)) w).
          pose proof (Rmin_l (y - h/2) (h - y)). pose proof (Rmin_r (y - h/2) (h - y)).
          split; [|lra]. repeat apply Rmin_glb_lt; lra. }
        destruct (O eps (proj1 He)) as (q & Hd & Hq & Nq). apply edist_near in Hd. cbn in Hd.
        apply Nq. change (region target q). change (region (exterior domain) q) in Hq.
        rewrite rounding_ext in Hq. rewrite rounding_target. unfold ring, rect in Hq. lra.
    Qed.
    Lemma rounding_reach : r < 1 -> targets_reachable rounding_field.
    Proof.
      intros Hr1 p q Sp Np Tq Nq. unfold rounding_field in Sp, Np, Tq, Nq |- *.
      assert (W : 0 < w * r < w) by nra.
      rewrite in_spawn_1, rounding_spawn in Sp. rewrite on_target_1, rounding_target in Tq.
      rewrite on_obstacle_iff in Np, Nq.
      assert (Fp : 0 < vx p <= w / 2 /\ 0 < vy p <= h / 2 /\ (vy p = h / 2 -> w * r < vx p)).
      { unfold rect in Sp.
        assert (A : vx p <> 0).
        { intros E. apply Np. apply rounding_obs. destruct (Req_dec (vy p) (h/2)) as [E2|N2]; [left; lra|].
          right. unfold ring, rect. split; [split; [lra|auto]|]. lra. }
        assert (B : vy p <> 0).
        { intros E. apply Np. apply rounding_obs. right. unfold ring, rect. split; [split; [lra|auto]|]. lra. }
        split; [lra|]. split; [lra|]. intros E. apply Rnot_le_lt. intros L. apply Np. apply rounding_obs. left. lra. }
      assert (Fq : vy q <> h / 2).
      { intros E. apply Nq. apply rounding_obs. left. lra. }
      set (m := (w * r + w) / 2). assert (Hm : w * r < m < w) by (unfold m; lra).
      assert (free : forall x, (0 < vx x < w /\ 0 < vy x < h) /\ (vy x = h / 2 -> w * r < vx x) -> ~ region obstacles x).
      { intros x (Hx & Hy) O. apply rounding_obs in O. unfold ring, rect in O. lra. }
      apply Go with (V m (vy p)).
      { intros x Hx. rewrite on_obstacle_iff. apply free. destruct p as [px py]; cbn [vx vy] in *. on_seg Hx.
        split; [split; [split; [apply mix_lt|apply mix_gt]; lra|lra]|]. intros E. apply mix_lt; lra. }
      apply Go with (V m (3/4 * h)).
      { intros x Hx. rewrite on_obstacle_iff. apply free. destruct p as [px py]; cbn [vx vy] in *. on_seg Hx.
        split; [split; [lra|split; [apply mix_lt|apply mix_gt]; lra]|]. intros E. lra. }
      apply Go with q.
      { intros x Hx. rewrite on_obstacle_iff.
        destruct (into_rect 0 w (h/2) h (V m (3/4*h)) q x) as [->|In]; [cbn; lra|cbn; lra|unfold rect; lra|exact Hx|exact Nq|].
        apply free. lra. }
      apply Stay. rewrite on_obstacle_iff. exact Nq.
    Qed.
    Lemma rounding_blocked : r = 1 -> forall p q, in_spawn rounding_field p -> on_target rounding_field q ->
      ~ on_obstacle rounding_field q -> ~ walk rounding_field p q.
    Proof.
      intros E p q Sp Tq Nq W. unfold rounding_field in Sp, Tq, Nq.
      rewrite in_spawn_1, rounding_spawn in Sp. rewrite on_target_1, rounding_target in Tq. rewrite on_obstacle_iff in Nq.
      assert (Ew : w * r = w) by (rewrite E; ring).
      assert (Hq : rect 0 w 0 (h/2) q).
      { apply (walk_stays rounding_field 0 w 0 (h/2) p q); [|exact W|unfold rect in *; lra].
        intros x Hx. unfold rounding_field. rewrite on_obstacle_iff. apply rounding_obs. unfold ring, rect in *.
        destruct (Req_dec (vy x) (h/2)); [left; lra|right; lra]. }
      apply Nq. apply rounding_obs. left. unfold rect in Hq. lra.
    Qed.
  End Rounding.

  (** *** AvoidObstacle *)
  Section Avoid.
    Variables w h e r : R.
    Hypotheses (Hw : 0 < w) (Hh : 0 < h) (He : 1 <= e) (Hr : 0 < r <= 1).
    Let domain := rectangle 0 0 w h.
    Let follower := rectangle 0 0 (r * w) h.
    Let leader := rectangle 0 (1/2 * h) (r * w) (1/2 * h).
    Let target := SLine [V w 0; V w e].
    Let wall := SLine [V (r * w) 0; V (r * w) (1/2 * h)].
    Let obstacles := SJoin (SMinus (exterior domain) target) wall.
    Definition avoid_field : field shape := Field (Some domain) (Some obstacles) [target] [leader; follower].

    Lemma rectangle_eq : forall x y a b, rectangle x y a b = SPoly [V x y; V (x + a) y; V (x + a) (y + b); V x (y + b)].
    Proof. reflexivity. Qed.
    Lemma avoid_rw : 0 < r * w <= w. Proof. nra. Qed.
    Lemma avoid_dom : forall p, region domain p <-> rect 0 w 0 h p.
    Proof. intros p. unfold domain. rewrite rectangle_eq, poly_region by lra. rewrite !Rplus_0_l. tauto. Qed.
    Lemma avoid_ext : forall p, region (exterior domain) p <-> ring 0 w 0 h p.
    Proof. intros p. unfold domain. rewrite rectangle_eq, exterior_region by lra. rewrite !Rplus_0_l. tauto. Qed.
    Lemma avoid_follower : forall p, region follower p <-> rect 0 (r * w) 0 h p.
    Proof. pose proof avoid_rw. intros p. unfold follower. rewrite rectangle_eq, poly_region by lra. rewrite !Rplus_0_l. tauto. Qed.
    Lemma avoid_leader : forall p, region leader p <-> rect 0 (r * w) (1/2 * h) h p.
    Proof.
      pose proof avoid_rw. intros p. unfold leader. rewrite rectangle_eq, poly_region by lra. rewrite !Rplus_0_l.
      replace (1/2 * h + 1/2 * h) with h by lra. tauto.
    Qed.
    Lemma avoid_target : forall p, region target p <-> vx p = w /\ 0 <= vy p <= e.
    Proof. intros p. unfold target. cbn [region on_line]. rewrite seg_v by lra. tauto. Qed.
    Lemma avoid_wall : forall p, region wall p <-> vx p = r * w /\ 0 <= vy p <= 1/2 * h.
    Proof. intros p. unfold wall. cbn [region on_line]. rewrite seg_v by lra. tauto. Qed.
    Lemma avoid_obs : forall p, (region obstacles p -> (vx p = r * w /\ 0 <= vy p <= 1/2 * h) \/ ring 0 w 0 h p) /\
      ((vx p = r * w /\ 0 <= vy p <= 1/2 * h) \/ (ring 0 w 0 h p /\ ~ (vx p = w /\ 0 <= vy p <= e)) -> region obstacles p).
    Proof.
      intros p. unfold obstacles. cbn [region]. fold (region (SMinus (exterior domain) target) p).
      rewrite avoid_wall. destruct (minus_ring (exterior domain) target 0 w 0 h p avoid_ext) as (A & B).
      rewrite avoid_target in B. split.
      - intros [H|H]; [right; apply A; exact H|left; exact H].
      - intros [H|(H & N)]; [right; exact H|left; apply B; assumption].
    Qed.
    Lemma avoid_ok : avoid_obstacle is_valid is_empty is_polygon w h e r = Ok avoid_field.
    Proof.
      unfold avoid_obstacle. rewrite !float_trait_ok by lra. cbn [rbind].
      rewrite float_trait_ok2 by lra. cbn [rbind].
      pose proof avoid_rw.
      apply (assemble_ok _ _ _ HP obstacles (V (r * w) 0) _ _ _ (V 0 0)).
      - cbn [sound obstacles]. split; [split|].
        + apply sound_line. intros E. injection E. lra.
        + apply sound_line. intros E. injection E. lra.
        + apply sound_line. intros E. injection E. lra.
      - apply avoid_obs. left. cbn. lra.
      - apply sound_rect; lra.
      - apply (proj2 (avoid_dom _)). unfold rect; cbn; lra.
    Qed.
    Lemma avoid_contains : e <= h -> contains_all avoid_field.
    Proof.
      pose proof avoid_rw as W. intros Le.
      intros p [H|[H|H]]; unfold avoid_field in *; rewrite in_domain_iff, avoid_dom.
      - rewrite on_obstacle_iff in H. apply avoid_obs in H. unfold ring, rect in *. lra.
      - rewrite on_target_1, avoid_target in H. unfold rect. lra.
      - rewrite in_spawn_2, avoid_leader, avoid_follower in H. unfold rect in *. lra.
    Qed.
    Lemma avoid_sticks_out : h < e -> on_target avoid_field (V w e) /\ ~ in_domain avoid_field (V w e).
    Proof.
      intros L. unfold avoid_field. rewrite on_target_1, avoid_target, in_domain_iff, avoid_dom. unfold rect. cbn. lra.
    Qed.
    Lemma avoid_left : left_through_targets_only avoid_field.
    Proof.
      apply (left_by_ring _ 0 w 0 h).
      - intros p. unfold avoid_field. rewrite in_domain_iff. apply avoid_dom.
      - intros p Hp. unfold avoid_field. rewrite on_obstacle_iff, on_target_1.
        destruct (classic (region target p)) as [T|T]; [right; exact T|left].
        apply avoid_obs. right. rewrite avoid_target in T. auto.
    Qed.
    Lemma avoid_open : r < 1 -> e <= h -> targets_open avoid_field [V w 0; V w e].
    Proof.
      intros Hr1 Le. assert (W : 0 < r * w < w) by nra.
      intros p T O. unfold avoid_field in *. rewrite on_target_1, avoid_target in T. rewrite on_obstacle_iff in O.
      destruct p as [x y]; cbn in T. destruct T as (-> & Hy).
      destruct (Req_dec y 0) as [->|N1]; [left; reflexivity|].
      destruct (Req_dec y e) as [->|N2]; [right; left; reflexivity|]. exfalso.
      unfold obstacles in O. destruct O as [O|O].
      2:{ change (region wall (V w y)) in O. rewrite avoid_wall in O. cbn in O. lra. }
      set (eps := Rmin (Rmin y (e - y)) w).
      assert (Hp : 0 < eps /\ eps <= y /\ eps <= e - y /\ eps <= w).
      { unfold eps. pose proof (Rmin_l (Rmin y (e - y)) w). pose proof (Rmin_r (Rmin y (e - y)) w).
        pose proof (Rmin_l y (e - y)). pose proof (Rmin_r y (e - y)).
        split; [|lra]. repeat apply Rmin_glb_lt; lra. }
      destruct (O eps (proj1 Hp)) as (q & Hd & Hq & Nq). apply edist_near in Hd. cbn in Hd.
      apply Nq. change (region target q). change (region (exterior domain) q) in Hq.
      rewrite avoid_ext in Hq. rewrite avoid_target. unfold ring, rect in Hq. lra.
    Qed.
    Lemma avoid_shut : r = 1 -> e <= 1/2 * h -> forall p, on_target avoid_field p -> on_obstacle avoid_field p.
    Proof.
      intros E Le p H. unfold avoid_field in *. rewrite on_target_1, avoid_target in H. rewrite on_obstacle_iff.
      apply avoid_obs. left. assert (Ew : r * w = w) by (rewrite E; ring). lra.
    Qed.
    Lemma avoid_reach : r < 1 -> e <= h -> targets_reachable avoid_field.
    Proof.
      intros Hr1 Le p q Sp Np Tq Nq. unfold avoid_field in Sp, Np, Tq, Nq |- *.
      assert (W : 0 < r * w < w) by nra.
      rewrite in_spawn_2, avoid_leader, avoid_follower in Sp. rewrite on_target_1, avoid_target in Tq.
      rewrite on_obstacle_iff in Np, Nq.
      assert (Fp : 0 < vx p <= r * w /\ 0 < vy p < h /\ (vx p = r * w -> 1/2 * h < vy p)).
      { unfold rect in Sp.
        assert (A : vx p <> 0) by (intros E; apply Np; apply avoid_obs; right; unfold ring, rect; lra).
        assert (B : vy p <> 0) by (intros E; apply Np; apply avoid_obs; right; unfold ring, rect; lra).
        assert (C : vy p <> h) by (intros E; apply Np; apply avoid_obs; right; unfold ring, rect; lra).
        split; [lra|]. split; [lra|]. intros E. apply Rnot_le_lt. intros L. apply Np. apply avoid_obs. left. lra. }
      set (m := (r * w + w) / 2). assert (Hm : r * w < m < w) by (unfold m; lra).
      assert (free : forall x, (0 < vx x < w /\ 0 < vy x < h) /\ (vx x = r * w -> 1/2 * h < vy x) -> ~ region obstacles x).
      { intros x (Hx & Hy) O. apply avoid_obs in O. unfold ring, rect in O. lra. }
      apply Go with (V (vx p) (3/4 * h)).
      { intros x Hx. rewrite on_obstacle_iff. apply free. destruct p as [px py]; cbn [vx vy] in *. on_seg Hx.
        split; [split; [lra|split; [apply mix_lt|apply mix_gt]; lra]|]. intros E. apply mix_lt; lra. }
      apply Go with (V m (3/4 * h)).
      { intros x Hx. rewrite on_obstacle_iff. apply free. destruct p as [px py]; cbn [vx vy] in *. on_seg Hx.
        split; [split; [split; [apply mix_lt|apply mix_gt]; lra|lra]|]. intros E. lra. }
      apply Go with q.
      { intros x Hx. rewrite on_obstacle_iff.
        destruct (into_rect (r * w) w 0 h (V m (3/4*h)) q x) as [->|In]; [cbn; lra|cbn; lra|unfold rect; lra|exact Hx|exact Nq|].
        apply free. lra. }
      apply Stay. rewrite on_obstacle_iff. exact Nq.
    Qed.
  End Avoid.

  (** *** ClosedRoom *)
  Section Closed.
    Variables w h : R.
    Hypotheses (Hw : 0 < w) (Hh : 0 < h).
    Let domain := SPoly [V 0 0; V 0 h; V w h; V w 0].
    Definition closed_field : field shape := Field (Some domain) (Some (exterior domain)) [] [domain].
    Lemma closed_dom : forall p, region domain p <-> rect 0 w 0 h p.
    Proof. intros p. apply poly_region'; lra. Qed.
    Lemma closed_ext : forall p, region (exterior domain) p <-> ring 0 w 0 h p.
    Proof. intros p. apply exterior_region'; lra. Qed.
    Lemma closed_ok : closed_room is_valid is_empty is_polygon w h = Ok closed_field.
    Proof.
      unfold closed_room. rewrite !float_trait_ok by lra. cbn [rbind].
      apply (assemble_ok _ _ _ HP (exterior domain) (V 0 0) _ _ _ (V 0 0)).
      - apply sound_line. intros E. injection E. lra.
      - apply closed_ext. unfold ring, rect; cbn; lra.
      - apply sound_rect'; lra.
      - apply (proj2 (closed_dom _)). unfold rect; cbn; lra.
    Qed.
    Lemma closed_contains : contains_all closed_field.
    Proof.
      intros p [H|[H|H]]; unfold closed_field in *; rewrite in_domain_iff, closed_dom.
      - rewrite on_obstacle_iff, closed_ext in H. apply H.
      - destruct H as (t & [] & _).
      - rewrite in_spawn_1, closed_dom in H. exact H.
    Qed.
    Lemma closed_left : forall g, way g -> in_domain closed_field (g 0) -> ~ in_domain closed_field (g 1) ->
      exists t, 0 <= t <= 1 /\ on_obstacle closed_field (g t).
    Proof.
      intros g Hg H0 H1.
      assert (L : left_through_targets_only closed_field).
      { apply (left_by_ring _ 0 w 0 h); intros p; unfold closed_field.
        - rewrite in_domain_iff. apply closed_dom.
        - rewrite on_obstacle_iff, closed_ext. auto. }
      destruct (L g Hg H0 H1) as (t & Ht & [O|T]); [exists t; auto|]. destruct T as (t' & [] & _).
    Qed.
  End Closed.

  Lemma field_hull_all : forall d o p t ts s ss, region o p ->
    field_hull is_empty (Field d (Some o) (t :: ts) (s :: ss)) =
    Ok (SHull (SJoin (SJoin (SJoin SNothing o) (fold_left SJoin ts t)) (fold_left SJoin ss s))).
  Proof.
    intros d o p t ts s ss H. unfold field_hull, convex_hull, truth. cbn [f_obstacles f_targets f_spawns].
    rewrite (filled _ _ _ HP o p H). cbn [negb]. unfold union. cbn [rbind]. reflexivity.
  Qed.

  (** *** RoomWithOneExit *)
  Section Room.
    Variables w h e b : R.
    Hypotheses (Hw : 0 < w) (Hh : 0 < h) (He : 0 < e <= 10) (Hb : 0 < b) (Hne : e <> h).
    Let room := SLine [V w 0; V 0 0; V 0 h; V w h].
    Let upper := rectangle w ((h + e) / 2) b ((h - e) / 2).
    Let lower := rectangle w 0 b ((h - e) / 2).
    Let hall := SJoin upper lower.
    Let target := SLine [V (w + b) ((h - e) / 2); V (w + b) ((h + e) / 2)].
    Let obstacles := SJoin room hall.
    Let domain := SHull (SJoin (SJoin (SJoin SNothing obstacles) target) (SHull room)).
    Definition room_field : field shape := Field (Some domain) (Some obstacles) [target] [SHull room].

    Definition room_obs (p : vec) : Prop :=
      (vy p = 0 /\ 0 <= vx p <= w) \/ (vx p = 0 /\ 0 <= vy p <= h) \/ (vy p = h /\ 0 <= vx p <= w) \/
      rect w (w + b) ((h + e) / 2) h p \/ rect w (w + b) 0 ((h - e) / 2) p.
    Lemma room_room : forall p, region room p <->
      (vy p = 0 /\ 0 <= vx p <= w) \/ (vx p = 0 /\ 0 <= vy p <= h) \/ (vy p = h /\ 0 <= vx p <= w).
    Proof. intros p. unfold room. cbn [region on_line]. rewrite seg_h', seg_v, seg_h by lra. tauto. Qed.
    Lemma room_ok : room_with_one_exit is_valid is_empty is_polygon w h e b = Ok room_field.
    Proof.
      assert (So : sound obstacles).
      { cbn [sound obstacles hall]. split; [|split].
        - apply sound_line. intros E. injection E. lra.
        - apply sound_rect; lra.
        - apply sound_rect; lra. }
      unfold room_with_one_exit. rewrite !float_trait_ok by lra. cbn [rbind].
      rewrite float_trait_ok2 by lra. cbn [rbind].
      fold room target. change (SJoin room _) with obstacles.
      assert (O0 : region obstacles (V 0 0)) by (left; apply (proj2 (room_room _)); cbn; lra).
      rewrite (set_obstacles_ok _ _ _ HP obstacles (V 0 0)) by assumption. cbn [rbind f_domain f_obstacles bare].
      rewrite (field_hull_all _ obstacles (V 0 0)) by exact O0. cbn [rbind fold_left]. fold domain.
      rewrite (set_domain_ok _ _ _ HP domain (V 0 0)).
      - reflexivity.
      - unfold domain. cbn [sound]. split; [split; [split; [exact I|exact So]|]|].
        + apply sound_line. intros E. injection E. lra.
        + apply sound_line. intros E. injection E. lra.
      - unfold domain. apply hull_has. left. left. right. exact O0.
      - assert (Hin : forall q, region room q -> region (SJoin (SJoin (SJoin SNothing obstacles) target) (SHull room)) q).
        { intros q Hq. left. left. right. left. exact Hq. }
        apply (hull_polygon _ _ _ HP _ (V 0 0) (V w 0) (V 0 h)); try (apply Hin; apply room_room; cbn; lra).
        unfold outer. cbn. nra.
    Qed.
    (** The walls of the hall are where the target is. *)
    Lemma room_narrow : h < e -> exists p, on_target room_field p /\ on_obstacle room_field p /\
      p <> V (w + b) ((h - e) / 2) /\ p <> V (w + b) ((h + e) / 2).
    Proof.
      intros L. exists (V (w + b) ((3 * h + e) / 4)). unfold room_field. rewrite on_target_1, on_obstacle_iff.
      split; [|split; [|split]].
      - unfold target. cbn [region on_line]. left. apply seg_v; cbn; lra.
      - right. left. unfold upper. rewrite rectangle_eq. cbn [region]. intros C HC HS.
        apply HC with (V (w + b) ((h + e) / 2 + (h - e) / 2)) (V (w + b) ((h + e) / 2)).
        + apply HS. cbn. auto.
        + apply HS. cbn. auto.
        + apply seg_v; cbn; lra.
      - intros E. injection E. lra.
      - intros E. injection E. lra.
    Qed.

    Hypothesis Heh : e < h.
    Lemma room_upper : forall p, region upper p <-> rect w (w + b) ((h + e) / 2) h p.
    Proof.
      intros p. unfold upper. rewrite rectangle_eq, poly_region by lra.
      replace ((h + e) / 2 + (h - e) / 2) with h by lra. tauto.
    Qed.
    Lemma room_lower : forall p, region lower p <-> rect w (w + b) 0 ((h - e) / 2) p.
    Proof. intros p. unfold lower. rewrite rectangle_eq, poly_region by lra. rewrite Rplus_0_l. tauto. Qed.
    Lemma room_obstacles : forall p, region obstacles p <-> room_obs p.
    Proof.
      intros p. unfold obstacles, hall. cbn [region]. change (on_line _ p) with (region room p).
      change (hull_of (fun v => In v [V w ((h + e) / 2); V (w + b) ((h + e) / 2);
         V (w + b) ((h + e) / 2 + (h - e) / 2); V w ((h + e) / 2 + (h - e) / 2)]) p) with (region upper p).
      change (region room p \/ region upper p \/ region lower p <-> room_obs p).
      rewrite room_room, room_upper, room_lower. unfold room_obs. tauto.
    Qed.
    Lemma room_target : forall p, region target p <-> vx p = w + b /\ (h - e) / 2 <= vy p <= (h + e) / 2.
    Proof. intros p. unfold target. cbn [region on_line]. rewrite seg_v by lra. tauto. Qed.
    Lemma room_spawn : forall p, region (SHull room) p <-> rect 0 w 0 h p.
    Proof.
      intros p. cbn [region]. change (on_line _) with (region room). apply rect_hull; try lra.
      1-4: apply hull_has; apply room_room; cbn; lra.
      intros q Hq. apply room_room in Hq. unfold rect. lra.
    Qed.
    Lemma room_dom : forall p, region domain p <-> rect 0 (w + b) 0 h p.
    Proof.
      intros p. unfold domain. cbn [region].
      assert (Hin : forall q, room_obs q -> region (SJoin (SJoin (SJoin SNothing obstacles) target) (SHull room)) q).
      { intros q Hq. left. left. right. apply room_obstacles. exact Hq. }
      apply (rect_hull (region (SJoin (SJoin (SJoin SNothing obstacles) target) (SHull room)))); try lra.
      1-4: apply hull_has; apply Hin; unfold room_obs, rect; cbn; lra.
      intros q [[[[]|Hq]|Hq]|Hq].
      - apply room_obstacles in Hq. unfold room_obs, rect in *. lra.
      - change (region target q) in Hq. apply room_target in Hq. unfold rect. lra.
      - change (region (SHull room) q) in Hq. pose proof (proj1 (room_spawn q) Hq) as Hq2. clear Hq. unfold rect in *. lra.
    Qed.
    Lemma room_contains : contains_all room_field.
    Proof.
      intros p [H|[H|H]]; unfold room_field in *; rewrite in_domain_iff, room_dom.
      - rewrite on_obstacle_iff, room_obstacles in H. unfold room_obs, rect in *. lra.
      - rewrite on_target_1, room_target in H. unfold rect. lra.
      - rewrite in_spawn_1, room_spawn in H. unfold rect in *. lra.
    Qed.
    Lemma room_left : left_through_targets_only room_field.
    Proof.
      apply (left_by_ring _ 0 (w + b) 0 h).
      - intros p. unfold room_field. rewrite in_domain_iff. apply room_dom.
      - intros p Hp. unfold room_field. rewrite on_obstacle_iff, on_target_1, room_obstacles, room_target.
        unfold ring, room_obs, rect in *. lra.
    Qed.
    Lemma room_open : targets_open room_field [V (w + b) ((h - e) / 2); V (w + b) ((h + e) / 2)].
    Proof.
      intros p T O. unfold room_field in *. rewrite on_target_1, room_target in T. rewrite on_obstacle_iff, room_obstacles in O.
      destruct p as [x y]; cbn in T. destruct T as (-> & Hy). unfold room_obs, rect in O; cbn in O.
      destruct (Req_dec y ((h - e) / 2)) as [->|N1]; [left; reflexivity|].
      destruct (Req_dec y ((h + e) / 2)) as [->|N2]; [right; left; reflexivity|]. exfalso. lra.
    Qed.
    Lemma room_reach : targets_reachable room_field.
    Proof.
      intros p q Sp Np Tq Nq. unfold room_field in Sp, Np, Tq, Nq |- *.
      rewrite in_spawn_1, room_spawn in Sp. rewrite on_target_1, room_target in Tq.
      rewrite on_obstacle_iff, room_obstacles in Np, Nq.
      assert (Fq : (h - e) / 2 < vy q < (h + e) / 2) by (unfold room_obs, rect in Nq; lra).
      assert (Fp : 0 < vx p <= w /\ 0 < vy p < h /\ (vx p = w -> (h - e) / 2 < vy p < (h + e) / 2)).
      { unfold rect in Sp. unfold room_obs, rect in Np. lra. }
      assert (free : forall x, (0 < vx x /\ 0 < vy x < h) /\ (w <= vx x -> (h - e) / 2 < vy x < (h + e) / 2) -> ~ room_obs x).
      { intros x H O. unfold room_obs, rect in O. lra. }
      apply Go with (V (vx p) (vy q)).
      { intros x Hx. rewrite on_obstacle_iff, room_obstacles. apply free.
        destruct p as [px py], q as [qx qy]; cbn [vx vy] in *. on_seg Hx.
        split; [split; [lra|split; [apply mix_lt|apply mix_gt]; lra]|].
        intros E. assert (px = w) by lra. split; [apply mix_lt|apply mix_gt]; lra. }
      apply Go with q.
      { intros x Hx. rewrite on_obstacle_iff, room_obstacles. apply free.
        destruct p as [px py], q as [qx qy]; cbn [vx vy] in *. on_seg Hx.
        split; [split; [apply mix_lt; lra|lra]|]. lra. }
      apply Stay. rewrite on_obstacle_iff, room_obstacles. exact Nq.
    Qed.
  End Room.

  (** *** FourExitsField *)
  Lemma walk_trans : forall f p q r, walk f p q -> walk f q r -> walk f p r.
  Proof. intros f p q r A B. induction A; [exact B|]. eapply Go; eauto. Qed.
  Lemma walk_sym : forall f p q, walk f p q -> walk f q p.
  Proof.
    intros f p q A. induction A as [p N|p q r S A IH]; [apply Stay; exact N|].
    apply walk_trans with q; [exact IH|]. apply Go with p.
    - intros x Hx. apply S. apply seg_sym. exact Hx.
    - apply Stay. apply S. exists 0. split; [lra|]. destruct p; unfold along; cbn; f_equal; ring.
  Qed.
  Section Four.
    Variable e : R.
    Hypothesis (He : 0 < e <= 10).
    Let obstacles := fold_left (fun o l => SJoin o (SLine l)) (four_exits_walls e) SNothing.
    Let t0 := SLine [V 0 10; V 0 (10 + e)].
    Let t1 := SLine [V 6 80; V (6 + e) 80].
    Let t2 := SLine [V 100 (50 + e); V 100 50].
    Let t3 := SLine [V 87 0; V (87 + e) 0].
    Let domain := SHull (SJoin (SJoin (SJoin SNothing obstacles) (SJoin (SJoin (SJoin t0 t1) t2) t3)) (SHull obstacles)).
    Definition four_field : field shape := Field (Some domain) (Some obstacles) [t0; t1; t2; t3] [SHull obstacles].

    Definition four_obs (p : vec) : Prop :=
      (vx p = 0 /\ 0 <= vy p <= 10) \/ (vy p = 0 /\ 0 <= vx p <= 87) \/ (vx p = 20 /\ 0 <= vy p <= 40) \/
      (vy p = 20 /\ 20 <= vx p <= 40) \/ (vx p = 60 /\ 0 <= vy p <= 20) \/ (vx p = 0 /\ 10 + e <= vy p <= 80) \/
      (vy p = 80 /\ 0 <= vx p <= 6) \/ (vy p = 60 /\ 0 <= vx p <= 40) \/ (vy p = 80 /\ 6 + e <= vx p <= 100) \/
      (vx p = 100 /\ 50 + e <= vy p <= 80) \/ (vy p = 60 /\ 60 <= vx p <= 100) \/ (vx p = 70 /\ 40 <= vy p <= 60) \/
      (vx p = 100 /\ 0 <= vy p <= 50) \/ (vy p = 0 /\ 87 + e <= vx p <= 100).
    Definition four_tar (p : vec) : Prop :=
      (vx p = 0 /\ 10 <= vy p <= 10 + e) \/ (vy p = 80 /\ 6 <= vx p <= 6 + e) \/
      (vx p = 100 /\ 50 <= vy p <= 50 + e) \/ (vy p = 0 /\ 87 <= vx p <= 87 + e).
    Lemma four_obstacles : forall p, region obstacles p <-> four_obs p.
    Proof.
      intros p. unfold obstacles, four_exits_walls. cbn [fold_left region on_line].
      repeat first [rewrite seg_v by lra | rewrite seg_h by lra | rewrite seg_v' by lra | rewrite seg_h' by lra].
      unfold four_obs. tauto.
    Qed.
    Lemma four_targets : forall p, on_target four_field p <-> four_tar p.
    Proof.
      intros p. unfold on_target, four_field. cbn [f_targets].
      assert (A0 : region t0 p <-> vx p = 0 /\ 10 <= vy p <= 10 + e) by (unfold t0; cbn [region on_line]; rewrite seg_v by lra; tauto).
      assert (A1 : region t1 p <-> vy p = 80 /\ 6 <= vx p <= 6 + e) by (unfold t1; cbn [region on_line]; rewrite seg_h by lra; tauto).
      assert (A2 : region t2 p <-> vx p = 100 /\ 50 <= vy p <= 50 + e) by (unfold t2; cbn [region on_line]; rewrite seg_v' by lra; tauto).
      assert (A3 : region t3 p <-> vy p = 0 /\ 87 <= vx p <= 87 + e) by (unfold t3; cbn [region on_line]; rewrite seg_h by lra; tauto).
      unfold four_tar. rewrite <- A0, <- A1, <- A2, <- A3. split.
      - intros (t & [<-|[<-|[<-|[<-|[]]]]] & H); tauto.
      - intros [H|[H|[H|H]]]; eexists; (split; [|exact H]); cbn; tauto.
    Qed.
    Lemma four_spawn : forall p, region (SHull obstacles) p <-> rect 0 100 0 80 p.
    Proof.
      intros p. cbn [region]. apply (rect_hull (region obstacles)); try lra.
      1-4: apply hull_has; apply four_obstacles; unfold four_obs; cbn; lra.
      intros q Hq. apply four_obstacles in Hq. unfold four_obs, rect in *. lra.
    Qed.
    Lemma four_dom : forall p, region domain p <-> rect 0 100 0 80 p.
    Proof.
      intros p. unfold domain. cbn [region].
      assert (Hin : forall q, four_obs q ->
        region (SJoin (SJoin (SJoin SNothing obstacles) (SJoin (SJoin (SJoin t0 t1) t2) t3)) (SHull obstacles)) q).
      { intros q Hq. left. left. right. apply four_obstacles. exact Hq. }
      apply (rect_hull (region (SJoin (SJoin (SJoin SNothing obstacles) (SJoin (SJoin (SJoin t0 t1) t2) t3)) (SHull obstacles)))); try lra.
      1-4: apply hull_has; apply Hin; unfold four_obs, rect; cbn; lra.
      intros q [[[[]|Hq]|Hq]|Hq].
      - apply four_obstacles in Hq. unfold four_obs, rect in *. lra.
      - assert (T : on_target four_field q).
        { destruct Hq as [[[Hq|Hq]|Hq]|Hq]; eexists; (split; [|exact Hq]); cbn; tauto. }
        apply four_targets in T. unfold four_tar, rect in *. lra.
      - exact (proj1 (four_spawn q) Hq).
    Qed.
    Lemma four_ok : four_exits is_valid is_empty is_polygon e = Ok four_field.
    Proof.
      assert (So : sound obstacles).
      { unfold obstacles, four_exits_walls. cbn [fold_left sound].
        repeat split; try (apply (sound_line _ _ _); intros E; injection E; lra). }
      unfold four_exits. rewrite float_trait_ok2 by lra. cbn [rbind].
      fold obstacles. fold t0 t1 t2 t3.
      assert (O0 : region obstacles (V 0 0)) by (apply four_obstacles; unfold four_obs; cbn; lra).
      rewrite (set_obstacles_ok _ _ _ HP obstacles (V 0 0)) by assumption. cbn [rbind f_domain f_obstacles bare].
      rewrite (field_hull_all _ obstacles (V 0 0)) by exact O0. cbn [rbind fold_left]. fold domain.
      rewrite (set_domain_ok _ _ _ HP domain (V 0 0)).
      - reflexivity.
      - unfold domain. cbn [sound]. split; [split; [split; [exact I|exact So]|]|exact So].
        repeat split; try (apply (sound_line _ _ _); intros E; injection E; lra).
      - apply four_dom. unfold rect; cbn; lra.
      - assert (Hin : forall q, four_obs q ->
          region (SJoin (SJoin (SJoin SNothing obstacles) (SJoin (SJoin (SJoin t0 t1) t2) t3)) (SHull obstacles)) q).
        { intros q Hq. left. left. right. apply four_obstacles. exact Hq. }
        apply (hull_polygon _ _ _ HP _ (V 0 0) (V 1 0) (V 0 1)); try (apply Hin; unfold four_obs; cbn; lra).
        unfold outer. cbn. lra.
    Qed.
    Lemma four_contains : contains_all four_field.
    Proof.
      intros p [H|[H|H]]; (assert (D : rect 0 100 0 80 p); [|unfold four_field; rewrite in_domain_iff, four_dom; exact D]).
      - unfold four_field in H. rewrite on_obstacle_iff, four_obstacles in H. unfold four_obs, rect in *. lra.
      - apply four_targets in H. unfold four_tar, rect in *. lra.
      - unfold four_field in H. rewrite in_spawn_1 in H. exact (proj1 (four_spawn p) H).
    Qed.
    Lemma four_left : left_through_targets_only four_field.
    Proof.
      apply (left_by_ring _ 0 100 0 80).
      - intros p. unfold four_field. rewrite in_domain_iff. apply four_dom.
      - intros p Hp. rewrite four_targets. unfold four_field. rewrite on_obstacle_iff, four_obstacles.
        assert (K : (vx p = 0 /\ 0 <= vy p <= 80) \/ (vx p = 100 /\ 0 <= vy p <= 80) \/ (vy p = 0 /\ 0 <= vx p <= 100) \/ (vy p = 80 /\ 0 <= vx p <= 100))
          by (unfold ring, rect in Hp; lra).
        clear Hp. destruct K as [(A & B)|[(A & B)|[(A & B)|(A & B)]]].
        + assert (K : vy p <= 10 \/ 10 <= vy p <= 10 + e \/ 10 + e <= vy p) by lra. unfold four_obs, four_tar.
          destruct K as [K|[K|K]]; [left; left; lra|right; left; lra|left; do 5 right; left; lra].
        + assert (K : vy p <= 50 \/ 50 <= vy p <= 50 + e \/ 50 + e <= vy p) by lra. unfold four_obs, four_tar.
          destruct K as [K|[K|K]]; [left; do 12 right; left; lra|right; do 2 right; left; lra|left; do 9 right; left; lra].
        + assert (K : vx p <= 87 \/ 87 <= vx p <= 87 + e \/ 87 + e <= vx p) by lra. unfold four_obs, four_tar.
          destruct K as [K|[K|K]]; [left; do 1 right; left; lra|right; do 3 right; lra|left; do 13 right; lra].
        + assert (K : vx p <= 6 \/ 6 <= vx p <= 6 + e \/ 6 + e <= vx p) by lra. unfold four_obs, four_tar.
          destruct K as [K|[K|K]]; [left; do 6 right; left; lra|right; do 1 right; left; lra|left; do 8 right; left; lra].
    Qed.
    Lemma four_open : targets_open four_field
      [V 0 10; V 0 (10 + e); V 6 80; V (6 + e) 80; V 100 (50 + e); V 100 50; V 87 0; V (87 + e) 0].
    Proof.
      intros [x y] T O. apply four_targets in T. unfold four_field in O. rewrite on_obstacle_iff, four_obstacles in O.
      unfold four_tar in T. unfold four_obs in O. cbn [vx vy] in *.
      assert (E : (x = 0 /\ y = 10) \/ (x = 0 /\ y = 10 + e) \/ (x = 6 /\ y = 80) \/ (x = 6 + e /\ y = 80) \/
                  (x = 100 /\ y = 50 + e) \/ (x = 100 /\ y = 50) \/ (x = 87 /\ y = 0) \/ (x = 87 + e /\ y = 0)).
      { destruct T as [T|[T|[T|T]]]; repeat (destruct O as [O|O]);
          first [exfalso; lra | left; lra | right; left; lra | do 2 right; left; lra | do 3 right; left; lra
                | do 4 right; left; lra | do 5 right; left; lra | do 6 right; left; lra | do 7 right; lra]. }
      clear T O. destruct E as [E|[E|[E|[E|[E|[E|[E|E]]]]]]]; destruct E as (-> & ->); cbn; tauto.
    Qed.
    (** A room without walls inside. *)
    Lemma cell_walk : forall x0 x1 y0 y1 p c,
      (forall q, x0 < vx q < x1 -> y0 < vy q < y1 -> ~ four_obs q) ->
      rect x0 x1 y0 y1 p -> ~ four_obs p -> x0 < vx c < x1 -> y0 < vy c < y1 -> walk four_field p c.
    Proof.
      intros x0 x1 y0 y1 p c Hf Hp Np Hx Hy. apply Go with c.
      - intros x S. unfold four_field. rewrite on_obstacle_iff, four_obstacles.
        destruct (into_rect x0 x1 y0 y1 c p x Hx Hy Hp (seg_sym _ _ _ S)) as [->|(A & B)]; [exact Np|]. apply Hf; assumption.
      - apply Stay. unfold four_field. rewrite on_obstacle_iff, four_obstacles. apply Hf; assumption.
    Qed.
    Lemma four_hub : forall p, rect 0 100 0 80 p -> ~ four_obs p -> walk four_field p (V 50 50).
    Proof.
      intros p Hp Np.
      assert (C : forall q, rect 20 70 20 60 q -> ~ four_obs q -> walk four_field q (V 50 50)).
      { intros q Hq Nq. apply (cell_walk 20 70 20 60); try assumption; cbn; try lra. intros x A B N. unfold four_obs in N. lra. }
      assert (S : forall a b, (forall x, on_segment a b x -> ~ four_obs x) -> walk four_field b (V 50 50) -> walk four_field a (V 50 50)).
      { intros a b A B. apply Go with b; [|exact B]. intros x Hx. unfold four_field. rewrite on_obstacle_iff, four_obstacles. apply A. exact Hx. }
      assert (H0 : walk four_field (V 50 50) (V 50 50)).
      { apply Stay. unfold four_field. rewrite on_obstacle_iff, four_obstacles. unfold four_obs. cbn. lra. }
      assert (HE : walk four_field (V 65 30) (V 50 50)) by (apply C; [unfold rect; cbn; lra|unfold four_obs; cbn; lra]).
      assert (K : rect 0 20 0 60 p \/ rect 20 70 20 60 p \/ rect 20 60 0 20 p \/ rect 60 100 0 40 p \/ rect 70 100 0 60 p \/ rect 0 100 60 80 p)
        by (unfold rect in *; lra).
      destruct K as [K|[K|[K|[K|[K|K]]]]].
      - apply walk_trans with (V 10 50).
        + apply (cell_walk 0 20 0 60); try assumption; cbn; try lra. intros x A B N. unfold four_obs in N. lra.
        + apply S with (V 50 50); [|exact H0]. intros x Hx N. apply (seg_h 10 50 50) in Hx; [|lra]. unfold four_obs in N. lra.
      - apply C; assumption.
      - apply walk_trans with (V 50 10).
        + apply (cell_walk 20 60 0 20); try assumption; cbn; try lra. intros x A B N. unfold four_obs in N. lra.
        + apply S with (V 50 50); [|exact H0]. intros x Hx N. apply (seg_v 50 10 50) in Hx; [|lra]. unfold four_obs in N. lra.
      - apply walk_trans with (V 65 30); [|exact HE].
        apply (cell_walk 60 100 0 40); try assumption; cbn; try lra. intros x A B N. unfold four_obs in N. lra.
      - apply walk_trans with (V 85 30).
        + apply (cell_walk 70 100 0 60); try assumption; cbn; try lra. intros x A B N. unfold four_obs in N. lra.
        + apply S with (V 65 30); [|exact HE]. intros x Hx N. apply (seg_h' 85 65 30) in Hx; [|lra]. unfold four_obs in N. lra.
      - apply walk_trans with (V 50 70).
        + apply (cell_walk 0 100 60 80); try assumption; cbn; try lra. intros x A B N. unfold four_obs in N. lra.
        + apply S with (V 50 50); [|exact H0]. intros x Hx N. apply (seg_v' 50 70 50) in Hx; [|lra]. unfold four_obs in N. lra.
    Qed.
    Lemma four_reach : targets_reachable four_field.
    Proof.
      intros p q Sp Np Tq Nq. apply walk_trans with (V 50 50).
      - unfold four_field in Sp, Np. rewrite in_spawn_1 in Sp. rewrite on_obstacle_iff, four_obstacles in Np.
        apply four_hub; [exact (proj1 (four_spawn p) Sp)|exact Np].
      - apply walk_sym. apply four_targets in Tq. unfold four_field in Nq. rewrite on_obstacle_iff, four_obstacles in Nq.
        apply four_hub; [|exact Nq]. unfold four_tar, rect in *. lra.
    Qed.
  End Four.

  (** *** PillarInTheMiddle *)
  Section Pillar.
    Variables w h r : R.
    Hypotheses (Hw : 0 < w) (Hh : 0 < h) (Hr : 0 < r).
    Let domain := rectangle (w / 2) (h / 2) (w / 2) (h / 2).
    Definition pillar_field : field shape := Field (Some domain) (Some (SDisc (V 0 0) r)) [] [domain].
    Lemma pillar_dom : forall p, region domain p <-> rect (w / 2) w (h / 2) h p.
    Proof.
      intros p. unfold domain. rewrite rectangle_eq, poly_region by lra.
      replace (w / 2 + w / 2) with w by lra. replace (h / 2 + h / 2) with h by lra. tauto.
    Qed.
    Lemma pillar_ok : pillar_in_the_middle is_valid is_empty is_polygon w h r = Ok pillar_field.
    Proof.
      unfold pillar_in_the_middle. rewrite !float_trait_ok by lra. cbn [rbind]. fold domain.
      rewrite (set_domain_ok _ _ _ HP domain (V w h)).
      - cbn [rbind]. rewrite (set_obstacles_ok _ _ _ HP _ (V 0 0)).
        + reflexivity.
        + cbn [sound]. exact Hr.
        + cbn [region]. rewrite edist_same. lra.
      - apply sound_rect; lra.
      - apply pillar_dom. unfold rect; cbn; lra.
      - apply (polygons _ _ _ HP).
    Qed.
    Lemma pillar_outside : r < w / 2 -> forall p, on_obstacle pillar_field p -> ~ in_domain pillar_field p.
    Proof.
      intros L p O D. unfold pillar_field in *. rewrite on_obstacle_iff in O. rewrite in_domain_iff, pillar_dom in D.
      cbn [region] in O. pose proof (edist_x p (V 0 0)) as A. cbn [vx] in A.
      assert (B : Rabs (0 - vx p) = vx p) by (rewrite Rabs_left1; unfold rect in D; lra).
      unfold rect in D. lra.
    Qed.
    Lemma pillar_centre_outside : on_obstacle pillar_field (V 0 0) /\ ~ in_domain pillar_field (V 0 0).
    Proof.
      unfold pillar_field. rewrite on_obstacle_iff, in_domain_iff, pillar_dom. cbn [region]. rewrite edist_same.
      unfold rect; cbn. lra.
    Qed.
  End Pillar.
End Fields.
