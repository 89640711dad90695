(** * Example fields whose shapes follow their parameters *)
From Verif Require Import Model.ExampleFields Spec.Rooms Proofs.VecLemmas Proofs.RoomProofs Proofs.RoomFields.
From Coq Require Import Ranalysis Lra Psatz Classical.
Open Scope R_scope.

Lemma float_trait_inv : forall lo hi x y, float_trait lo hi x = Ok y -> y = x /\ lo <= x.
Proof.
  intros lo hi x y. unfold float_trait. rcase; [discriminate|]. destruct hi as [m|].
  - rcase; [discriminate|]. intros E. injection E as <-. split; [reflexivity|lra].
  - intros E. injection E as <-. split; [reflexivity|lra].
Qed.

Section Histories.
  Variables is_valid is_empty is_polygon : shape -> bool.
  Hypothesis HP : predicates is_valid is_empty is_polygon.

  (** *** OutdoorField *)
  Lemma outdoor_checked : forall w h, 0 < w -> 0 < h ->
    checked_domain is_valid is_empty is_polygon (outdoor_rect w h) = Ok (outdoor_rect w h).
  Proof.
    intros w h Hw Hh. unfold checked_domain, outdoor_rect. rewrite (set_domain_ok _ _ _ HP _ (V 0 0)).
    - reflexivity.
    - apply sound_rect'; lra.
    - apply poly_region'; unfold rect; cbn; lra.
    - apply (polygons _ _ _ HP).
  Qed.
  Definition outdoor_inv (f : outdoor) : Prop :=
    0 < o_width f -> 0 < o_height f ->
    (o_domain f = None \/ o_domain f = Some (outdoor_rect (o_width f) (o_height f))) /\
    (o_spawns f = None \/ o_spawns f = Some [outdoor_rect (o_width f) (o_height f)]).
  Lemma outdoor_observer_inv : forall f, outdoor_inv (fst (outdoor_observer is_valid is_empty is_polygon f)) /\
    o_width (fst (outdoor_observer is_valid is_empty is_polygon f)) = o_width f /\
    o_height (fst (outdoor_observer is_valid is_empty is_polygon f)) = o_height f.
  Proof.
    intros [w h d s]. unfold outdoor_observer, outdoor_inv. cbn [o_width o_height o_domain o_spawns].
    destruct (checked_domain is_valid is_empty is_polygon (outdoor_rect w h)) as [x|e] eqn:E; cbn [fst o_width o_height o_domain o_spawns].
    - split; [|auto]. intros Hw Hh. rewrite outdoor_checked in E by assumption. injection E as <-. auto.
    - split; [|auto]. intros Hw Hh. rewrite outdoor_checked in E by assumption. discriminate.
  Qed.
  Lemma read_domain_inv : forall f, outdoor_inv f -> outdoor_inv (fst (read_domain is_valid is_empty is_polygon f)) /\
    o_width (fst (read_domain is_valid is_empty is_polygon f)) = o_width f /\
    o_height (fst (read_domain is_valid is_empty is_polygon f)) = o_height f /\
    (0 < o_width f -> 0 < o_height f ->
      snd (read_domain is_valid is_empty is_polygon f) = Ok (outdoor_rect (o_width f) (o_height f))).
  Proof.
    intros [w h d s] I. unfold read_domain. cbn [o_width o_height o_domain o_spawns].
    destruct d as [d|].
    - cbn [fst snd o_width o_height]. split; [exact I|]. split; [reflexivity|]. split; [reflexivity|].
      intros Hw Hh. destruct (I Hw Hh) as ([A|A] & _); cbn in A; [discriminate|]. injection A as ->. reflexivity.
    - destruct (checked_domain is_valid is_empty is_polygon (outdoor_rect w h)) as [x|e] eqn:E; cbn [fst snd o_width o_height].
      + split.
        * intros Hw Hh. cbn [o_width o_height o_domain o_spawns] in *. rewrite outdoor_checked in E by assumption. injection E as <-.
          split; [right; reflexivity|]. exact (proj2 (I Hw Hh)).
        * repeat split. intros Hw Hh. rewrite outdoor_checked in E by assumption. injection E as <-. reflexivity.
      + repeat split.
        * cbn [o_width o_height] in *. rewrite outdoor_checked in E by assumption. discriminate.
        * cbn [o_width o_height] in *. rewrite outdoor_checked in E by assumption. discriminate.
        * intros Hw Hh. rewrite outdoor_checked in E by assumption. discriminate.
  Qed.
  Lemma read_spawns_inv : forall f, outdoor_inv f -> outdoor_inv (fst (read_spawns is_valid is_empty is_polygon f)) /\
    o_width (fst (read_spawns is_valid is_empty is_polygon f)) = o_width f /\
    o_height (fst (read_spawns is_valid is_empty is_polygon f)) = o_height f /\
    (0 < o_width f -> 0 < o_height f ->
      snd (read_spawns is_valid is_empty is_polygon f) = Ok [outdoor_rect (o_width f) (o_height f)]).
  Proof.
    intros f I. pose proof (read_domain_inv f I) as D. unfold read_spawns.
    destruct (o_spawns f) as [l|] eqn:S.
    - cbn [fst snd]. split; [exact I|]. split; [reflexivity|]. split; [reflexivity|].
      intros Hw Hh. destruct (I Hw Hh) as (_ & [A|A]); congruence.
    - destruct (read_domain is_valid is_empty is_polygon f) as [g r]. cbn [fst snd] in D. destruct D as (Ig & W & H & R).
      destruct r as [d|e]; cbn [fst snd o_width o_height].
      + split.
        * intros Hw Hh. cbn [o_width o_height o_domain o_spawns] in *. split; [exact (proj1 (Ig Hw Hh))|].
          right. rewrite W, H in *. pose proof (R Hw Hh) as E. injection E as ->. reflexivity.
        * split; [exact W|]. split; [exact H|]. intros Hw Hh. pose proof (R Hw Hh) as E. injection E as ->. reflexivity.
      + split; [exact Ig|]. split; [exact W|]. split; [exact H|]. intros Hw Hh. pose proof (R Hw Hh). discriminate.
  Qed.
  Lemma outdoor_do_inv : forall f o, outdoor_inv f -> outdoor_inv (outdoor_do is_valid is_empty is_polygon f o).
  Proof.
    intros f o I. destruct o as [w|h| |]; cbn [outdoor_do].
    - unfold set_width. destruct (float_trait 0 None w) as [x|e] eqn:E; [|exact I].
      destruct (Reqb x (o_width f)) eqn:Q; [|apply outdoor_observer_inv]. apply Reqb_true in Q. cbn [fst]. rewrite Q.
      destruct f; exact I.
    - unfold set_height. destruct (float_trait 0 None h) as [x|e] eqn:E; [|exact I].
      destruct (Reqb x (o_height f)) eqn:Q; [|apply outdoor_observer_inv]. apply Reqb_true in Q. cbn [fst]. rewrite Q.
      destruct f; exact I.
    - apply read_domain_inv. exact I.
    - apply read_spawns_inv. exact I.
  Qed.
  Lemma outdoor_new_inv : forall w h f, outdoor_new is_valid is_empty is_polygon w h = Ok f -> outdoor_inv f.
  Proof.
    intros w h f. unfold outdoor_new. destruct (float_trait 0 None w) as [x|e]; cbn [rbind]; [|discriminate].
    destruct (float_trait 0 None h) as [y|e]; cbn [rbind]; [|discriminate].
    destruct (Reqb x 10 && Reqb y 10).
    - intros E. injection E as <-. intros _ _. cbn. auto.
    - pose proof (outdoor_observer_inv (Outdoor x y None None)) as (I & _).
      destruct (outdoor_observer is_valid is_empty is_polygon (Outdoor x y None None)) as [g [u|e]]; cbn [rbind fst] in *; [|discriminate].
      intros E. injection E as <-. exact I.
  Qed.
  Lemma outdoor_after_inv : forall ops f, outdoor_inv f -> outdoor_inv (outdoor_after is_valid is_empty is_polygon ops f).
  Proof.
    induction ops as [|o ops IH]; intros f I; [exact I|]. unfold outdoor_after. cbn [fold_left].
    apply (IH (outdoor_do is_valid is_empty is_polygon f o)). apply outdoor_do_inv. exact I.
  Qed.
  (** A positive size is always taken. *)
  Lemma set_width_ok : forall w f, 0 < w -> 0 < o_height f ->
    snd (set_width is_valid is_empty is_polygon w f) = Ok tt /\ o_width (fst (set_width is_valid is_empty is_polygon w f)) = w /\
    o_height (fst (set_width is_valid is_empty is_polygon w f)) = o_height f.
  Proof.
    intros w f Hw Hh. unfold set_width. rewrite float_trait_ok by lra.
    destruct (Reqb w (o_width f)) eqn:Q; [cbn; auto|]. unfold outdoor_observer. cbn [o_width o_height].
    rewrite outdoor_checked by assumption. cbn. auto.
  Qed.
  Lemma set_height_ok : forall h f, 0 < h -> 0 < o_width f ->
    snd (set_height is_valid is_empty is_polygon h f) = Ok tt /\ o_height (fst (set_height is_valid is_empty is_polygon h f)) = h /\
    o_width (fst (set_height is_valid is_empty is_polygon h f)) = o_width f.
  Proof.
    intros h f Hh Hw. unfold set_height. rewrite float_trait_ok by lra.
    destruct (Reqb h (o_height f)) eqn:Q; [cbn; auto|]. unfold outdoor_observer. cbn [o_width o_height].
    rewrite outdoor_checked by assumption. cbn. auto.
  Qed.
  Lemma outdoor_new_ok : forall w h, 0 < w -> 0 < h -> exists f, outdoor_new is_valid is_empty is_polygon w h = Ok f /\
    o_width f = w /\ o_height f = h.
  Proof.
    intros w h Hw Hh. unfold outdoor_new. rewrite !float_trait_ok by lra. cbn [rbind].
    destruct (Reqb w 10 && Reqb h 10); [eexists; split; [reflexivity|auto]|].
    unfold outdoor_observer. cbn [o_width o_height]. rewrite outdoor_checked by assumption. cbn [rbind].
    eexists; split; [reflexivity|auto].
  Qed.
  (** A refused size stays. *)
  Lemma set_width_zero : forall f, 0 < o_width f -> 0 < o_height f -> outdoor_inv f ->
    (exists e, snd (set_width is_valid is_empty is_polygon 0 f) = Err e) /\
    fst (set_width is_valid is_empty is_polygon 0 f) = Outdoor 0 (o_height f) (o_domain f) (o_spawns f).
  Proof.
    intros f Hw Hh I. unfold set_width. rewrite float_trait_ok by lra.
    assert (Q : Reqb 0 (o_width f) = false) by (apply Reqb_false; lra). rewrite Q.
    assert (E : exists e, checked_domain is_valid is_empty is_polygon (outdoor_rect 0 (o_height f)) = Err e).
    { unfold checked_domain, set_domain, outdoor_rect. rewrite (polygons _ _ _ HP). unfold assign_domain, validated.
      assert (Z : shoelace_area [V 0 0; V 0 (o_height f); V 0 (o_height f); V 0 0] = 0).
      { unfold shoelace_area. replace (signed2 _) with 0 by (cbn [signed2 app path_sum]; unfold outer; cbn [vx vy]; ring). rewrite Rabs_R0. lra. }
      rewrite (flat_invalid _ _ _ HP _ _ _ _ Z). cbn. eexists. reflexivity. }
    destruct E as (e & E). unfold outdoor_observer. cbn [o_width o_height]. rewrite E. cbn. split; [eexists; reflexivity|reflexivity].
  Qed.

  (** *** HallwayField *)
  Section Hallway.
    Variables w h r : R.
    Hypotheses (Hw : 0 < w) (Hh : 0 < h) (Hr : 0 < r <= 1).
    Definition hallway_dom : shape :=
      SHull (SJoin (SJoin (SJoin SNothing (hallway_walls w h))
                          (SJoin (SLine [V 0 0; V 0 h]) (SLine [V w 0; V w h])))
                   (SJoin (rectangle 0 0 (r * w) h) (rectangle ((1 - r) * w) 0 (r * w) h))).
    Definition hallway_shapes : field shape :=
      Field (Some hallway_dom) (Some (hallway_walls w h)) (hallway_targets w h) (hallway_spawns w h r).

    Lemma hallway_rw : 0 < r * w <= w. Proof. nra. Qed.
    Lemma hallway_obs : forall p, region (hallway_walls w h) p <-> (vy p = 0 /\ 0 <= vx p <= w) \/ (vy p = h /\ 0 <= vx p <= w).
    Proof using Hw. clear Hh Hr. intros p. unfold hallway_walls. cbn [region on_line]. rewrite !seg_h by lra. tauto. Qed.
    Lemma hallway_tar : forall p, on_target hallway_shapes p <-> (vx p = 0 /\ 0 <= vy p <= h) \/ (vx p = w /\ 0 <= vy p <= h).
    Proof.
      intros p. unfold hallway_shapes, hallway_targets. rewrite on_target_2. cbn [region on_line]. rewrite !seg_v by lra. tauto.
    Qed.
    Lemma hallway_spawn0 : forall p, region (rectangle 0 0 (r * w) h) p <-> rect 0 (r * w) 0 h p.
    Proof.
      pose proof hallway_rw. intros p. unfold rectangle. rewrite poly_region by lra. rewrite !Rplus_0_l. tauto.
    Qed.
    Lemma hallway_spawn1 : forall p, region (rectangle ((1 - r) * w) 0 (r * w) h) p <-> rect ((1 - r) * w) w 0 h p.
    Proof.
      pose proof hallway_rw. intros p. unfold rectangle. rewrite poly_region by nra. rewrite !Rplus_0_l.
      replace ((1 - r) * w + r * w) with w by ring. tauto.
    Qed.
    Lemma hallway_rect : forall p, region hallway_dom p <-> rect 0 w 0 h p.
    Proof.
      pose proof hallway_rw as Hrw. intros p. unfold hallway_dom.
      set (S := SJoin (SJoin (SJoin SNothing (hallway_walls w h)) (SJoin (SLine [V 0 0; V 0 h]) (SLine [V w 0; V w h])))
                   (SJoin (rectangle 0 0 (r * w) h) (rectangle ((1 - r) * w) 0 (r * w) h))).
      change (region (SHull S) p) with (hull_of (region S) p).
      assert (Hin : forall q, (vy q = 0 /\ 0 <= vx q <= w) \/ (vy q = h /\ 0 <= vx q <= w) -> region S q).
      { intros q Hq. left. left. right. apply hallway_obs. exact Hq. }
      apply rect_hull; try lra.
      1-4: apply hull_has; apply Hin; cbn; lra.
      intros q [[[[]|Hq]|Hq]|[Hq|Hq]].
      - apply hallway_obs in Hq. unfold rect. lra.
      - assert (T : on_target hallway_shapes q) by (apply on_target_2; exact Hq). apply hallway_tar in T. unfold rect. lra.
      - pose proof (proj1 (hallway_spawn0 q) Hq). unfold rect in *. lra.
      - pose proof (proj1 (hallway_spawn1 q) Hq). unfold rect in *. nra.
    Qed.
    Lemma hallway_hull_ok : forall x d, hallway_hull is_valid is_empty is_polygon
        (Hallway w h x (Some (hallway_walls w h)) (Some (hallway_targets w h)) (Some (hallway_spawns w h r)) d) = Ok hallway_dom.
    Proof.
      pose proof hallway_rw as Hrw. intros x d. unfold hallway_hull. cbn [h_obstacles h_targets h_spawns some_list].
      unfold hallway_targets, hallway_spawns.
      rewrite (field_hull_all _ _ _ HP _ (hallway_walls w h) (V 0 0)) by (apply hallway_obs; cbn; lra).
      cbn [rbind fold_left]. fold hallway_dom. unfold checked_domain.
      rewrite (set_domain_ok _ _ _ HP hallway_dom (V 0 0)).
      - reflexivity.
      - unfold hallway_dom. cbn [sound]. unfold hallway_walls. cbn [sound].
        repeat split; try (apply (sound_line _ _ _); intros E; injection E; lra).
        + unfold rectangle. apply sound_rect; lra.
        + unfold rectangle. apply sound_rect; nra.
      - apply hallway_rect. unfold rect; cbn; lra.
      - assert (Hin : forall q, (vy q = 0 /\ 0 <= vx q <= w) \/ (vy q = h /\ 0 <= vx q <= w) ->
          region (SJoin (SJoin (SJoin SNothing (hallway_walls w h)) (SJoin (SLine [V 0 0; V 0 h]) (SLine [V w 0; V w h])))
                   (SJoin (rectangle 0 0 (r * w) h) (rectangle ((1 - r) * w) 0 (r * w) h))) q).
        { intros q Hq. left. left. right. apply hallway_obs. exact Hq. }
        apply (hull_polygon _ _ _ HP _ (V 0 0) (V w 0) (V 0 h)); try (apply Hin; cbn; lra).
        unfold outer. cbn. nra.
    Qed.
    Lemma hallway_contains : contains_all hallway_shapes.
    Proof.
      pose proof hallway_rw as Hrw.
      intros p H. unfold hallway_shapes. rewrite in_domain_iff, hallway_rect. destruct H as [H|[H|H]].
      - unfold hallway_shapes in H. rewrite on_obstacle_iff, hallway_obs in H. unfold rect. lra.
      - apply hallway_tar in H. unfold rect. lra.
      - unfold hallway_shapes, hallway_spawns in H. rewrite in_spawn_2, hallway_spawn0, hallway_spawn1 in H. unfold rect in *. nra.
    Qed.
    Lemma hallway_left : left_through_targets_only hallway_shapes.
    Proof.
      apply (left_by_ring _ 0 w 0 h).
      - intros p. unfold hallway_shapes. rewrite in_domain_iff. apply hallway_rect.
      - intros p Hp. rewrite hallway_tar. unfold hallway_shapes. rewrite on_obstacle_iff, hallway_obs. unfold ring, rect in Hp. lra.
    Qed.
    Lemma hallway_open : targets_open hallway_shapes [V 0 0; V 0 h; V w 0; V w h].
    Proof.
      intros [x y] T O. apply hallway_tar in T. unfold hallway_shapes in O. rewrite on_obstacle_iff, hallway_obs in O. cbn [vx vy] in *.
      destruct T as [(-> & T)|(-> & T)]; destruct O as [(-> & O)|(-> & O)]; cbn; tauto.
    Qed.
    Lemma hallway_reach : targets_reachable hallway_shapes.
    Proof.
      intros p q Sp Np Tq Nq. assert (Dp : in_domain hallway_shapes p) by (apply hallway_contains; auto).
      unfold hallway_shapes in Np, Nq, Dp. rewrite on_obstacle_iff, hallway_obs in Np, Nq. rewrite in_domain_iff, hallway_rect in Dp.
      apply hallway_tar in Tq. unfold rect in Dp.
      assert (Yp : 0 < vy p < h) by lra. assert (Yq : 0 < vy q < h) by lra.
      apply Go with q.
      - intros x (t & Ht & ->). unfold hallway_shapes. rewrite on_obstacle_iff, hallway_obs. unfold along. cbn [vx vy].
        pose proof (mix_lt 0 (vy p) (vy q) t Ht (proj1 Yp) (proj1 Yq)).
        pose proof (mix_gt h (vy p) (vy q) t Ht (proj2 Yp) (proj2 Yq)). lra.
      - apply Stay. unfold hallway_shapes. rewrite on_obstacle_iff, hallway_obs. exact Nq.
    Qed.
    Lemma hallway_apart : r < 1/2 <-> (forall p s t, hallway_spawns w h r = [s; t] -> region s p -> region t p -> False).
    Proof.
      split.
      - intros L p s t E. injection E as <- <-. intros A B.
        pose proof (proj1 (hallway_spawn0 p) A) as A'. pose proof (proj1 (hallway_spawn1 p) B) as B'. unfold rect in *. nra.
      - intros N. apply Rnot_le_lt. intros L.
        apply (N (V (w / 2) 0) (rectangle 0 0 (r * w) h) (rectangle ((1 - r) * w) 0 (r * w) h)); [reflexivity| |].
        + apply hallway_spawn0. unfold rect; cbn. nra.
        + apply hallway_spawn1. unfold rect; cbn. nra.
    Qed.
  End Hallway.

  Definition is_or {A} (x : option A) (a : A) : Prop := x = None \/ x = Some a.
  Definition hallway_inv (f : hallway) : Prop :=
    h_ratio f <= 1 /\
    (0 < h_width f -> 0 < h_height f -> 0 < h_ratio f ->
     is_or (h_obstacles f) (hallway_walls (h_width f) (h_height f)) /\
     is_or (h_targets f) (hallway_targets (h_width f) (h_height f)) /\
     is_or (h_spawns f) (hallway_spawns (h_width f) (h_height f) (h_ratio f)) /\
     is_or (h_domain f) (hallway_dom (h_width f) (h_height f) (h_ratio f))).
  Lemma is_or_fill : forall {A} (x : option A) (a : A), is_or x a -> Some (match x with Some o => o | None => a end) = Some a.
  Proof. intros A x a [->| ->]; reflexivity. Qed.
  Lemma hallway_fill_full : forall f, hallway_inv f -> 0 < h_width f -> 0 < h_height f -> 0 < h_ratio f ->
    hallway_fill f = Hallway (h_width f) (h_height f) (h_ratio f) (Some (hallway_walls (h_width f) (h_height f)))
      (Some (hallway_targets (h_width f) (h_height f))) (Some (hallway_spawns (h_width f) (h_height f) (h_ratio f))) (h_domain f).
  Proof.
    intros f (_ & I) Hw Hh Hr. destruct (I Hw Hh Hr) as (A & B & C & _). unfold hallway_fill.
    rewrite (is_or_fill _ _ A), (is_or_fill _ _ B), (is_or_fill _ _ C). reflexivity.
  Qed.
  Lemma hallway_fill_inv : forall f, hallway_inv f -> hallway_inv (hallway_fill f).
  Proof.
    intros f I. split; [exact (proj1 I)|]. intros Hw Hh Hr. cbn [hallway_fill h_width h_height h_ratio] in Hw, Hh, Hr.
    rewrite hallway_fill_full by assumption. cbn [h_width h_height h_ratio h_obstacles h_targets h_spawns h_domain]. unfold is_or.
    pose proof (proj2 I Hw Hh Hr) as (_ & _ & _ & D). auto.
  Qed.
  Lemma hallway_read_inv : forall f, hallway_inv f -> hallway_inv (fst (hallway_read_domain is_valid is_empty is_polygon f)) /\
    (0 < h_width f -> 0 < h_height f -> 0 < h_ratio f ->
     snd (hallway_read_domain is_valid is_empty is_polygon f) = Ok (hallway_dom (h_width f) (h_height f) (h_ratio f))).
  Proof.
    intros f I. unfold hallway_read_domain. destruct (h_domain f) as [d|] eqn:D.
    - split; [exact I|]. intros Hw Hh Hr. destruct (proj2 I Hw Hh Hr) as (_ & _ & _ & [E|E]); cbn [snd]; congruence.
    - assert (Full : 0 < h_width f -> 0 < h_height f -> 0 < h_ratio f ->
        hallway_hull is_valid is_empty is_polygon (hallway_fill f) = Ok (hallway_dom (h_width f) (h_height f) (h_ratio f))).
      { intros Hw Hh Hr. rewrite hallway_fill_full by assumption. apply hallway_hull_ok; try assumption.
        pose proof (proj1 I). lra. }
      pose proof (hallway_fill_inv f I) as J. cbv zeta.
      destruct (hallway_hull is_valid is_empty is_polygon (hallway_fill f)) as [d|e]; cbn [fst snd].
      + split.
        * split; [exact (proj1 I)|]. cbn [h_width h_height h_ratio h_obstacles h_targets h_spawns h_domain hallway_fill].
          intros Hw Hh Hr. pose proof (proj2 J) as K. cbn [h_width h_height h_ratio h_obstacles h_targets h_spawns h_domain hallway_fill] in K.
          destruct (K Hw Hh Hr) as (A & B & C & _). pose proof (Full Hw Hh Hr) as E. injection E as ->.
          split; [exact A|]. split; [exact B|]. split; [exact C|]. right. reflexivity.
        * intros Hw Hh Hr. apply Full; assumption.
      + split; [exact J|]. intros Hw Hh Hr. pose proof (Full Hw Hh Hr). discriminate.
  Qed.
  Lemma hallway_observer_inv : forall f, h_ratio f <= 1 -> hallway_inv (fst (hallway_observer is_valid is_empty is_polygon f)) /\
    (0 < h_width f -> 0 < h_height f -> 0 < h_ratio f -> snd (hallway_observer is_valid is_empty is_polygon f) = Ok tt).
  Proof.
    intros f L. unfold hallway_observer.
    assert (So : 0 < h_width f -> 0 < h_height f ->
      set_obstacles is_valid is_empty (hallway_walls (h_width f) (h_height f)) bare =
      Ok (Field None (Some (hallway_walls (h_width f) (h_height f))) [] [])).
    { intros Hw Hh. rewrite (set_obstacles_ok _ _ _ HP _ (V 0 0)).
      - reflexivity.
      - unfold hallway_walls. cbn [sound]. split; apply (sound_line _ _ _); intros E; injection E; lra.
      - apply hallway_obs; cbn; lra. }
    destruct (set_obstacles is_valid is_empty (hallway_walls (h_width f) (h_height f)) bare) as [g|e]; cbv zeta.
    - set (f' := Hallway _ _ _ _ _ _ _).
      assert (Full : 0 < h_width f -> 0 < h_height f -> 0 < h_ratio f ->
        hallway_hull is_valid is_empty is_polygon f' = Ok (hallway_dom (h_width f) (h_height f) (h_ratio f))).
      { intros Hw Hh Hr. apply hallway_hull_ok; try assumption. lra. }
      destruct (hallway_hull is_valid is_empty is_polygon f') as [d|e]; cbn [fst snd].
      + split; [|reflexivity]. split; [exact L|].
        cbn [f' h_width h_height h_ratio h_obstacles h_targets h_spawns h_domain]. intros Hw Hh Hr.
        pose proof (Full Hw Hh Hr) as E. injection E as ->. unfold is_or. auto.
      + split; [|intros Hw Hh Hr; pose proof (Full Hw Hh Hr); discriminate]. split; [exact L|].
        intros Hw Hh Hr. cbn [f' h_width h_height h_ratio] in Hw, Hh, Hr. pose proof (Full Hw Hh Hr). discriminate.
    - cbn [fst snd]. split.
      + split; [exact L|]. intros Hw Hh Hr. pose proof (So Hw Hh). discriminate.
      + intros Hw Hh Hr. pose proof (So Hw Hh). discriminate.
  Qed.
  Lemma hallway_set_inv : forall w h r f, r <= 1 -> hallway_inv f ->
    hallway_inv (fst (hallway_set is_valid is_empty is_polygon w h r f)).
  Proof.
    intros w h r f L I. unfold hallway_set.
    destruct (Reqb w (h_width f) && Reqb h (h_height f) && Reqb r (h_ratio f)) eqn:Q.
    - apply andb_prop in Q. destruct Q as (Q & Qr). apply andb_prop in Q. destruct Q as (Qw & Qh).
      apply Reqb_true in Qr. apply Reqb_true in Qh. apply Reqb_true in Qw. cbn [fst]. subst. destruct f; exact I.
    - apply hallway_observer_inv. exact L.
  Qed.
  Lemma float_trait_le : forall lo m x y, float_trait lo (Some m) x = Ok y -> y <= m.
  Proof.
    intros lo m x y. unfold float_trait. rcase; [discriminate|]. rcase; [discriminate|]. intros E. injection E as <-. lra.
  Qed.
  Lemma hallway_do_inv : forall f o, hallway_inv f -> hallway_inv (hallway_do is_valid is_empty is_polygon f o).
  Proof.
    intros f o I. destruct o as [w|h|r| |]; cbn [hallway_do].
    - destruct (float_trait 0 None w); [|exact I]. apply hallway_set_inv; [exact (proj1 I)|exact I].
    - destruct (float_trait 0 None h); [|exact I]. apply hallway_set_inv; [exact (proj1 I)|exact I].
    - destruct (float_trait 0 (Some 1) r) eqn:E; [|exact I]. apply hallway_set_inv; [apply float_trait_le in E; exact E|exact I].
    - apply hallway_fill_inv. exact I.
    - apply hallway_read_inv. exact I.
  Qed.
  Lemma hallway_after_inv : forall ops f, hallway_inv f -> hallway_inv (hallway_after is_valid is_empty is_polygon ops f).
  Proof.
    induction ops as [|o ops IH]; intros f I; [exact I|]. unfold hallway_after. cbn [fold_left].
    apply (IH (hallway_do is_valid is_empty is_polygon f o)). apply hallway_do_inv. exact I.
  Qed.
  Lemma hallway_fresh_inv : hallway_inv (Hallway 10 10 (1/3) None None None None).
  Proof. split; [cbn; lra|]. intros _ _ _. unfold is_or. cbn. auto. Qed.
  Lemma hallway_new_inv : forall w h r f, hallway_new is_valid is_empty is_polygon w h r = Ok f -> hallway_inv f.
  Proof.
    intros w h r f. unfold hallway_new. destruct (float_trait 0 None w) as [x|]; cbn [rbind]; [|discriminate].
    destruct (float_trait 0 None h) as [y|]; cbn [rbind]; [|discriminate].
    destruct (float_trait 0 (Some 1) r) as [z|] eqn:E; cbn [rbind]; [|discriminate].
    pose proof (hallway_set_inv x y z _ (float_trait_le _ _ _ _ E) hallway_fresh_inv) as J.
    destruct (hallway_set is_valid is_empty is_polygon x y z (Hallway 10 10 (1 / 3) None None None None)) as [g [u|e]];
      cbn [rbind fst] in *; [|discriminate].
    intros Q. injection Q as <-. exact J.
  Qed.
  Lemma hallway_field_full : forall f, hallway_inv f -> 0 < h_width f -> 0 < h_height f -> 0 < h_ratio f ->
    hallway_field is_valid is_empty is_polygon f = Ok (hallway_shapes (h_width f) (h_height f) (h_ratio f)).
  Proof.
    intros f I Hw Hh Hr. unfold hallway_field. cbv zeta.
    pose proof (hallway_read_inv (hallway_fill f) (hallway_fill_inv f I)) as (J & K).
    specialize (K Hw Hh Hr). rewrite hallway_fill_full in * by assumption.
    cbn [h_width h_height h_ratio] in K. unfold hallway_read_domain in *.
    cbn [h_domain] in *. destruct (h_domain f) as [d|] eqn:D.
    - cbn [snd] in K. injection K as ->. cbn [rbind h_obstacles h_targets h_spawns some_list]. reflexivity.
    - cbv zeta in *. cbn [hallway_fill h_width h_height h_ratio h_obstacles h_targets h_spawns h_domain] in *.
      destruct (hallway_hull is_valid is_empty is_polygon _) as [d|e]; cbn [fst snd] in K; [|discriminate].
      injection K as ->. cbn [rbind h_obstacles h_targets h_spawns some_list]. reflexivity.
  Qed.
End Histories.
