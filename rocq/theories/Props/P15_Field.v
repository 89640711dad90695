(** * Properties C60, C61, C88, C89: fields *)
From Coq Require Import Lra Lia String.
From Verif Require Import Model.Field Spec.Regions Spec.Fields Proofs.FieldProofs Proofs.VecLemmas Proofs.SamplingProofs.
Open Scope R_scope.

(** C60: whatever happened to other fields, and however often this one was asked, the
    answer is the one a program gets that never asked anything before, as long as the
    field is not changed any more after it was first asked. Missing: changes after the
    first question, and targets given as floats; both are refuted below. *)
Theorem C60_answers_current_partial :
  forall G join bounds solve_path solve_obstacles fs h1 h2 o q,
  (forall q, ~ In (Ask G o q) h1) -> (forall f, ~ In (Assign G o f) h2) -> whole_query q ->
  let ask := ask G join bounds solve_path solve_obstacles in
  let w := after G join bounds solve_path solve_obstacles (h1 ++ h2) (unasked G fs) in
  snd (ask w o q) = snd (ask (unasked G (fields G w)) o q).
Proof. intros. now apply answers_for_now. Qed.
Print Assumptions C60_answers_current_partial.

(** Questions change no field. *)
Theorem C60_questions_change_nothing :
  forall G join bounds solve_path solve_obstacles w o q,
  fields G (fst (ask G join bounds solve_path solve_obstacles w o q)) = fields G w.
Proof. exact ask_keeps_fields. Qed.
Print Assumptions C60_questions_change_nothing.

(** Asked again after any assignment to the field, a question that had an answer gets the
    old answer again: the change is not seen. *)
Theorem C60_stale_refuted :
  forall G join bounds solve_path solve_obstacles w o q w' a f,
  let ask := ask G join bounds solve_path solve_obstacles in
  ask w o q = (w', Ok a) ->
  snd (ask (assign G w' o f) o q) = Ok a.
Proof. intros. eapply answers_again; eauto. Qed.
Print Assumptions C60_stale_refuted.

(** A target given as a float is refused, unless the same integer was asked before. *)
Theorem C60_float_target_refuted :
  forall G join bounds solve_path solve_obstacles w o z s r w' a,
  let ask := ask G join bounds solve_path solve_obstacles in
  ask w o (QPath s (Int z) r) = (w', Ok a) ->
  snd (ask w' o (QPath s (Float (IZR z)) r)) = Ok a /\
  snd (ask (unasked G (fields G w')) o (QPath s (Float (IZR z)) r)) = Err InvalidType.
Proof. intros. split; [eapply float_answers; eauto|apply float_invalid]. Qed.
Print Assumptions C60_float_target_refuted.

(** Which target a question is about, in a program that asked nothing before: the one with
    the number, counted from the end when it is negative, or all of them together for
    'closest'; other numbers and words are refused. *)
Theorem C60_asked_target :
  forall G join bounds solve_path solve_obstacles fs o d ob s r m,
  f_domain (fs o) = Some d -> f_obstacles (fs o) = Some ob ->
  (let '(a, b, c, e) := bounds d in meshgrid s a b c e) = Ok m ->
  let asked i := snd (ask G join bounds solve_path solve_obstacles (unasked G fs) o (QPath s i r)) in
  let solved t := do v <- solve_path m (Some d) t ob r; Ok (APath v) in
  let n := Z.of_nat (List.length (f_targets (fs o))) in
  (forall i t, nth_error (f_targets (fs o)) i = Some t ->
    asked (Int (Z.of_nat i)) = solved t /\ asked (Int (Z.of_nat i - n)) = solved t) /\
  (forall z, (z < - n \/ n <= z)%Z -> asked (Int z) = Err IndexError) /\
  (forall t ts, f_targets (fs o) = t :: ts -> asked (Word "closest") = solved (fold_left join ts t)) /\
  (forall w, w <> "closest"%string -> asked (Word w) = Err InvalidType).
Proof.
  intros G join bounds solve_path solve_obstacles fs o d ob s r m D O M asked solved n.
  unfold asked. repeat split.
  - rewrite (fresh_path_any _ _ _ _ _ _ _ d ob _ _ _ m) by (try assumption; exact I). cbn [chosen_targets].
    rewrite (list_get_nat _ _ t H). reflexivity.
  - rewrite (fresh_path_any _ _ _ _ _ _ _ d ob _ _ _ m) by (try assumption; exact I). cbn [chosen_targets].
    unfold n. rewrite (list_get_back _ _ t H). reflexivity.
  - intros z Hz. rewrite (fresh_path_any _ _ _ _ _ _ _ d ob _ _ _ m) by (try assumption; exact I). cbn [chosen_targets].
    rewrite list_get_out by exact Hz. reflexivity.
  - intros t ts E. rewrite (fresh_path_any _ _ _ _ _ _ _ d ob _ _ _ m) by (try assumption; exact I). cbn [chosen_targets].
    rewrite E. reflexivity.
  - intros w N. rewrite (fresh_path_any _ _ _ _ _ _ _ d ob _ _ _ m) by (try assumption; exact I). cbn [chosen_targets].
    rewrite (proj2 (String.eqb_neq w "closest") N). reflexivity.
Qed.
Print Assumptions C60_asked_target.

(** Boxes as geometries; the solvers give a map that is the same everywhere. *)
Definition box : Type := (R * R * R * R)%type.
Definition flat (m : mesh) : maps :=
  (Grid (m_rows m) (m_cols m) (fun _ _ => Some (V 1 0)), Grid (m_rows m) (m_cols m) (fun _ _ => 1)).
Definition box_ask := ask box (fun a _ => a) (fun b => b) (fun m _ _ _ _ => Ok (flat m)) (fun m _ => Ok (flat m)).
Definition box_after := after box (fun a _ => a) (fun b => b) (fun m _ _ _ _ => Ok (flat m)) (fun m _ => Ok (flat m)).
Definition hall (len : R) : field box := Field (Some (0, 0, len, 5)) (Some (2, 2, 3, 3)) [(0, 0, 0, 5); (len, 0, len, 5)] [].
Example C60_current_ex :
  (forall q, ~ In (Ask box 1%nat q) [Ask box 0%nat (QMesh 1); Assign box 1%nat (hall 10)]) /\
  (forall f, ~ In (Assign box 1%nat f) [Ask box 1%nat (QNavigation (Int (-1)) 1 1 (1/2)); Assign box 0%nat (hall 3)]) /\
  whole_query (QPath 1 (Int (-1)) 1) /\
  exists a, snd (box_ask (box_after ([Ask box 0%nat (QMesh 1); Assign box 1%nat (hall 10)] ++
      [Ask box 1%nat (QNavigation (Int (-1)) 1 1 (1/2)); Assign box 0%nat (hall 3)]) (unasked box (fun _ => hall 7)))
    1%nat (QPath 1 (Int (-1)) 1)) = Ok a.
Proof.
  split; [|split; [|split]].
  - intros q [H|[H|[]]]; discriminate.
  - intros f [H|[H|[]]]; discriminate.
  - exact I.
  - unfold box_ask, box_after. rewrite answers_for_now.
    + eexists. eapply fresh_path with (f := hall 10) (z := (-1)%Z); try reflexivity.
      * unfold after, happen. cbn [app fold_left]. unfold assign at 1. cbn [fields Nat.eqb].
        rewrite ask_keeps_fields. reflexivity.
      * cbn. unfold meshgrid. rdec. reflexivity.
    + intros q [H|[H|[]]]; discriminate.
    + intros f [H|[H|[]]]; discriminate.
    + exact I.
Qed.
(** Making the hall longer after a question: the old grid comes again, a fresh program
    gets another one. *)
Example C60_stale_ex : exists w' m,
  box_ask (unasked box (fun _ => hall 10)) 0%nat (QMesh 1) = (w', Ok (AMesh m)) /\
  snd (box_ask (assign box w' 0%nat (hall 20)) 0%nat (QMesh 1)) = Ok (AMesh m) /\
  snd (box_ask (unasked box (fields box (assign box w' 0%nat (hall 20)))) 0%nat (QMesh 1)) <> Ok (AMesh m).
Proof.
  destruct (box_ask (unasked box (fun _ => hall 10)) 0%nat (QMesh 1)) as [w' r] eqn:E.
  assert (R : r = Ok (AMesh (Mesh 1 0 0 10 5))).
  { apply (f_equal snd) in E. cbn [snd] in E. rewrite <- E. cbn. unfold meshgrid. rdec. reflexivity. }
  exists w', (Mesh 1 0 0 10 5). subst r. split; auto. split.
  - eapply C60_stale_refuted; eauto.
  - cbn. unfold meshgrid. rdec. cbn. intros [= H]. lra.
Qed.
Example C60_float_ex : exists w' a,
  box_ask (unasked box (fun _ => hall 10)) 0%nat (QPath 1 (Int 1) 1) = (w', Ok a).
Proof.
  destruct (box_ask (unasked box (fun _ => hall 10)) 0%nat (QPath 1 (Int 1) 1)) as [w' [a|e]] eqn:E; eauto.
  exfalso. apply (f_equal snd) in E. unfold box_ask in E.
  erewrite fresh_path in E; [discriminate|reflexivity|reflexivity|reflexivity|reflexivity| |reflexivity].
  cbn. unfold meshgrid. rdec. reflexivity.
Qed.

Example C60_asked_ex :
  f_domain (hall 10) = Some (0, 0, 10, 5) /\ meshgrid 1 0 0 10 5 = Ok (Mesh 1 0 0 10 5) /\
  nth_error (f_targets (hall 10)) 1 = Some (10, 0, 10, 5) /\ List.length (f_targets (hall 10)) = 2%nat.
Proof. repeat split. unfold meshgrid. rdec. reflexivity. Qed.

(** C61: with a convex spawn every sample is in the spawn, and when what the obstacles leave
    of it is convex, every sample keeps a distance of [radius] from them. Missing: spawns,
    or rests of spawns, that are not convex; refuted below. *)
Theorem C61_in_convex_spawn_partial :
  forall G region inside is_empty hull difference buffer ring delaunay (f : field G) i spawn radius x r1 r2 p,
  corners G region hull ring -> differs G region inside difference ->
  (forall g vs, ring (hull g) = Ok vs -> triangulation vs (delaunay vs)) ->
  0 <= x < 1 -> 0 <= r1 <= 1 -> 0 <= r2 <= 1 ->
  nth_error (f_spawns f) i = Some spawn -> convex_set (region spawn) ->
  sample_spawn G is_empty hull difference buffer ring delaunay f (Z.of_nat i) radius x r1 r2 = Ok p ->
  region spawn p.
Proof.
  intros G region inside is_empty hull difference buffer ring delaunay f i spawn radius x r1 r2 p
    Cn Df Tr X R1 R2 Sp Cv H.
  unfold sample_spawn in H. rewrite (list_get_nat _ _ _ Sp) in H. cbn [rbind] in H.
  apply (samples_in G region is_empty hull difference buffer ring delaunay Cn Tr
           _ _ _ _ _ _ _ (region spawn) H); auto.
  intros v. now apply (left_over_in G region inside).
Qed.
Print Assumptions C61_in_convex_spawn_partial.
Theorem C61_away_from_obstacles_partial :
  forall G region inside is_empty hull difference buffer ring delaunay (f : field G) i spawn obs radius x r1 r2 p,
  corners G region hull ring -> differs G region inside difference -> buffers G region inside buffer obs radius ->
  (forall g vs, ring (hull g) = Ok vs -> triangulation vs (delaunay vs)) ->
  0 <= x < 1 -> 0 <= r1 <= 1 -> 0 <= r2 <= 1 ->
  nth_error (f_spawns f) i = Some spawn -> f_obstacles f = Some obs -> is_empty obs = false ->
  convex_set (region (difference spawn (buffer obs radius))) ->
  sample_spawn G is_empty hull difference buffer ring delaunay f (Z.of_nat i) radius x r1 r2 = Ok p ->
  region spawn p /\ forall q, region obs q -> radius <= edist q p.
Proof.
  intros G region inside is_empty hull difference buffer ring delaunay f i spawn obs radius x r1 r2 p
    Cn Df Bf Tr X R1 R2 Sp Ob Em Cv H.
  unfold sample_spawn in H. rewrite (list_get_nat _ _ _ Sp) in H. cbn [rbind] in H.
  rewrite Ob in H.
  assert (P : region (difference spawn (buffer obs radius)) p).
  { apply (samples_in G region is_empty hull difference buffer ring delaunay Cn Tr
           _ _ _ _ _ _ _ (region (difference spawn (buffer obs radius))) H); auto.
    intros v. unfold left_over. now rewrite Em. }
  apply Df in P as (P1 & P2). split; auto.
  intros q Q. apply Rnot_lt_le. intros C. apply P2. now apply (Bf q p).
Qed.
Print Assumptions C61_away_from_obstacles_partial.

(** Every point inside a triangle of the triangulated hull can be drawn, whether or not the
    spawn has it or an obstacle covers it. *)
Theorem C61_hull_filled :
  forall G is_empty hull difference buffer ring delaunay (f : field G) i spawn obs radius vs mesh a b c p,
  nth_error (f_spawns f) i = Some spawn -> f_obstacles f = Some obs -> is_empty obs = false ->
  ring (hull (difference spawn (buffer obs radius))) = Ok vs ->
  mesh_of vs (delaunay vs) = Ok mesh -> NoDup mesh -> In (a, b, c) mesh ->
  (vx b - vx a) * (vy c - vy a) - (vy b - vy a) * (vx c - vx a) <> 0 ->
  inside_triangle a b c p ->
  exists x r1 r2, 0 < x < 1 /\ 0 < r1 < 1 /\ 0 < r2 < 1 /\
    sample_spawn G is_empty hull difference buffer ring delaunay f (Z.of_nat i) radius x r1 r2 = Ok p.
Proof.
  intros G is_empty hull difference buffer ring delaunay f i spawn obs radius vs mesh a b c p
    Sp Ob Em Rg M ND In D T.
  destruct (polygon_sample_onto vs _ mesh a b c p M ND In D T) as (x & r1 & r2 & X & R1 & R2 & E).
  exists x, r1, r2. repeat split; try lra. unfold sample_spawn. rewrite (list_get_nat _ _ _ Sp). cbn [rbind].
  rewrite Ob. unfold samples. rewrite Em, Rg. exact E.
Qed.
Print Assumptions C61_hull_filled.

(** A square spawn with a square pillar in its middle: some draws give a point in the
    pillar, although every operation on the shapes is right. *)
Inductive shape : Type := Square | Pillar | Around | Rest | Void.
Definition in_box (lo hi : R) (p : vec) : Prop := lo <= vx p <= hi /\ lo <= vy p <= hi.
Definition in_open_box (lo hi : R) (p : vec) : Prop := lo < vx p < hi /\ lo < vy p < hi.
Definition shape_region (s : shape) (p : vec) : Prop :=
  match s with
  | Square => in_box 0 6 p
  | Pillar => in_box 2 4 p
  | Around => in_box 1 5 p
  | Rest => in_box 0 6 p /\ ~ in_open_box 1 5 p
  | Void => False
  end.
Definition shape_inside (s : shape) (p : vec) : Prop :=
  match s with
  | Square => in_open_box 0 6 p
  | Pillar => in_open_box 2 4 p
  | Around => in_open_box 1 5 p
  | Rest => in_open_box 0 6 p /\ ~ in_box 1 5 p
  | Void => False
  end.
Definition shape_difference (a b : shape) : shape :=
  match a, b with Square, Around => Rest | _, _ => Void end.
Definition corners_of : list vec := [V 0 0; V 6 0; V 6 6; V 0 6; V 0 0].
Definition shape_ring (s : shape) : res (list vec) :=
  match s with Rest => Ok corners_of | Square => Ok corners_of | _ => Err AttributeError end.
Definition shape_buffer (s : shape) (r : R) : shape := Around.
Definition two_halves (vs : list vec) : list (nat * nat * nat) := [(0, 1, 2); (0, 2, 3)]%nat.
Definition shape_empty (s : shape) : bool := match s with Void => true | _ => false end.
Definition pillar_field : field shape := Field (Some Square) (Some Pillar) [] [Square].
Lemma shapes_right :
  corners shape shape_region (fun s => s) shape_ring /\
  differs shape shape_region shape_inside shape_difference /\
  tells_empty shape shape_region shape_empty /\
  (forall r, r <= 1 -> buffers shape shape_region shape_inside shape_buffer Pillar r) /\
  (forall g vs, shape_ring g = Ok vs -> triangulation vs (two_halves vs)).
Proof.
  split; [|split; [|split; [|split]]].
  - intros [] vs v H I; cbn in H; try discriminate; injection H as <-;
      cbn in I; cbn; unfold in_box, in_open_box;
      destruct I as [<-|[<-|[<-|[<-|[<-|[]]]]]]; cbn; lra.
  - intros [] [] p; cbn; tauto.
  - intros g. split; [now destruct g|]. intros H. destruct g; cbn; auto; exfalso;
      try (apply (H (V 3 3)); cbn; unfold in_box, in_open_box; cbn; lra);
      try (apply (H (V 0 0)); cbn; unfold in_box, in_open_box; cbn; lra).
  - intros r Hr p q P Q. cbn in *. unfold in_box, in_open_box in *.
    assert (D : (vx p - vx q) * (vx p - vx q) + (vy p - vy q) * (vy p - vy q) < 1).
    { pose proof (edist_square p q) as S. pose proof (edist_nonneg p q). rewrite <- S. nra. }
    assert (K : forall u v, u * u + v * v < 1 -> -1 < u < 1 /\ -1 < v < 1).
    { intros u v L. pose proof (Rle_0_sqr u). pose proof (Rle_0_sqr v). unfold Rsqr in *. repeat split; nra. }
    apply K in D. lra.
  - intros [] vs H; cbn in H; try discriminate; injection H as <-;
      (split; [discriminate|]; intros i j k [[= <- <- <-]|[[= <- <- <-]|[]]]; cbn; lia).
Qed.
Theorem C61_sample_in_obstacle_refuted :
  exists G region inside is_empty hull difference buffer ring delaunay (f : field G) spawn obs x r1 r2 p,
  (corners G region hull ring /\ differs G region inside difference /\ tells_empty G region is_empty /\
   buffers G region inside buffer obs (3/10) /\
   (forall g vs, ring (hull g) = Ok vs -> triangulation vs (delaunay vs))) /\
  f_spawns f = [spawn] /\ f_obstacles f = Some obs /\ convex_set (region spawn) /\
  0 <= x < 1 /\ 0 <= r1 <= 1 /\ 0 <= r2 <= 1 /\
  sample_spawn G is_empty hull difference buffer ring delaunay f 0 (3/10) x r1 r2 = Ok p /\
  inside obs p.
Proof.
  destruct shapes_right as (A & B & C & D & E).
  destruct (C61_hull_filled shape shape_empty (fun s => s) shape_difference shape_buffer shape_ring two_halves
    pillar_field 0 Square Pillar (3/10) corners_of [(V 0 0, V 6 0, V 6 6); (V 0 0, V 6 6, V 0 6)]
    (V 0 0) (V 6 0) (V 6 6) (V (7/2) (5/2))) as (x & r1 & r2 & X & R1 & R2 & S); try reflexivity.
  - constructor; [|constructor; [|constructor]]; [|intros []].
    intros [H|[]]. injection H as H1 H2. lra.
  - now left.
  - cbn. lra.
  - exists (5/12), (1/6), (5/12). repeat split; try lra. cbn. f_equal; lra.
  - exists shape, shape_region, shape_inside, shape_empty, (fun s => s), shape_difference, shape_buffer, shape_ring,
      two_halves, pillar_field, Square, Pillar, x, r1, r2, (V (7/2) (5/2)).
    split. { split; [exact A|]. split; [exact B|]. split; [exact C|]. split; [|exact E].
             apply D. lra. }
    split; [reflexivity|]. split; [reflexivity|]. split.
    { intros a b q (Ha1 & Ha2) (Hb1 & Hb2) (t & T & ->). cbn in *. unfold in_box. cbn. nra. }
    split; [lra|]. split; [lra|]. split; [lra|]. split; [exact S|]. cbn. unfold in_open_box. cbn. lra.
Qed.
Print Assumptions C61_sample_in_obstacle_refuted.
(** The hypotheses of the two theorems on convex sets are met: the square is convex; and what
    a wall through the lower half of it leaves is convex. *)
Example C61_convex_ex :
  convex_set (shape_region Square) /\ nth_error (f_spawns pillar_field) 0 = Some Square /\
  exists p, sample_spawn shape shape_empty (fun s => s) shape_difference shape_buffer shape_ring two_halves
    pillar_field 0 (3/10) (1/4) (1/4) (1/2) = Ok p.
Proof.
  split; [|split; [reflexivity|]].
  - intros a b q (Ha1 & Ha2) (Hb1 & Hb2) (t & T & ->). cbn in *. unfold in_box. cbn. nra.
  - unfold sample_spawn. rewrite (list_get_nat (f_spawns pillar_field) 0 Square eq_refl : list_get _ 0 = _).
    cbn [rbind].
    eapply (samples_succeed shape shape_empty (fun s => s) shape_difference shape_buffer shape_ring two_halves);
      [|reflexivity|lra|lra|lra].
    intros g vs H. now apply shapes_right in H.
Qed.
(** Shapes are half planes cut off the square: [Some h] is the part of the square with [vy >= h],
    [None] is the wall [vy <= 1], as wide as the square. *)
Inductive wall_shape : Type := Room | Wall | Wide (r : R) | Part (r : R) | Gone.
Definition wall_region (s : wall_shape) (p : vec) : Prop :=
  match s with
  | Room => in_box 0 6 p | Wall => vy p <= 1 | Wide r => 0 < r /\ vy p <= 1 + r
  | Part r => in_box 0 6 p /\ 1 + r <= vy p /\ 0 < r < 5 | Gone => False
  end.
Definition wall_inside (s : wall_shape) (p : vec) : Prop :=
  match s with
  | Room => in_open_box 0 6 p | Wall => vy p < 1 | Wide r => 0 < r /\ vy p < 1 + r
  | Part r => in_open_box 0 6 p /\ 1 + r < vy p /\ 0 < r < 5 | Gone => False
  end.
Definition wall_difference (a b : wall_shape) : wall_shape :=
  match a, b with Room, Wide r => Part r | _, _ => Gone end.
Definition wall_buffer (s : wall_shape) (r : R) : wall_shape := Wide r.
Definition wall_ring (s : wall_shape) : res (list vec) :=
  match s with
  | Part r => if (Rltb 0 r && Rltb r 5)%bool then Ok [V 0 (1 + r); V 6 (1 + r); V 6 6; V 0 6; V 0 (1 + r)] else Err AttributeError
  | _ => Err AttributeError
  end.
Definition wall_field : field wall_shape := Field (Some Room) (Some Wall) [] [Room].
Example C61_wall_ex :
  corners wall_shape wall_region (fun s => s) wall_ring /\
  differs wall_shape wall_region wall_inside wall_difference /\
  (forall r, buffers wall_shape wall_region wall_inside wall_buffer Wall r) /\
  (forall g vs, wall_ring g = Ok vs -> triangulation vs (two_halves vs)) /\
  convex_set (wall_region (wall_difference Room (wall_buffer Wall (3/10)))) /\
  exists p, sample_spawn wall_shape (fun _ => false) (fun s => s) wall_difference wall_buffer wall_ring two_halves
    wall_field 0 (3/10) (1/4) (1/4) (1/2) = Ok p.
Proof.
  assert (T : forall g vs, wall_ring g = Ok vs -> triangulation vs (two_halves vs)).
  { intros [] vs H; cbn in H; try discriminate. destruct (_ && _)%bool; [|discriminate]. injection H as <-.
    split; [discriminate|]; intros i j k [[= <- <- <-]|[[= <- <- <-]|[]]]; cbn; lia. }
  split; [|split; [|split; [|split; [exact T|split]]]].
  - intros [] vs v H I; cbn in H; try discriminate. destruct (_ && _)%bool eqn:E; [|discriminate].
    apply andb_prop in E as (E1 & E2). apply Rltb_true in E1, E2. injection H as <-.
    cbn in I. cbn. unfold in_box. destruct I as [<-|[<-|[<-|[<-|[<-|[]]]]]]; cbn; lra.
  - intros [] [] p; cbn; try tauto. intros (A & B & C). split; auto. lra.
  - intros r p q P Q. cbn in *.
    pose proof (edist_square p q) as S. pose proof (edist_nonneg p q). split; [lra|].
    assert (K : forall u v e, e * e = u * u + v * v -> 0 <= e -> e < r -> - r < v).
    { intros u v e L E1 E2. pose proof (Rle_0_sqr u). unfold Rsqr in *. nra. }
    pose proof (K _ _ _ S H Q). lra.
  - cbn. intros a b q ((A1 & A2) & A3 & A4) ((B1 & B2) & B3 & B4) (t & Ht & ->). cbn. unfold in_box. cbn. nra.
  - unfold sample_spawn. rewrite (list_get_nat (f_spawns wall_field) 0 Room eq_refl : list_get _ 0 = _).
    cbn [rbind].
    eapply (samples_succeed wall_shape (fun _ => false) (fun s => s) wall_difference wall_buffer wall_ring two_halves);
      [exact T| |lra|lra|lra].
    cbn. rdec. rdec. reflexivity.
Qed.

(** C88: whatever is assigned, the domain and the obstacles of a field are None or valid and
    not empty; an assignment that would break this raises and changes nothing, and every
    other assignment takes effect and leaves the other attributes alone. *)
Theorem C88_shapes_stay_valid : forall G is_valid is_empty cs (f : field G),
  proper G is_valid is_empty (f_domain f) -> proper G is_valid is_empty (f_obstacles f) ->
  let f' := fold_left (change_field G is_valid is_empty) cs f in
  proper G is_valid is_empty (f_domain f') /\ proper G is_valid is_empty (f_obstacles f').
Proof. intros. now apply changes_proper. Qed.
Print Assumptions C88_shapes_stay_valid.
Theorem C88_assignment_effect : forall G is_valid is_empty v d o ts ss,
  let f : field G := Field d o ts ss in
  (proper G is_valid is_empty v ->
     assign_domain G is_valid is_empty v f = (Field v o ts ss, Ok tt) /\
     assign_obstacles G is_valid is_empty v f = (Field d v ts ss, Ok tt)) /\
  (~ proper G is_valid is_empty v -> exists e,
     assign_domain G is_valid is_empty v f = (f, Err e) /\
     assign_obstacles G is_valid is_empty v f = (f, Err e)) /\
  (forall l, assign_targets G l f = Field d o l ss /\ assign_spawns G l f = Field d o ts l).
Proof.
  intros G is_valid is_empty v d o ts ss f. unfold assign_domain, assign_obstacles.
  destruct (validated_cases G is_valid is_empty v) as [(P & ->)|(P & ->)].
  - repeat split; intros; try tauto.
  - split; [tauto|]. split; [|now split]. intros _. eauto.
Qed.
Print Assumptions C88_assignment_effect.
Example C88_ex :
  let valid := fun b : box => let '(x0, y0, x1, y1) := b in true in
  let empty := fun b : box => let '(x0, y0, x1, y1) := b in Reqb x0 x1 in
  proper box valid empty None /\ proper box valid empty (Some (0, 0, 3, 4)) /\ ~ proper box valid empty (Some (2, 0, 2, 4)).
Proof.
  cbv zeta. split; [now intros g [=]|]. split.
  - intros g [= <-]. split; auto. apply Reqb_false. lra.
  - intros P. destruct (P _ eq_refl) as (_ & P2). apply Reqb_false in P2. lra.
Qed.

(** C89: [convex_hull] is the convex hull of all obstacles, targets and spawns together. *)
Theorem C89_hull_of_all : forall G region is_empty join nothing hull (f : field G),
  joins G region join -> is_nothing G region nothing -> tells_empty G region is_empty -> hulls G region hull ->
  exists g, convex_hull G is_empty join nothing hull f = Ok g /\
    forall p, region g p <->
      hull_of (fun v => (exists o, f_obstacles f = Some o /\ region o v) \/
                        (exists t, In t (f_targets f) /\ region t v) \/
                        (exists s, In s (f_spawns f) /\ region s v)) p.
Proof. intros. now apply convex_hull_spec. Qed.
Print Assumptions C89_hull_of_all.
(** Finite sets of points with an optional "closed" mark for hulls meet the hypotheses. *)
Inductive cloud : Type := Points (l : list vec) | HullOf (c : cloud) | Both (a b : cloud).
Fixpoint cloud_region (c : cloud) : vec -> Prop :=
  match c with
  | Points l => fun p => In p l
  | HullOf c => hull_of (cloud_region c)
  | Both a b => fun p => cloud_region a p \/ cloud_region b p
  end.
Fixpoint cloud_empty (c : cloud) : bool :=
  match c with
  | Points [] => true
  | Points _ => false
  | HullOf c => cloud_empty c
  | Both a b => cloud_empty a && cloud_empty b
  end.
Example C89_ex :
  joins cloud cloud_region Both /\ is_nothing cloud cloud_region (Points []) /\
  tells_empty cloud cloud_region cloud_empty /\ hulls cloud cloud_region HullOf /\
  (let f := Field None (Some (Points [V 0 0])) [Points [V 4 0]] [Points [V 4 4]; Points []] in
   exists g, convex_hull cloud cloud_empty Both (Points []) HullOf f = Ok g /\ cloud_region g (V 2 0)).
Proof.
  assert (N : forall c, cloud_empty c = true <-> forall p, ~ cloud_region c p).
  { induction c as [l|c IH|a IHa b IHb]; cbn.
    - destruct l as [|v l]; cbn.
      + split; auto.
      + split; [discriminate|]. intros H. elim (H v). now left.
    - rewrite IH. split.
      + intros H p Hp. apply (Hp (fun _ => False)); [now intros ? ? ? []|]. intros v Hv. now apply (H v).
      + intros H p Hp. apply (H p). intros C _ Sub. now apply Sub.
    - rewrite andb_true_iff, IHa, IHb. split.
      + intros (H1 & H2) p [H|H]; [now apply (H1 p)|now apply (H2 p)].
      + intros H. split; intros p Hp; apply (H p); auto. }
  split; [now intros a b p|]. split; [now intros p []|]. split; [exact N|]. split; [now intros g p|].
  eexists. split; [reflexivity|]. cbn. intros C Cv Sub.
  apply (Cv (V 0 0) (V 4 0)).
  - apply Sub. auto 6.
  - apply Sub. auto 6.
  - exists (1/2). split; [lra|]. unfold along. cbn. f_equal; lra.
Qed.
