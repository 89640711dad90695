(** * Properties C44, C45, C78, C79: clocks and random samples *)
From Coq Require Import Lra Lia Sorting.Permutation Sorting.Sorted.
From Verif Require Import Model.Rand Model.Sampling Spec.Chance Spec.Polygon
  Proofs.RandProofs Proofs.SamplingProofs Proofs.VecLemmas Proofs.Witness8.
Open Scope R_scope.

(** C44: the clock yields the arrivals before [dt] of the process whose waiting
    times are its draws, and uses one draw more than it yields times. *)
Theorem C44_clock_yields_arrivals : forall draw dt fuel n ts n',
  poisson_clock draw dt fuel n = Some (ts, n') ->
  exists k, arrivals_before (fun i => draw (n + i)%nat) dt k ts /\ n' = (n + k + 1)%nat.
Proof. exact clock_spec. Qed.
Print Assumptions C44_clock_yields_arrivals.
(** With positive waiting times the yielded times increase strictly; with
    non-negative ones they do not decrease, and none before [dt] is left out. *)
Theorem C44_clock_increases : forall draw dt fuel n ts n',
  poisson_clock draw dt fuel n = Some (ts, n') ->
  ((forall i, 0 < draw i) -> StronglySorted Rlt ts) /\
  ((forall i, 0 <= draw i) -> StronglySorted Rle ts /\
     forall m, arrival (fun i => draw (n + i)%nat) m < dt -> In (arrival (fun i => draw (n + i)%nat) m) ts) /\
  (forall t, In t ts -> t < dt).
Proof.
  intros draw dt fuel n ts n' H. apply clock_spec in H as (k & A & _). split; [|split].
  - intros P. apply (clock_times_increase _ _ _ _ A). intros; apply P.
  - intros P. destruct (clock_times_ordered _ _ _ _ A) as (S & M); [intros; apply P|].
    split; [exact S|]. intros m Hm. destruct A as (-> & _). apply in_map, in_seq. apply M in Hm. lia.
  - apply A.
Qed.
Print Assumptions C44_clock_increases.
(** It ends exactly when some arrival is not before [dt]. *)
Theorem C44_clock_ends : forall draw dt n,
  (exists fuel r, poisson_clock draw dt fuel n = Some r) <->
  (exists k, dt <= arrival (fun i => draw (n + i)%nat) k).
Proof.
  intros draw dt n. split.
  - intros (fuel & [ts n'] & H). apply clock_spec in H as (k & (_ & _ & L) & _). now exists k.
  - intros (k & H). exact (clock_ends draw dt n k H).
Qed.
Print Assumptions C44_clock_ends.

(** The timings are the arrivals of all players in order of time, and the array of
    players is permuted by the call. *)
Theorem C44_timings : forall shuffle argsort draw dt fuel players players' out,
  (forall l, Permutation l (shuffle l)) -> (forall l, is_argsort Rle l (argsort l)) ->
  poisson_timings shuffle argsort draw dt fuel players = Some (players', out) ->
  Permutation players players' /\
  exists w k events ordered,
    all_arrivals w dt k 0 players' events /\
    separate_draws draw w k (length players') /\
    Permutation events ordered /\ in_time_order ordered /\ out = map snd ordered.
Proof. exact timings_spec. Qed.
Print Assumptions C44_timings.
(** Each player comes as often as its own clock ticks. *)
Theorem C44_timings_count : forall shuffle argsort draw dt fuel players players' out,
  (forall l, Permutation l (shuffle l)) -> (forall l, is_argsort Rle l (argsort l)) -> NoDup players ->
  poisson_timings shuffle argsort draw dt fuel players = Some (players', out) ->
  exists w k, separate_draws draw w k (length players') /\
    forall q j, nth_error players' q = Some j ->
      (exists ts, arrivals_before (w q) dt (k q) ts) /\ count_occ Z.eq_dec out j = k q.
Proof. exact timings_count. Qed.
Print Assumptions C44_timings_count.
Definition halves (n : nat) : R := 1 / 2.
Definition thirds (n : nat) : R := match n with O => 3/4 | 1%nat => 3/4 | _ => 1/2 end.
Example C44_clock_ex : poisson_clock halves (6/5) 5 0 = Some ([1/2; 1/2 + 1/2], 3%nat).
Proof.
  unfold poisson_clock, halves. cbn [clock_loop]. repeat (rdec; cbn [clock_loop]). reflexivity.
Qed.
Example C44_timings_ex :
  poisson_timings (@rev Z) argsort_R thirds 1 5 [7; 8]%Z = Some ([8; 7], [7; 8])%Z /\
  (forall l : list Z, Permutation l (rev l)) /\ NoDup [7; 8]%Z.
Proof.
  split; [|split].
  - unfold poisson_timings. cbn [rev app collect]. unfold poisson_clock, thirds. cbn [clock_loop].
    rdec. rdec. cbn [clock_loop].
    replace (Rltb (1/2) 1) with true by (symmetry; apply Rltb_true; lra).
    replace (Rltb (1/2+1/2) 1) with false by (symmetry; apply Rltb_false; lra).
    cbn. unfold argsort_R, argsort_by. cbn.
    replace (Rltb (1/2) (3/4)) with true by (symmetry; apply Rltb_true; lra). reflexivity.
  - apply Permutation_rev.
  - repeat constructor; cbn; intuition congruence.
Qed.

(** C45: every sample of a polygon is in a triangle of the triangulation, hence in
    the convex hull of the vertices. *)
Theorem C45_polygon_sample_in_triangle : forall vs simplices x r1 r2,
  simplices <> [] ->
  (forall i j k, In (i, j, k) simplices -> (i < length vs /\ j < length vs /\ k < length vs)%nat) ->
  0 <= x < 1 -> 0 <= r1 <= 1 -> 0 <= r2 <= 1 ->
  exists i j k a b c p, In (i, j, k) simplices /\
    nth_error vs i = Some a /\ nth_error vs j = Some b /\ nth_error vs k = Some c /\
    polygon_sample vs simplices x r1 r2 = Ok p /\ in_triangle a b c p /\ in_hull vs p.
Proof. exact polygon_sample_spec. Qed.
Print Assumptions C45_polygon_sample_in_triangle.
(** Each triangle is drawn with a chance proportional to its area. *)
Theorem C45_triangle_chance : forall mesh a b c,
  NoDup mesh -> In (a, b, c) mesh ->
  let area := fun t : vec * vec * vec => let '(a, b, c) := t in shoelace_area [a; b; c] in
  0 < rsum (map area mesh) ->
  chance (pick_triangle mesh) (Ok (a, b, c)) (shoelace_area [a; b; c] / rsum (map area mesh)).
Proof.
  intros mesh a b c ND I area P.
  assert (E : map triangle_area mesh = map area mesh).
  { apply map_ext. intros [[u v] w]. apply triangle_area_shoelace. }
  rewrite <- E in *. rewrite <- triangle_area_shoelace. now apply pick_triangle_chance.
Qed.
Print Assumptions C45_triangle_chance.
(** Inside a triangle the point is uniform: the draws map one to one onto the inside
    and stretch areas by the same factor everywhere. *)
Theorem C45_triangle_uniform : forall a b c,
  let d := (vx b - vx a) * (vy c - vy a) - (vy b - vy a) * (vx c - vx a) in
  d <> 0 ->
  (forall r1 r2, 0 < r1 < 1 -> 0 < r2 < 1 ->
     area_stretch (fun r s => random_sample_triangle r s a b c) r1 r2 (d / 2)) /\
  (forall r1 r2 s1 s2, 0 < r1 < 1 -> 0 < r2 < 1 -> 0 < s1 < 1 -> 0 < s2 < 1 ->
     random_sample_triangle r1 r2 a b c = random_sample_triangle s1 s2 a b c -> r1 = s1 /\ r2 = s2) /\
  (forall p, inside_triangle a b c p ->
     exists r1 r2, 0 < r1 < 1 /\ 0 < r2 < 1 /\ random_sample_triangle r1 r2 a b c = p).
Proof.
  intros a b c d D. split; [|split].
  - intros r1 r2 H _. apply triangle_stretch; lra.
  - intros r1 r2 s1 s2 H1 _ H2 _. apply triangle_injective; [exact D|lra|lra].
  - apply triangle_onto.
Qed.
Print Assumptions C45_triangle_uniform.
(** A path of two or more vertices is sampled on the path, one of fewer raises. *)
Theorem C45_linestring_on_path : forall vs x y, 0 <= x < 1 -> 0 <= y <= 1 ->
  ((2 <= length vs)%nat -> exists i a b, nth_error vs i = Some a /\ nth_error vs (S i) = Some b /\
     linestring_sample vs x y = Ok (along a b y) /\ on_path vs (along a b y)) /\
  ((length vs < 2)%nat -> linestring_sample vs x y = Err IndexError).
Proof.
  intros vs x y X Y. split.
  - intros L. destruct (linestring_sample_spec vs x y L ltac:(lra)) as (i & a & b & A & B & E).
    exists i, a, b. repeat split; auto. exists i, a, b. repeat split; auto. now exists y.
  - intros L. apply linestring_sample_short. lia.
Qed.
Print Assumptions C45_linestring_on_path.
(** The segments of a path are not drawn in proportion to their lengths: on no path
    of two proper segments is the first drawn with its share of the length. With
    the second draw 0 the sample is the start of the drawn segment. *)
Theorem C45_linestring_share_refuted : forall a b c, a <> b -> b <> c ->
  chance (fun x => linestring_sample [a; b; c] x 0) (Ok a) (Rmin 1 (edist a b / edist b c)) /\
  ~ chance (fun x => linestring_sample [a; b; c] x 0) (Ok a) (edist a b / (edist a b + edist b c)).
Proof.
  intros a b c H1 H2. split; [now apply two_segments_chance|now apply two_segments_not_proportional].
Qed.
Print Assumptions C45_linestring_share_refuted.
Definition quad : list vec := [V 0 0; V 3 0; V 3 1; V 0 1].
Definition quad_mesh : list (nat * nat * nat) := [(0, 1, 2); (0, 2, 3)]%nat.
Example C45_polygon_ex :
  (forall i j k, In (i, j, k) quad_mesh -> (i < length quad /\ j < length quad /\ k < length quad)%nat) /\
  exists p, polygon_sample quad quad_mesh (3/4) (1/4) (1/2) = Ok p /\ in_hull quad p.
Proof.
  assert (W : forall i j k, In (i, j, k) quad_mesh -> (i < length quad /\ j < length quad /\ k < length quad)%nat).
  { intros i j k [E | [E | []]]; injection E as <- <- <-; cbn; lia. }
  split; [exact W|].
  destruct (C45_polygon_sample_in_triangle quad quad_mesh (3/4) (1/4) (1/2))
    as (i & j & k & a & b & c & p & _ & _ & _ & _ & P & _ & Q); auto; try lra; [discriminate|].
  now exists p.
Qed.
Example C45_share_ex :
  chance (fun x => linestring_sample [V 0 0; V 1 0; V 3 0] x 0) (Ok (V 0 0)) (1 / 2).
Proof.
  assert (A : edist (V 0 0) (V 1 0) = 1) by (apply edist_eq; cbn; lra).
  assert (B : edist (V 1 0) (V 3 0) = 2) by (apply edist_eq; cbn; lra).
  destruct (C45_linestring_share_refuted (V 0 0) (V 1 0) (V 3 0)) as [H _].
  - intros E. apply vec_eq_inv in E as [E _]. lra.
  - intros E. apply vec_eq_inv in E as [E _]. lra.
  - rewrite A, B, Rmin_right in H by lra. exact H.
Qed.

(** C78: with a positive absolute scale every draw is within it of [loc]; without
    one the draws fill [loc + scale * [start, end]]. *)
Theorem C78_truncnorm_within_scale_partial : forall start end_ loc scale abs_scale size z r,
  truncnorm start end_ loc scale abs_scale size z = Ok r ->
  (forall i, start <= z i <= end_) ->
  length r = size /\
  (forall k x, abs_scale = Some k -> 0 < k -> In x r -> Rabs (x - loc) <= k) /\
  (forall x, abs_scale = None -> 0 <= scale -> In x r -> loc + scale * start <= x <= loc + scale * end_).
Proof. exact truncnorm_spec. Qed.
Print Assumptions C78_truncnorm_within_scale_partial.
(** An absolute scale of zero is taken for a missing one, and the draws leave
    [loc], whatever their number. *)
Theorem C78_truncnorm_zero_scale_refuted : forall loc size, (0 < size)%nat ->
  exists r x, truncnorm (-3) 3 loc 1 (Some 0) size (fun _ => 3) = Ok r /\ In x r /\ Rabs (x - loc) = 3.
Proof.
  intros loc size H. unfold truncnorm. destruct (Reqb_spec 0 0); [|lra]. cbn [rbind].
  eexists; exists (loc + 1 * 3). split; [reflexivity|]. split.
  - apply in_map_iff. exists O. split; [reflexivity|]. apply in_seq. lia.
  - replace (loc + 1 * 3 - loc) with 3 by ring. apply Rabs_right. lra.
Qed.
Print Assumptions C78_truncnorm_zero_scale_refuted.
Example C78_ex : exists r, truncnorm (-3) 3 70 1 (Some 15) 2 (fun i => INR i) = Ok r /\ length r = 2%nat.
Proof.
  unfold truncnorm. destruct (Reqb_spec 15 0); [lra|].
  destruct (Reqb_spec (Rmax (Rabs (-3)) (Rabs 3)) 0) as [E|E].
  - exfalso. pose proof (Rmax_r (Rabs (-3)) (Rabs 3)). rewrite (Rabs_right 3) in * by lra. lra.
  - cbn [rbind]. eexists. split; [reflexivity|reflexivity].
Qed.

(** C79 *)
Theorem C79_random_vector : forall size lo hi mag u,
  lo <= hi -> (forall i, 0 <= u i < 1) ->
  length (random_vector size lo hi mag u) = size /\
  forall v, In v (random_vector size lo hi mag u) ->
    elen v = Rabs mag /\ exists phi, lo <= phi <= hi /\ v = V (mag * cos phi) (mag * sin phi).
Proof.
  intros size lo hi mag u L U. split; [unfold random_vector; now rewrite map_length, seq_length|].
  intros v. now apply random_vector_spec.
Qed.
Print Assumptions C79_random_vector.
Example C79_ex : random_vector 1 0 (2 * PI) 5 (fun _ => 0) = [V 5 0].
Proof.
  unfold random_vector. cbn. rewrite Rmult_0_r, Rplus_0_r, cos_0, sin_0. f_equal. veq; lra.
Qed.
