(** * Proofs about sampling on paths, triangles and meshes *)
From Coq Require Import Lra Lia.
From Verif Require Import Model.Sampling Spec.Chance Spec.Polygon Proofs.VecLemmas Proofs.ListLemmas
  Proofs.Geom2DProofs.
Open Scope R_scope.

(** ** Binary search on an arbitrary array *)
Definition less (w : list (option R)) (x : R) (i : nat) : bool :=
  match nth i w None with Some y => Rltb y x | None => false end.

Lemma binsearch_spec w x : forall fuel lo hi, (lo <= hi)%nat -> (hi - lo <= fuel)%nat ->
  let r := binsearch w x fuel lo hi in
  (lo <= r <= hi)%nat /\ (r = hi \/ less w x r = false) /\ (r = lo \/ less w x (r - 1) = true).
Proof.
  induction fuel as [|fuel IH]; intros lo hi L F; cbn [binsearch].
  - cbn. assert (lo = hi) by lia. subst. repeat split; auto.
  - destruct (Nat.ltb_spec lo hi) as [H|H].
    + set (mid := (lo + (hi - lo) / 2)%nat).
      assert (M : (lo <= mid < hi)%nat).
      { unfold mid. assert ((hi - lo) / 2 < hi - lo)%nat by (apply Nat.div_lt; lia). lia. }
      fold (less w x mid). destruct (less w x mid) eqn:E.
      * destruct (IH (S mid) hi ltac:(lia) ltac:(lia)) as (A & B & C).
        cbn zeta. split; [lia|]. split; [exact B|].
        right. destruct C as [C | C]; [rewrite C; now replace (S mid - 1)%nat with mid by lia|exact C].
      * destruct (IH lo mid ltac:(lia) ltac:(lia)) as (A & B & C).
        cbn zeta. split; [lia|]. split; [|exact C].
        right. destruct B as [B | B]; [now rewrite B|exact B].
    + assert (lo = hi) by lia. subst. cbn. repeat split; auto.
Qed.
Lemma searchsorted_spec w x :
  let r := searchsorted w x in
  (r <= length w)%nat /\ (r = length w \/ less w x r = false) /\ (r = O \/ less w x (r - 1) = true).
Proof.
  destruct (binsearch_spec w x (length w) 0 (length w) ltac:(lia) ltac:(lia)) as (A & B & C).
  cbn zeta. split; [unfold searchsorted; lia|]. split; assumption.
Qed.
Lemma searchsorted_below w x n : length w = S n -> less w x n = false -> (searchsorted w x <= n)%nat.
Proof.
  intros L F. destruct (searchsorted_spec w x) as (A & _ & C). cbn zeta in *.
  destruct (Nat.eq_dec (searchsorted w x) (S n)) as [E | E]; [|lia].
  destruct C as [C | C]; [lia|]. rewrite E in C. replace (S n - 1)%nat with n in C by lia. congruence.
Qed.

Lemma less_normalized w l x i :
  less (normalized w l) x i =
  match nth_error w i with
  | Some y => if Reqb l 0 then false else Rltb (y / l) x
  | None => false
  end.
Proof.
  unfold less, normalized. revert i. induction w as [|y w IH]; intros [|i]; cbn; auto.
  destruct (Reqb l 0); reflexivity.
Qed.

Lemma rev_last {A} (w : list A) x t : rev w = x :: t -> exists n, length w = S n /\ nth_error w n = Some x.
Proof.
  intros H. assert (E : w = rev t ++ [x]) by (rewrite <- (rev_involutive w), H; reflexivity).
  exists (length t). rewrite E, app_length, rev_length. cbn. split; [lia|].
  rewrite nth_error_app2 by (rewrite rev_length; lia). now rewrite rev_length, Nat.sub_diag.
Qed.

Lemma pick_in_range w x l t : rev w = l :: t -> x < 1 ->
  (searchsorted (normalized w l) x < length w)%nat.
Proof.
  intros E X. destruct (rev_last _ _ _ E) as (n & L & N).
  assert (searchsorted (normalized w l) x <= n)%nat; [|lia].
  apply searchsorted_below; [unfold normalized; now rewrite map_length|].
  rewrite less_normalized, N. destruct (Reqb_spec l 0); [reflexivity|].
  apply Rltb_false. replace (l / l) with 1 by (field; assumption). lra.
Qed.

(** ** Paths *)
Lemma lengths_length vs : length (linestring_length_cumsum vs) = (length vs - 1)%nat.
Proof. unfold linestring_length_cumsum. now rewrite map_length, seq_length. Qed.

Lemma sample_line_along x p0 p1 : random_sample_line x p0 p1 = along p0 p1 x.
Proof. unfold random_sample_line, along. veq; ring. Qed.

Lemma linestring_sample_spec vs x y : (2 <= length vs)%nat -> x < 1 ->
  exists i a b, nth_error vs i = Some a /\ nth_error vs (S i) = Some b /\
    linestring_sample vs x y = Ok (along a b y).
Proof.
  intros L X. unfold linestring_sample.
  destruct (rev (linestring_length_cumsum vs)) as [|l t] eqn:E.
  - exfalso. apply (f_equal (@length R)) in E. rewrite rev_length, lengths_length in E. cbn in E. lia.
  - pose proof (pick_in_range _ x _ _ E X) as P. rewrite lengths_length in P. cbn zeta.
    set (i := searchsorted _ x) in *. exists i.
    destruct (nth_error vs i) as [a|] eqn:A; [|apply nth_error_None in A; lia].
    destruct (nth_error vs (S i)) as [b|] eqn:B; [|apply nth_error_None in B; lia].
    exists a, b. rewrite Nat.add_1_r, B, sample_line_along. auto.
Qed.
Lemma linestring_sample_on_path vs x y : (2 <= length vs)%nat -> x < 1 -> 0 <= y <= 1 ->
  exists p, linestring_sample vs x y = Ok p /\ on_path vs p.
Proof.
  intros L X Y. destruct (linestring_sample_spec vs x y L X) as (i & a & b & A & B & E).
  exists (along a b y). split; [exact E|]. exists i, a, b. repeat split; auto. now exists y.
Qed.
Lemma linestring_sample_short vs x y : (length vs <= 1)%nat -> linestring_sample vs x y = Err IndexError.
Proof.
  intros L. unfold linestring_sample.
  destruct (linestring_length_cumsum vs) eqn:E; [reflexivity|].
  apply (f_equal (@length R)) in E. rewrite lengths_length in E. cbn in E. lia.
Qed.

(** ** Probabilities are unique *)
Lemma interval_le lo1 hi1 lo2 hi2 : 0 <= lo1 <= hi1 -> hi1 <= 1 -> 0 <= lo2 <= hi2 -> hi2 <= 1 ->
  (forall x, 0 < x < 1 -> lo2 < x <= hi2 -> lo1 < x <= hi1) -> hi2 - lo2 <= hi1 - lo1.
Proof.
  intros A B C D H. destruct (Rle_lt_or_eq_dec lo2 hi2) as [L | L]; [lra| |lra].
  assert (lo1 <= lo2).
  { destruct (Rle_dec lo1 lo2); [assumption|]. exfalso.
    pose proof (Rmin_l lo1 hi2). pose proof (Rmin_r lo1 hi2).
    assert (lo2 < Rmin lo1 hi2) by (apply Rmin_glb_lt; lra).
    specialize (H ((lo2 + Rmin lo1 hi2) / 2)). lra. }
  assert (hi2 <= hi1).
  { destruct (Rle_dec hi2 hi1); [assumption|]. exfalso.
    pose proof (Rmax_l hi1 lo2). pose proof (Rmax_r hi1 lo2).
    assert (Rmax hi1 lo2 < hi2) by (apply Rmax_lub_lt; lra).
    specialize (H ((Rmax hi1 lo2 + hi2) / 2)). lra. }
  lra.
Qed.
Lemma chance_unique {A} (choose : R -> A) i p q : chance choose i p -> chance choose i q -> p = q.
Proof.
  intros (l1 & h1 & A1 & B1 & <- & C1) (l2 & h2 & A2 & B2 & <- & C2).
  apply Rle_antisym; apply interval_le; auto; intros x X H.
  - apply C2, C1; assumption.
  - apply C1, C2; assumption.
Qed.
Lemma chance_ext {A} (f g : R -> A) i p : (forall x, 0 < x < 1 -> f x = g x) -> chance f i p -> chance g i p.
Proof.
  intros H (lo & hi & A1 & A2 & A3 & A4). exists lo, hi. repeat split; try tauto; try lra.
  - apply A4; [assumption|]. rewrite H; assumption.
  - apply A4; [assumption|]. rewrite H; assumption.
  - intros X. rewrite <- H by assumption. now apply A4.
Qed.

(** Two segments: the first is picked with chance [min 1 (l0 / l1)]. *)
Lemma two_segments_pick l0 l1 x : 0 < l1 ->
  searchsorted (normalized [l0; l1] l1) x =
  if Rltb 1 x then 2%nat else if Rltb (l0 / l1) x then 1%nat else 0%nat.
Proof.
  intros P. unfold normalized. cbn [map]. destruct (Reqb_spec l1 0); [lra|].
  unfold searchsorted. cbn. replace (l1 / l1) with 1 by (field; lra).
  destruct (Rltb 1 x); [reflexivity|]. cbn. destruct (Rltb (l0 / l1) x); reflexivity.
Qed.
Lemma two_segments_sample a b c x : b <> c -> x < 1 ->
  linestring_sample [a; b; c] x 0 = Ok (if Rltb (edist a b / edist b c) x then b else a).
Proof.
  intros N X. assert (P : 0 < edist b c).
  { destruct (Rle_lt_or_eq_dec _ _ (edist_nonneg b c)) as [|E]; [assumption|].
    exfalso. apply N. now apply edist_zero. }
  unfold linestring_sample, linestring_length_cumsum. cbn [length Nat.sub seq map nth Nat.add rev app].
  cbn zeta. fold (edist a b). fold (edist b c).
  change (sqrt (vx (vsub a b) * vx (vsub a b) + vy (vsub a b) * vy (vsub a b))) with (edist a b).
  change (sqrt (vx (vsub b c) * vx (vsub b c) + vy (vsub b c) * vy (vsub b c))) with (edist b c).
  rewrite two_segments_pick by exact P.
  destruct (Rltb_spec 1 x); [lra|].
  destruct (Rltb (edist a b / edist b c) x); cbn [nth_error Nat.add]; rewrite sample_line_along;
    f_equal; unfold along; veq; ring.
Qed.
Lemma two_segments_chance a b c : a <> b -> b <> c ->
  chance (fun x => linestring_sample [a; b; c] x 0) (Ok a) (Rmin 1 (edist a b / edist b c)).
Proof.
  intros N1 N2. assert (P : forall u v, u <> v -> 0 < edist u v).
  { intros u v N. destruct (Rle_lt_or_eq_dec _ _ (edist_nonneg u v)) as [|E]; [assumption|].
    exfalso. apply N. now apply edist_zero. }
  assert (Q : 0 < edist a b / edist b c) by (apply Rdiv_lt_0_compat; auto).
  exists 0, (Rmin 1 (edist a b / edist b c)). split; [|split; [|split]].
  - split; [lra|]. apply Rmin_glb; lra.
  - apply Rmin_l.
  - lra.
  - intros x X. rewrite two_segments_sample by (auto; lra).
    destruct (Rltb_spec (edist a b / edist b c) x) as [L | L].
    + split; [intros E; congruence|]. intros [_ H]. exfalso.
      pose proof (Rmin_r 1 (edist a b / edist b c)). lra.
    + split; [|reflexivity]. intros _. split; [lra|]. apply Rmin_glb; lra.
Qed.
Lemma two_segments_not_proportional a b c : a <> b -> b <> c ->
  ~ chance (fun x => linestring_sample [a; b; c] x 0) (Ok a) (edist a b / (edist a b + edist b c)).
Proof.
  intros N1 N2 H. pose proof (chance_unique _ _ _ _ H (two_segments_chance a b c N1 N2)) as E.
  assert (P : forall u v, u <> v -> 0 < edist u v).
  { intros u v N. destruct (Rle_lt_or_eq_dec _ _ (edist_nonneg u v)) as [|E']; [assumption|].
    exfalso. apply N. now apply edist_zero. }
  pose proof (P _ _ N1). pose proof (P _ _ N2). set (l := edist a b) in *. set (m := edist b c) in *.
  assert (l / (l + m) < 1) by (apply Rmult_lt_reg_r with (l + m); [lra|]; field_simplify; lra).
  assert (l / (l + m) < l / m).
  { apply Rmult_lt_compat_l; [assumption|]. apply Rinv_lt_contravar; [|lra]. nra. }
  unfold Rmin in E. destruct (Rle_dec 1 (l / m)); lra.
Qed.

(** ** Triangles *)
Lemma sample_triangle_in r1 r2 a b c : 0 <= r1 <= 1 -> 0 <= r2 <= 1 ->
  in_triangle a b c (random_sample_triangle r1 r2 a b c).
Proof.
  intros A B. exists (1 - sqrt r1), (sqrt r1 * (1 - r2)), (r2 * sqrt r1).
  pose proof (sqrt_pos r1). assert (sqrt r1 <= 1) by (rewrite <- sqrt_1; apply sqrt_le_1; lra).
  split; [lra|]. split; [nra|]. split; [nra|]. split; [ring|].
  unfold random_sample_triangle. veq; ring.
Qed.

Lemma in_triangle_hull vs a b c p : In a vs -> In b vs -> In c vs -> in_triangle a b c p -> in_hull vs p.
Proof.
  intros A B C (s & t & u & S0 & T0 & U0 & E & ->) S CV I.
  destruct (Req_dec (t + u) 0) as [Z | Z].
  - assert (t = 0) by lra. assert (u = 0) by lra. assert (s = 1) by lra. subst.
    replace (V _ _) with a by (veq; ring). now apply I.
  - assert (Q : S (along b c (u / (t + u)))).
    { apply CV with b c; [now apply I|now apply I|]. exists (u / (t + u)). split; [|reflexivity].
      split; [apply Rmult_le_pos; [assumption|]; left; apply Rinv_0_lt_compat; lra|].
      apply Rmult_le_reg_r with (t + u); [lra|]. field_simplify; lra. }
    apply CV with a (along b c (u / (t + u))); [now apply I|exact Q|].
    exists (t + u). split; [lra|]. replace s with (1 - t - u) by lra.
    unfold along. veq; field; exact Z.
Qed.

(** ** Meshes *)
Lemma cumsum_length mesh : forall s, length (area_cumsum s mesh) = length mesh.
Proof. induction mesh as [|t m IH]; intros s; cbn; [reflexivity|]. now rewrite IH. Qed.
Lemma cumsum_nth mesh : forall s i, (i < length mesh)%nat ->
  nth_error (area_cumsum s mesh) i = Some (s + rsum (map triangle_area (firstn (S i) mesh))).
Proof.
  induction mesh as [|t m IH]; intros s i H; [cbn in H; lia|].
  destruct i as [|i]; cbn -[triangle_area].
  - f_equal. ring.
  - cbn in H. rewrite IH by lia. f_equal. cbn. ring.
Qed.
Lemma cumsum_last mesh l t : rev (triangle_area_cumsum mesh) = l :: t ->
  l = rsum (map triangle_area mesh).
Proof.
  intros E. apply rev_last in E as (n & L & N). unfold triangle_area_cumsum in *.
  rewrite cumsum_length in L. rewrite cumsum_nth in N by lia. rewrite <- L, firstn_all, Rplus_0_l in N. congruence.
Qed.
Lemma triangle_area_nonneg t : 0 <= triangle_area t.
Proof.
  destruct t as [[a b] c]. unfold triangle_area, polygon_area. cbn [length Nat.ltb Nat.leb].
  cbn zeta. pose proof (Rabs_pos (shoelace_loop [a;b;c] 3 +
    vx (vat [a;b;c] (3-1)) * (vy (vat [a;b;c] 0) - vy (vat [a;b;c] (3-2))) +
    vx (vat [a;b;c] 0) * (vy (vat [a;b;c] 1) - vy (vat [a;b;c] (3-1))))). lra.
Qed.
Lemma areas_firstn_le m : forall i j, (i <= j)%nat ->
  rsum (map triangle_area (firstn i m)) <= rsum (map triangle_area (firstn j m)).
Proof.
  induction m as [|t m IH]; intros i j H; [rewrite !firstn_nil; lra|].
  destruct i as [|i]; [cbn [firstn map rsum fold_right]|destruct j as [|j]; [lia|]].
  - destruct j as [|j]; [cbn; lra|]. cbn [firstn map].
    change (rsum (triangle_area t :: map triangle_area (firstn j m)))
      with (triangle_area t + rsum (map triangle_area (firstn j m))).
    specialize (IH O j ltac:(lia)). change (rsum (map triangle_area (firstn 0 m))) with 0 in IH.
    pose proof (triangle_area_nonneg t). change (fold_right Rplus 0 []) with 0. lra.
  - cbn [firstn map].
    change (triangle_area t + rsum (map triangle_area (firstn i m)) <=
            triangle_area t + rsum (map triangle_area (firstn j m))).
    specialize (IH i j ltac:(lia)). lra.
Qed.

Lemma pick_triangle_total mesh x : mesh <> [] -> x < 1 -> exists t, In t mesh /\ pick_triangle mesh x = Ok t.
Proof.
  intros N X. unfold pick_triangle.
  destruct (rev (triangle_area_cumsum mesh)) as [|l r] eqn:E.
  - exfalso. apply (f_equal (@length R)) in E. rewrite rev_length in E.
    unfold triangle_area_cumsum in E. rewrite cumsum_length in E. destruct mesh; [easy|discriminate].
  - pose proof (pick_in_range _ x _ _ E X) as P. unfold triangle_area_cumsum in P at 2.
    rewrite cumsum_length in P. cbn zeta.
    destruct (nth_error mesh _) as [t|] eqn:F; [|apply nth_error_None in F; unfold triangle_area_cumsum in *; lia].
    exists t. split; [now apply nth_error_In in F|reflexivity].
Qed.

Lemma pick_index mesh l r x i : rev (triangle_area_cumsum mesh) = l :: r -> 0 < l -> 0 < x < 1 ->
  (i < length mesh)%nat ->
  let part k := rsum (map triangle_area (firstn k mesh)) / l in
  searchsorted (normalized (triangle_area_cumsum mesh) l) x = i <-> part i < x <= part (S i).
Proof.
  intros E L X I part. set (w := triangle_area_cumsum mesh).
  assert (PL : forall j, (j < length mesh)%nat -> less (normalized w l) x j = Rltb (part (S j)) x).
  { intros j J. rewrite less_normalized. unfold w, triangle_area_cumsum.
    rewrite cumsum_nth by exact J. destruct (Reqb_spec l 0); [lra|].
    unfold part. now rewrite Rplus_0_l. }
  assert (M : forall j k, (j <= k)%nat -> part j <= part k).
  { intros j k H. unfold part. apply Rmult_le_compat_r; [left; now apply Rinv_0_lt_compat|].
    now apply areas_firstn_le. }
  pose proof (pick_in_range _ x _ _ E ltac:(lra)) as PR.
  fold w in PR. unfold w in PR at 2. unfold triangle_area_cumsum in PR at 1. rewrite cumsum_length in PR.
  destruct (searchsorted_spec (normalized w l) x) as (_ & B & C). cbn zeta in B, C.
  set (r0 := searchsorted (normalized w l) x) in *.
  assert (LN : length (normalized w l) = length mesh).
  { unfold normalized, w, triangle_area_cumsum. now rewrite map_length, cumsum_length. }
  assert (U : x <= part (S r0)).
  { destruct B as [B | B]; [lia|]. rewrite PL in B by exact PR. now apply Rltb_false in B. }
  assert (D : part r0 < x).
  { destruct C as [C | C].
    - rewrite C. unfold part. cbn. unfold Rdiv. rewrite Rmult_0_l. lra.
    - destruct r0 as [|r0]; [unfold part; cbn; unfold Rdiv; rewrite Rmult_0_l; lra|].
      replace (S r0 - 1)%nat with r0 in C by lia. rewrite PL in C by lia. now apply Rltb_true in C. }
  split.
  - intros <-. lra.
  - intros [P1 P2]. destruct (Nat.lt_trichotomy r0 i) as [H | [H | H]]; [|assumption|].
    + pose proof (M (S r0) i ltac:(lia)). lra.
    + pose proof (M (S i) r0 ltac:(lia)). lra.
Qed.

Lemma rsum_firstn_S mesh : forall i t, nth_error mesh i = Some t ->
  rsum (map triangle_area (firstn (S i) mesh)) = rsum (map triangle_area (firstn i mesh)) + triangle_area t.
Proof.
  induction mesh as [|u m IH]; intros i t H; [destruct i; discriminate|].
  destruct i as [|i].
  - injection H as ->. cbn. ring.
  - change (triangle_area u + rsum (map triangle_area (firstn (S i) m)) =
            triangle_area u + rsum (map triangle_area (firstn i m)) + triangle_area t).
    rewrite (IH i t H). ring.
Qed.

Lemma pick_triangle_chance mesh t : NoDup mesh -> In t mesh -> 0 < rsum (map triangle_area mesh) ->
  chance (pick_triangle mesh) (Ok t) (triangle_area t / rsum (map triangle_area mesh)).
Proof.
  intros ND I P. apply In_nth_error in I as (i & I).
  assert (Li : (i < length mesh)%nat) by (apply nth_error_Some; congruence).
  destruct (rev (triangle_area_cumsum mesh)) as [|l r] eqn:E.
  { exfalso. apply (f_equal (@length R)) in E. rewrite rev_length in E.
    unfold triangle_area_cumsum in E. rewrite cumsum_length in E. destruct mesh; [cbn in Li; lia|discriminate]. }
  pose proof (cumsum_last _ _ _ E) as EL. rewrite <- EL in *.
  exists (rsum (map triangle_area (firstn i mesh)) / l), (rsum (map triangle_area (firstn (S i) mesh)) / l).
  assert (Q : 0 < / l) by now apply Rinv_0_lt_compat.
  split; [|split; [|split]].
  - split.
    + apply Rmult_le_pos; [|lra]. pose proof (areas_firstn_le mesh 0 i ltac:(lia)) as H.
      exact H.
    + apply Rmult_le_compat_r; [lra|]. apply areas_firstn_le. lia.
  - pose proof (areas_firstn_le mesh (S i) (length mesh) ltac:(lia)) as H.
    rewrite firstn_all, <- EL in H. apply Rmult_le_reg_r with l; [assumption|]. field_simplify; lra.
  - rewrite (rsum_firstn_S _ _ _ I). field. lra.
  - intros x X. rewrite <- (pick_index mesh l r x i E P X Li).
    unfold pick_triangle. rewrite E. cbn zeta.
    pose proof (pick_in_range _ x _ _ E ltac:(lra)) as PR.
    unfold triangle_area_cumsum in PR at 2. rewrite cumsum_length in PR.
    set (j := searchsorted _ x) in *. split.
    + intros H. destruct (nth_error mesh j) as [t'|] eqn:J; [|discriminate].
      injection H as ->. rewrite NoDup_nth_error in ND. apply ND; [exact PR|]. congruence.
    + intros ->. now rewrite I.
Qed.

Lemma triangle_area_shoelace a b c : triangle_area (a, b, c) = shoelace_area [a; b; c].
Proof. exact (polygon_area_shoelace [a; b; c]). Qed.

Lemma mesh_of_ok vs simplices :
  (forall i j k, In (i, j, k) simplices -> (i < length vs /\ j < length vs /\ k < length vs)%nat) ->
  exists mesh, mesh_of vs simplices = Ok mesh.
Proof.
  induction simplices as [|[[i j] k] s IH]; intros H; [now exists []|].
  cbn. destruct (H i j k (or_introl eq_refl)) as (A & B & C).
  destruct (nth_error vs i) eqn:EA; [|apply nth_error_None in EA; lia].
  destruct (nth_error vs j) eqn:EB; [|apply nth_error_None in EB; lia].
  destruct (nth_error vs k) eqn:EC; [|apply nth_error_None in EC; lia].
  destruct IH as (m & ->); [intros; apply H; now right|]. cbn. eauto.
Qed.
Lemma mesh_of_in vs : forall simplices mesh a b c, mesh_of vs simplices = Ok mesh -> In (a, b, c) mesh ->
  exists i j k, In (i, j, k) simplices /\
    nth_error vs i = Some a /\ nth_error vs j = Some b /\ nth_error vs k = Some c.
Proof.
  induction simplices as [|[[i j] k] s IH]; intros mesh a b c H I.
  - injection H as <-. destruct I.
  - cbn in H. destruct (nth_error vs i) as [a'|] eqn:EA; [|discriminate].
    destruct (nth_error vs j) as [b'|] eqn:EB; [|discriminate].
    destruct (nth_error vs k) as [c'|] eqn:EC; [|discriminate].
    destruct (mesh_of vs s) as [m|]; [|discriminate]. cbn in H. injection H as <-.
    destruct I as [I | I].
    + injection I as -> -> ->. exists i, j, k. repeat split; auto. now left.
    + destruct (IH _ _ _ _ eq_refl I) as (i' & j' & k' & A & B). exists i', j', k'. split; [now right|exact B].
Qed.
Lemma mesh_of_nonempty vs simplices mesh : simplices <> [] -> mesh_of vs simplices = Ok mesh -> mesh <> [].
Proof.
  destruct simplices as [|[[i j] k] s]; [easy|]. cbn. intros _ H.
  destruct (nth_error vs i); [|discriminate]. destruct (nth_error vs j); [|discriminate].
  destruct (nth_error vs k); [|discriminate]. destruct (mesh_of vs s); [|discriminate].
  cbn in H. injection H as <-. discriminate.
Qed.

Lemma polygon_sample_spec vs simplices x r1 r2 :
  simplices <> [] ->
  (forall i j k, In (i, j, k) simplices -> (i < length vs /\ j < length vs /\ k < length vs)%nat) ->
  0 <= x < 1 -> 0 <= r1 <= 1 -> 0 <= r2 <= 1 ->
  exists i j k a b c p, In (i, j, k) simplices /\
    nth_error vs i = Some a /\ nth_error vs j = Some b /\ nth_error vs k = Some c /\
    polygon_sample vs simplices x r1 r2 = Ok p /\ in_triangle a b c p /\ in_hull vs p.
Proof.
  intros N V X R1 R2. destruct (mesh_of_ok vs simplices V) as (mesh & M).
  pose proof (mesh_of_nonempty _ _ _ N M) as NM.
  destruct (pick_triangle_total mesh x NM ltac:(lra)) as ([[a b] c] & I & P).
  destruct (mesh_of_in _ _ _ _ _ _ M I) as (i & j & k & S & A & B & C).
  exists i, j, k, a, b, c, (random_sample_triangle r1 r2 a b c).
  pose proof (sample_triangle_in r1 r2 a b c R1 R2) as T.
  repeat split; auto.
  - unfold polygon_sample. rewrite M. cbn. rewrite P. reflexivity.
  - apply (in_triangle_hull vs a b c); eauto using nth_error_In.
Qed.

(** ** Uniformity inside a triangle *)
Lemma sqrt_deriv r : 0 < r -> derivable_pt_lim sqrt r (/ (2 * sqrt r)).
Proof. intros H. apply derivable_pt_lim_sqrt. exact H. Qed.

Lemma lin_sqrt_deriv (k m r : R) : 0 < r ->
  derivable_pt_lim (fun t => k + m * sqrt t) r (m * / (2 * sqrt r)).
Proof.
  intros H. replace (m * / (2 * sqrt r)) with (0 + m * / (2 * sqrt r)) by ring.
  apply (derivable_pt_lim_plus (fct_cte k) (mult_real_fct m sqrt)).
  - apply derivable_pt_lim_const.
  - apply derivable_pt_lim_scal. now apply sqrt_deriv.
Qed.
Lemma lin_deriv (k m s : R) : derivable_pt_lim (fun t => k + m * t) s m.
Proof.
  cut (derivable_pt_lim (fun t => k + m * t) s (0 + m * 1)); [now rewrite Rplus_0_l, Rmult_1_r|].
  apply (derivable_pt_lim_plus (fct_cte k) (mult_real_fct m id)).
  - apply derivable_pt_lim_const.
  - apply derivable_pt_lim_scal. apply derivable_pt_lim_id.
Qed.
Lemma deriv_ext f g x l : (forall t, f t = g t) -> derivable_pt_lim f x l -> derivable_pt_lim g x l.
Proof.
  intros E H eps P. destruct (H eps P) as (d & D). exists d. intros h. rewrite <- !E. apply D.
Qed.
Lemma triangle_stretch a b c r1 r2 : 0 < r1 ->
  area_stretch (fun r s => random_sample_triangle r s a b c) r1 r2
    (((vx b - vx a) * (vy c - vy a) - (vy b - vy a) * (vx c - vx a)) / 2).
Proof.
  intros H. assert (S : 0 < sqrt r1) by now apply sqrt_lt_R0.
  exists (((1 - r2) * vx b + r2 * vx c - vx a) * / (2 * sqrt r1)), (sqrt r1 * (vx c - vx b)),
    (((1 - r2) * vy b + r2 * vy c - vy a) * / (2 * sqrt r1)), (sqrt r1 * (vy c - vy b)).
  repeat split.
  - apply (deriv_ext (fun t => vx a + ((1 - r2) * vx b + r2 * vx c - vx a) * sqrt t)).
    + intros t. unfold random_sample_triangle. cbn. ring.
    + now apply lin_sqrt_deriv.
  - apply (deriv_ext (fun t => (vx a - sqrt r1 * vx a + sqrt r1 * vx b) + (sqrt r1 * (vx c - vx b)) * t)).
    + intros t. unfold random_sample_triangle. cbn. ring.
    + apply lin_deriv.
  - apply (deriv_ext (fun t => vy a + ((1 - r2) * vy b + r2 * vy c - vy a) * sqrt t)).
    + intros t. unfold random_sample_triangle. cbn. ring.
    + now apply lin_sqrt_deriv.
  - apply (deriv_ext (fun t => (vy a - sqrt r1 * vy a + sqrt r1 * vy b) + (sqrt r1 * (vy c - vy b)) * t)).
    + intros t. unfold random_sample_triangle. cbn. ring.
    + apply lin_deriv.
  - field. lra.
Qed.
Lemma triangle_injective a b c r1 r2 s1 s2 :
  (vx b - vx a) * (vy c - vy a) - (vy b - vy a) * (vx c - vx a) <> 0 ->
  0 < r1 -> 0 < s1 ->
  random_sample_triangle r1 r2 a b c = random_sample_triangle s1 s2 a b c -> r1 = s1 /\ r2 = s2.
Proof.
  intros D R S E. unfold random_sample_triangle in E. apply vec_eq_inv in E as [E1 E2].
  cbn in E1, E2.
  assert (P : 0 < sqrt r1) by now apply sqrt_lt_R0. assert (Q : 0 < sqrt s1) by now apply sqrt_lt_R0.
  rewrite <- (sqrt_sqrt r1), <- (sqrt_sqrt s1) by lra. set (p := sqrt r1) in *. set (q := sqrt s1) in *.
  set (u := p * (1 - r2) - q * (1 - s2)). set (v := p * r2 - q * s2).
  set (x1 := vx b - vx a) in *. set (x2 := vx c - vx a) in *. set (y1 := vy b - vy a) in *. set (y2 := vy c - vy a) in *.
  assert (F1 : u * x1 + v * x2 = 0) by (unfold u, v, x1, x2; lra).
  assert (F2 : u * y1 + v * y2 = 0) by (unfold u, v, y1, y2; lra).
  assert (U : u = 0).
  { assert (u * (x1 * y2 - y1 * x2) = 0).
    { replace (u * (x1 * y2 - y1 * x2)) with ((u * x1 + v * x2) * y2 - (u * y1 + v * y2) * x2) by ring.
      rewrite F1, F2. ring. }
    apply Rmult_integral in H as [H | H]; [exact H|contradiction]. }
  assert (W : v = 0).
  { assert (v * (x1 * y2 - y1 * x2) = 0).
    { replace (v * (x1 * y2 - y1 * x2)) with ((u * y1 + v * y2) * x1 - (u * x1 + v * x2) * y1) by ring.
      rewrite F1, F2. ring. }
    apply Rmult_integral in H as [H | H]; [exact H|contradiction]. }
  assert (PQ : p = q) by (unfold u, v in *; lra).
  split; [now rewrite PQ|]. unfold v in W. rewrite PQ in W.
  assert (q * (r2 - s2) = 0) by lra. apply Rmult_integral in H as [H | H]; lra.
Qed.
Lemma triangle_onto a b c p : inside_triangle a b c p ->
  exists r1 r2, 0 < r1 < 1 /\ 0 < r2 < 1 /\ random_sample_triangle r1 r2 a b c = p.
Proof.
  intros (s & t & u & S & T & U & E & ->). exists ((t + u) * (t + u)), (u / (t + u)).
  assert (Q : sqrt ((t + u) * (t + u)) = t + u) by (apply sqrt_square; lra).
  split; [nra|]. split.
  - split; [apply Rdiv_lt_0_compat; lra|]. apply Rmult_lt_reg_r with (t + u); [lra|]. field_simplify; lra.
  - unfold random_sample_triangle. rewrite Q. replace s with (1 - t - u) by lra. veq; field; lra.
Qed.
