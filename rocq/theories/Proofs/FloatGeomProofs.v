(** * Lines of sight and areas in float64 *)
From Coq Require Import Reals ZArith Lra Lia List.
From Flocq Require Import Core.
From Verif Require Import Model.Geom2D Spec.Plane Spec.Polygon Spec.Doubles Spec.GridPoints Model.Floats Proofs.FloatProofs Proofs.FloatSums Proofs.FloatCells Proofs.FloatOverlap.
From Verif Require Export Model.FloatGeom.
Import ListNotations.
Open Scope R_scope.

Notation Q := (bpow radix2).
Lemma div_below a b c : 0 < c -> a <= b * c -> a / c <= b.
Proof. intros C H. apply Rmult_le_reg_r with c; auto. unfold Rdiv. rewrite Rmult_assoc, Rinv_l by lra. lra. Qed.
Lemma div_above a b c : 0 < c -> b * c <= a -> b <= a / c.
Proof. intros C H. apply Rmult_le_reg_r with c; auto. unfold Rdiv. rewrite Rmult_assoc, Rinv_l by lra. lra. Qed.
Lemma div_nonneg a c : 0 <= a -> 0 < c -> 0 <= a / c.
Proof. intros A C. apply div_above; auto. lra. Qed.
(** ** Symmetry *)
Lemma f_vsub_opp a b : f_vsub b a = V (- vx (f_vsub a b)) (- vy (f_vsub a b)).
Proof. unfold f_vsub; cbn [vx vy]. rewrite <- !rnd_opp. f_equal; f_equal; ring. Qed.
Lemma f_cross_swap a b : f_cross b a = - f_cross a b.
Proof.
  unfold f_cross. rewrite <- rnd_opp. f_equal. rewrite (Rmult_comm (vx b) (vy a)), (Rmult_comm (vy b) (vx a)). ring.
Qed.
Lemma f_cross_opp a b : f_cross (V (- vx a) (- vy a)) b = - f_cross a b.
Proof. unfold f_cross; cbn [vx vy]. rewrite <- rnd_opp. f_equal. rewrite !Ropp_mult_distr_l_reverse, !rnd_opp. ring. Qed.
Lemma f_within_opp t d : d <> 0 -> f_within (- t) (- d) = f_within t d.
Proof. intros H. unfold f_within. replace (- t / - d) with (t / d) by (field; auto). reflexivity. Qed.
Lemma f_line_intersect_swap x0 x1 y0 y1 : f_line_intersect y0 y1 x0 x1 = f_line_intersect x0 x1 y0 y1.
Proof.
  unfold f_line_intersect. cbv zeta. rewrite (f_vsub_opp y0 x0). set (u := f_vsub x1 x0). set (v := f_vsub y1 y0). set (b := f_vsub y0 x0).
  rewrite (f_cross_swap u v), !f_cross_opp. set (d := f_cross u v).
  destruct (Req_bool_spec d 0) as [E|E]; destruct (Req_bool_spec (- d) 0) as [F|F]; auto; try lra.
  rewrite !f_within_opp by auto. apply Bool.andb_comm.
Qed.

(** ** Points on a grid *)
Definition onZ (g : Z) (n : Z) (c : R) : Prop := exists k, (Z.abs k <= n)%Z /\ c = IZR k * Q g.
Lemma onZ_fmt g n c : onZ g n c -> (n < 2 ^ 53)%Z -> (-1074 <= g)%Z -> fmt c.
Proof. intros (k & K & ->) N G. apply fmt_dyadic; lia. Qed.
Lemma onZ_rnd g n c : onZ g n c -> (n < 2 ^ 53)%Z -> (-1074 <= g)%Z -> rnd c = c.
Proof. intros H N G. apply rnd_id. now apply (onZ_fmt g n). Qed.
Lemma onZ_minus g n m a b : onZ g n a -> onZ g m b -> onZ g (n + m) (a - b).
Proof. intros (k & K & ->) (l & L & ->). exists (k - l)%Z. split; [lia|]. rewrite minus_IZR. ring. Qed.
Lemma onZ_plus g n m a b : onZ g n a -> onZ g m b -> onZ g (n + m) (a + b).
Proof. intros (k & K & ->) (l & L & ->). exists (k + l)%Z. split; [lia|]. rewrite plus_IZR. ring. Qed.
Lemma onZ_mult g h n m a b : onZ g n a -> onZ h m b -> onZ (g + h) (n * m) (a * b).
Proof. intros (k & K & ->) (l & L & ->). exists (k * l)%Z. split; [rewrite Z.abs_mul; nia|]. rewrite mult_IZR, bpow_plus. ring. Qed.
Lemma onZ_le g n m a : onZ g n a -> (n <= m)%Z -> onZ g m a.
Proof. intros (k & K & ->) H. exists k. split; auto; lia. Qed.

Definition vonZ g n (v : vec) : Prop := onZ g n (vx v) /\ onZ g n (vy v).
Lemma f_vsub_exact g n a b : vonZ g n a -> vonZ g n b -> (2 * n < 2 ^ 53)%Z -> (-1074 <= g)%Z -> f_vsub a b = vsub a b /\ vonZ g (2 * n) (vsub a b).
Proof.
  intros [A1 A2] [B1 B2] N G. pose proof (onZ_minus _ _ _ _ _ A1 B1) as X. pose proof (onZ_minus _ _ _ _ _ A2 B2) as Y.
  replace (n + n)%Z with (2 * n)%Z in X, Y by lia. split; [|split; assumption]. unfold f_vsub, vsub.
  now rewrite (onZ_rnd _ _ _ X), (onZ_rnd _ _ _ Y).
Qed.
Lemma f_cross_exact g n a b : vonZ g n a -> vonZ g n b -> (2 * (n * n) < 2 ^ 53)%Z -> (-537 <= g)%Z ->
  f_cross a b = vx a * vy b - vy a * vx b /\ onZ (g + g) (2 * (n * n)) (vx a * vy b - vy a * vx b).
Proof.
  intros [A1 A2] [B1 B2] N G. pose proof (onZ_mult _ _ _ _ _ _ A1 B2) as X. pose proof (onZ_mult _ _ _ _ _ _ A2 B1) as Y.
  assert (n * n < 2 ^ 53)%Z by nia. pose proof (onZ_minus _ _ _ _ _ X Y) as D. replace (n * n + n * n)%Z with (2 * (n * n))%Z in D by lia.
  split; auto. unfold f_cross. rewrite (onZ_rnd _ _ _ X), (onZ_rnd _ _ _ Y), (onZ_rnd _ _ _ D); auto; lia.
Qed.
Lemma quotient_range T D : (0 < D <= 2 ^ 51)%Z -> f_within (IZR T) (IZR D) = (Rle_bool 0 (IZR T / IZR D) && Rle_bool (IZR T / IZR D) 1)%bool.
Proof.
  intros [D0 D1]. assert (P : 0 < IZR D) by (now apply (IZR_lt 0)). assert (D2 : IZR D <= 2251799813685248) by (now apply (IZR_le _ (2 ^ 51))).
  unfold f_within. f_equal.
  - destruct (Z_le_gt_dec 0 T) as [L|L].
    + assert (0 <= IZR T / IZR D) by (apply div_nonneg; auto; now apply (IZR_le 0)). rewrite !Rle_bool_true; auto. apply rnd_above; auto. apply generic_format_0.
    + assert (IZR T <= -1) by (apply (IZR_le _ (-1)); lia). assert (B : IZR T / IZR D <= IZR (-1) * Q (-51)).
      { apply div_below; auto. replace (IZR (-1) * Q (-51)) with (- / 2251799813685248) by (cbn; lra). nra. }
      assert (rnd (IZR T / IZR D) <= IZR (-1) * Q (-51)) by (apply rnd_below; auto; apply fmt_dyadic; lia).
      assert (IZR (-1) * Q (-51) < 0) by (cbn; lra). rewrite !Rle_bool_false; auto; lra.
  - destruct (Z_le_gt_dec T D) as [L|L].
    + assert (IZR T / IZR D <= 1). { apply div_below; auto. rewrite Rmult_1_l. now apply IZR_le. }
      rewrite !Rle_bool_true; auto. apply rnd_below; auto. apply (fmt_int 1). lia.
    + assert (IZR D + 1 <= IZR T) by (rewrite <- plus_IZR; apply IZR_le; lia). assert (B : IZR (2 ^ 51 + 1) * Q (-51) <= IZR T / IZR D).
      { apply div_above; auto. replace (IZR (2 ^ 51 + 1) * Q (-51)) with (1 + / 2251799813685248) by (cbn; lra). nra. }
      assert (IZR (2 ^ 51 + 1) * Q (-51) <= rnd (IZR T / IZR D)) by (apply rnd_above; auto; apply fmt_dyadic; lia).
      assert (1 < IZR (2 ^ 51 + 1) * Q (-51)) by (cbn; lra). rewrite !Rle_bool_false; auto; lra.
Qed.
Lemma within_exact g t d : onZ g (2 ^ 51) t -> onZ g (2 ^ 51) d -> d <> 0 -> f_within t d = (Rle_bool 0 (t / d) && Rle_bool (t / d) 1)%bool.
Proof.
  assert (P : forall t d, onZ g (2 ^ 51) t -> onZ g (2 ^ 51) d -> 0 < d -> f_within t d = (Rle_bool 0 (t / d) && Rle_bool (t / d) 1)%bool).
  { clear. intros t d (T & KT & ->) (D & KD & ->) H. assert (B : 0 < Q g) by apply bpow_gt_0. assert (0 < IZR D) by nra.
    assert (0 < D)%Z by (now apply lt_IZR). unfold f_within at 1. replace (IZR T * Q g / (IZR D * Q g)) with (IZR T / IZR D) by (field; lra).
    apply quotient_range. lia. }
  intros HT HD N. destruct (Rlt_or_le 0 d) as [H|H]; [now apply P|].
  rewrite <- f_within_opp by auto. rewrite P; [|..].
  - replace (- t / - d) with (t / d) by (field; auto). reflexivity.
  - destruct HT as (T & K & ->). exists (- T)%Z. split; [lia|]. rewrite opp_IZR. ring.
  - destruct HD as (T & K & ->). exists (- T)%Z. split; [lia|]. rewrite opp_IZR. ring.
  - lra.
Qed.
Lemma bool_leb a b : Rle_bool a b = Rleb a b.
Proof. unfold Rleb. destruct (Rle_bool_spec a b) as [H|H]; destruct (Rle_dec a b); auto; lra. Qed.
Lemma bool_eqb a b : Req_bool a b = Reqb a b.
Proof. unfold Reqb. destruct (Req_bool_spec a b) as [H|H]; destruct (Req_EM_T a b); auto; try contradiction. Qed.
Lemma f_line_intersect_exact g x0 x1 y0 y1 : (-537 <= g)%Z -> vonZ g (2 ^ 24) x0 -> vonZ g (2 ^ 24) x1 -> vonZ g (2 ^ 24) y0 -> vonZ g (2 ^ 24) y1 ->
  f_line_intersect x0 x1 y0 y1 = line_intersect x0 x1 y0 y1.
Proof.
  intros G A B C D. unfold f_line_intersect, line_intersect. cbv zeta.
  destruct (f_vsub_exact g _ x1 x0 B A ltac:(lia) ltac:(lia)) as [-> U]. destruct (f_vsub_exact g _ y1 y0 D C ltac:(lia) ltac:(lia)) as [-> V].
  destruct (f_vsub_exact g _ y0 x0 C A ltac:(lia) ltac:(lia)) as [-> W].
  destruct (f_cross_exact g _ _ _ U V ltac:(lia) G) as [-> X]. destruct (f_cross_exact g _ _ _ W V ltac:(lia) G) as [-> Y].
  destruct (f_cross_exact g _ _ _ W U ltac:(lia) G) as [-> Z]. change (2 * (2 * 2 ^ 24 * (2 * 2 ^ 24)))%Z with (2 ^ 51)%Z in *.
  rewrite bool_eqb. destruct (Reqb _ 0) eqn:E; auto.
  assert (N : vx (vsub x1 x0) * vy (vsub y1 y0) - vy (vsub x1 x0) * vx (vsub y1 y0) <> 0). { unfold Reqb in E. destruct (Req_EM_T _ 0) in E; [discriminate|auto]. }
  rewrite (within_exact _ _ _ Y X N), (within_exact _ _ _ Z X N), !bool_leb. reflexivity.
Qed.
Lemma f_sight_exact g a b obstacles : (-537 <= g)%Z -> vonZ g (2 ^ 24) a -> vonZ g (2 ^ 24) b ->
  (forall o, In o obstacles -> vonZ g (2 ^ 24) (p0 o) /\ vonZ g (2 ^ 24) (p1 o)) ->
  f_is_obstacle_between_points a b obstacles = is_obstacle_between_points a b obstacles.
Proof.
  intros G A B. induction obstacles as [|o rest IH]; intros H; cbn; auto. destruct (H o ltac:(now left)) as [C D].
  rewrite (f_line_intersect_exact g) by auto. destruct (line_intersect _ _ _ _); auto. apply IH. intros; apply H; now right.
Qed.

(** ** Areas *)
Lemma vat_onZ g n vs i : (forall v, In v vs -> vonZ g n v) -> (0 <= n)%Z -> vonZ g n (vat vs i).
Proof.
  intros H N. unfold vat. destruct (nth_in_or_default i vs vzero) as [I| ->]; auto. split; exists 0%Z; cbn; split; try lia; lra.
Qed.
Definition shoe (vs : list vec) i j k : R := vx (vat vs i) * (vy (vat vs j) - vy (vat vs k)).
Lemma shoe_exact g n vs i j k : (forall v, In v vs -> vonZ g n v) -> (0 <= n)%Z -> (2 * (n * n) < 2 ^ 53)%Z -> (-537 <= g)%Z -> 
  rnd (vx (vat vs i) * rnd (vy (vat vs j) - vy (vat vs k))) = shoe vs i j k /\ onZ (g + g) (2 * (n * n)) (shoe vs i j k).
Proof.
  intros H N B G. destruct (vat_onZ g n vs i H N) as [I _]. destruct (vat_onZ g n vs j H N) as [_ J]. destruct (vat_onZ g n vs k H N) as [_ K].
  pose proof (onZ_minus _ _ _ _ _ J K) as D. destruct (Z.eq_dec n 0) as [->|Nz].
  - rewrite (onZ_rnd _ _ _ D) by lia. pose proof (onZ_mult _ _ _ _ _ _ I D) as M. fold (shoe vs i j k) in M |- *. rewrite (onZ_rnd _ _ _ M) by lia. split; auto.
  - rewrite (onZ_rnd _ _ _ D) by nia. pose proof (onZ_mult _ _ _ _ _ _ I D) as M. fold (shoe vs i j k) in M |- *.
    replace (n * (n + n))%Z with (2 * (n * n))%Z in M by lia. rewrite (onZ_rnd _ _ _ M) by lia. split; auto.
Qed.
Lemma loop_exact g n vs : (forall v, In v vs -> vonZ g n v) -> (0 <= n)%Z -> (-537 <= g)%Z -> forall m i a c, (0 <= c)%Z -> (c + 2 * (n * n) * Z.of_nat m < 2 ^ 53)%Z -> onZ (g + g) c a ->
  fold_left (fun area i => rnd (area + rnd (vx (vat vs i) * rnd (vy (vat vs (i + 1)) - vy (vat vs (i - 1)))))) (seq i m) a =
  fold_left (fun area i => area + vx (vat vs i) * (vy (vat vs (i + 1)) - vy (vat vs (i - 1)))) (seq i m) a /\
  onZ (g + g) (c + 2 * (n * n) * Z.of_nat m) (fold_left (fun area i => area + vx (vat vs i) * (vy (vat vs (i + 1)) - vy (vat vs (i - 1)))) (seq i m) a).
Proof.
  intros H N G. induction m as [|m IH]; intros i a c C B A; cbn [seq fold_left]. { split; auto. apply (onZ_le _ c); auto. lia. }
  destruct (shoe_exact g n vs i (i + 1) (i - 1) H N ltac:(nia) G) as [-> K]. pose proof (onZ_plus _ _ _ _ _ A K) as P.
  rewrite (onZ_rnd _ _ _ P) by nia. destruct (IH (S i) _ (c + 2 * (n * n))%Z ltac:(nia) ltac:(nia) P) as [E F]. fold (shoe vs i (i + 1) (i - 1)). rewrite E. split; auto.
  apply (onZ_le _ _ _ _ F). nia.
Qed.
Lemma f_polygon_area_exact g n vs : (forall v, In v vs -> vonZ g n v) -> (0 <= n)%Z -> (-536 <= g)%Z -> (2 * (n * n) * Z.of_nat (length vs) < 2 ^ 53)%Z ->
  f_polygon_area vs = polygon_area vs.
Proof.
  intros H N G B. unfold f_polygon_area, polygon_area. destruct (Nat.ltb_spec (length vs) 3) as [L|L]; auto. cbv zeta.
  assert (Z0 : onZ (g + g) 0 0) by (exists 0%Z; split; [lia|lra]).
  destruct (loop_exact g n vs H N ltac:(lia) (length vs - 2) 1%nat 0 0%Z ltac:(lia) ltac:(nia) Z0) as [E F].
  fold (f_shoelace_loop vs (length vs)) in E. fold (shoelace_loop vs (length vs)) in E, F. rewrite E.
  destruct (shoe_exact g n vs (length vs - 1) 0 (length vs - 2) H N ltac:(nia) ltac:(lia)) as [-> S1].
  destruct (shoe_exact g n vs 0 1 (length vs - 1) H N ltac:(nia) ltac:(lia)) as [-> S2].
  pose proof (onZ_plus _ _ _ _ _ F S1) as P1. rewrite (onZ_rnd _ _ _ P1) by nia. pose proof (onZ_plus _ _ _ _ _ P1 S2) as P2. rewrite (onZ_rnd _ _ _ P2) by nia.
  unfold shoe in P2 |- *. apply rnd_id. destruct P2 as (k & K & ->). rewrite Rabs_mult, (Rabs_pos_eq (Q (g + g))), <- abs_IZR by apply bpow_ge_0.
  replace (1 / 2 * (IZR (Z.abs k) * Q (g + g))) with (IZR (Z.abs k) * (Q (-1) * Q (g + g))) by (cbn; lra). rewrite <- bpow_plus. apply fmt_dyadic; [|lia]. rewrite Z.abs_eq by lia. nia.
Qed.

(** ** Away from the ends *)
Lemma rnd_off x : Rabs (rnd x - x) <= W / 2 * Rabs x + Q (-1075).
Proof.
  destruct (rnd_error x) as (e & a & E & A & ->). replace (x * (1 + e) + a - x) with (x * e + a) by ring. eapply Rle_trans; [apply Rabs_triang|]. rewrite Rabs_mult.
  assert (U : Rabs e <= W / 2) by (eapply Rle_trans; [exact E|]; rewrite u_val; lra). pose proof (Rabs_pos x). nra.
Qed.
Lemma diff_off M a b : fmt a -> fmt b -> Rabs a <= M -> Rabs b <= M -> Rabs (a - b) <= 2 * M /\ Rabs (rnd (a - b) - (a - b)) <= W * M.
Proof.
  intros Fa Fb A B. assert (Rabs (a - b) <= 2 * M) by (apply Rabs_le_inv in A, B; apply Rabs_le; lra). split; auto.
  pose proof (rnd_minus a b Fa Fb). pose proof (Rabs_pos (a - b)). lra.
Qed.
Lemma prod_off M a a' b b' : 1 <= M -> Rabs a <= 2 * M -> Rabs b <= 2 * M -> Rabs (a' - a) <= W * M -> Rabs (b' - b) <= W * M ->
  Rabs (a * b) <= 4 * (M * M) /\ Rabs (rnd (a' * b') - a * b) <= 8 * W * (M * M).
Proof.
  intros HM A B EA EB. assert (P : Rabs (a * b) <= 4 * (M * M)) by (rewrite Rabs_mult; pose proof (Rabs_pos a); pose proof (Rabs_pos b); nra). split; auto.
  assert (D : Rabs (a' * b' - a * b) <= (4 + W) * W * (M * M)).
  { replace (a' * b' - a * b) with ((a' - a) * b + a * (b' - b) + (a' - a) * (b' - b)) by ring.
    eapply Rle_trans; [apply Rabs_triang|]. assert (Rabs ((a' - a) * b) <= W * M * (2 * M)) by (rewrite Rabs_mult; apply Rmult_le_compat; auto using Rabs_pos).
    assert (Rabs (a * (b' - b)) <= 2 * M * (W * M)) by (rewrite Rabs_mult; apply Rmult_le_compat; auto using Rabs_pos).
    assert (Rabs ((a' - a) * (b' - b)) <= W * M * (W * M)) by (rewrite Rabs_mult; apply Rmult_le_compat; auto using Rabs_pos).
    pose proof (Rabs_triang ((a' - a) * b) (a * (b' - b))). lra. }
  pose proof (rnd_off (a' * b')) as R1. pose proof tiny_val as T. pose proof (Rabs_triang_inv (a' * b') (a * b)) as I.
  replace (rnd (a' * b') - a * b) with ((rnd (a' * b') - a' * b') + (a' * b' - a * b)) by ring. eapply Rle_trans; [apply Rabs_triang|].
  assert (1 <= M * M) by nra. lra.
Qed.
Lemma cross_off M a a' b b' : 1 <= M -> Rabs (vx a) <= 2 * M -> Rabs (vy a) <= 2 * M -> Rabs (vx b) <= 2 * M -> Rabs (vy b) <= 2 * M ->
  Rabs (vx a' - vx a) <= W * M -> Rabs (vy a' - vy a) <= W * M -> Rabs (vx b' - vx b) <= W * M -> Rabs (vy b' - vy b) <= W * M ->
  Rabs (f_cross a' b' - (vx a * vy b - vy a * vx b)) <= 32 * W * (M * M).
Proof.
  intros HM A1 A2 B1 B2 E1 E2 F1 F2. destruct (prod_off M _ _ _ _ HM A1 B2 E1 F2) as [P1 P2]. destruct (prod_off M _ _ _ _ HM A2 B1 E2 F1) as [Q1 Q2].
  unfold f_cross. set (p := rnd (vx a' * vy b')) in *. set (q := rnd (vy a' * vx b')) in *.
  pose proof (rnd_off (p - q)) as R1. pose proof tiny_val as T. assert (1 <= M * M) by nra.
  apply Rabs_le_inv in P1, P2, Q1, Q2. assert (Rabs (p - q) <= 9 * (M * M)) by (apply Rabs_le; lra).
  assert (R2 : Rabs (rnd (p - q) - (p - q)) <= 5 * W * (M * M)) by lra. apply Rabs_le_inv in R2. apply Rabs_le. lra.
Qed.
Lemma within_pos d t df tf E eps : 0 < d -> Rabs (df - d) <= E -> Rabs (tf - t * d) <= E -> 4 * E <= eps * d -> 4 * W <= eps -> eps <= 1 -> clear_of eps t ->
  0 < df /\ f_within tf df = (Rle_bool 0 t && Rle_bool t 1)%bool.
Proof.
  intros D DF TF HE E0 E1 C. apply Rabs_le_inv in DF, TF. assert (0 <= E) by lra.
  assert (ED : eps * d <= d) by nra. assert (P : 0 < df) by lra. split; [exact P|]. unfold f_within.
  assert (F1 : fmt 1) by (apply (fmt_int 1); lia). assert (F0 : fmt 0) by apply generic_format_0.
  destruct C as [C|[C|C]].
  - assert (t * d <= - (eps * d)) by nra. assert (L : tf / df <= IZR (-1) * Q (-51)).
    { apply div_below; auto. replace (IZR (-1) * Q (-51)) with (- (2 * W)) by (cbn; lra). assert (4 * W * d <= eps * d) by nra. lra. }
    assert (rnd (tf / df) <= IZR (-1) * Q (-51)) by (apply rnd_below; auto; apply fmt_dyadic; lia).
    assert (IZR (-1) * Q (-51) < 0) by (cbn; lra). rewrite !(Rle_bool_false 0); [reflexivity|lra|lra].
  - assert (eps * d <= t * d <= d - eps * d) by nra. assert (0 <= tf / df) by (apply div_nonneg; lra).
    assert (tf / df <= 1) by (apply div_below; lra). rewrite !Rle_bool_true; auto; try lra; [now apply rnd_below|now apply rnd_above].
  - assert (d + eps * d <= t * d) by nra. assert (L : IZR (2 ^ 52 + 1) * Q (-52) <= tf / df).
    { apply div_above; auto. replace (IZR (2 ^ 52 + 1) * Q (-52)) with (1 + W) by (cbn; lra). assert (4 * W * d <= eps * d) by nra. lra. }
    assert (IZR (2 ^ 52 + 1) * Q (-52) <= rnd (tf / df)) by (apply rnd_above; auto; apply fmt_dyadic; lia).
    assert (1 < IZR (2 ^ 52 + 1) * Q (-52)) by (cbn; lra). rewrite !(Rle_bool_false _ 1); [now rewrite !Bool.andb_false_r|lra|lra].
Qed.
Lemma within_off d t df tf E eps : d <> 0 -> Rabs (df - d) <= E -> Rabs (tf - t * d) <= E -> 4 * E <= eps * Rabs d -> 4 * W <= eps -> eps <= 1 -> clear_of eps t ->
  df <> 0 /\ f_within tf df = (Rle_bool 0 t && Rle_bool t 1)%bool.
Proof.
  intros D DF TF HE E0 E1 C. destruct (Rlt_or_le 0 d) as [H|H].
  - rewrite Rabs_pos_eq in HE by lra. destruct (within_pos d t df tf E eps H DF TF HE E0 E1 C) as [P ->]. split; auto; lra.
  - rewrite Rabs_left1 in HE by auto. destruct (within_pos (- d) t (- df) (- tf) E eps) as [P K]; auto; try lra.
    + rewrite <- Rabs_Ropp. replace (- (- df - - d)) with (df - d) by ring. exact DF.
    + rewrite <- Rabs_Ropp. replace (- (- tf - t * - d)) with (tf - t * d) by ring. exact TF.
    + assert (df <> 0) by lra. rewrite f_within_opp in K by auto. split; auto.
Qed.
Definition vfmt M (v : vec) : Prop := fmt (vx v) /\ fmt (vy v) /\ Rabs (vx v) <= M /\ Rabs (vy v) <= M.
Lemma f_line_intersect_clear M x0 x1 y0 y1 eps s t : 1 <= M -> vfmt M x0 -> vfmt M x1 -> vfmt M y0 -> vfmt M y1 -> along x0 x1 t = along y0 y1 s ->
  let d := (vx x1 - vx x0) * (vy y1 - vy y0) - (vy x1 - vy x0) * (vx y1 - vx y0) in
  128 * W * (M * M) <= eps * Rabs d -> 4 * W <= eps -> eps <= 1 -> clear_of eps t -> clear_of eps s ->
  f_line_intersect x0 x1 y0 y1 = ((Rle_bool 0 t && Rle_bool t 1) && (Rle_bool 0 s && Rle_bool s 1))%bool.
Proof.
  intros HM (A1 & A2 & A3 & A4) (B1 & B2 & B3 & B4) (C1 & C2 & C3 & C4) (D1 & D2 & D3 & D4) X d HE E0 E1 CT CS.
  assert (N : d <> 0). { intros Z. rewrite Z, Rabs_R0 in HE. nra. }
  unfold along in X. injection X as X1 X2.
  unfold f_line_intersect. cbv zeta. set (u' := f_vsub x1 x0). set (v' := f_vsub y1 y0). set (b' := f_vsub y0 x0).
  set (u := vsub x1 x0). set (v := vsub y1 y0). set (b := vsub y0 x0).
  destruct (diff_off M _ _ B1 A1 B3 A3) as [U1 U2]. destruct (diff_off M _ _ B2 A2 B4 A4) as [U3 U4].
  destruct (diff_off M _ _ D1 C1 D3 C3) as [V1 V2]. destruct (diff_off M _ _ D2 C2 D4 C4) as [V3 V4].
  destruct (diff_off M _ _ C1 A1 C3 A3) as [Y1 Y2]. destruct (diff_off M _ _ C2 A2 C4 A4) as [Y3 Y4].
  pose proof (cross_off M u u' v v' HM U1 U3 V1 V3 U2 U4 V2 V4) as KD. pose proof (cross_off M b b' v v' HM Y1 Y3 V1 V3 Y2 Y4 V2 V4) as K0.
  pose proof (cross_off M b b' u u' HM Y1 Y3 U1 U3 Y2 Y4 U2 U4) as K1. fold d in KD.
  assert (Z1 : vx b = t * vx u - s * vx v) by (unfold b, u, v, vsub; cbn [vx vy]; lra). assert (Z2 : vy b = t * vy u - s * vy v) by (unfold b, u, v, vsub; cbn [vx vy]; lra).
  assert (ZD : d = vx u * vy v - vy u * vx v) by reflexivity.
  replace (vx b * vy v - vy b * vx v) with (t * d) in K0 by (rewrite Z1, Z2, ZD; ring).
  replace (vx b * vy u - vy b * vx u) with (s * d) in K1 by (rewrite Z1, Z2, ZD; ring).
  destruct (within_off d t _ _ _ eps N KD K0 ltac:(lra) E0 E1 CT) as [ND ->]. destruct (within_off d s _ _ _ eps N KD K1 ltac:(lra) E0 E1 CS) as [_ ->].
  rewrite Req_bool_false by exact ND. reflexivity.
Qed.

(** ** Nearly parallel *)
Definition nearly : R := Q (-30).
Lemma nearly_fmt k : (Z.abs k < 2 ^ 20)%Z -> fmt (2 + IZR k * nearly).
Proof. intros K. replace (2 + IZR k * nearly) with (IZR (2 ^ 31 + k) * Q (-30)). 2:{ unfold nearly. rewrite plus_IZR. cbn. lra. } apply fmt_dyadic; lia. Qed.
Lemma nearly_missed : f_line_intersect (V (- (1 + nearly)) (-1)) (V (1 + nearly) 1) (V (-1) (- (1 - nearly))) (V 1 (1 - nearly)) = false.
Proof.
  unfold f_line_intersect, f_vsub. cbn [vx vy].
  replace (1 + nearly - - (1 + nearly)) with (2 + IZR 2 * nearly) by ring. replace (1 - nearly - - (1 - nearly)) with (2 + IZR (-2) * nearly) by ring.
  replace (1 - -1) with (IZR 2) by ring. rewrite (rnd_id (IZR 2)) by (apply fmt_int; lia). rewrite !rnd_id by (apply nearly_fmt; lia).
  rewrite Req_bool_true; [reflexivity|]. unfold f_cross. cbn [vx vy].
  replace (2 * 2) with (IZR 4) by ring. rewrite (rnd_id (IZR 4)) by (apply fmt_int; lia).
  assert (P : rnd ((2 + IZR 2 * nearly) * (2 + IZR (-2) * nearly)) = 4).
  2:{ rewrite P. rewrite Rminus_diag_eq by reflexivity. apply rnd_id, generic_format_0. }
  replace ((2 + IZR 2 * nearly) * (2 + IZR (-2) * nearly)) with (4 - Q (-58)) by (unfold nearly; cbn; lra).
  apply Rle_antisym. { apply rnd_below; [apply (fmt_int 4); lia|]. pose proof (bpow_ge_0 radix2 (-58)). lra. }
  destruct (rnd_nearest (4 - Q (-58))) as [D K]. specialize (K 4 ltac:(apply double_fmt, (fmt_int 4); lia)).
  apply double_fmt in D. destruct (Rle_or_lt 4 (rnd (4 - Q (-58)))) as [L|L]; auto. exfalso.
  assert (F4 : fmt 4) by (apply (fmt_int 4); lia). pose proof (pred_ge_gt radix2 double_exp _ _ D F4 L) as P.
  assert (PV : pred radix2 double_exp 4 = 4 - Q (-51)).
  { change 4 with (bpow radix2 2). rewrite pred_bpow. reflexivity. }
  rewrite PV in P. replace (4 - (4 - Q (-58))) with (Q (-58)) in K by ring. rewrite (Rabs_pos_eq (Q (-58))) in K by apply bpow_ge_0. apply Rabs_le_inv in K.
  assert (Q (-51) = 128 * Q (-58)) by (cbn; lra). pose proof (bpow_gt_0 radix2 (-58)). lra.
Qed.
