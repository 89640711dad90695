(** * Overlap tests and grid indices in float64 *)
From Coq Require Import Reals ZArith Lra Lia List.
From Flocq Require Import Core Relative Sterbenz.
From Verif Require Export Model.FloatSteps Proofs.FloatProofs Proofs.FloatSums.
From Verif Require Import Proofs.FloatCells Proofs.FloatCases.
Import ListNotations.
Open Scope R_scope.

Definition away (p q : R * R) : R * R := (fst p - fst q, snd p - snd q).
Lemma rnd_minus x y : fmt x -> fmt y -> Rabs (rnd (x - y) - (x - y)) <= W / 2 * Rabs (x - y).
Proof.
  intros X Y. destruct (rnd_plus x (- y) X (generic_format_opp _ _ _ Y)) as (e & E & H). change (x + - y) with (x - y) in H. rewrite H.
  replace ((x - y) * (1 + e) - (x - y)) with (e * (x - y)) by ring. rewrite Rabs_mult. rewrite u_val in E. apply Rmult_le_compat_r; [apply Rabs_pos|lra].
Qed.
Lemma rnd_sum x y : fmt x -> fmt y -> Rabs (rnd (x + y) - (x + y)) <= W / 2 * Rabs (x + y).
Proof.
  intros X Y. destruct (rnd_plus x y X Y) as (e & E & H). rewrite H.
  replace ((x + y) * (1 + e) - (x + y)) with (e * (x + y)) by ring. rewrite Rabs_mult. rewrite u_val in E. apply Rmult_le_compat_r; [apply Rabs_pos|lra].
Qed.
Lemma rnd_neg x y : fmt x -> fmt y -> (rnd (x - y) < 0 <-> x < y).
Proof.
  intros X Y. split.
  - intros H. destruct (Rlt_or_le x y) as [K|K]; auto. pose proof (rnd_above (x - y) 0 (generic_format_0 _ _) ltac:(lra)). lra.
  - intros H. pose proof (rnd_minus x y X Y) as M. rewrite (Rabs_left (x - y)) in M by lra. apply Rabs_le_inv in M. lra.
Qed.
Section Hypot.
  Variable hypot : R -> R -> R.
  Hypothesis good : good_hypot hypot.
  Lemma rounded_length p q : double (fst p) -> double (snd p) -> double (fst q) -> double (snd q) ->
    let x := (rnd (fst p - fst q), rnd (snd p - snd q)) in
    Rabs (fst x - (fst p - fst q)) <= W / 2 * norm2 (away p q) /\ Rabs (snd x - (snd p - snd q)) <= W / 2 * norm2 (away p q) /\
    Rabs (norm2 x - norm2 (away p q)) <= W * norm2 (away p q).
  Proof using.
    intros P1 P2 Q1 Q2 x. apply double_fmt in P1, P2, Q1, Q2. pose proof (rnd_minus _ _ P1 Q1) as A. pose proof (rnd_minus _ _ P2 Q2) as B.
    destruct (norm2_comp (away p q)) as [C D]. cbn [away fst snd] in C, D. set (L := norm2 (away p q)) in *.
    assert (A' : Rabs (fst x - (fst p - fst q)) <= W / 2 * L) by (eapply Rle_trans; [exact A|]; apply Rmult_le_compat_l; lra).
    assert (B' : Rabs (snd x - (snd p - snd q)) <= W / 2 * L) by (eapply Rle_trans; [exact B|]; apply Rmult_le_compat_l; lra).
    split; auto. split; auto. pose proof (norm2_diff x (away p q)) as E. pose proof (norm2_diff (away p q) x) as F. cbn [away fst snd] in E, F. fold L in E, F.
    rewrite (Rabs_minus_sym (fst p - fst q)), (Rabs_minus_sym (snd p - snd q)) in F. cbn [fst snd x] in *. apply Rabs_le. lra.
  Qed.
  Lemma length_close p q : double (fst p) -> double (snd p) -> double (fst q) -> double (snd q) ->
    let d := hypot (rnd (fst p - fst q)) (rnd (snd p - snd q)) in
    fmt d /\ 0 <= d /\ Rabs (d - norm2 (away p q)) <= 3 * W * norm2 (away p q) + powerRZ 2 (-1074).
  Proof using good.
    intros P1 P2 Q1 Q2 d. destruct (rounded_length p q P1 P2 Q1 Q2) as (_ & _ & A). cbv zeta in A. set (L := norm2 (away p q)) in *.
    destruct (good (rnd (fst p - fst q)) (rnd (snd p - snd q))) as (G1 & G2 & _ & G4); [apply double_fmt, rnd_fmt..|]. fold d in G1, G2, G4. set (N := norm2 (rnd (fst p - fst q), rnd (snd p - snd q))) in *.
    split; [now apply double_fmt|]. split; auto. assert (LP : 0 <= L) by apply norm2_pos. assert (TP : 0 < powerRZ 2 (-1074)) by (rewrite <- pow2; apply bpow_gt_0).
    apply Rabs_le_inv in A. apply Rabs_le_inv in G4. assert (V : powerRZ 2 (-52) = W) by (rewrite <- pow2; reflexivity). rewrite V in G4. assert (M : Rmax (W * N) (powerRZ 2 (-1074)) <= W * (L * (1 + W)) + powerRZ 2 (-1074)).
    { apply Rmax_lub; [|pose proof (Rmult_le_pos W (L * (1 + W))); nra]. assert (W * N <= W * (L * (1 + W))) by (apply Rmult_le_compat_l; lra). lra. }
    apply Rabs_le. nra.
  Qed.
  Lemma distance_close x0 r0 x1 r1 : double (fst x0) -> double (snd x0) -> double (fst x1) -> double (snd x1) -> double r0 -> double r1 -> 0 <= r0 -> 0 <= r1 ->
    Rabs (fst (f_distance_circles hypot x0 r0 x1 r1) - (norm2 (away x0 x1) - (r0 + r1))) <= 4 * W * (norm2 (away x0 x1) + r0 + r1) + powerRZ 2 (-1073).
  Proof using good.
    intros P1 P2 Q1 Q2 R0 R1 Z0 Z1. destruct (length_close x0 x1 P1 P2 Q1 Q2) as (F & D & C). apply double_fmt in R0, R1. pose proof (rnd_sum _ _ R0 R1) as S. unfold f_distance_circles; cbn [fst snd].
    set (d := hypot _ _) in *. set (L := norm2 (away x0 x1)) in *. assert (LP : 0 <= L) by apply norm2_pos. rewrite (Rabs_pos_eq (r0 + r1)) in S by lra. set (r := rnd (r0 + r1)) in *.
    pose proof (rnd_minus d r F (rnd_fmt _)) as M. assert (T : powerRZ 2 (-1073) = 2 * powerRZ 2 (-1074)). { rewrite <- !pow2. change (-1073)%Z with (1 + -1074)%Z. rewrite bpow_plus. reflexivity. }
    assert (TP : 0 < powerRZ 2 (-1074)) by (rewrite <- pow2; apply bpow_gt_0). rewrite T. set (t := powerRZ 2 (-1074)) in *. apply Rabs_le_inv in C. apply Rabs_le_inv in S. set (h := rnd (d - r)) in *.
    assert (B : Rabs (d - r) <= L * (1 + 3 * W) + t + (r0 + r1) * (1 + W)) by (apply Rabs_le; lra).
    apply Rabs_le_inv in M. apply Rabs_le. lra.
  Qed.
  Lemma overlap_sign x0 r0 x1 r1 : double (fst x0) -> double (snd x0) -> double (fst x1) -> double (snd x1) ->
    (fst (f_distance_circles hypot x0 r0 x1 r1) < 0 <-> hypot (rnd (fst x0 - fst x1)) (rnd (snd x0 - snd x1)) < rnd (r0 + r1)).
  Proof using good.
    intros P1 P2 Q1 Q2. destruct (length_close x0 x1 P1 P2 Q1 Q2) as (F & _). apply rnd_neg; auto. apply rnd_fmt.
  Qed.
  Lemma overlap_close x0 r0 x1 r1 : double (fst x0) -> double (snd x0) -> double (fst x1) -> double (snd x1) -> double r0 -> double r1 -> powerRZ 2 (-1000) <= r0 + r1 ->
    (fst (f_distance_circles hypot x0 r0 x1 r1) < 0 -> norm2 (away x0 x1) < (r0 + r1) * (1 + 4 * W)) /\
    (0 <= fst (f_distance_circles hypot x0 r0 x1 r1) -> (r0 + r1) * (1 - 4 * W) <= norm2 (away x0 x1)).
  Proof using good.
    intros P1 P2 Q1 Q2 R0 R1 Z. pose proof (overlap_sign x0 r0 x1 r1 P1 P2 Q1 Q2) as I. destruct (length_close x0 x1 P1 P2 Q1 Q2) as (F & D & C). apply double_fmt in R0, R1. pose proof (rnd_sum _ _ R0 R1) as S.
    assert (P : 0 < powerRZ 2 (-1000)) by (rewrite <- pow2; apply bpow_gt_0). rewrite (Rabs_pos_eq (r0 + r1)) in S by lra.
    assert (T : powerRZ 2 (-1074) <= W / 1000 * (r0 + r1)). { rewrite <- pow2 in *. replace (-1074)%Z with (-74 + -1000)%Z by lia. rewrite bpow_plus. apply Rmult_le_compat; try apply bpow_ge_0; auto. cbn; lra. }
    set (d := hypot _ _) in *. set (L := norm2 (away x0 x1)) in *. assert (LP : 0 <= L) by apply norm2_pos. set (r := rnd (r0 + r1)) in *. apply Rabs_le_inv in C. apply Rabs_le_inv in S. set (rr := r0 + r1) in *. split; intros H.
    - apply I in H. assert (L * (1 - 3 * W) < rr * (1 + W / 2 + W / 1000)) by lra. assert (rr * (1 + W / 2 + W / 1000) <= rr * ((1 + 4 * W) * (1 - 3 * W))) by (apply Rmult_le_compat_l; lra). nra.
    - assert (r <= d) by (destruct (Rle_or_lt r d); auto; assert (d < r) as K by auto; apply I in K; lra). assert (rr * (1 - W / 2 - W / 1000) <= L * (1 + 3 * W)) by lra.
      assert (rr * ((1 - 4 * W) * (1 + 3 * W)) <= rr * (1 - W / 2 - W / 1000)) by (apply Rmult_le_compat_l; lra). nra.
  Qed.
  Lemma normal_close x0 r0 x1 r1 : double (fst x0) -> double (snd x0) -> double (fst x1) -> double (snd x1) -> powerRZ 2 (-1000) <= norm2 (away x0 x1) ->
    let n := snd (f_distance_circles hypot x0 r0 x1 r1) in let D := norm2 (away x0 x1) in
    Rabs (fst n - (fst x0 - fst x1) / D) <= 4 * W /\ Rabs (snd n - (snd x0 - snd x1) / D) <= 4 * W.
  Proof using good.
    intros P1 P2 Q1 Q2 Z. destruct (rounded_length x0 x1 P1 P2 Q1 Q2) as (A & B & C). unfold f_distance_circles; cbn [fst snd]. cbv zeta in A, B, C. cbn [fst snd] in A, B, C. set (a := rnd (fst x0 - fst x1)) in *. set (b := rnd (snd x0 - snd x1)) in *.
    set (D := norm2 (away x0 x1)) in *. assert (P : 0 < D). { eapply Rlt_le_trans; [|exact Z]. rewrite <- pow2. apply bpow_gt_0. }
    pose proof (norm2_comp (away x0 x1)) as [E1 E2]. cbn [away fst snd] in E1, E2. fold D in E1, E2.
    assert (N : powerRZ 2 (-1022) <= norm2 (a, b)). { apply Rabs_le_inv in C. assert (D * / 2 <= norm2 (a, b)) by lra. eapply Rle_trans; [|exact H]. apply Rle_trans with (powerRZ 2 (-1000) * / 2); [|lra]. rewrite <- !pow2. change (/ 2) with (bpow radix2 (-1)). rewrite <- bpow_plus. apply bpow_le. lia. }
    destruct (good_close hypot good (a, b)) as [LP LC]; [apply double_fmt, rnd_fmt..|exact N|]. cbn [fst snd] in LC. destruct (ratio_close _ _ LP LC) as [HP _]. rewrite Req_bool_false by lra. cbn [fst snd].
    destruct (norm2_comp (a, b)) as [C1 C2]. cbn [fst snd] in C1, C2. pose proof (quotient_close _ _ _ LP LC C1) as Q3. pose proof (quotient_close _ _ _ LP LC C2) as Q4. set (L := norm2 (a, b)) in *. set (h := hypot a b) in *.
    assert (K : forall s t, Rabs (t - s) <= W / 2 * D -> Rabs s <= D -> Rabs (t / L - s / D) <= 2 * W).
    { intros s t H1 H2. replace (t / L - s / D) with (((t - s) * D + s * (D - L)) * / (L * D)) by (field; lra). rewrite Rabs_mult, Rabs_inv, (Rabs_pos_eq (L * D)) by nra.
      apply (Rmult_le_reg_r (L * D)); [nra|]. rewrite Rmult_assoc, Rinv_l by nra. rewrite Rmult_1_r. eapply Rle_trans; [apply Rabs_triang|]. rewrite !Rabs_mult, (Rabs_pos_eq D) by lra. rewrite (Rabs_minus_sym D L).
      assert (Rabs (t - s) * D <= W / 2 * D * D) by (apply Rmult_le_compat_r; lra). assert (Rabs s * Rabs (L - D) <= D * (W * D)) by (apply Rmult_le_compat; auto using Rabs_pos). apply Rabs_le_inv in C. nra. }
    split.
    - replace (rnd (a / h) - (fst x0 - fst x1) / D) with ((rnd (a / h) - a / L) + (a / L - (fst x0 - fst x1) / D)) by ring. eapply Rle_trans; [apply Rabs_triang|]. pose proof (K (fst x0 - fst x1) a A E1). lra.
    - replace (rnd (b / h) - (snd x0 - snd x1) / D) with ((rnd (b / h) - b / L) + (b / L - (snd x0 - snd x1) / D)) by ring. eapply Rle_trans; [apply Rabs_triang|]. pose proof (K (snd x0 - snd x1) b B E2). lra.
  Qed.
  Lemma distance_swapped x0 r0 x1 r1 : (forall a b, hypot (- a) (- b) = hypot a b) ->
    let p := f_distance_circles hypot x0 r0 x1 r1 in let q := f_distance_circles hypot x1 r1 x0 r0 in
    fst q = fst p /\ fst (snd q) = - fst (snd p) /\ snd (snd q) = - snd (snd p).
  Proof using.
    intros E. cbv zeta. unfold f_distance_circles; cbn [fst snd]. replace (fst x1 - fst x0) with (- (fst x0 - fst x1)) by ring. replace (snd x1 - snd x0) with (- (snd x0 - snd x1)) by ring.
    rewrite !rnd_opp, E, (Rplus_comm r1). split; auto. destruct (Req_bool_spec (hypot (rnd (fst x0 - fst x1)) (rnd (snd x0 - snd x1))) 0); cbn [fst snd]; [lra|]. unfold Rdiv. rewrite !Ropp_mult_distr_l_reverse, !rnd_opp. auto.
  Qed.
  Lemma f_overlapping_iff agents x r : f_overlapping_circles hypot agents x r = true <-> exists a, In a agents /\ fst (f_distance_circles hypot (fst a) (snd a) x r) < 0.
  Proof using.
    induction agents as [|a l IH]; cbn [f_overlapping_circles]. { split; [discriminate|intros (a & [] & _)]. }
    destruct (Rlt_bool_spec (fst (f_distance_circles hypot (fst a) (snd a) x r)) 0) as [H|H].
    - split; auto. intros _. exists a. split; [now left|auto].
    - rewrite IH. split; intros (b & B & C); exists b; split; auto; [now right|]. destruct B as [<-|B]; auto. lra.
  Qed.
End Hypot.

(** ** Grids *)
Lemma rnd_rel x y (c : R) : fmt x -> fmt y -> 0 < c -> Rabs (rnd (x - y) / c - (x - y) / c) <= W / 2 * Rabs ((x - y) / c).
Proof.
  intros X Y C. pose proof (rnd_minus x y X Y) as H. unfold Rdiv at 1 2. rewrite <- Rmult_minus_distr_r. unfold Rdiv at 2. rewrite !Rabs_mult. rewrite <- Rmult_assoc. apply Rmult_le_compat_r; auto. apply Rabs_pos.
Qed.
Lemma grid_quotient step minx x : fmt step -> fmt minx -> fmt x -> 0 < step -> Rabs minx <= bpow radix2 46 * step -> Rabs x <= bpow radix2 46 * step ->
  Rabs (rnd (rnd (x - minx) / step) - (x - minx) / step) <= / 16.
Proof.
  intros S M X P BM BX. pose proof (rnd_rel x minx step X M P) as H. set (q := (x - minx) / step) in *. assert (V : bpow radix2 46 = 70368744177664) by reflexivity.
  assert (Q : Rabs q <= 2 * 70368744177664). { unfold q, Rdiv. rewrite Rabs_mult, Rabs_inv, (Rabs_pos_eq step) by lra. apply (Rmult_le_reg_r step); auto. rewrite Rmult_assoc, Rinv_l by lra. rewrite Rmult_1_r. rewrite V in BM, BX. apply Rabs_le_inv in BM, BX. apply Rabs_le. lra. }
  set (p := rnd (x - minx) / step) in *. destruct (rnd_error p) as (e & a & E & A & ->). pose proof tiny_val as [T1 T2]. rewrite u_val in E. apply Rabs_le_inv in Q, A. assert (Rabs q <= 2 * 70368744177664) as Q' by (apply Rabs_le; lra).
  assert (Pp : Rabs p <= 3 * 70368744177664). { apply Rabs_le_inv in H. apply Rabs_le. pose proof (Rabs_pos q). lra. }
  assert (Rabs (p * e) <= 3 * 70368744177664 * / 9007199254740992) by (rewrite Rabs_mult; apply Rmult_le_compat; auto using Rabs_pos). apply Rabs_le_inv in H, H0. apply Rabs_le. lra.
Qed.
Lemma grid_in_range step minx maxx x : fmt step -> fmt minx -> fmt maxx -> fmt x -> 0 < step -> minx <= x <= maxx -> Rabs minx <= bpow radix2 45 * step -> Rabs maxx <= bpow radix2 45 * step ->
  (0 <= f_grid_index step minx x < f_grid_length step minx maxx)%Z /\
  Rabs (minx + (IZR (f_grid_index step minx x) + / 2) * step - x) <= (/ 2 + / 16) * step /\
  Rabs (minx + IZR (f_grid_length step minx maxx) * step - (maxx + 3 / 2 * step)) <= (/ 2 + / 8) * step.
Proof.
  intros S M X Y P [L1 L2] BM BX. assert (V : bpow radix2 46 = 70368744177664) by reflexivity. assert (V' : bpow radix2 45 = 35184372088832) by reflexivity. rewrite V' in BM, BX.
  assert (BY : Rabs x <= bpow radix2 46 * step). { rewrite V. apply Rabs_le_inv in BM, BX. apply Rabs_le. lra. }
  assert (BM' : Rabs minx <= bpow radix2 46 * step) by (rewrite V; lra). assert (BX' : Rabs maxx <= bpow radix2 46 * step) by (rewrite V; lra).
  pose proof (rnd_sum maxx step X S) as SE. assert (SE' : Rabs (rnd (maxx + step) - (maxx + step)) <= / 32 * step).
  { eapply Rle_trans; [exact SE|]. assert (Rabs (maxx + step) <= 35184372088833 * step) by (eapply Rle_trans; [apply Rabs_triang|]; rewrite (Rabs_pos_eq step) by lra; lra). lra. }
  assert (BS : Rabs (rnd (maxx + step)) <= bpow radix2 46 * step). { rewrite V. apply Rabs_le_inv in SE', BX. apply Rabs_le. lra. }
  pose proof (grid_quotient step minx x S M Y P BM' BY) as Q1. pose proof (grid_quotient step minx (rnd (maxx + step)) S M (rnd_fmt _) P BM' BS) as Q2.
  unfold f_grid_index, f_grid_length. set (q := rnd (rnd (x - minx) / step)) in *. set (p := rnd (rnd (rnd (maxx + step) - minx) / step)) in *.
  assert (q0 : 0 <= q). { unfold q. apply rnd_above; [apply generic_format_0|]. apply Rmult_le_pos; [apply rnd_above; [apply generic_format_0|lra]|left; now apply Rinv_0_lt_compat]. }
  rewrite Ztrunc_floor by exact q0. pose proof (Zfloor_lb q) as F1. pose proof (Zfloor_ub q) as F2. pose proof (Zceil_ub p) as F3. pose proof (Zceil_lb p) as F4.
  assert (D1 : (x - minx) / step * step = x - minx) by (field; lra). assert (D2 : (rnd (maxx + step) - minx) / step * step = rnd (maxx + step) - minx) by (field; lra). set (a := (x - minx) / step) in *. set (b := (rnd (maxx + step) - minx) / step) in *.
  apply Rabs_le_inv in Q1, Q2, SE'. assert (AB : a + 1 - / 32 <= b) by (apply (Rmult_le_reg_r step); auto; nra). split; [|split].
  - split; [apply Zfloor_lub; exact q0|]. apply lt_IZR. lra.
  - apply Rabs_le. nra.
  - assert (maxx = b * step + minx - step - (rnd (maxx + step) - (maxx + step))) by lra. apply Rabs_le. nra.
Qed.
Lemma grid_far : let step := 1 / 2 in let minx := bpow radix2 53 in let maxx := bpow radix2 53 + 4 in
  fmt step /\ fmt minx /\ fmt maxx /\ f_grid_index step minx maxx = 8%Z /\ f_grid_length step minx maxx = 8%Z.
Proof.
  cbv zeta. assert (V : bpow radix2 53 = 9007199254740992) by reflexivity.
  assert (A : fmt (1 / 2)) by (replace (1 / 2) with (IZR 1 * bpow radix2 (-1)) by (cbn; lra); apply fmt_dyadic; lia).
  assert (B : fmt (bpow radix2 53)) by (replace (bpow radix2 53) with (IZR 1 * bpow radix2 53) by lra; apply fmt_dyadic; lia).
  assert (C : fmt (bpow radix2 53 + 4)) by (replace (bpow radix2 53 + 4) with (IZR 4503599627370498 * bpow radix2 1) by (rewrite V; cbn; lra); apply fmt_dyadic; lia).
  assert (D : rnd (bpow radix2 53 + 4 + 1 / 2) = bpow radix2 53 + 4).
  { rewrite (rnd_at _ 54 4503599627370498); [|rewrite Rabs_pos_eq; rewrite ?V; cbn; lra|]. { rewrite V; cbn; lra. } rewrite V. apply Rabs_def1; cbn; lra. }
  assert (E : rnd 4 = 4) by (apply rnd_id; apply (fmt_int 4); lia). assert (F : rnd 8 = 8) by (apply rnd_id; apply (fmt_int 8); lia).
  split; auto. split; auto. split; auto. unfold f_grid_index, f_grid_length. rewrite D. replace (bpow radix2 53 + 4 - bpow radix2 53) with 4 by lra. rewrite E. replace (4 / (1 / 2)) with 8 by lra. rewrite F. split.
  - apply (Ztrunc_IZR 8).
  - apply (Zceil_IZR 8).
Qed.
