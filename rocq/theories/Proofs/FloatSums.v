(** * The clock and vectors in float64 *)
From Coq Require Import Reals ZArith Lra Lia List.
From Flocq Require Import Core Relative Plus_error.
From Verif Require Import Proofs.FloatProofs.
Import ListNotations.
Open Scope R_scope.

Notation u := (bpow radix2 (-53)).
Lemma u_val : u = / 9007199254740992. Proof. reflexivity. Qed.
Lemma rnd_plus x y : fmt x -> fmt y -> exists e, Rabs e <= u /\ rnd (x + y) = (x + y) * (1 + e).
Proof.
  intros X Y. destruct (FLT_plus_error_N_ex radix2 (-1074) 53 (fun x => negb (Z.even x)) x y X Y) as (e & E & H). exists e. split; [|exact H].
  eapply Rle_trans; [exact E|]. assert (V : u_ro radix2 53 = u) by (unfold u_ro; cbn; lra). rewrite V.
  apply (Rmult_le_reg_r (1 + u)); [rewrite u_val; lra|]. unfold Rdiv. rewrite Rmult_assoc, Rinv_l by (rewrite u_val; lra). rewrite u_val. lra.
Qed.
Lemma clock_from dts : forall t s n, fmt t -> (forall d, In d dts -> fmt d /\ 0 <= d) -> 0 <= s -> Rabs (t - s) <= ((1 + u) ^ n - 1) * s ->
  let t' := fold_left (fun t dt => rnd (t + dt)) dts t in
  fmt t' /\ Rabs (t' - (s + total_of dts)) <= ((1 + u) ^ (n + length dts) - 1) * (s + total_of dts).
Proof.
  induction dts as [|d dts IH]; intros t s n F D Sp E; cbv zeta; cbn [fold_left length total_of fold_right].
  - rewrite Nat.add_0_r, Rplus_0_r. auto.
  - destruct (D d) as [Fd Pd]; [now left|]. destruct (IH (rnd (t + d)) (s + d) (S n)) as [A B].
    + apply rnd_fmt.
    + intros x X. apply D. now right.
    + lra.
    + destruct (rnd_plus t d F Fd) as (e & Ee & ->). assert (U : 0 < u) by apply bpow_gt_0. assert (P : 1 <= (1 + u) ^ n) by (apply pow_R1_Rle; lra).
      replace ((t + d) * (1 + e) - (s + d)) with ((t - s) * (1 + e) + (s + d) * e) by ring.
      eapply Rle_trans; [apply Rabs_triang|]. rewrite !Rabs_mult, (Rabs_pos_eq (s + d)) by lra.
      assert (E1 : Rabs (1 + e) <= 1 + u) by (eapply Rle_trans; [apply Rabs_triang|]; rewrite Rabs_R1; lra).
      assert (E2 : Rabs (t - s) * Rabs (1 + e) <= ((1 + u) ^ n - 1) * s * (1 + u)) by (apply Rmult_le_compat; auto; apply Rabs_pos).
      assert (E3 : (s + d) * Rabs e <= (s + d) * u) by (apply Rmult_le_compat_l; lra). cbn [pow]. set (q := (1 + u) ^ n) in *. assert (K : 0 <= d * ((1 + u) * (q - 1))) by (repeat apply Rmult_le_pos; lra). lra.
    + cbv zeta in A, B. fold (total_of dts). replace (n + S (length dts))%nat with (S n + length dts)%nat by lia. replace (s + (d + total_of dts)) with (s + d + total_of dts) by ring. auto.
Qed.
Lemma clock_error dts : (forall d, In d dts -> fmt d /\ 0 <= d) -> fmt (f_clock dts) /\ Rabs (f_clock dts - total_of dts) <= ((1 + u) ^ (length dts) - 1) * total_of dts.
Proof.
  intros D. destruct (clock_from dts 0 0 0) as [A B]; auto; [apply generic_format_0|lra|rewrite Rminus_0_r, Rabs_R0; cbn; lra|]. cbv zeta in A, B. rewrite !Rplus_0_l in B. auto.
Qed.
Lemma pow_small n : INR n * u <= / 2 -> (1 + u) ^ n - 1 <= INR n * (2 * u).
Proof.
  assert (U : 0 < u) by apply bpow_gt_0. induction n as [|n IH]; intros H; [cbn; lra|]. rewrite S_INR in *. cbn [pow]. assert (0 <= INR n) by apply pos_INR.
  specialize (IH ltac:(nra)). set (q := (1 + u) ^ n) in *. assert (q <= 1 + INR n * (2 * u)) by lra. assert (INR n * u * u <= / 2 * u) by (apply Rmult_le_compat_r; lra). nra.
Qed.
Lemma clock_next t d : fmt t -> fmt d -> 0 <= d -> t <= rnd (t + d).
Proof. intros F G H. apply rnd_above; auto. lra. Qed.
Lemma clock_advances t d : fmt t -> fmt d -> 0 < d -> 0 <= t <= bpow radix2 52 * d -> t < rnd (t + d).
Proof.
  intros F G D [T1 T2]. destruct (rnd_plus t d F G) as (e & E & ->). apply Rabs_le_inv in E. rewrite u_val in E. assert (V : bpow radix2 52 = 4503599627370496) by reflexivity. rewrite V in T2. nra.
Qed.
Definition hundredth : R := 5764607523034235 / 576460752303423488.
Lemma fmt_hundredth : fmt hundredth.
Proof. replace hundredth with (IZR 5764607523034235 * bpow radix2 (-59)). apply fmt_dyadic; lia. unfold hundredth. cbn. lra. Qed.
Lemma clock_stuck n : f_clock (repeat hundredth n) <= bpow radix2 47.
Proof.
  assert (F : fmt (bpow radix2 47)) by (replace (bpow radix2 47) with (IZR 1 * bpow radix2 47) by lra; apply fmt_dyadic; lia).
  assert (S : rnd (bpow radix2 47 + hundredth) = bpow radix2 47).
  { apply Rle_antisym; [|apply rnd_above; [exact F|unfold hundredth; lra]].
    assert (U : ulp radix2 double_exp (bpow radix2 47) = bpow radix2 (-5)) by (rewrite ulp_bpow; reflexivity).
    destruct (rnd_nearest (bpow radix2 47 + hundredth)) as [D N]. specialize (N _ (proj2 (double_fmt _) F)).
    destruct (Rle_or_lt (rnd (bpow radix2 47 + hundredth)) (bpow radix2 47)) as [K|K]; [exact K|]. exfalso.
    pose proof (succ_le_lt radix2 double_exp _ _ F (rnd_fmt _) K) as P. rewrite succ_eq_pos in P by apply bpow_ge_0. rewrite U in P.
    replace (bpow radix2 47 - (bpow radix2 47 + hundredth)) with (- hundredth) in N by ring. rewrite Rabs_Ropp, (Rabs_pos_eq hundredth) in N by (unfold hundredth; lra). apply Rabs_le_inv in N.
    assert (bpow radix2 (-5) = / 32) by (cbn; lra). unfold hundredth in *. lra. }
  unfold f_clock. assert (G : forall n t, t <= bpow radix2 47 -> fold_left (fun t dt => rnd (t + dt)) (repeat hundredth n) t <= bpow radix2 47); [|apply G, bpow_ge_0].
  clear n. induction n as [|n IH]; intros t Ht; cbn [repeat fold_left]; auto. apply IH. rewrite <- S. apply rnd_le. lra.
Qed.

(** ** Vectors *)
Lemma rnd_error x : exists e a, Rabs e <= u /\ Rabs a <= bpow radix2 (-1075) /\ rnd x = x * (1 + e) + a.
Proof.
  destruct (error_N_FLT radix2 (-1074) 53 ltac:(lia) (fun x => negb (Z.even x)) x) as (e & a & E & A & _ & H). exists e, a. split; [|split]; auto.
  - eapply Rle_trans; [exact E|]. right. change (/ 2) with (bpow radix2 (-1)). rewrite <- bpow_plus. reflexivity.
  - eapply Rle_trans; [exact A|]. right. change (/ 2) with (bpow radix2 (-1)). rewrite <- bpow_plus. reflexivity.
Qed.
Notation W := (/ 4503599627370496).
Lemma tiny_val : 0 < bpow radix2 (-1075) <= W / 1000000.
Proof. split; [apply bpow_gt_0|]. apply Rle_trans with (bpow radix2 (-80)); [apply bpow_le; lia|cbn; lra]. Qed.
Lemma norm2_pos v : 0 <= norm2 v. Proof. apply sqrt_pos. Qed.
Lemma norm2_sq v : norm2 v * norm2 v = fst v * fst v + snd v * snd v.
Proof. unfold norm2. apply sqrt_sqrt. nra. Qed.
Lemma norm2_comp v : Rabs (fst v) <= norm2 v /\ Rabs (snd v) <= norm2 v.
Proof.
  pose proof (norm2_pos v). pose proof (norm2_sq v). split; apply Rsqr_incr_0; auto using Rabs_pos; unfold Rsqr; rewrite <- Rabs_mult, Rabs_pos_eq; nra.
Qed.
Lemma norm2_diff a b : norm2 a <= norm2 b + Rabs (fst a - fst b) + Rabs (snd a - snd b).
Proof.
  pose proof (norm2_pos a) as A. pose proof (norm2_pos b) as B. pose proof (norm2_sq a) as A2. pose proof (norm2_sq b) as B2. destruct (norm2_comp b) as [B3 B4].
  destruct a as [a1 a2], b as [b1 b2]; cbn [fst snd] in *. set (p := norm2 (a1, a2)) in *. set (q := norm2 (b1, b2)) in *.
  pose proof (Rabs_pos (a1 - b1)) as P1. pose proof (Rabs_pos (a2 - b2)) as P2. apply Rsqr_incr_0; [|auto|lra]. unfold Rsqr. rewrite A2.
  assert (S1 : Rabs (a1 - b1) * Rabs (a1 - b1) = (a1 - b1) * (a1 - b1)) by (rewrite <- Rabs_mult; apply Rabs_pos_eq, Rle_0_sqr).
  assert (S2 : Rabs (a2 - b2) * Rabs (a2 - b2) = (a2 - b2) * (a2 - b2)) by (rewrite <- Rabs_mult; apply Rabs_pos_eq, Rle_0_sqr).
  assert (C1 : b1 * (a1 - b1) <= q * Rabs (a1 - b1)) by (eapply Rle_trans; [apply Rle_abs|]; rewrite Rabs_mult; apply Rmult_le_compat_r; auto).
  assert (C2 : b2 * (a2 - b2) <= q * Rabs (a2 - b2)) by (eapply Rle_trans; [apply Rle_abs|]; rewrite Rabs_mult; apply Rmult_le_compat_r; auto).
  assert (C3 : 0 <= Rabs (a1 - b1) * Rabs (a2 - b2)) by (apply Rmult_le_pos; auto).
  set (d1 := Rabs (a1 - b1)) in *. set (d2 := Rabs (a2 - b2)) in *. nra.
Qed.
Lemma norm2_scale v k : 0 <= k -> norm2 (fst v * k, snd v * k) = k * norm2 v.
Proof.
  intros K. unfold norm2; cbn [fst snd]. replace (fst v * k * (fst v * k) + snd v * k * (snd v * k)) with ((k * k) * (fst v * fst v + snd v * snd v)) by ring.
  rewrite sqrt_mult by nra. rewrite sqrt_square; auto.
Qed.

Lemma ratio_close L h : 0 < L -> Rabs (h - L) <= W * L -> 0 < h /\ Rabs (L / h - 1) <= W * (1 + / 1000).
Proof.
  intros HL H. apply Rabs_le_inv in H. assert (P : 0 < h) by lra. split; auto. assert (Z1 : h * / h = 1) by (apply Rinv_r; lra). assert (Z2 : 0 < / h) by now apply Rinv_0_lt_compat.
  apply Rabs_le. unfold Rdiv. set (i := / h) in *. split.
  - assert (0 <= (L * (1 + W) - h) * i) by (apply Rmult_le_pos; lra). assert (0 <= (h - L * (1 - W)) * i) by (apply Rmult_le_pos; lra). lra.
  - assert (0 <= (L * (1 + W) - h) * i) by (apply Rmult_le_pos; lra). assert (0 <= (h - L * (1 - W)) * i) by (apply Rmult_le_pos; lra). lra.
Qed.
Lemma quotient_close x L h : 0 < L -> Rabs (h - L) <= W * L -> Rabs x <= L -> Rabs (rnd (x / h) - x / L) <= 2 * W.
Proof.
  intros HL H X. destruct (ratio_close L h HL H) as [P K]. destruct (rnd_error (x / h)) as (e & a & E & A & ->). pose proof tiny_val as [T1 T2]. rewrite u_val in E.
  replace (x / h) with (x / L * (L / h)) by (field; lra). assert (R1 : Rabs (x / L) <= 1).
  { unfold Rdiv. rewrite Rabs_mult, Rabs_inv, (Rabs_pos_eq L) by lra. apply (Rmult_le_reg_r L); auto. rewrite Rmult_assoc, Rinv_l by lra. lra. }
  set (r := x / L) in *. set (k := L / h) in *. replace (r * k * (1 + e) + a - r) with (r * ((k - 1) + k * e) + a) by ring.
  eapply Rle_trans; [apply Rabs_triang|]. rewrite Rabs_mult. assert (Rabs (k - 1 + k * e) <= W * (1 + / 1000) + 2 * (W / 2) * (1 / 2 + / 1000)).
  { eapply Rle_trans; [apply Rabs_triang|]. rewrite Rabs_mult. assert (Rabs k <= 1 + / 1000). { replace k with ((k - 1) + 1) by ring. eapply Rle_trans; [apply Rabs_triang|]. rewrite Rabs_R1. lra. }
    assert (Rabs k * Rabs e <= (1 + / 1000) * / 9007199254740992) by (apply Rmult_le_compat; auto using Rabs_pos). lra. }
  assert (Rabs r * Rabs (k - 1 + k * e) <= 1 * (W * (1 + / 1000) + 2 * (W / 2) * (1 / 2 + / 1000))) by (apply Rmult_le_compat; auto using Rabs_pos). lra.
Qed.
Section Hypot.
  Variable hypot : R -> R -> R.
  Hypothesis good : good_hypot hypot.
  Lemma good_close v : double (fst v) -> double (snd v) -> powerRZ 2 (-1022) <= norm2 v -> 0 < norm2 v /\ Rabs (hypot (fst v) (snd v) - norm2 v) <= W * norm2 v.
  Proof using good.
    intros D1 D2 N. destruct (good (fst v) (snd v) D1 D2) as (_ & _ & _ & G). rewrite <- surjective_pairing in G. split.
    - eapply Rlt_le_trans; [|exact N]. rewrite <- pow2. apply bpow_gt_0.
    - rewrite <- !pow2 in G. rewrite <- pow2 in N. rewrite Rmax_left in G; [exact G|]. change (-1074)%Z with (-52 + -1022)%Z. rewrite bpow_plus. apply Rmult_le_compat_l; auto. apply bpow_ge_0.
  Qed.
  Lemma normalize_close v : double (fst v) -> double (snd v) -> powerRZ 2 (-1022) <= norm2 v ->
    let w := f_normalize hypot v in
    double (fst w) /\ double (snd w) /\ Rabs (fst w - fst v / norm2 v) <= 2 * W /\ Rabs (snd w - snd v / norm2 v) <= 2 * W /\ Rabs (norm2 w - 1) <= 4 * W.
  Proof using good.
    intros D1 D2 N. destruct (good_close v D1 D2 N) as [P C]. destruct (norm2_comp v) as [C1 C2]. cbv zeta. unfold f_normalize. destruct (ratio_close _ _ P C) as [Hp _].
    rewrite Req_bool_false by lra. cbn [negb fst snd]. pose proof (quotient_close _ _ _ P C C1) as Q1. pose proof (quotient_close _ _ _ P C C2) as Q2.
    assert (U : norm2 (fst v / norm2 v, snd v / norm2 v) = 1). { unfold Rdiv. rewrite norm2_scale by (left; now apply Rinv_0_lt_compat). apply Rinv_l. lra. }
    split; [apply double_fmt, rnd_fmt|]. split; [apply double_fmt, rnd_fmt|]. split; auto. split; auto.
    pose proof (norm2_diff (rnd (fst v / hypot (fst v) (snd v)), rnd (snd v / hypot (fst v) (snd v))) (fst v / norm2 v, snd v / norm2 v)) as A.
    pose proof (norm2_diff (fst v / norm2 v, snd v / norm2 v) (rnd (fst v / hypot (fst v) (snd v)), rnd (snd v / hypot (fst v) (snd v)))) as B. rewrite U in A, B. cbn [fst snd] in A, B.
    rewrite (Rabs_minus_sym (fst v / norm2 v)), (Rabs_minus_sym (snd v / norm2 v)) in B. apply Rabs_le. lra.
  Qed.
  Lemma scaled_close x L h l : 0 < L <= bpow radix2 1000 -> Rabs (h - L) <= W * L -> Rabs x <= L -> 1 <= l -> Rabs (rnd (x * rnd (l / h)) - x * (l / L)) <= 4 * W * l.
  Proof.
    intros [HL HM] H X Hl. destruct (ratio_close L h HL H) as [P K]. destruct (rnd_error (l / h)) as (e & a & E & A & ->). destruct (rnd_error (x * (l / h * (1 + e) + a))) as (f & b & F & B & ->).
    pose proof tiny_val as [T1 T2]. rewrite u_val in E, F. assert (R1 : Rabs (x / L) <= 1).
    { unfold Rdiv. rewrite Rabs_mult, Rabs_inv, (Rabs_pos_eq L) by lra. apply (Rmult_le_reg_r L); auto. rewrite Rmult_assoc, Rinv_l by lra. lra. }
    replace (x * (l / h * (1 + e) + a) * (1 + f) + b - x * (l / L)) with (x / L * l * (L / h * ((1 + e) * (1 + f)) - 1) + x * a * (1 + f) + b) by (field; lra).
    set (r := x / L) in *. set (k := L / h) in *.
    assert (F1 : Rabs ((1 + e) * (1 + f) - 1) <= W * (1 + / 1000)).
    { replace ((1 + e) * (1 + f) - 1) with (e + f + e * f) by ring. eapply Rle_trans; [apply Rabs_triang|]. eapply Rle_trans; [apply Rplus_le_compat_r, Rabs_triang|]. rewrite Rabs_mult.
      assert (Rabs e * Rabs f <= / 9007199254740992 * / 9007199254740992) by (apply Rmult_le_compat; auto using Rabs_pos). lra. }
    assert (F2 : Rabs (k * ((1 + e) * (1 + f)) - 1) <= W * (2 + / 100)).
    { replace (k * ((1 + e) * (1 + f)) - 1) with ((k - 1) + ((1 + e) * (1 + f) - 1) + (k - 1) * ((1 + e) * (1 + f) - 1)) by ring.
      eapply Rle_trans; [apply Rabs_triang|]. eapply Rle_trans; [apply Rplus_le_compat_r, Rabs_triang|]. rewrite Rabs_mult.
      assert (Rabs (k - 1) * Rabs ((1 + e) * (1 + f) - 1) <= W * (1 + / 1000) * (W * (1 + / 1000))) by (apply Rmult_le_compat; auto using Rabs_pos). lra. }
    assert (F3 : Rabs (r * l * (k * ((1 + e) * (1 + f)) - 1)) <= 1 * l * (W * (2 + / 100))).
    { rewrite !Rabs_mult, (Rabs_pos_eq l) by lra. apply Rmult_le_compat; auto using Rabs_pos; [apply Rmult_le_pos; [apply Rabs_pos|lra]|]. apply Rmult_le_compat_r; lra. }
    assert (F4 : Rabs (x * a) <= W / 1000).
    { rewrite Rabs_mult. apply Rle_trans with (bpow radix2 1000 * bpow radix2 (-1075)). { apply Rmult_le_compat; auto using Rabs_pos. lra. } rewrite <- bpow_plus. change (1000 + -1075)%Z with (-75)%Z. cbn. lra. }
    assert (F5 : Rabs (x * a * (1 + f)) <= W / 1000 * 2).
    { rewrite Rabs_mult. apply Rmult_le_compat; auto using Rabs_pos. eapply Rle_trans; [apply Rabs_triang|]. rewrite Rabs_R1. lra. }
    eapply Rle_trans; [apply Rabs_triang|]. eapply Rle_trans; [apply Rplus_le_compat_r, Rabs_triang|]. lra.
  Qed.
  Lemma truncate_close v l : double (fst v) -> double (snd v) -> norm2 v <= powerRZ 2 1000 -> 1 <= l ->
    let w := f_truncate hypot v l in
    norm2 w <= l * (1 + 8 * W) /\ (norm2 v <= l * (1 - 2 * W) -> w = v) /\
    (l * (1 + 2 * W) <= norm2 v -> Rabs (fst w - fst v * (l / norm2 v)) <= 4 * W * l /\ Rabs (snd w - snd v * (l / norm2 v)) <= 4 * W * l).
  Proof using good.
    intros D1 D2 M Hl. cbv zeta. destruct (Rle_or_lt (powerRZ 2 (-1022)) (norm2 v)) as [N|N].
    - destruct (good_close v D1 D2 N) as [P C]. destruct (norm2_comp v) as [C1 C2]. rewrite <- pow2 in M. pose proof (conj P M) as PM.
      pose proof (scaled_close _ _ _ l PM C C1 Hl) as Q1. pose proof (scaled_close _ _ _ l PM C C2 Hl) as Q2. unfold f_truncate. set (h := hypot (fst v) (snd v)) in *.
      apply Rabs_le_inv in C. destruct (Rlt_bool_spec l h) as [G|G].
      + cbn [fst snd]. split; [|split].
        * pose proof (norm2_diff (rnd (fst v * rnd (l / h)), rnd (snd v * rnd (l / h))) (fst v * (l / norm2 v), snd v * (l / norm2 v))) as A. cbn [fst snd] in A.
          rewrite norm2_scale in A by (apply Rmult_le_pos; [lra|left; now apply Rinv_0_lt_compat]). replace (l / norm2 v * norm2 v) with l in A by (field; lra). lra.
        * intros K. exfalso. nra.
        * auto.
      + split; [nra|]. split; auto. intros K. exfalso. nra.
    - assert (B : powerRZ 2 (-1022) < / 2). { rewrite <- pow2. apply Rlt_trans with (bpow radix2 (-2)); [apply bpow_lt; lia|cbn; lra]. }
      assert (S : f_truncate hypot v l = v).
      { unfold f_truncate. destruct (Rlt_bool_spec l (hypot (fst v) (snd v))) as [G|G]; auto. exfalso. destruct (good (fst v) (snd v) D1 D2) as (_ & _ & _ & C). rewrite <- surjective_pairing in C. apply Rabs_le_inv in C.
        assert (X : Rmax (powerRZ 2 (-52) * norm2 v) (powerRZ 2 (-1074)) <= / 4); [|lra].
        apply Rmax_lub; rewrite <- pow2. { change (bpow radix2 (-52)) with W. lra. } apply Rle_trans with (bpow radix2 (-2)); [apply bpow_le; lia|cbn; lra]. }
      rewrite S. split; [nra|]. split; auto. intros. exfalso. nra.
  Qed.
End Hypot.
