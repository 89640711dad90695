(** * The velocity in float64 approaches the wanted one *)
From Coq Require Import Reals ZArith List Lra Lia.
From Flocq Require Import Core.
From Verif Require Import Model.Floats Model.FloatSteps Spec.Doubles Proofs.FloatProofs Proofs.FloatSums Proofs.FloatGeomProofs Proofs.FloatMoves.
From Verif Require Export Model.FloatWalk.
Open Scope R_scope.

Notation k53 := (/ 9007199254740992).
Notation eta := (bpow radix2 (-1075)).
Lemma eta_pos : 0 < eta. Proof. apply bpow_gt_0. Qed.
Lemma off x : Rabs (rnd x - x) <= k53 * Rabs x + eta.
Proof.
  destruct (rnd_error x) as (e & a & E & A & ->). replace (x * (1 + e) + a - x) with (e * x + a) by ring. eapply Rle_trans; [apply Rabs_triang|]. apply Rplus_le_compat; [|exact A]. rewrite Rabs_mult. apply Rmult_le_compat_r; [apply Rabs_pos|exact E].
Qed.
Lemma off_plus x y : fmt x -> fmt y -> Rabs (rnd (x + y) - (x + y)) <= k53 * Rabs (x + y).
Proof. intros X Y. destruct (rnd_plus x y X Y) as (e & E & ->). replace ((x + y) * (1 + e) - (x + y)) with (e * (x + y)) by ring. rewrite Rabs_mult. apply Rmult_le_compat_r; [apply Rabs_pos|exact E]. Qed.
Lemma off_normal x : bpow radix2 (-1022) <= Rabs x -> Rabs (rnd x - x) <= k53 * Rabs x.
Proof.
  intros H. destruct (rnd_normal x H) as (e & E & ->). replace (x * (1 + e) - x) with (e * x) by ring. rewrite Rabs_mult. apply Rmult_le_compat_r; [apply Rabs_pos|]. change (bpow radix2 (-52)) with (/ 4503599627370496) in E. lra.
Qed.

(** The acceleration. *)
Lemma acceleration_close m tau w v : fmt w -> fmt v -> 1 <= m -> 0 < tau <= bpow radix2 1000 ->
  let X := (w - v) / tau in Rabs (rnd (rnd (rnd (m / tau) * rnd (w - v)) / m) - X) <= 5 * k53 * Rabs X + 3 * eta.
Proof.
  intros Fw Fv M T X. assert (PE := eta_pos). assert (MT : 0 < m / tau) by (apply Rdiv_lt_0_compat; lra).
  assert (K : Rabs (rnd (m / tau) - m / tau) <= k53 * (m / tau)).
  { apply Rle_trans with (k53 * Rabs (m / tau)); [|rewrite Rabs_pos_eq by lra; lra]. apply off_normal. rewrite Rabs_pos_eq by lra. apply Rle_trans with (bpow radix2 (-1000)); [apply bpow_le; lia|]. change (-1000)%Z with (- (1000))%Z. rewrite bpow_opp. unfold Rdiv. apply Rle_trans with (/ tau); [apply Rinv_le; lra|].
    rewrite <- (Rmult_1_l (/ tau)) at 1. apply Rmult_le_compat_r; [|lra]. left. apply Rinv_0_lt_compat. lra. }
  assert (D : Rabs (rnd (w - v) - (w - v)) <= k53 * Rabs (w - v)) by (apply off_plus; auto; now apply generic_format_opp).
  set (k := rnd (m / tau)) in *. set (d := rnd (w - v)) in *. pose proof (off (k * d)) as F. set (f := rnd (k * d)) in *. pose proof (off (f / m)) as N. set (nu := rnd (f / m)) in *.
  set (Y := k * d / m). assert (YX : Rabs (Y - X) <= 201 / 100 * k53 * Rabs X).
  { replace (Y - X) with (((k - m / tau) * (d - (w - v)) + (k - m / tau) * (w - v) + m / tau * (d - (w - v))) / m) by (unfold Y, X; field; lra). unfold Rdiv at 1. rewrite Rabs_mult, (Rabs_pos_eq (/ m)) by (left; apply Rinv_0_lt_compat; lra).
    apply div_below; [lra|]. assert (XM : Rabs X * m = m / tau * Rabs (w - v)). { unfold X, Rdiv. rewrite Rabs_mult, (Rabs_pos_eq (/ tau)) by (left; apply Rinv_0_lt_compat; lra). ring. }
    rewrite Rmult_assoc, XM. set (z := Rabs (w - v)) in *. assert (0 <= z) by apply Rabs_pos. set (q := m / tau) in *.
    eapply Rle_trans; [eapply Rle_trans; [apply Rabs_triang|apply Rplus_le_compat_r, Rabs_triang]|]. rewrite !Rabs_mult, (Rabs_pos_eq q) by lra. fold z.
    assert (A1 : Rabs (k - q) * Rabs (d - (w - v)) <= (k53 * q) * (k53 * z)) by (apply Rmult_le_compat; auto using Rabs_pos). assert (A2 : Rabs (k - q) * z <= k53 * q * z) by (apply Rmult_le_compat_r; auto). assert (A3 : q * Rabs (d - (w - v)) <= q * (k53 * z)) by (apply Rmult_le_compat_l; lra).
    set (qz := q * z). assert (0 <= qz) by (unfold qz; nra). replace (k53 * q * (k53 * z)) with (k53 * k53 * qz) in A1 by (unfold qz; ring). replace (k53 * q * z) with (k53 * qz) in A2 by (unfold qz; ring). replace (q * (k53 * z)) with (k53 * qz) in A3 by (unfold qz; ring). lra. }
  assert (ZY : Rabs (f / m - Y) <= k53 * Rabs Y + eta).
  { replace (f / m - Y) with ((f - k * d) / m) by (unfold Y; field; lra). unfold Rdiv. rewrite Rabs_mult, (Rabs_pos_eq (/ m)) by (left; apply Rinv_0_lt_compat; lra). apply div_below; [lra|]. eapply Rle_trans; [exact F|].
    assert (E : Rabs Y * m = Rabs (k * d)) by (unfold Y, Rdiv; rewrite Rabs_mult, (Rabs_pos_eq (/ m)) by (left; apply Rinv_0_lt_compat; lra); field; lra). rewrite Rmult_plus_distr_r, Rmult_assoc, E. nra. }
  assert (AY : Rabs Y <= Rabs X + Rabs (Y - X)) by (replace Y with (X + (Y - X)) at 1 by ring; apply Rabs_triang). assert (AZ : Rabs (f / m) <= Rabs Y + Rabs (f / m - Y)) by (replace (f / m) with (Y + (f / m - Y)) at 1 by ring; apply Rabs_triang).
  replace (nu - X) with ((nu - f / m) + (f / m - Y) + (Y - X)) by ring. eapply Rle_trans; [eapply Rle_trans; [apply Rabs_triang|apply Rplus_le_compat_r, Rabs_triang]|]. pose proof (Rabs_pos X). lra.
Qed.

(** One step, in reals: [u] is the deviation, [A] and [B] the two accelerations times the
    step. *)
Definition P (u A : R) : R := Rabs (u + A / 2) + Rabs A / 2.
Lemma P_u u A : Rabs u <= P u A.
Proof. unfold P. replace u with ((u + A / 2) + (- A) / 2) at 1 by field. eapply Rle_trans; [apply Rabs_triang|]. unfold Rdiv at 2. rewrite Rabs_mult, Rabs_Ropp, (Rabs_pos_eq (/ 2)) by lra. lra. Qed.
Lemma P_A u A : Rabs A <= 2 * P u A. Proof. unfold P. pose proof (Rabs_pos (u + A / 2)). lra. Qed.
Lemma contraction h u A B e b T w : 0 < h <= / 2 -> B = - h * u + b -> Rabs b <= 5 * k53 * h * Rabs u + T -> Rabs e <= k53 * Rabs w + 9 * k53 * P u A + T -> 60 * k53 <= h ->
  0 <= T -> P (u + (A + B) / 2 + e) B <= (1 - h / 4) * P u A + (k53 * Rabs w + 3 * T).
Proof.
  intros H EB Hb He HU HT. pose proof (P_u u A) as PU. set (s := u + A / 2). assert (E : u + (A + B) / 2 + e + B / 2 = (1 - h) * s + h * (A / 2) + b + e) by (unfold s; rewrite EB; field).
  unfold P at 1. rewrite E. assert (S1 : Rabs ((1 - h) * s + h * (A / 2) + b + e) <= (1 - h) * Rabs s + h / 2 * Rabs A + Rabs b + Rabs e).
  { eapply Rle_trans; [eapply Rle_trans; [apply Rabs_triang|apply Rplus_le_compat_r; eapply Rle_trans; [apply Rabs_triang|apply Rplus_le_compat_r, Rabs_triang]]|]. rewrite !Rabs_mult, (Rabs_pos_eq (1 - h)), (Rabs_pos_eq h) by lra. unfold Rdiv at 1. rewrite Rabs_mult, (Rabs_pos_eq (/ 2)) by lra. lra. }
  assert (S2 : Rabs B <= h * Rabs u + Rabs b) by (rewrite EB; eapply Rle_trans; [apply Rabs_triang|]; rewrite Rabs_mult, Rabs_Ropp, (Rabs_pos_eq h) by lra; lra).
  assert (S3 : Rabs u <= Rabs s + Rabs A / 2) by exact PU. assert (EP : P u A = Rabs s + Rabs A / 2) by reflexivity. rewrite EP in *. pose proof (Rabs_pos s). pose proof (Rabs_pos A). pose proof (Rabs_pos u).
  set (x := Rabs s) in *. set (y := Rabs A) in *. set (z := Rabs u) in *. set (bb := Rabs b) in *. set (ee := Rabs e) in *. set (ww := Rabs w) in *. set (BB := Rabs B) in *.
  assert (h * z <= h * (x + y / 2)) by (apply Rmult_le_compat_l; lra). assert (5 * k53 * h * z <= 5 * k53 * (/ 2) * (x + y / 2)) by (assert (h * z <= / 2 * (x + y / 2)) by (apply Rmult_le_compat; lra); lra).
  assert (60 * k53 * (x + y / 2) <= h * (x + y / 2)) by (apply Rmult_le_compat_r; lra).
  assert (h * y <= / 2 * y) by (apply Rmult_le_compat_r; lra). assert (N : bb <= 5 * k53 * (/ 2) * (x + y / 2) + T) by lra.
  (* everything is linear in h x, h y, x, y *)
  set (hx := h * x) in *. set (hy := h * y) in *. assert (E1 : h * (x + y / 2) = hx + hy / 2) by (unfold hx, hy; field). rewrite E1 in *.
  replace ((1 - h) * x) with (x - hx) in S1 by (unfold hx; ring). replace (h / 2 * y) with (hy / 2) in S1 by (unfold hy; field). replace ((1 - h / 4) * (x + y / 2)) with (x + y / 2 - (hx + hy / 2) / 4) by (unfold hx, hy; field). lra.
Qed.

Section Walk.
  Variables (m tau v0 e0 dt : R).
  Hypothesis Hm : 1 <= m.
  Hypothesis Ht : 0 < tau <= bpow radix2 1000.
  Hypothesis Hd : 0 < dt <= 1.
  Let w := rnd (v0 * e0).
  Let h := dt / tau.
  Hypothesis Hh : bpow radix2 (-40) <= h <= / 2.
  Notation step := (f_walk_step m tau v0 e0 dt).
  Definition acc (s : walk) : R := dt * rnd (w_force_prev s / m).
  Lemma step_close s : fmt (w_v s) -> fmt (w_v (step s)) /\ P (w_v (step s) - w) (acc (step s)) <= (1 - h / 4) * P (w_v s - w) (acc s) + (k53 * Rabs w + 60 * eta).
  Proof using Hm Ht Hd Hh.
    intros Fv. assert (PE := eta_pos). assert (H0 : 0 < h) by (pose proof (bpow_gt_0 radix2 (-40)); lra). set (u := w_v s - w). assert (Fw : fmt w) by apply rnd_fmt.
    set (f := f_force_adjust m tau v0 e0 (w_v s)). assert (Ff : rnd (0 + f) = f) by (rewrite Rplus_0_l; apply rnd_id, rnd_fmt).
    assert (ES : step s = let '(x, v) := f_verlet (w_x s) (w_v s) (w_force_prev s) f m dt in Walk x v f) by (unfold f_walk_step; fold f; rewrite Ff; reflexivity). rewrite ES. cbn [f_verlet w_v w_force_prev acc]. unfold acc. cbn [w_force_prev].
    set (al := rnd (w_force_prev s / m)) in *. set (nu := rnd (f / m)) in *. split; [apply rnd_fmt|].
    pose proof (acceleration_close m tau w (w_v s) Fw Fv Hm Ht) as C. cbv zeta in C. change (rnd (rnd (rnd (m / tau) * rnd (w - w_v s)) / m)) with nu in C.
    set (A := dt * al). set (B := dt * nu). set (b := B + h * u).
    assert (Hb : Rabs b <= 5 * k53 * h * Rabs u + 3 * eta).
    { replace b with (dt * (nu - (w - w_v s) / tau)) by (unfold b, B, h, u; field; lra). rewrite Rabs_mult, (Rabs_pos_eq dt) by lra. apply Rle_trans with (dt * (5 * k53 * Rabs ((w - w_v s) / tau) + 3 * eta)); [apply Rmult_le_compat_l; lra|].
      assert (E : dt * Rabs ((w - w_v s) / tau) = h * Rabs u) by (unfold u, h, Rdiv; rewrite Rabs_mult, (Rabs_pos_eq (/ tau)), Rabs_minus_sym by (left; apply Rinv_0_lt_compat; lra); ring).
      replace (dt * (5 * k53 * Rabs ((w - w_v s) / tau) + 3 * eta)) with (5 * k53 * (dt * Rabs ((w - w_v s) / tau)) + dt * (3 * eta)) by ring. rewrite E. assert (dt * (3 * eta) <= 1 * (3 * eta)) by (apply Rmult_le_compat_r; lra). lra. }
    pose proof (P_u u A) as PU. pose proof (P_A u A) as PA. set (p := P u A) in *. assert (P0 : 0 <= p) by (eapply Rle_trans; [apply Rabs_pos|exact PU]).
    assert (HB : Rabs B <= p + 3 * eta).
    { replace B with (- h * u + b) by (unfold b; ring). eapply Rle_trans; [apply Rabs_triang|]. rewrite Rabs_mult, Rabs_Ropp, (Rabs_pos_eq h) by lra. assert (h * Rabs u <= / 2 * p) by (apply Rmult_le_compat; try lra; apply Rabs_pos). lra. }
    (* the increment *)
    pose proof (off_plus al nu (rnd_fmt _) (rnd_fmt _)) as G1. set (g1 := rnd (al + nu)) in *. pose proof (off (g1 / 2)) as G2. set (g2 := rnd (g1 / 2)) in *. pose proof (off (g2 * dt)) as G3. set (g3 := rnd (g2 * dt)) in *.
    pose proof (off_plus (w_v s) g3 Fv (rnd_fmt _)) as G4. set (v' := rnd (w_v s + g3)) in *.
    set (c := g3 - (A + B) / 2). assert (Hc : Rabs c <= 6 * k53 * p + 9 * eta).
    { assert (SAB : dt * Rabs (al + nu) = Rabs (A + B)) by (unfold A, B; rewrite <- Rmult_plus_distr_l, Rabs_mult, (Rabs_pos_eq dt) by lra; reflexivity). assert (AB : Rabs (A + B) <= 3 * p + 3 * eta) by (eapply Rle_trans; [apply Rabs_triang|]; lra).
      assert (X1 : Rabs g1 <= Rabs (al + nu) + Rabs (g1 - (al + nu))) by (replace g1 with ((al + nu) + (g1 - (al + nu))) at 1 by ring; apply Rabs_triang).
      assert (X2 : Rabs (g1 / 2) = Rabs g1 / 2) by (unfold Rdiv; rewrite Rabs_mult, (Rabs_pos_eq (/ 2)) by lra; reflexivity). rewrite X2 in G2.
      assert (X3 : Rabs g2 <= Rabs g1 / 2 + Rabs (g2 - g1 / 2)) by (rewrite <- X2; replace g2 with (g1 / 2 + (g2 - g1 / 2)) at 1 by ring; apply Rabs_triang).
      assert (Y : Rabs (g2 - (al + nu) / 2) <= 201 / 100 * k53 * (Rabs (al + nu) / 2) + eta).
      { replace (g2 - (al + nu) / 2) with ((g2 - g1 / 2) + (g1 - (al + nu)) / 2) by field. eapply Rle_trans; [apply Rabs_triang|]. unfold Rdiv at 2. rewrite (Rabs_mult (g1 - (al + nu))), (Rabs_pos_eq (/ 2)) by lra. pose proof (Rabs_pos (al + nu)). lra. }
      rewrite Rabs_mult, (Rabs_pos_eq dt) in G3 by lra.
      replace c with ((g3 - g2 * dt) + dt * (g2 - (al + nu) / 2)) by (unfold c, A, B; field). eapply Rle_trans; [apply Rabs_triang|]. rewrite Rabs_mult, (Rabs_pos_eq dt) by lra.
      assert (Z1 : dt * Rabs (g2 - (al + nu) / 2) <= dt * (201 / 100 * k53 * (Rabs (al + nu) / 2) + eta)) by (apply Rmult_le_compat_l; lra).
      assert (Z2 : Rabs g2 <= 101 / 100 * (Rabs (al + nu) / 2) + eta) by (pose proof (Rabs_pos (al + nu)); lra). assert (Z3 : Rabs g2 * dt <= (101 / 100 * (Rabs (al + nu) / 2) + eta) * dt) by (apply Rmult_le_compat_r; lra).
      replace (dt * (201 / 100 * k53 * (Rabs (al + nu) / 2) + eta)) with (201 / 100 * k53 * (dt * Rabs (al + nu) / 2) + dt * eta) in Z1 by field. replace ((101 / 100 * (Rabs (al + nu) / 2) + eta) * dt) with (101 / 100 * (dt * Rabs (al + nu) / 2) + dt * eta) in Z3 by field. rewrite SAB in Z1, Z3.
      assert (dt * eta <= 1 * eta) by (apply Rmult_le_compat_r; lra). lra. }
    set (e := v' - w - (u + (A + B) / 2)). assert (He : Rabs e <= k53 * Rabs w + 9 * k53 * p + 20 * eta).
    { replace e with ((v' - (w_v s + g3)) + c) by (unfold e, c, u; ring). eapply Rle_trans; [apply Rabs_triang|]. assert (Q : Rabs (w_v s + g3) <= Rabs w + (5 / 2 * p + 3 / 2 * eta) + Rabs c).
      { replace (w_v s + g3) with (w + (u + (A + B) / 2) + c) by (unfold c, u; ring). eapply Rle_trans; [apply Rabs_triang|]. apply Rplus_le_compat_r. eapply Rle_trans; [apply Rabs_triang|]. apply Rplus_le_compat_l. eapply Rle_trans; [apply Rabs_triang|].
        unfold Rdiv at 1. rewrite Rabs_mult, (Rabs_pos_eq (/ 2)) by lra. assert (Rabs (A + B) <= 3 * p + 3 * eta) by (eapply Rle_trans; [apply Rabs_triang|]; lra). lra. }
      pose proof (Rabs_pos w). lra. }
    assert (E40 : bpow radix2 (-40) = / 1099511627776) by reflexivity. rewrite E40 in Hh.
    pose proof (contraction h u A B e b (20 * eta) w ltac:(lra) ltac:(unfold b; ring) ltac:(lra) ltac:(exact He) ltac:(lra) ltac:(lra)) as R0. fold p in R0.
    replace (v' - w) with (u + (A + B) / 2 + e) by (unfold e; ring). lra.
  Qed.
  Lemma walk_fmt s n : fmt (w_v s) -> fmt (w_v (f_walk m tau v0 e0 dt s n)).
  Proof using Hm Ht Hd Hh. intros F. induction n as [|n IH]; cbn; auto. now apply step_close. Qed.
  Lemma walk_close s n : fmt (w_v s) -> let s' := f_walk m tau v0 e0 dt s n in
    P (w_v s' - w) (acc s') <= (1 - h / 4) ^ n * P (w_v s - w) (acc s) + 4 / h * (k53 * Rabs w + 60 * eta).
  Proof using Hm Ht Hd Hh.
    intros F. cbv zeta. assert (PE := eta_pos). set (E := k53 * Rabs w + 60 * eta). assert (E0 : 0 <= E) by (unfold E; pose proof (Rabs_pos w); lra). assert (H0 : 0 < h) by (pose proof (bpow_gt_0 radix2 (-40)); lra).
    induction n as [|n IH].
    { cbn. assert (0 <= 4 / h * E) by (apply Rmult_le_pos; auto; left; apply Rdiv_lt_0_compat; lra). lra. }
    cbn [f_walk]. destruct (step_close (f_walk m tau v0 e0 dt s n) (walk_fmt s n F)) as [_ Q]. eapply Rle_trans; [exact Q|]. fold E.
    apply Rle_trans with ((1 - h / 4) * ((1 - h / 4) ^ n * P (w_v s - w) (acc s) + 4 / h * E) + E); [apply Rplus_le_compat_r, Rmult_le_compat_l; [lra|exact IH]|].
    apply Req_le. cbn [pow]. field. lra.
  Qed.
  Lemma acc_bound s : Rabs (acc s) <= 2 * dt * Rabs (w_force_prev s / m) + eta.
  Proof using Hd.
    unfold acc. assert (PE := eta_pos). pose proof (off (w_force_prev s / m)) as O. set (q := w_force_prev s / m) in *. rewrite Rabs_mult, (Rabs_pos_eq dt) by lra.
    assert (Rabs (rnd q) <= Rabs q + Rabs (rnd q - q)) by (replace (rnd q) with (q + (rnd q - q)) at 1 by ring; apply Rabs_triang). pose proof (Rabs_pos q).
    apply Rle_trans with (dt * (2 * Rabs q + eta)); [apply Rmult_le_compat_l; lra|]. assert (dt * eta <= 1 * eta) by (apply Rmult_le_compat_r; lra). lra.
  Qed.
  (** Somebody who walks as they want keeps walking so. *)
  Lemma walk_kept x n : exists x', f_walk m tau v0 e0 dt (Walk x w 0) n = Walk x' w 0.
  Proof using.
    assert (Z0 : rnd 0 = 0) by (apply rnd_id, generic_format_0). induction n as [|n (x' & IH)]; [exists x; reflexivity|]. cbn [f_walk]. rewrite IH. unfold f_walk_step, f_force_adjust. cbn [w_v w_force_prev w_x]. fold w.
    replace (w - w) with 0 by ring. rewrite Z0, Rmult_0_r, Z0, Rplus_0_l, Z0. unfold f_verlet. replace (0 / m) with 0 by (unfold Rdiv; ring). rewrite Z0, Rplus_0_l, Z0. replace (0 / 2) with 0 by field. rewrite Z0, !Rmult_0_l, Z0, !Rplus_0_r, (rnd_id w) by apply rnd_fmt. eexists. reflexivity.
  Qed.
End Walk.
