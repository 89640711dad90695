(** * Time steps and moves in float64 *)
From Coq Require Import Reals ZArith Lra Lia List.
From Flocq Require Import Core Relative.
From Verif Require Export Model.FloatSteps Proofs.FloatProofs Proofs.FloatSums Proofs.FloatOverlap.
From Verif Require Import Proofs.FloatCells Proofs.FloatCases.
Import ListNotations.
Open Scope R_scope.

Lemma rnd_normal x : bpow radix2 (-1022) <= Rabs x -> exists e, Rabs e <= W / 2 /\ rnd x = x * (1 + e).
Proof.
  intros H. destruct (relative_error_N_FLT_ex radix2 (-1074) 53 ltac:(lia) (fun x => negb (Z.even x)) x) as (e & E & K); [exact H|]. exists e. split; [|exact K].
  eapply Rle_trans; [exact E|]. right. cbn. lra.
Qed.

(** ** The time step *)
Section Hypot.
  Variable hypot : R -> R -> R.
  Hypothesis good : good_hypot hypot.
  Notation speed := (fun v : R * R => hypot (fst v) (snd v)).
  Lemma v_max_spec vs : forall m, m <= f_v_max hypot vs m /\ (forall v, In v vs -> speed v <= f_v_max hypot vs m) /\
    (f_v_max hypot vs m = m \/ exists v, In v vs /\ f_v_max hypot vs m = speed v).
  Proof using.
    induction vs as [|v vs IH]; intros m; cbn [f_v_max]. { split; [lra|]. split; [intros v []|auto]. }
    set (m' := if Rlt_bool m (hypot (fst v) (snd v)) then hypot (fst v) (snd v) else m). destruct (IH m') as (A & B & C).
    assert (D : m <= m' /\ speed v <= m' /\ (m' = m \/ m' = speed v)) by (unfold m'; destruct (Rlt_bool_spec m (hypot (fst v) (snd v))); repeat split; auto; lra). destruct D as (D1 & D2 & D3).
    split; [lra|]. split. { intros w [<-|W]; [lra|auto]. } destruct C as [C|(w & W1 & W2)]; [|right; exists w; split; [now right|auto]].
    destruct D3 as [D3|D3]; [left; lra|]. right. exists v. split; [now left|lra].
  Qed.
  Lemma step_range vs tmax dt_min dt_max : dt_min <= dt_max -> dt_min <= f_adaptive_timestep hypot vs tmax dt_min dt_max <= dt_max.
  Proof using.
    intros H. unfold f_adaptive_timestep. destruct (Req_bool_spec (f_v_max hypot vs 0) 0); [lra|]. cbv zeta. set (dt := rnd _).
    destruct (Rlt_bool_spec dt_max dt); [lra|]. destruct (Rlt_bool_spec dt dt_min); lra.
  Qed.
  Lemma step_double vs tmax dt_min dt_max : double dt_min -> double dt_max -> double (f_adaptive_timestep hypot vs tmax dt_min dt_max).
  Proof using.
    intros A B. unfold f_adaptive_timestep. destruct (Req_bool (f_v_max hypot vs 0) 0); auto. cbv zeta. destruct (Rlt_bool _ _); auto. destruct (Rlt_bool _ _); auto. apply double_fmt, rnd_fmt.
  Qed.
  Lemma dx_close tmax dt_max : bpow radix2 (-300) <= tmax -> bpow radix2 (-300) <= dt_max ->
    let D := 11 / 10 * tmax * dt_max in let dx := rnd (rnd (f_1_1 * tmax) * dt_max) in
    bpow radix2 (-600) <= D /\ D * (1 - 2 * W) <= dx <= D * (1 + 2 * W).
  Proof using.
    intros A B. cbv zeta. assert (P : 0 < bpow radix2 (-300)) by apply bpow_gt_0. assert (Q : bpow radix2 (-600) = bpow radix2 (-300) * bpow radix2 (-300)) by (rewrite <- bpow_plus; reflexivity).
    assert (TD : bpow radix2 (-600) <= tmax * dt_max) by (rewrite Q; apply Rmult_le_compat; lra). assert (Q6 : 0 < bpow radix2 (-600)) by apply bpow_gt_0.
    assert (Z : bpow radix2 (-1022) <= bpow radix2 (-600) / 4) by (change (bpow radix2 (-600) / 4) with (bpow radix2 (-600) * bpow radix2 (-2)); rewrite <- bpow_plus; apply bpow_le; lia).
    assert (Z3 : bpow radix2 (-1022) <= bpow radix2 (-300)) by (apply bpow_le; lia).
    assert (c : 11 / 10 * (1 - W / 2) <= f_1_1 <= 11 / 10 * (1 + W / 2)) by (unfold f_1_1; lra).
    destruct (rnd_normal (f_1_1 * tmax)) as (e & E & ->). { rewrite Rabs_pos_eq by nra. nra. } apply Rabs_le_inv in E.
    assert (c1 : 11 / 10 * (1 - W * (1 + / 100)) <= f_1_1 * (1 + e) <= 11 / 10 * (1 + W * (1 + / 100))) by nra. replace (f_1_1 * tmax * (1 + e)) with (f_1_1 * (1 + e) * tmax) by ring. set (k := f_1_1 * (1 + e)) in *.
    destruct (rnd_normal (k * tmax * dt_max)) as (f & F & ->). { rewrite Rmult_assoc, Rabs_pos_eq by nra. nra. } apply Rabs_le_inv in F.
    assert (c2 : 11 / 10 * (1 - 2 * W) <= k * (1 + f) <= 11 / 10 * (1 + 2 * W)) by nra. replace (k * tmax * dt_max * (1 + f)) with (k * (1 + f) * (tmax * dt_max)) by ring. replace (11 / 10 * tmax * dt_max) with (11 / 10 * (tmax * dt_max)) by ring. set (z := tmax * dt_max) in *. assert (z0 : 0 <= z) by lra. pose proof (Rmult_le_compat_r z _ _ z0 (proj1 c2)). pose proof (Rmult_le_compat_r z _ _ z0 (proj2 c2)). lra.
  Qed.
  Lemma speed_normal v : double (fst v) -> double (snd v) -> bpow radix2 (-1022) <= norm2 v -> norm2 v * (1 - W) <= speed v <= norm2 v * (1 + W).
  Proof using good. intros A B C. rewrite pow2 in C. destruct (good_close hypot good v A B C) as [_ H]. apply Rabs_le_inv in H. lra. Qed.
  Lemma speed_small v : double (fst v) -> double (snd v) -> norm2 v < bpow radix2 (-1022) -> speed v <= bpow radix2 (-1021).
  Proof using good.
    intros A B C. destruct (good (fst v) (snd v) A B) as (_ & _ & _ & G). rewrite <- surjective_pairing in G. rewrite <- !pow2 in G. assert (P : 0 <= norm2 v) by apply norm2_pos.
    assert (V : bpow radix2 (-52) = W) by reflexivity. rewrite V in G. assert (T : 0 < bpow radix2 (-1074) <= bpow radix2 (-1022) / 4).
    { split; [apply bpow_gt_0|]. change (bpow radix2 (-1022) / 4) with (bpow radix2 (-1022) * bpow radix2 (-2)). rewrite <- bpow_plus. apply bpow_le. lia. }
    assert (M : Rmax (W * norm2 v) (bpow radix2 (-1074)) <= bpow radix2 (-1022) / 4) by (apply Rmax_lub; lra).
    assert (K : bpow radix2 (-1021) = 2 * bpow radix2 (-1022)) by (change 2 with (bpow radix2 1); rewrite <- bpow_plus; reflexivity). apply Rabs_le_inv in G. lra.
  Qed.
  Lemma step_close vs tmax dt_min dt_max : (forall v, In v vs -> double (fst v) /\ double (snd v) /\ norm2 v <= bpow radix2 300) ->
    bpow radix2 (-300) <= tmax -> bpow radix2 (-300) <= dt_max -> 0 <= dt_min <= dt_max ->
    let dt := f_adaptive_timestep hypot vs tmax dt_min dt_max in let D := 11 / 10 * tmax * dt_max in
    (dt <> dt_min -> forall v, In v vs -> norm2 v * dt <= D * (1 + 8 * W)) /\
    (forall dt', dt * (1 + 8 * W) < dt' <= dt_max -> exists v, In v vs /\ D < norm2 v * dt').
  Proof using good.
    intros VS HT HD [M0 M1]. pose proof (step_range vs tmax dt_min dt_max M1) as RG. cbv zeta. set (dt := f_adaptive_timestep hypot vs tmax dt_min dt_max) in *.
    destruct (dx_close tmax dt_max HT HD) as [DL DX]. cbv zeta in DL, DX. set (D := 11 / 10 * tmax * dt_max) in *. set (dx := rnd (rnd (f_1_1 * tmax) * dt_max)) in *.
    assert (P3 : 0 < bpow radix2 (-300)) by apply bpow_gt_0. assert (P6 : 0 < bpow radix2 (-600)) by apply bpow_gt_0. assert (P22 : 0 < bpow radix2 (-1022)) by apply bpow_gt_0.
    destruct (v_max_spec vs 0) as (V0 & V1 & V2). set (vm := f_v_max hypot vs 0) in *.
    assert (SM : forall v, In v vs -> norm2 v < bpow radix2 (-1022) -> norm2 v * dt <= D * (1 + 8 * W)).
    { intros v I N. assert (A : norm2 v * dt <= bpow radix2 (-1022) * dt_max) by (apply Rmult_le_compat; try lra; apply norm2_pos). assert (bpow radix2 (-1022) <= bpow radix2 (-300)) by (apply bpow_le; lia).
      assert (bpow radix2 (-1022) * dt_max <= tmax * dt_max) by (apply Rmult_le_compat_r; lra). unfold D in *. nra. }
    destruct (Req_bool_spec vm 0) as [Z|Z].
    - assert (E : dt = dt_max) by (unfold dt, f_adaptive_timestep; fold vm; rewrite Req_bool_true by auto; reflexivity). split.
      + intros _ v I. destruct (VS v I) as (A & B & _). destruct (Rlt_or_le (norm2 v) (bpow radix2 (-1022))) as [N|N]; [now apply SM|]. pose proof (speed_normal v A B N) as S. specialize (V1 v I). cbn beta in V1. nra.
      + intros dt' K. rewrite E in K. nra.
    - assert (VP : 0 < vm) by lra. destruct V2 as [V2|(w & IW & EW)]; [lra|]. destruct (VS w IW) as (WA & WB & WC).
      assert (VB : vm <= bpow radix2 301).
      { assert (K : bpow radix2 301 = 2 * bpow radix2 300) by (change 2 with (bpow radix2 1); rewrite <- bpow_plus; reflexivity). destruct (Rlt_or_le (norm2 w) (bpow radix2 (-1022))) as [N|N].
        - pose proof (speed_small w WA WB N). assert (bpow radix2 (-1021) <= bpow radix2 301) by (apply bpow_le; lia). cbn beta in *. lra.
        - pose proof (speed_normal w WA WB N). assert (0 < bpow radix2 300) by apply bpow_gt_0. cbn beta in *. lra. }
      assert (QB : bpow radix2 (-1022) <= Rabs (dx / vm)).
      { assert (0 < dx) by nra. rewrite Rabs_pos_eq by (apply Rmult_le_pos; [lra|left; now apply Rinv_0_lt_compat]). apply (Rmult_le_reg_r vm); auto. unfold Rdiv. rewrite Rmult_assoc, Rinv_l, Rmult_1_r by lra.
        apply Rle_trans with (bpow radix2 (-1022) * bpow radix2 301); [apply Rmult_le_compat_l; lra|]. rewrite <- bpow_plus. apply Rle_trans with (bpow radix2 (-600) * bpow radix2 (-1)); [rewrite <- bpow_plus; apply bpow_le; lia|]. change (bpow radix2 (-1)) with (/ 2). nra. }
      destruct (rnd_normal (dx / vm) QB) as (e & EE & ER). apply Rabs_le_inv in EE. set (q := rnd (dx / vm)) in *. assert (QV : q * vm = dx * (1 + e)) by (rewrite ER; field; lra).
      assert (Q1 : D * (1 - 3 * W) <= q * vm <= D * (1 + 3 * W)) by (rewrite QV; assert (0 < dx) by nra; split; nra).
      assert (EQ : dt = if Rlt_bool dt_max q then dt_max else if Rlt_bool q dt_min then dt_min else q) by (unfold dt, f_adaptive_timestep; fold vm; rewrite Req_bool_false by auto; reflexivity).
      assert (q0 : 0 <= q) by nra. split.
      + intros NE v I. destruct (VS v I) as (A & B & _). destruct (Rlt_or_le (norm2 v) (bpow radix2 (-1022))) as [N|N]; [now apply SM|]. pose proof (speed_normal v A B N) as S. specialize (V1 v I). cbn beta in V1, S.
        assert (DQ : dt <= q). { clear SM RG. clearbody dt. subst dt. revert NE. destruct (Rlt_bool_spec dt_max q) as [G|G]; [lra|]. destruct (Rlt_bool_spec q dt_min) as [G'|G']; lra. }
        assert (norm2 v * (1 - W) * dt <= vm * q) by (apply Rmult_le_compat; try lra; pose proof (norm2_pos v); nra). pose proof (norm2_pos v). assert (0 <= norm2 v * dt) by (apply Rmult_le_pos; lra). set (nd := norm2 v * dt) in *. assert (nd * (1 - W) <= D * (1 + 3 * W)) by (unfold nd in *; lra). nra.
      + intros dt' [K1 K2]. assert (G : ~ dt_max < q). { intros G. rewrite EQ, Rlt_bool_true in K1 by auto. nra. }
        assert (GD : q <= dt). { rewrite EQ, Rlt_bool_false by lra. destruct (Rlt_bool_spec q dt_min); lra. }
        exists w. split; auto. destruct (Rlt_or_le (norm2 w) (bpow radix2 (-1022))) as [N|N].
        * exfalso. pose proof (speed_small w WA WB N) as S. cbn beta in S, EW. assert (vm <= bpow radix2 (-1021)) by lra. apply G. apply (Rmult_lt_reg_r vm); auto.
          assert (dt_max * vm <= dt_max * bpow radix2 (-1021)) by (apply Rmult_le_compat_l; lra). assert (bpow radix2 (-1021) <= bpow radix2 (-300) * / 2) by (change (/ 2) with (bpow radix2 (-1)); rewrite <- bpow_plus; apply bpow_le; lia).
          assert (dt_max * bpow radix2 (-1021) <= dt_max * (tmax * / 2)) by (apply Rmult_le_compat_l; lra). unfold D in *. nra.
        * pose proof (speed_normal w WA WB N) as S. cbn beta in S, EW. assert (A : q * (1 + 8 * W) < dt') by nra. assert (B : vm * (1 - W) <= norm2 w) by nra.
          assert (vm * (1 - W) * (q * (1 + 8 * W)) <= norm2 w * (q * (1 + 8 * W))) by (apply Rmult_le_compat_r; nra). assert (norm2 w * (q * (1 + 8 * W)) < norm2 w * dt') by (apply Rmult_lt_compat_l; lra).
          assert (D < D * (1 - 3 * W) * ((1 - W) * (1 + 8 * W))) by nra. nra.
  Qed.
End Hypot.

(** ** Moves *)
Notation tau := (bpow radix2 (-1075)).
Definition near (d t M y x : R) : Prop := Rabs x <= M /\ Rabs (y - x) <= d * M + t.
Lemma near_exact x : near 0 0 (Rabs x) x x.
Proof. split; [lra|]. unfold Rminus. rewrite Rplus_opp_r, Rabs_R0. lra. Qed.
Lemma near_weaken d t d' t' M y x : near d t M y x -> d <= d' -> t <= t' -> near d' t' M y x.
Proof. intros [A B] C D. split; auto. pose proof (Rabs_pos x). assert (d * M <= d' * M) by (apply Rmult_le_compat_r; lra). lra. Qed.
Lemma near_rnd d t M y x : near d t M y x -> 0 <= d <= 1 -> 0 <= t -> near (d + W) (2 * t + tau) M (rnd y) x.
Proof.
  intros [A B] D T. split; auto. destruct (rnd_error y) as (e & a & E & F & ->). rewrite u_val in E. pose proof (Rabs_pos x) as X. assert (M0 : 0 <= M) by lra.
  assert (Y : Rabs y <= (1 + d) * M + t). { replace y with ((y - x) + x) by ring. eapply Rle_trans; [apply Rabs_triang|]. lra. }
  replace (y * (1 + e) + a - x) with ((y - x) + y * e + a) by ring. eapply Rle_trans; [apply Rabs_triang|]. eapply Rle_trans; [apply Rplus_le_compat_r, Rabs_triang|]. rewrite Rabs_mult.
  assert (Rabs y * Rabs e <= ((1 + d) * M + t) * / 9007199254740992) by (apply Rmult_le_compat; auto using Rabs_pos). nra.
Qed.
Lemma near_half d t M y x : near d t M y x -> near d (t / 2) (M / 2) (y / 2) (x / 2).
Proof.
  intros [A B]. split; [unfold Rdiv; rewrite Rabs_mult, (Rabs_pos_eq (/ 2)) by lra; lra|]. replace (y / 2 - x / 2) with ((y - x) * / 2) by field. rewrite Rabs_mult, (Rabs_pos_eq (/ 2)) by lra. lra.
Qed.
Lemma near_mul d1 t1 M1 y1 x1 d2 t2 M2 y2 x2 d t : near d1 t1 M1 y1 x1 -> near d2 t2 M2 y2 x2 -> 0 <= d1 -> 0 <= d2 -> 0 <= t1 -> 0 <= t2 ->
  d1 * (1 + d2) + d2 <= d -> t1 * ((1 + d2) * M2 + t2) + t2 * M1 * (1 + d1) <= t -> near d t (M1 * M2) (y1 * y2) (x1 * x2).
Proof.
  intros [A1 B1] [A2 B2] D1 D2 T1 T2 HD HT. pose proof (Rabs_pos x1). pose proof (Rabs_pos x2). split; [rewrite Rabs_mult; apply Rmult_le_compat; auto|].
  assert (Y2 : Rabs y2 <= (1 + d2) * M2 + t2). { replace y2 with ((y2 - x2) + x2) by ring. eapply Rle_trans; [apply Rabs_triang|]. lra. }
  replace (y1 * y2 - x1 * x2) with ((y1 - x1) * y2 + x1 * (y2 - x2)) by ring. eapply Rle_trans; [apply Rabs_triang|]. rewrite !Rabs_mult.
  assert (Rabs (y1 - x1) * Rabs y2 <= (d1 * M1 + t1) * ((1 + d2) * M2 + t2)) by (apply Rmult_le_compat; auto using Rabs_pos).
  assert (Rabs x1 * Rabs (y2 - x2) <= M1 * (d2 * M2 + t2)) by (apply Rmult_le_compat; auto using Rabs_pos). assert (0 <= M1 * M2) by (apply Rmult_le_pos; lra).
  assert ((d1 * (1 + d2) + d2) * (M1 * M2) <= d * (M1 * M2)) by (apply Rmult_le_compat_r; auto). nra.
Qed.
Lemma near_add d t1 t2 M1 M2 y1 x1 y2 x2 : near d t1 M1 y1 x1 -> near d t2 M2 y2 x2 -> near d (t1 + t2) (M1 + M2) (y1 + y2) (x1 + x2).
Proof.
  intros [A1 B1] [A2 B2]. split; [eapply Rle_trans; [apply Rabs_triang|lra]|]. replace (y1 + y2 - (x1 + x2)) with ((y1 - x1) + (y2 - x2)) by ring. eapply Rle_trans; [apply Rabs_triang|]. lra.
Qed.
Lemma tau_pos : 0 < tau <= / 1000.
Proof. split; [apply bpow_gt_0|]. apply Rle_trans with (bpow radix2 (-10)); [apply bpow_le; lia|cbn; lra]. Qed.
Lemma near_acc f m : near W tau (Rabs (f / m)) (rnd (f / m)) (f / m).
Proof. eapply near_weaken; [apply near_rnd; [apply near_exact|lra|lra]|lra|lra]. Qed.
(** [acceleration / 2 * dt ** 2]. *)
Lemma near_push f m dt : 0 <= dt <= 1 -> let A := Rabs (f / m) in
  near (5 * W) (tau * (13 + 2 * A)) (A / 2 * (dt * dt)) (rnd (rnd (rnd (f / m) / 2) * rnd (dt * dt))) (f / m / 2 * (dt * dt)).
Proof.
  intros D. cbv zeta. pose proof (near_acc f m) as N. set (A := Rabs (f / m)) in *. assert (A0 : 0 <= A) by apply Rabs_pos. pose proof tau_pos as T.
  assert (H : near (2 * W) (3 * tau) (A / 2) (rnd (rnd (f / m) / 2)) (f / m / 2)) by (eapply near_weaken; [apply near_rnd; [apply near_half, N|lra|lra]|lra|lra]).
  assert (Q : near W tau (dt * dt) (rnd (dt * dt)) (dt * dt)). { assert (E : Rabs (dt * dt) = dt * dt) by (apply Rabs_pos_eq; nra). rewrite <- E at 1. eapply near_weaken; [apply near_rnd; [apply near_exact|lra|lra]|lra|lra]. }
  assert (S : 0 <= dt * dt <= 1) by nra.
  assert (P : near (4 * W) (tau * (6 + A)) (A / 2 * (dt * dt)) (rnd (rnd (f / m) / 2) * rnd (dt * dt)) (f / m / 2 * (dt * dt))).
  { eapply near_mul; [exact H|exact Q|lra..| |].
    - lra.
    - assert (3 * tau * ((1 + W) * (dt * dt) + tau) <= 3 * tau * 2) by (apply Rmult_le_compat_l; lra). assert (tau * (A / 2) * (1 + 2 * W) <= tau * A * 1) by nra. lra. }
  assert (TA : 0 <= tau * A) by (apply Rmult_le_pos; lra). eapply near_weaken; [apply near_rnd; [exact P|lra|nra]|lra|nra].
Qed.
Lemma euler_close x v f m dt : fmt x -> fmt v -> fmt dt -> 0 <= dt <= 1 -> let A := Rabs (f / m) in
  Rabs (fst (f_euler x v f m dt) - (x + (v * dt + f / m / 2 * (dt * dt)))) <= 8 * W * (Rabs x + Rabs v * dt + A / 2 * (dt * dt)) + 64 * tau * (1 + A) /\
  Rabs (snd (f_euler x v f m dt) - (v + f / m * dt)) <= 4 * W * (Rabs v + A * dt) + 8 * tau.
Proof.
  intros X V DF D. cbv zeta. pose proof (near_push f m dt D) as P. cbv zeta in P. pose proof (near_acc f m) as N. set (A := Rabs (f / m)) in *. assert (A0 : 0 <= A) by apply Rabs_pos. pose proof tau_pos as T. assert (TA : 0 <= tau * A) by (apply Rmult_le_pos; lra).
  assert (VD : Rabs (v * dt) = Rabs v * dt) by (rewrite Rabs_mult, (Rabs_pos_eq dt) by lra; reflexivity).
  assert (Q : near (5 * W) tau (Rabs v * dt) (rnd (v * dt)) (v * dt)). { rewrite <- VD. eapply near_weaken; [apply near_rnd; [apply near_exact|lra|lra]|lra|lra]. }
  pose proof (near_add _ _ _ _ _ _ _ _ _ Q P) as S. apply near_rnd in S; [|lra|nra].
  assert (X6 : near (5 * W + W) 0 (Rabs x) x x) by (eapply near_weaken; [apply near_exact|lra|lra]). pose proof (near_add _ _ _ _ _ _ _ _ _ X6 S) as Z. apply near_rnd in Z; [|lra|nra]. split.
  - destruct Z as [_ Z]. unfold f_euler; cbn [fst]. eapply Rle_trans; [exact Z|]. pose proof (Rabs_pos x). pose proof (Rabs_pos v). assert (0 <= Rabs v * dt) by (apply Rmult_le_pos; lra). assert (0 <= A / 2 * (dt * dt)) by (apply Rmult_le_pos; nra). nra.
  - assert (B : near W tau (A * dt) (rnd (f / m) * dt) (f / m * dt)). { pose proof (near_exact dt) as E. rewrite (Rabs_pos_eq dt) in E by lra. eapply near_mul; [exact N|exact E|lra..| |]; [lra|nra]. }
    apply near_rnd in B; [|lra|lra]. assert (V2 : near (W + W) 0 (Rabs v) v v) by (eapply near_weaken; [apply near_exact|lra|lra]). pose proof (near_add _ _ _ _ _ _ _ _ _ V2 B) as C. apply near_rnd in C; [|lra|lra].
    destruct C as [_ C]. unfold f_euler; cbn [snd]. eapply Rle_trans; [exact C|]. pose proof (Rabs_pos v). assert (0 <= A * dt) by (apply Rmult_le_pos; lra). lra.
Qed.
Lemma verlet_close x v f' f m dt : fmt x -> fmt v -> fmt dt -> 0 <= dt <= 1 -> let A := Rabs (f / m) in let A' := Rabs (f' / m) in
  let v1 := v + (f' / m + f / m) / 2 * dt in
  Rabs (fst (f_verlet x v f' f m dt) - (x + (v1 * dt + f / m / 2 * (dt * dt)))) <= 16 * W * (Rabs x + (Rabs v + (A' + A) / 2 * dt) * dt + A / 2 * (dt * dt)) + 512 * tau * (1 + A) /\
  Rabs (snd (f_verlet x v f' f m dt) - v1) <= 8 * W * (Rabs v + (A' + A) / 2 * dt) + 32 * tau.
Proof.
  intros X V DF D. cbv zeta. pose proof (near_push f m dt D) as P. cbv zeta in P. pose proof (near_acc f m) as N. pose proof (near_acc f' m) as N'. set (A := Rabs (f / m)) in *. set (A' := Rabs (f' / m)) in *. assert (A0 : 0 <= A) by apply Rabs_pos. assert (A0' : 0 <= A') by apply Rabs_pos.
  pose proof tau_pos as T. assert (TA : 0 <= tau * A) by (apply Rmult_le_pos; lra). pose proof (near_add _ _ _ _ _ _ _ _ _ N' N) as S. apply near_rnd in S; [|lra|lra]. apply near_half in S. apply near_rnd in S; [|lra|lra].
  pose proof (near_exact dt) as E. rewrite (Rabs_pos_eq dt) in E by lra.
  assert (B : near (3 * W) (6 * tau) ((A' + A) / 2 * dt) (rnd (rnd (rnd (f' / m) + rnd (f / m)) / 2) * dt) ((f' / m + f / m) / 2 * dt)).
  { eapply near_mul; [exact S|exact E|lra..| |]; [lra|]. rewrite Rplus_0_r, Rmult_1_l || idtac. nra. }
  apply near_rnd in B; [|lra|lra]. assert (V4 : near (3 * W + W) 0 (Rabs v) v v) by (eapply near_weaken; [apply near_exact|lra|lra]). pose proof (near_add _ _ _ _ _ _ _ _ _ V4 B) as C. apply near_rnd in C; [|lra|lra].
  set (M := Rabs v + (A' + A) / 2 * dt) in *. assert (M0 : 0 <= M). { unfold M. pose proof (Rabs_pos v). assert (0 <= (A' + A) / 2 * dt) by (apply Rmult_le_pos; lra). lra. } split.
  - assert (G : near (5 * W) (27 * tau) (M * dt) (rnd (v + rnd (rnd (rnd (rnd (f' / m) + rnd (f / m)) / 2) * dt)) * dt) ((v + (f' / m + f / m) / 2 * dt) * dt)).
    { eapply near_mul; [exact C|exact E|lra..| |]; [lra|nra]. }
    apply near_rnd in G; [|lra|lra]. assert (P6 : near (5 * W + W) (tau * (13 + 2 * A)) (A / 2 * (dt * dt)) (rnd (rnd (rnd (f / m) / 2) * rnd (dt * dt))) (f / m / 2 * (dt * dt))) by (eapply near_weaken; [exact P|lra|lra]).
    pose proof (near_add _ _ _ _ _ _ _ _ _ G P6) as H. apply near_rnd in H; [|lra|nra]. assert (X6 : near (5 * W + W + W) 0 (Rabs x) x x) by (eapply near_weaken; [apply near_exact|lra|lra]).
    pose proof (near_add _ _ _ _ _ _ _ _ _ X6 H) as Z. apply near_rnd in Z; [|lra|nra]. destruct Z as [_ Z]. unfold f_verlet; cbn [fst]. eapply Rle_trans; [exact Z|]. pose proof (Rabs_pos x). assert (0 <= M * dt) by (apply Rmult_le_pos; lra). assert (0 <= A / 2 * (dt * dt)) by (apply Rmult_le_pos; nra). nra.
  - destruct C as [_ C]. unfold f_verlet; cbn [snd]. eapply Rle_trans; [exact C|]. lra.
Qed.

(** ** Many steps without force *)
Lemma euler_coast x v m dt : fmt v -> f_euler x v 0 m dt = (rnd (x + rnd (v * dt)), v).
Proof.
  intros V. unfold f_euler. assert (Z : rnd 0 = 0) by apply rnd_id, generic_format_0. unfold Rdiv at 1 2. rewrite !Rmult_0_l, Z. unfold Rdiv. rewrite !Rmult_0_l, Z, !Rmult_0_l, Z, !Rplus_0_r. rewrite (rnd_id v V). f_equal. f_equal. f_equal. apply rnd_id, rnd_fmt.
Qed.
Lemma coast_close x v m dt n : fmt x -> fmt v -> let w := rnd (v * dt) in
  snd (f_coast x v m dt n) = v /\ fmt (fst (f_coast x v m dt n)) /\
  Rabs (fst (f_coast x v m dt n) - (x + INR n * w)) <= ((1 + u) ^ n - 1) * (Rabs x + INR n * Rabs w).
Proof.
  intros X V. cbv zeta. set (w := rnd (v * dt)). assert (Wf : fmt w) by apply rnd_fmt. assert (U : 0 < u) by apply bpow_gt_0. induction n as [|n (I1 & I2 & I3)].
  - cbn [f_coast fst snd pow INR]. split; auto. split; auto. rewrite Rmult_0_l, Rplus_0_r. unfold Rminus at 1. rewrite Rplus_opp_r, Rabs_R0. lra.
  - cbn [f_coast]. destruct (f_coast x v m dt n) as [xn vn] eqn:EC. cbn [fst snd] in *. subst vn. rewrite (euler_coast xn v m dt V). cbn [fst snd]. fold w. split; auto. split; [apply rnd_fmt|].
    destruct (rnd_plus xn w I2 Wf) as (e & E & ->). rewrite S_INR. set (k := INR n) in *. assert (K : 0 <= k) by apply pos_INR. set (z := x + k * w) in *. set (B := Rabs x + k * Rabs w) in *.
    assert (ZB : Rabs (z + w) <= B + Rabs w). { unfold z, B. eapply Rle_trans; [apply Rabs_triang|]. assert (Rabs (x + k * w) <= Rabs x + k * Rabs w) by (eapply Rle_trans; [apply Rabs_triang|]; rewrite Rabs_mult, (Rabs_pos_eq k) by auto; lra). lra. }
    replace ((xn + w) * (1 + e) - (x + (k + 1) * w)) with ((xn - z) * (1 + e) + (z + w) * e) by (unfold z; ring). replace (Rabs x + (k + 1) * Rabs w) with (B + Rabs w) by (unfold B; ring).
    eapply Rle_trans; [apply Rabs_triang|]. rewrite !Rabs_mult. assert (E1 : Rabs (1 + e) <= 1 + u) by (eapply Rle_trans; [apply Rabs_triang|]; rewrite Rabs_R1; lra).
    assert (P : 0 <= (1 + u) ^ n - 1) by (assert (1 <= (1 + u) ^ n) by (apply pow_R1_Rle; lra); lra). set (p := (1 + u) ^ n) in *. cbn [pow]. fold p. pose proof (Rabs_pos w). assert (0 <= B) by (unfold B; pose proof (Rabs_pos x); nra).
    assert (Rabs (xn - z) * Rabs (1 + e) <= (p - 1) * B * (1 + u)) by (apply Rmult_le_compat; auto using Rabs_pos). assert (Rabs (z + w) * Rabs e <= (B + Rabs w) * u) by (apply Rmult_le_compat; auto using Rabs_pos). assert (0 <= (p - 1) * (1 + u) * Rabs w) by (apply Rmult_le_pos; [apply Rmult_le_pos; lra|auto]). nra.
Qed.
Lemma coast_far x v m dt n : fmt x -> fmt v -> INR n <= bpow radix2 52 ->
  Rabs (fst (f_coast x v m dt n) - (x + INR n * (v * dt))) <= 2 * W * INR n * (Rabs x + INR n * Rabs (v * dt)) + 2 * tau * INR n.
Proof.
  intros X V N. destruct (coast_close x v m dt n X V) as (_ & _ & H). cbv zeta in H. assert (V52 : bpow radix2 52 = 4503599627370496) by reflexivity. rewrite V52 in N.
  assert (K : 0 <= INR n) by apply pos_INR. pose proof (pow_small n) as P. rewrite u_val in *. specialize (P ltac:(lra)). set (k := INR n) in *. set (w := rnd (v * dt)) in *. destruct (rnd_error (v * dt)) as (e & a & E & A & EW). fold w in EW. rewrite u_val in E. pose proof tau_pos as T.
  set (s := v * dt) in *. assert (D : Rabs (w - s) <= W / 2 * Rabs s + tau). { rewrite EW. replace (s * (1 + e) + a - s) with (s * e + a) by ring. eapply Rle_trans; [apply Rabs_triang|]. rewrite Rabs_mult. pose proof (Rabs_pos s). nra. }
  assert (WS : Rabs w <= (1 + W / 2) * Rabs s + tau). { replace w with ((w - s) + s) by ring. eapply Rle_trans; [apply Rabs_triang|]. lra. }
  replace (fst (f_coast x v m dt n) - (x + k * s)) with ((fst (f_coast x v m dt n) - (x + k * w)) + k * (w - s)) by ring. eapply Rle_trans; [apply Rabs_triang|]. rewrite (Rabs_mult k), (Rabs_pos_eq k) by auto.
  pose proof (Rabs_pos x). pose proof (Rabs_pos s). pose proof (Rabs_pos w). assert (KW : k * Rabs w <= k * ((1 + W / 2) * Rabs s + tau)) by (apply Rmult_le_compat_l; auto).
  assert (HH1 : ((1 + / 9007199254740992) ^ n - 1) * (Rabs x + k * Rabs w) <= k * (2 * / 9007199254740992) * (Rabs x + k * ((1 + W / 2) * Rabs s + tau))).
  { apply Rmult_le_compat; [|nra|exact P|lra]. assert (1 <= (1 + / 9007199254740992) ^ n) by (apply pow_R1_Rle; lra). lra. }
  assert (HH2 : k * Rabs (w - s) <= k * (W / 2 * Rabs s + tau)) by (apply Rmult_le_compat_l; auto).
  assert (HH3 : k * W * k * tau <= 1 * (k * tau)). { replace (k * W * k * tau) with (k * W * (k * tau)) by ring. apply Rmult_le_compat_r; [apply Rmult_le_pos; lra|lra]. }
  destruct (Nat.eq_dec n 0) as [->|NZ].
  - unfold k in *. cbn [INR] in *. rewrite !Rmult_0_l in *. lra.
  - assert (K1 : 1 <= k). { unfold k. apply (le_INR 1). lia. } assert (K2 : k * Rabs s <= k * k * Rabs s) by (apply Rmult_le_compat_r; nra). assert (0 <= k * Rabs x) by (apply Rmult_le_pos; lra). assert (0 <= k * k * Rabs s) by (apply Rmult_le_pos; nra). nra.
Qed.
Lemma coast_stuck m n : fst (f_coast (bpow radix2 53) 1 m (1 / 2) n) = bpow radix2 53.
Proof.
  assert (V : bpow radix2 53 = 9007199254740992) by reflexivity. assert (F1 : fmt 1) by (apply (fmt_int 1); lia). assert (F2 : fmt (1 / 2)) by (replace (1 / 2) with (IZR 1 * bpow radix2 (-1)) by (cbn; lra); apply fmt_dyadic; lia).
  assert (S : rnd (bpow radix2 53 + 1 / 2) = bpow radix2 53). { rewrite (rnd_at _ 54 4503599627370496); [|rewrite Rabs_pos_eq; rewrite ?V; cbn; lra|]. { rewrite V; cbn; lra. } rewrite V. apply Rabs_def1; cbn; lra. }
  enough (f_coast (bpow radix2 53) 1 m (1 / 2) n = (bpow radix2 53, 1)) as -> by reflexivity. induction n as [|n IH]; cbn [f_coast]; auto. rewrite IH. cbn [fst snd]. rewrite (euler_coast _ 1 m _ F1), Rmult_1_l, (rnd_id _ F2), S. reflexivity.
Qed.
