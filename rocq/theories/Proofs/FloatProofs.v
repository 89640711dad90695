(** * Angles and the clock in float64 *)
From Coq Require Import Reals ZArith Lra Lia List.
From Flocq Require Import Core Relative Sterbenz Div_sqrt_error Plus_error.
From Verif Require Export Spec.Doubles Model.Floats.
Import ListNotations.
Open Scope R_scope.

Notation fmt := (generic_format radix2 double_exp).
Global Instance double_prec : Prec_gt_0 53. Proof. unfold Prec_gt_0; lia. Qed.
Global Instance double_valid : Valid_exp double_exp. Proof. unfold double_exp. apply FLT_exp_valid. exact double_prec. Qed.
Global Instance double_mono : Monotone_exp double_exp. Proof. unfold double_exp. apply FLT_exp_monotone. Qed.
Global Instance double_ne : Exists_NE radix2 double_exp. Proof. unfold double_exp. apply exists_NE_FLT. right. reflexivity. Qed.

Lemma pow2 e : bpow radix2 e = powerRZ 2 e.
Proof. rewrite bpow_powerRZ. reflexivity. Qed.
Lemma double_fmt x : double x <-> fmt x.
Proof.
  split.
  - intros (m & e & M & E & ->). rewrite <- pow2. apply generic_format_FLT. exists (Float radix2 m e); auto.
  - intros H. apply FLT_format_generic in H; [|exact double_prec]. destruct H as [f F1 F2 F3]. exists (Fnum f), (Fexp f). rewrite <- pow2. auto.
Qed.
Lemma rnd_fmt x : fmt (rnd x). Proof. apply generic_format_round; auto with typeclass_instances. Qed.
Lemma rnd_id x : fmt x -> rnd x = x. Proof. intros H. apply round_generic; auto with typeclass_instances. Qed.
Lemma rnd_nearest x : nearest_double x (rnd x).
Proof.
  split; [apply double_fmt, rnd_fmt|]. intros z Z. apply double_fmt in Z. destruct (round_N_pt radix2 double_exp (fun x => negb (Z.even x)) x) as [_ H]. now apply H.
Qed.
Lemma rnd_le x y : x <= y -> rnd x <= rnd y. Proof. apply round_le; auto with typeclass_instances. Qed.
Lemma rnd_below x y : fmt y -> x <= y -> rnd x <= y. Proof. intros F H. rewrite <- (rnd_id y F). now apply rnd_le. Qed.
Lemma rnd_above x y : fmt y -> y <= x -> y <= rnd x. Proof. intros F H. rewrite <- (rnd_id y F). now apply rnd_le. Qed.
Lemma rnd_opp x : rnd (- x) = - rnd x. Proof. apply round_NE_opp. Qed.

Lemma f_two_pi_eq : f_two_pi = 2 * f_pi. Proof. unfold f_two_pi, f_pi. lra. Qed.
Lemma fmt_dyadic m e : (Z.abs m < 2 ^ 53)%Z -> (-1074 <= e)%Z -> fmt (IZR m * bpow radix2 e).
Proof. intros M E. apply generic_format_FLT. exists (Float radix2 m e); auto. Qed.
Lemma fmt_pi : fmt f_pi.
Proof. replace f_pi with (IZR 884279719003555 * bpow radix2 (-48)). apply fmt_dyadic; lia. unfold f_pi. cbn. lra. Qed.
Lemma fmt_two_pi : fmt f_two_pi.
Proof. replace f_two_pi with (IZR 884279719003555 * bpow radix2 (-47)). apply fmt_dyadic; lia. unfold f_two_pi. cbn. lra. Qed.
Lemma pi_range : 3 < f_pi < 4. Proof. unfold f_pi. lra. Qed.

(** ** The remainder *)
Lemma fmod_fmt x y : fmt x -> fmt y -> fmt (c_fmod x y).
Proof. intros. apply format_REM_ZR; auto with typeclass_instances. Qed.
Lemma fmod_range x y : 0 < y -> (0 <= x -> 0 <= c_fmod x y < y) /\ (x <= 0 -> - y < c_fmod x y <= 0).
Proof.
  intros Y. unfold c_fmod. assert (E : x = x / y * y) by (field; lra). set (q := x / y) in *. split; intros X.
  - assert (Q : 0 <= q) by (unfold q; apply Rmult_le_pos; [lra|]; left; now apply Rinv_0_lt_compat). rewrite Ztrunc_floor by exact Q. pose proof (Zfloor_lb q). pose proof (Zfloor_ub q). rewrite E at 1 2. nra.
  - assert (Q : q <= 0). { unfold q, Rdiv. rewrite <- (Rmult_0_l (/ y)). apply Rmult_le_compat_r; [left; now apply Rinv_0_lt_compat|lra]. }
    rewrite Ztrunc_ceil by exact Q. pose proof (Zceil_ub q). pose proof (Zceil_lb q). rewrite E at 1 2. nra.
Qed.
Lemma fmod_small x y : 0 < y -> - y < x < y -> c_fmod x y = x.
Proof.
  intros Y X. unfold c_fmod. replace (Ztrunc (x / y)) with 0%Z; [lra|]. assert (Q : -1 < x / y < 1).
  { assert (E : x = x / y * y) by (field; lra). split; apply (Rmult_lt_reg_r y); lra. }
  symmetry. destruct (Rle_or_lt 0 (x / y)) as [A|A].
  - rewrite Ztrunc_floor by exact A. apply Zfloor_imp. cbn. lra.
  - rewrite Ztrunc_ceil by lra. apply Zceil_imp. cbn. lra.
Qed.
Lemma half_ulp z : 0 < z <= f_two_pi -> Rabs (rnd z - z) <= bpow radix2 (-51).
Proof.
  intros Z. assert (U : ulp radix2 double_exp f_two_pi = bpow radix2 (-50)).
  { rewrite ulp_neq_0 by (unfold f_two_pi; lra). unfold cexp. rewrite (mag_unique radix2 f_two_pi 3); [reflexivity|]. rewrite Rabs_pos_eq by (unfold f_two_pi; lra). unfold f_two_pi. cbn. lra. }
  pose proof (error_le_half_ulp radix2 double_exp (fun x => negb (Z.even x)) z) as H.
  pose proof (ulp_le_pos radix2 double_exp z f_two_pi ltac:(lra) ltac:(lra)) as L. rewrite U in L.
  replace (bpow radix2 (-51)) with (/ 2 * bpow radix2 (-50)) by (cbn; lra). unfold rnd. lra.
Qed.
Notation T := f_two_pi.
Lemma f_mod_spec x : fmt x -> fmt (f_mod x T) /\ 0 <= f_mod x T <= T /\ (exists k, Rabs (f_mod x T - (x - IZR k * T)) <= bpow radix2 (-51) /\ (0 <= x -> f_mod x T = x - IZR k * T)) /\ (0 <= x -> f_mod x T < T).
Proof.
  intros F. pose proof pi_range. pose proof f_two_pi_eq. destruct (fmod_range x T) as [A B]; [lra|]. pose proof (fmod_fmt x T F fmt_two_pi) as C. unfold f_mod. set (m := c_fmod x T) in *.
  assert (Z0 : Rabs 0 <= bpow radix2 (-51)) by (rewrite Rabs_R0; apply bpow_ge_0).
  destruct (Rlt_bool_spec m 0) as [M|M].
  - assert (X : x <= 0) by (destruct (Rle_or_lt x 0) as [K|K]; [exact K|]; specialize (A ltac:(lra)); lra). specialize (B X).
    assert (L : 0 <= rnd (m + T) <= T).
    { split; [apply rnd_above; [apply generic_format_0|lra]|apply rnd_below; [exact fmt_two_pi|lra]]. }
    split; [apply rnd_fmt|]. split; [exact L|]. split; [|intros; assert (x = 0) by lra; specialize (A ltac:(lra)); lra].
    exists (Ztrunc (x / T) - 1)%Z. rewrite minus_IZR. replace (x - (IZR (Ztrunc (x / T)) - 1) * T) with (m + T) by (unfold m, c_fmod; lra).
    split; [apply half_ulp; lra|]. intros X'. assert (x = 0) by lra. specialize (A ltac:(lra)). lra.
  - split; [exact C|]. assert (0 <= m < T) as R.
    { destruct (Rle_or_lt 0 x) as [K|K]; [auto|]. specialize (B ltac:(lra)). lra. }
    split; [lra|]. split; [|lra]. exists (Ztrunc (x / T)). replace (m - (x - IZR (Ztrunc (x / T)) * T)) with 0 by (unfold m, c_fmod; lra). split; auto.
Qed.
(** The two cases of the result. *)
Lemma wrap_cases x : fmt x -> (f_mod x T <= f_pi /\ f_wrap_to_pi x = f_mod x T /\ (x < 0 -> f_mod x T <> f_pi)) \/
  (f_pi <= f_mod x T /\ f_wrap_to_pi x = f_mod x T - T /\ (f_mod x T = f_pi -> x < 0)).
Proof.
  intros F. destruct (f_mod_spec x F) as (A & B & _). pose proof pi_range. pose proof f_two_pi_eq. unfold f_wrap_to_pi. cbv zeta.
  assert (S : f_pi < f_mod x T -> rnd (f_mod x T - T) = f_mod x T - T) by (intros K; apply rnd_id, sterbenz; auto with typeclass_instances; [exact fmt_two_pi|lra]).
  destruct (Rlt_bool_spec x 0) as [X|X]; cbn [andb].
  - destruct (Req_bool_spec (f_mod x T) f_pi) as [E|E].
    + right. rewrite E. split; [lra|]. split; [lra|auto].
    + destruct (Rlt_bool_spec f_pi (f_mod x T)) as [K|K]; [right|left].
      * split; [lra|]. split; auto.
      * split; [lra|]. split; auto.
  - destruct (Rlt_bool_spec f_pi (f_mod x T)) as [K|K]; [right|left].
    + split; [lra|]. split; auto. intros; lra.
    + split; [lra|]. split; [auto|]. intros; lra.
Qed.
Lemma wrap_range x : fmt x -> fmt (f_wrap_to_pi x) /\ - f_pi <= f_wrap_to_pi x <= f_pi.
Proof.
  intros F. destruct (f_mod_spec x F) as (A & B & _). pose proof pi_range. pose proof f_two_pi_eq. destruct (wrap_cases x F) as [(C & -> & _)|(C & -> & _)].
  - split; [exact A|lra].
  - split; [apply sterbenz; auto with typeclass_instances; [exact fmt_two_pi|lra]|lra].
Qed.
Lemma wrap_turns x : fmt x -> exists k, Rabs (f_wrap_to_pi x - (x - IZR k * T)) <= bpow radix2 (-51) /\ (0 <= x -> f_wrap_to_pi x = x - IZR k * T).
Proof.
  intros F. destruct (f_mod_spec x F) as (A & B & (k & K1 & K2) & _). destruct (wrap_cases x F) as [(C & -> & _)|(C & -> & _)]; [eauto|].
  exists (k + 1)%Z. rewrite plus_IZR. replace (f_mod x T - T - (x - (IZR k + 1) * T)) with (f_mod x T - (x - IZR k * T)) by lra. split; [exact K1|]. intros X. rewrite (K2 X). lra.
Qed.
Lemma wrap_idempotent x : fmt x -> f_wrap_to_pi (f_wrap_to_pi x) = f_wrap_to_pi x.
Proof.
  intros F. destruct (f_mod_spec x F) as (A & B & _). pose proof pi_range. pose proof f_two_pi_eq. pose proof (wrap_range x F) as (G & R).
  assert (M : forall w, - f_pi <= w <= f_pi -> c_fmod w T = w) by (intros w W; apply fmod_small; lra).
  assert (P : forall w, fmt w -> 0 <= w <= f_pi -> f_wrap_to_pi w = w).
  { intros w Fw W. assert (Q : f_mod w T = w) by (unfold f_mod; rewrite (M w) by lra; destruct (Rlt_bool_spec w 0); [lra|reflexivity]).
    destruct (wrap_cases w Fw) as [(C & -> & _)|(C & -> & D)]; rewrite Q in *; [reflexivity|]. assert (w = f_pi) by lra. specialize (D ltac:(lra)). lra. }
  destruct (Rle_or_lt 0 (f_wrap_to_pi x)) as [W|W]; [apply P; auto; lra|].
  destruct (wrap_cases x F) as [(C & E & _)|(C & E & D)]; [lra|]. set (w := f_wrap_to_pi x) in *.
  assert (Q : f_mod w T = f_mod x T).
  { unfold f_mod at 1. rewrite (M w) by lra. destruct (Rlt_bool_spec w 0); [|lra]. replace (w + T) with (f_mod x T) by lra. now apply rnd_id. }
  destruct (wrap_cases w G) as [(C' & E' & D')|(C' & E' & D')]; rewrite Q in *; [|lra]. specialize (D' W). lra.
Qed.
Lemma wrap_odd n : f_wrap_to_pi (IZR (2 * n + 1) * f_pi) = if Z.leb 0 n then f_pi else - f_pi.
Proof.
  pose proof pi_range. pose proof f_two_pi_eq. assert (Q : IZR (2 * n + 1) * f_pi / T = IZR n + / 2) by (rewrite H0, plus_IZR, mult_IZR; field; lra).
  unfold f_wrap_to_pi, f_mod, c_fmod. rewrite Q. destruct (Z.leb_spec 0 n) as [N|N].
  - apply IZR_le in N. rewrite Ztrunc_floor by lra. replace (Zfloor (IZR n + / 2)) with n by (symmetry; apply Zfloor_imp; rewrite plus_IZR; lra).
    replace (IZR (2 * n + 1) * f_pi - IZR n * T) with f_pi by (rewrite H0, plus_IZR, mult_IZR; lra).
    rewrite (Rlt_bool_false f_pi 0) by lra. rewrite (Rlt_bool_false (IZR (2 * n + 1) * f_pi) 0) by (rewrite plus_IZR, mult_IZR; nra). cbn [andb]. rewrite Rlt_bool_false by lra. reflexivity.
  - assert (N1 : IZR n <= -1) by (apply IZR_le; lia). rewrite Ztrunc_ceil by lra. replace (Zceil (IZR n + / 2)) with (n + 1)%Z by (symmetry; apply Zceil_imp; rewrite minus_IZR, plus_IZR; lra).
    replace (IZR (2 * n + 1) * f_pi - IZR (n + 1) * T) with (- f_pi) by (rewrite H0, !plus_IZR, mult_IZR; lra).
    rewrite (Rlt_bool_true (- f_pi) 0) by lra. replace (- f_pi + T) with f_pi by lra. rewrite (rnd_id f_pi fmt_pi).
    rewrite (Rlt_bool_true (IZR (2 * n + 1) * f_pi) 0) by (rewrite plus_IZR, mult_IZR; nra). rewrite Req_bool_true by reflexivity. reflexivity.
Qed.
Lemma wrap_near x : fmt x -> - f_pi <= x <= f_pi -> Rabs (f_wrap_to_pi x - x) <= bpow radix2 (-51) /\ (0 <= x -> f_wrap_to_pi x = x).
Proof.
  intros F X. pose proof pi_range. pose proof f_two_pi_eq. assert (M : c_fmod x T = x) by (apply fmod_small; lra).
  assert (Z0 : Rabs 0 <= bpow radix2 (-51)) by (rewrite Rabs_R0; apply bpow_ge_0).
  destruct (Rle_or_lt 0 x) as [P|P].
  - assert (Q : f_mod x T = x) by (unfold f_mod; rewrite M; destruct (Rlt_bool_spec x 0); [lra|reflexivity]).
    assert (E : f_wrap_to_pi x = x) by (destruct (wrap_cases x F) as [(C & -> & _)|(C & -> & D)]; rewrite Q in *; [reflexivity|]; assert (x = f_pi) by lra; specialize (D ltac:(lra)); lra).
    rewrite E. replace (x - x) with 0 by lra. auto.
  - split; [|lra]. assert (Q : f_mod x T = rnd (x + T)) by (unfold f_mod; rewrite M; destruct (Rlt_bool_spec x 0); [reflexivity|lra]).
    assert (G : f_pi <= rnd (x + T)) by (apply rnd_above; [exact fmt_pi|lra]).
    destruct (wrap_cases x F) as [(C & E & D)|(C & E & D)]; rewrite Q in *; [specialize (D P); lra|]. rewrite E. replace (rnd (x + T) - T - x) with (rnd (x + T) - (x + T)) by lra. apply half_ulp. lra.
Qed.
(** A tiny negative angle becomes zero. *)
Lemma wrap_tiny : fmt (- bpow radix2 (-60)) /\ f_wrap_to_pi (- bpow radix2 (-60)) = 0.
Proof.
  assert (F : fmt (- bpow radix2 (-60))) by (replace (- bpow radix2 (-60)) with (IZR (-1) * bpow radix2 (-60)) by lra; apply fmt_dyadic; lia). split; [exact F|].
  pose proof pi_range. pose proof f_two_pi_eq. set (x := - bpow radix2 (-60)) in *. assert (X : - / 1000 < x < 0) by (unfold x; cbn; lra).
  assert (M : c_fmod x T = x) by (apply fmod_small; lra).
  assert (R : rnd (x + T) = T).
  { apply Rle_antisym; [apply rnd_below; [exact fmt_two_pi|lra]|].
    assert (U : ulp radix2 double_exp T = bpow radix2 (-50)).
    { rewrite ulp_neq_0 by (unfold f_two_pi; lra). unfold cexp. rewrite (mag_unique radix2 T 3); [reflexivity|]. rewrite Rabs_pos_eq by (unfold f_two_pi; lra). unfold f_two_pi. cbn. lra. }
    destruct (rnd_nearest (x + T)) as [D N]. specialize (N T (proj2 (double_fmt T) fmt_two_pi)). replace (T - (x + T)) with (- x) in N by lra. rewrite (Rabs_pos_eq (- x)) in N by lra.
    destruct (Rle_or_lt T (rnd (x + T))) as [K|K]; [exact K|]. exfalso.
    pose proof (pred_ge_gt radix2 double_exp (rnd (x + T)) T (rnd_fmt _) fmt_two_pi K) as P.
    assert (E : pred radix2 double_exp T = T - bpow radix2 (-50)).
    { rewrite pred_eq_pos by lra. unfold pred_pos. rewrite (mag_unique radix2 T 3) by (rewrite Rabs_pos_eq by (unfold f_two_pi; lra); unfold f_two_pi; cbn; lra).
      rewrite Req_bool_false; [now rewrite U|]. cbn. unfold f_two_pi. lra. }
    rewrite E in P. apply Rabs_le_inv in N. assert (bpow radix2 (-50) = 1024 * - x) by (unfold x; cbn; lra). lra. }
  unfold f_wrap_to_pi, f_mod. rewrite M, (Rlt_bool_true x 0) by lra. rewrite R, Req_bool_false by lra. cbn [andb]. rewrite Rlt_bool_true by lra. replace (T - T) with 0 by lra. apply rnd_id, generic_format_0.
Qed.
