(** * Property C150: the Poisson clock in double precision *)
From Coq Require Import Reals ZArith List Lra Lia Sorting.Sorted Sorting.Permutation.
From Flocq Require Import Core.
From Verif Require Import Model.Floats Proofs.FloatProofs Proofs.FloatSums Proofs.FloatCases.
From Verif Require Import Proofs.FloatClockProofs Spec.Doubles.
Import ListNotations.
Open Scope R_scope.

(** The ticks are before [dt] and do not decrease; the tick number [k] (from 0) is the sum
    of the first [k + 1] draws up to [k] times [2^-53 dt], one draw more is used than there
    are ticks, and the sum of all of them reaches [dt] up to the same error. *)
Theorem C150_ticks : forall draw dt fuel n ts n', double dt -> (forall i, double (draw i) /\ 0 <= draw i) -> f_poisson_clock draw dt fuel n = Some (ts, n') ->
  n' = S (n + length ts) /\ StronglySorted Rle ts /\
  (forall k t, nth_error ts k = Some t -> t < dt /\ Rabs (t - arrival (fun i => draw (n + i)%nat) k) <= INR k * powerRZ 2 (-53) * dt) /\
  dt <= arrival (fun i => draw (n + i)%nat) (length ts) + INR (length ts) * powerRZ 2 (-53) * dt.
Proof.
  intros draw dt fuel n ts n' D DR H. apply f_clock_spec in H as (k & (<- & B & C & S) & E); [|now apply double_fmt|intros i; destruct (DR i); split; auto; now apply double_fmt].
  split; [lia|]. auto.
Qed.
Print Assumptions C150_ticks.
(** The timings are the ticks of all players in order of time. *)
Theorem C150_timings : forall shuffle argsort draw dt fuel players players' out, double dt -> (forall i, double (draw i) /\ 0 <= draw i) ->
  (forall l, Permutation l (shuffle l)) -> (forall l, is_argsort Rle l (argsort l)) -> f_poisson_timings shuffle argsort draw dt fuel players = Some (players', out) ->
  Permutation players players' /\ exists w k events ordered, all_rounded w dt k 0 players' events /\ separate_draws draw w k (length players') /\
    Permutation events ordered /\ in_time_order ordered /\ out = map snd ordered.
Proof.
  intros shuffle argsort draw dt fuel players players' out D DR. apply f_timings_spec; [now apply double_fmt|]. intros i. destruct (DR i). split; auto. now apply double_fmt.
Qed.
Print Assumptions C150_timings.
(** With draws of at least [2^-52 dt] no two ticks come at the same time. *)
Theorem C150_strict : forall draw dt fuel n ts n', (forall i, double (draw i) /\ 0 < draw i /\ powerRZ 2 (-52) * dt <= draw i) -> f_poisson_clock draw dt fuel n = Some (ts, n') -> StronglySorted Rlt ts.
Proof.
  intros draw dt fuel n ts n' DR H. refine (proj1 (f_loop_strict draw dt _ fuel (draw n) (S n) ts n' _ _ H)).
  - intros i. destruct (DR i) as (A & B & C). rewrite <- pow2 in C. split; [now apply double_fmt|]. split; auto. assert (V : bpow radix2 (-52) = / 4503599627370496) by reflexivity. rewrite V in C. assert (V' : bpow radix2 52 = 4503599627370496) by reflexivity. rewrite V'. lra.
  - now apply double_fmt, DR.
  - left. apply DR.
Qed.
Print Assumptions C150_strict.
(** With draws of at least [c >= 2^-51 dt] it ends, within [2 dt / c + 1] rounds. *)
Theorem C150_ends : forall draw dt n c fuel, 0 < c -> powerRZ 2 (-51) * dt <= c -> (forall i, double (draw i) /\ c <= draw i) -> 2 * dt / c + 1 <= INR fuel -> (0 < fuel)%nat ->
  exists r, f_poisson_clock draw dt fuel n = Some r.
Proof.
  intros draw dt n c fuel C B DR F P. destruct fuel as [|m]; [lia|]. apply (f_loop_ends draw dt c C) with (m := m); try lia.
  - rewrite <- pow2 in B. assert (V : bpow radix2 (-51) = / 2251799813685248) by reflexivity. rewrite V in B. assert (V' : bpow radix2 51 = 2251799813685248) by reflexivity. rewrite V'. lra.
  - intros i. destruct (DR i). split; auto. now apply double_fmt.
  - now apply double_fmt, DR.
  - destruct (DR n). lra.
  - rewrite S_INR in F. destruct (DR n) as [_ G]. assert (E : 2 * dt / c * (c / 2) = dt) by (field; lra). assert (2 * dt / c * (c / 2) <= INR m * (c / 2)) by (apply Rmult_le_compat_r; lra). lra.
Qed.
Print Assumptions C150_ends.

(** Smaller draws are lost. *)
Definition lost (n : nat) : R := match n with O => 1/2 | S _ => / 1152921504606846976 end.
Lemma double_pow e : (-1074 <= e)%Z -> double (powerRZ 2 e).
Proof. intros H. exists 1%Z, e. split; [lia|]. split; [exact H|]. lra. Qed.
Lemma lost_double i : double (lost i) /\ 0 < lost i.
Proof.
  destruct i; cbn [lost]; split; try lra.
  - replace (1/2) with (powerRZ 2 (-1)) by (rewrite <- pow2; cbn; lra). apply double_pow. lia.
  - replace (/ 1152921504606846976) with (powerRZ 2 (-60)) by (rewrite <- pow2; cbn; lra). apply double_pow. lia.
Qed.
Lemma lost_sum : rnd (1/2 + / 1152921504606846976) = 1/2.
Proof.
  rewrite (FloatCases.rnd_at _ 0 4503599627370496).
  - replace (Z.max (0 - 53) (-1074)) with (-53)%Z by reflexivity. cbn. lra.
  - rewrite Rabs_pos_eq by lra. cbn. lra.
  - replace (- Z.max (0 - 53) (-1074))%Z with 53%Z by reflexivity. apply Rabs_def1; cbn; lra.
Qed.
(** A clock whose draws are all positive, and the same from the second on, never ends. *)
Theorem C150_ends_refuted : ~ (forall draw dt n c, double dt -> 0 < c -> (forall i, double (draw i) /\ c <= draw i) -> exists fuel r, f_poisson_clock draw dt fuel n = Some r).
Proof.
  intros H. destruct (H lost 1 0%nat (/ 1152921504606846976)) as (fuel & r & E).
  - replace 1 with (powerRZ 2 0) by reflexivity. apply double_pow. lia.
  - lra.
  - intros i. split; [apply lost_double|]. destruct i; cbn [lost]; lra.
  - unfold f_poisson_clock in E. change (lost 0) with (1/2) in E. assert (G : forall fuel n, f_clock_loop lost 1 fuel (1/2) (S n) = None); [|rewrite (G fuel 0%nat) in E; discriminate].
    clear. induction fuel as [|fuel IH]; intros n; cbn [f_clock_loop]; auto. rewrite Rlt_bool_true by lra. change (lost (S n)) with (/ 1152921504606846976). now rewrite lost_sum, IH.
Qed.
Print Assumptions C150_ends_refuted.
Definition lost_once (n : nat) : R := match n with 2%nat => 1/2 | n => lost n end.
Theorem C150_strict_refuted : ~ (forall draw dt fuel n ts n', double dt -> (forall i, double (draw i) /\ 0 < draw i) -> f_poisson_clock draw dt fuel n = Some (ts, n') -> StronglySorted Rlt ts).
Proof.
  intros H. assert (O : double 1) by (replace 1 with (powerRZ 2 0) by reflexivity; apply double_pow; lia).
  assert (Z : forall i, double (lost_once i) /\ 0 < lost_once i) by (intros [|[|[|i]]]; [apply (lost_double 0)|apply (lost_double 1)|apply (lost_double 0)|apply (lost_double 1)]).
  specialize (H lost_once 1 3%nat 0%nat [1/2; 1/2] 3%nat O Z). cut (StronglySorted Rlt [1/2; 1/2]); [intros S; inversion S as [|? ? _ F]; inversion F; lra|]. apply H.
  unfold f_poisson_clock. cbn [f_clock_loop]. change (lost_once 0) with (1/2). change (lost_once 1) with (/ 1152921504606846976). change (lost_once 2) with (1/2). rewrite lost_sum, Rlt_bool_true by lra.
  replace (1/2 + 1/2) with 1 by lra. rewrite (rnd_id 1) by now apply double_fmt. now rewrite Rlt_bool_false by lra.
Qed.
Print Assumptions C150_strict_refuted.
(** A clock with draws of one half and two thirds (rounded) of a step in turn. *)
Example C150_case : let draw := fun n => if Nat.even n then 1/2 else rnd (2/3) in
  (forall i, double (draw i) /\ 1/2 <= draw i) /\ exists ts n', f_poisson_clock draw 2 9 0 = Some (ts, n') /\ StronglySorted Rlt ts /\ (3 <= length ts)%nat.
Proof.
  intros draw.
  assert (D : double (1/2)) by (apply (lost_double 0)). assert (L : 1/2 <= rnd (2/3)) by (apply rnd_above; [now apply double_fmt|lra]).
  assert (O : double 1) by (replace 1 with (powerRZ 2 0) by reflexivity; apply double_pow; lia). assert (L' : rnd (2/3) <= 1) by (apply rnd_below; [now apply double_fmt|lra]).
  assert (G : forall i, double (draw i) /\ 1/2 <= draw i) by (intros i; unfold draw; destruct (Nat.even i); split; auto; [lra|apply double_fmt, rnd_fmt]).
  split; [exact G|]. assert (T2 : double 2) by (exists 2%Z, 0%Z; split; [lia|split; [lia|cbn [powerRZ]; lra]]).
  assert (B : powerRZ 2 (-51) * 2 <= 1/2) by (rewrite <- pow2; assert (V : bpow radix2 (-51) = / 2251799813685248) by reflexivity; rewrite V; lra).
  destruct (C150_ends draw 2 0%nat (1/2) 9%nat ltac:(lra) B G ltac:(cbn; lra) ltac:(lia)) as ([ts n'] & E).
  exists ts, n'. split; [exact E|]. split.
  - apply (C150_strict draw 2 9 0 ts n'); auto. intros i. destruct (G i) as [G1 G2]. split; auto. split; [lra|]. rewrite <- pow2. assert (V : bpow radix2 (-52) = / 4503599627370496) by reflexivity. rewrite V. lra.
  - destruct (C150_ticks draw 2 9 0 ts n' T2) as (_ & _ & _ & B3); auto; [intros i; destruct (G i); split; auto; lra|]. rewrite <- pow2 in B3. assert (V : bpow radix2 (-53) = / 9007199254740992) by reflexivity. rewrite V in B3.
    destruct (FloatSums.rnd_error (2/3)) as (e & a & Ee & Ea & R). apply Rabs_le_inv in Ee. rewrite u_val in Ee. apply Rabs_le_inv in Ea. assert (bpow radix2 (-1075) <= bpow radix2 (-53)) by (apply bpow_le; lia). rewrite u_val in *. assert (R' : rnd (2/3) <= 668/1000) by lra.
    destruct ts as [|x [|y [|z ts]]]; cbn [length arrival INR Nat.add] in B3; unfold draw in B3; cbn [Nat.even] in B3; cbn [length]; try lia; exfalso; lra.
Qed.
