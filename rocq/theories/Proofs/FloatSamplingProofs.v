(** * Proofs about sampling in double precision *)
From Coq Require Import Reals ZArith List Lra Lia.
From Flocq Require Import Core.
From Verif Require Export Model.FloatSampling Spec.Chance Spec.Polygon.
From Verif Require Import Proofs.VecLemmas Proofs.FloatProofs Proofs.FloatSums Proofs.FloatGeomProofs Proofs.FloatForcesProofs Proofs.FloatContact Proofs.SamplingProofs.
Import ListNotations.
Open Scope R_scope.

(** ** One coordinate *)
Lemma fmt1 : fmt 1. Proof. replace 1 with (IZR 1 * bpow radix2 0) by (cbn; lra). apply fmt_dyadic; lia. Qed.
Lemma fmt0 : fmt 0. Proof. apply generic_format_0. Qed.
Lemma T_small : T <= U / 1000.
Proof. unfold T. assert (bpow radix2 (-1075) <= bpow radix2 (-63)) by (apply bpow_le; lia). assert (V : bpow radix2 (-63) = / 9223372036854775808) by reflexivity. rewrite U_val. lra. Qed.
Lemma unit_rnd x : 0 <= x <= 1 -> 0 <= rnd x <= 1 /\ Rabs (rnd x - x) <= 101/100 * U.
Proof.
  intros X. split; [split; [apply rnd_above|apply rnd_below]; [apply fmt0|lra|apply fmt1|lra]|]. pose proof (rnd_far x) as E. rewrite (Rabs_pos_eq x) in E by lra. pose proof T_small. pose proof U_pos.
  assert (U * x <= U * 1) by (apply Rmult_le_compat_l; lra). lra.
Qed.
Lemma unit_mul x y : 0 <= x <= 1 -> 0 <= y <= 1 -> 0 <= x * y <= 1.
Proof. intros A B. split; [apply Rmult_le_pos; lra|]. assert (x * y <= 1 * 1) by (apply Rmult_le_compat; lra). lra. Qed.
Lemma mul_near x x' y y' e f : Rabs (x - x') <= e -> 0 <= x' <= 1 -> 0 <= y <= 1 -> Rabs (y - y') <= f -> Rabs (x * y - x' * y') <= e + f.
Proof.
  intros E X Y F. replace (x * y - x' * y') with ((x - x') * y + x' * (y - y')) by ring. eapply Rle_trans; [apply Rabs_triang|]. rewrite !Rabs_mult, (Rabs_pos_eq y), (Rabs_pos_eq x') by lra.
  pose proof (Rabs_pos (x - x')). pose proof (Rabs_pos (y - y')). assert (Rabs (x - x') * y <= Rabs (x - x') * 1) by (apply Rmult_le_compat_l; lra). assert (x' * Rabs (y - y') <= 1 * Rabs (y - y')) by (apply Rmult_le_compat_r; lra). lra.
Qed.
Lemma term_near w w' e a M : 0 <= w <= 1 -> Rabs (w - w') <= e -> Rabs a <= M -> Rabs (rnd (w * a) - w' * a) <= (e + U) * M + T /\ Rabs (rnd (w * a)) <= (1 + U) * M + T.
Proof.
  intros X E A. pose proof (Rabs_pos a) as A0. pose proof U_pos. pose proof (rnd_far (w * a)) as F. rewrite Rabs_mult, (Rabs_pos_eq w) in F by lra.
  assert (W : w * Rabs a <= M) by (apply Rle_trans with (1 * Rabs a); [apply Rmult_le_compat_r|]; lra). assert (UW : U * (w * Rabs a) <= U * M) by (apply Rmult_le_compat_l; lra).
  assert (D : Rabs (w * a - w' * a) <= e * M).
  { replace (w * a - w' * a) with ((w - w') * a) by ring. rewrite Rabs_mult. apply Rmult_le_compat; auto; apply Rabs_pos. }
  split.
  - replace (rnd (w * a) - w' * a) with ((rnd (w * a) - w * a) + (w * a - w' * a)) by ring. eapply Rle_trans; [apply Rabs_triang|]. lra.
  - replace (rnd (w * a)) with ((rnd (w * a) - w * a) + w * a) by ring. eapply Rle_trans; [apply Rabs_triang|]. rewrite (Rabs_mult w a), (Rabs_pos_eq w) by lra. lra.
Qed.
Lemma sum_near x y x' y' e f X Y : Rabs (x - x') <= e -> Rabs (y - y') <= f -> Rabs x <= X -> Rabs y <= Y ->
  Rabs (rnd (x + y) - (x' + y')) <= e + f + U * (X + Y) + T /\ Rabs (rnd (x + y)) <= (1 + U) * (X + Y) + T.
Proof.
  intros E F A B. pose proof (rnd_far (x + y)) as G. pose proof (Rabs_triang x y) as S. pose proof U_pos. assert (U * Rabs (x + y) <= U * (X + Y)) by (apply Rmult_le_compat_l; lra).
  split.
  - replace (rnd (x + y) - (x' + y')) with ((rnd (x + y) - (x + y)) + ((x - x') + (y - y'))) by ring. eapply Rle_trans; [apply Rabs_triang|]. pose proof (Rabs_triang (x - x') (y - y')). lra.
  - replace (rnd (x + y)) with ((rnd (x + y) - (x + y)) + (x + y)) by ring. eapply Rle_trans; [apply Rabs_triang|]. lra.
Qed.
Lemma sample_near r1 r2 a b c M : 0 <= r1 <= 1 -> 0 <= r2 <= 1 -> Rabs a <= M -> Rabs b <= M -> Rabs c <= M ->
  Rabs (f_sample_coordinate r1 r2 a b c - ((1 - sqrt r1) * a + sqrt r1 * (1 - r2) * b + r2 * sqrt r1 * c)) <= 16 * U * M + 8 * T.
Proof.
  intros R1 R2 A B C. unfold f_sample_coordinate. cbv zeta. pose proof U_pos as UP. pose proof T_pos as TP. pose proof T_small as TS. assert (M0 : 0 <= M) by (pose proof (Rabs_pos a); lra).
  assert (Q : 0 <= sqrt r1 <= 1) by (split; [apply sqrt_pos|rewrite <- sqrt_1; apply sqrt_le_1; lra]). set (g := sqrt r1) in *.
  destruct (unit_rnd g Q) as [S1 S2]. set (s := rnd g) in *.
  destruct (unit_rnd (1 - s) ltac:(lra)) as [P1 P2]. destruct (unit_rnd (1 - r2) ltac:(lra)) as [Q1 Q2].
  assert (E1 : Rabs (rnd (1 - s) - (1 - g)) <= 202/100 * U).
  { replace (rnd (1 - s) - (1 - g)) with ((rnd (1 - s) - (1 - s)) - (s - g)) by ring. unfold Rminus at 1. eapply Rle_trans; [apply Rabs_triang|]. rewrite Rabs_Ropp. lra. }
  assert (E2 : Rabs (s * rnd (1 - r2) - g * (1 - r2)) <= 202/100 * U) by (eapply Rle_trans; [apply (mul_near _ _ _ _ _ _ S2 Q Q1 Q2)|]; lra).
  assert (Z2 : 0 <= s * rnd (1 - r2) <= 1) by (apply unit_mul; lra).
  destruct (unit_rnd _ Z2) as [Y1 Y2].
  assert (E3 : Rabs (rnd (s * rnd (1 - r2)) - g * (1 - r2)) <= 303/100 * U).
  { replace (rnd (s * rnd (1 - r2)) - g * (1 - r2)) with ((rnd (s * rnd (1 - r2)) - s * rnd (1 - r2)) + (s * rnd (1 - r2) - g * (1 - r2))) by ring. eapply Rle_trans; [apply Rabs_triang|]. lra. }
  assert (Z3 : 0 <= r2 * s <= 1) by (apply unit_mul; lra). destruct (unit_rnd _ Z3) as [X1 X2].
  assert (E4 : Rabs (r2 * s - r2 * g) <= 101/100 * U).
  { replace (r2 * s - r2 * g) with (r2 * (s - g)) by ring. rewrite Rabs_mult, (Rabs_pos_eq r2) by lra. pose proof (Rabs_pos (s - g)). assert (r2 * Rabs (s - g) <= 1 * Rabs (s - g)) by (apply Rmult_le_compat_r; lra). lra. }
  assert (E5 : Rabs (rnd (r2 * s) - r2 * g) <= 202/100 * U).
  { replace (rnd (r2 * s) - r2 * g) with ((rnd (r2 * s) - r2 * s) + (r2 * s - r2 * g)) by ring. eapply Rle_trans; [apply Rabs_triang|]. lra. }
  destruct (term_near _ _ _ a M P1 E1 A) as [A1 A2]. destruct (term_near _ _ _ b M Y1 E3 B) as [B1 B2]. destruct (term_near _ _ _ c M X1 E5 C) as [C1 C2].
  destruct (sum_near _ _ _ _ _ _ _ _ A1 B1 A2 B2) as [D1 D2]. destruct (sum_near _ _ _ _ _ _ _ _ D1 C1 D2 C2) as [F1 F2].
  eapply Rle_trans; [exact F1|]. assert (UT : U * T <= T / 1000) by (rewrite U_val; lra). assert (UM : 0 <= U * M) by (apply Rmult_le_pos; lra). assert (UUM : U * (U * M) <= U * M / 1000) by (rewrite U_val in *; lra). assert (UUT : U * (U * T) <= T / 1000) by (rewrite U_val in *; lra). assert (UUUM : U * (U * (U * M)) <= U * M / 1000) by (rewrite U_val in *; lra).
  ring_simplify. replace (U ^ 3 * M) with (U * (U * (U * M))) by ring. replace (U ^ 2 * M) with (U * (U * M)) by ring. replace (U ^ 2 * T) with (U * (U * T)) by ring. lra.
Qed.

(** ** The triangle *)
Lemma f_area_nonneg t : fmt (f_triangle_area t) /\ 0 <= f_triangle_area t.
Proof.
  destruct t as [[a b] c]. unfold f_triangle_area, f_polygon_area. cbn [length Nat.ltb Nat.leb]. cbv zeta. split; [apply rnd_fmt|]. apply rnd_above; [apply fmt0|]. apply Rmult_le_pos; [lra|apply Rabs_pos].
Qed.
Lemma f_cumsum_length mesh : forall s, length (f_area_cumsum s mesh) = length mesh.
Proof. induction mesh as [|t m IH]; intros s; cbn; [reflexivity|]. now rewrite IH. Qed.
Lemma f_cumsum_nth mesh : forall s i, (i < length mesh)%nat ->
  nth_error (f_area_cumsum s mesh) i = Some (fold_left (fun t dt => rnd (t + dt)) (map f_triangle_area (firstn (S i) mesh)) s).
Proof.
  induction mesh as [|t m IH]; intros s i H; [cbn in H; lia|]. destruct i as [|i]; [reflexivity|]. cbn in H. cbn [f_area_cumsum nth_error]. rewrite IH by lia. reflexivity.
Qed.
Lemma f_less w l x i : less (f_normalized w l) x i = match nth_error w i with Some y => if Req_bool l 0 then false else Rltb (rnd (y / l)) x | None => false end.
Proof.
  unfold less, f_normalized. destruct (nth_error w i) as [y|] eqn:E.
  - rewrite (nth_error_nth _ i None (map_nth_error _ i w E)). destruct (Req_bool l 0); reflexivity.
  - rewrite nth_overflow; [reflexivity|]. rewrite map_length. now apply nth_error_None.
Qed.
Lemma f_pick_in_range w x l t : rev w = l :: t -> x < 1 -> (searchsorted (f_normalized w l) x < length w)%nat.
Proof.
  intros E X. destruct (rev_last _ _ _ E) as (n & L & N). assert (searchsorted (f_normalized w l) x <= n)%nat; [|lia].
  apply searchsorted_below; [unfold f_normalized; now rewrite map_length|]. rewrite f_less, N. destruct (Req_bool_spec l 0) as [|Z]; auto.
  replace (l / l) with 1 by (field; exact Z). rewrite (rnd_id 1 fmt1). apply Rltb_false. lra.
Qed.
Lemma f_pick_total mesh x : mesh <> [] -> x < 1 -> exists t, In t mesh /\ f_pick_triangle mesh x = Ok t.
Proof.
  intros N X. unfold f_pick_triangle. cbv zeta. destruct (rev (f_area_cumsum 0 mesh)) as [|l r] eqn:E.
  - exfalso. apply (f_equal (@length R)) in E. rewrite rev_length, f_cumsum_length in E. destruct mesh; [easy|discriminate].
  - pose proof (f_pick_in_range _ x _ _ E X) as P. rewrite f_cumsum_length in P. destruct (nth_error mesh _) as [t|] eqn:F; [|apply nth_error_None in F; lia].
    exists t. split; [now apply nth_error_In in F|reflexivity].
Qed.
(** The weights, with a 0 in front. *)
Definition f_part (mesh : list Sampling.triangle) (k : nat) : R := rnd (f_clock (map f_triangle_area (firstn k mesh)) / f_clock (map f_triangle_area mesh)).
Lemma areas_ok l : forall d, In d (map f_triangle_area l) -> fmt d /\ 0 <= d.
Proof. intros d D. apply in_map_iff in D as (t & <- & _). apply f_area_nonneg. Qed.
Lemma f_clock_firstn_le m i j : (i <= j)%nat -> f_clock (map f_triangle_area (firstn i m)) <= f_clock (map f_triangle_area (firstn j m)).
Proof.
  intros H. unfold f_clock. assert (G : forall l s, fmt s -> s <= fold_left (fun t dt => rnd (t + dt)) (map f_triangle_area l) s).
  { induction l as [|t l IH]; intros s F; cbn; [lra|]. destruct (f_area_nonneg t). eapply Rle_trans; [apply (clock_next s (f_triangle_area t)); auto|]. apply IH, rnd_fmt. }
  assert (F : forall m i j s, fmt s -> (i <= j)%nat -> fold_left (fun t dt => rnd (t + dt)) (map f_triangle_area (firstn i m)) s <= fold_left (fun t dt => rnd (t + dt)) (map f_triangle_area (firstn j m)) s).
  { clear -G. induction m as [|t m IH]; intros i j s F L; [rewrite !firstn_nil; lra|]. destruct i as [|i]; [cbn [firstn map fold_left]; now apply G|]. destruct j as [|j]; [lia|]. cbn [firstn map fold_left]. apply IH; [apply rnd_fmt|lia]. }
  apply F; [apply fmt0|exact H].
Qed.
Lemma f_cumsum_last mesh l t : rev (f_area_cumsum 0 mesh) = l :: t -> l = f_clock (map f_triangle_area mesh).
Proof.
  intros E. apply rev_last in E as (n & L & N). rewrite f_cumsum_length in L. rewrite f_cumsum_nth in N by lia. rewrite <- L, firstn_all in N. unfold f_clock. congruence.
Qed.
Lemma f_pick_index mesh l r x i : rev (f_area_cumsum 0 mesh) = l :: r -> 0 < l -> 0 < x < 1 -> (i < length mesh)%nat ->
  searchsorted (f_normalized (f_area_cumsum 0 mesh) l) x = i <-> f_part mesh i < x <= f_part mesh (S i).
Proof.
  intros E L X I. set (w := f_area_cumsum 0 mesh) in *. pose proof (f_cumsum_last _ _ _ E) as LL.
  assert (PL : forall j, (j < length mesh)%nat -> less (f_normalized w l) x j = Rltb (f_part mesh (S j)) x).
  { intros j J. rewrite f_less. unfold w. rewrite f_cumsum_nth by exact J. rewrite Req_bool_false by lra. unfold f_part. now rewrite <- LL. }
  assert (M : forall j k, (j <= k)%nat -> f_part mesh j <= f_part mesh k).
  { intros j k H. unfold f_part. apply rnd_le, Rmult_le_compat_r; [left; apply Rinv_0_lt_compat; lra|]. now apply f_clock_firstn_le. }
  assert (Z : f_part mesh 0 = 0) by (unfold f_part, f_clock; cbn; unfold Rdiv; rewrite Rmult_0_l; apply rnd_id, fmt0).
  pose proof (f_pick_in_range _ x _ _ E ltac:(lra)) as PR. assert (LW : length w = length mesh) by apply f_cumsum_length. rewrite LW in PR.
  destruct (searchsorted_spec (f_normalized w l) x) as (_ & B & C). cbn zeta in B, C. set (r0 := searchsorted (f_normalized w l) x) in *.
  assert (LN : length (f_normalized w l) = length mesh) by (unfold f_normalized; now rewrite map_length).
  assert (UU : x <= f_part mesh (S r0)). { destruct B as [B | B]; [lia|]. rewrite PL in B by exact PR. now apply Rltb_false in B. }
  assert (D : f_part mesh r0 < x).
  { destruct C as [C | C]; [rewrite C, Z; lra|]. destruct r0 as [|r0]; [rewrite Z; lra|]. replace (S r0 - 1)%nat with r0 in C by lia. rewrite PL in C by lia. now apply Rltb_true in C. }
  split.
  - intros <-. lra.
  - intros [P1 P2]. destruct (Nat.lt_trichotomy r0 i) as [H | [H | H]]; [|assumption|].
    + pose proof (M (S r0) i ltac:(lia)). lra.
    + pose proof (M (S i) r0 ltac:(lia)). lra.
Qed.
Lemma total_firstn_le m : forall k, 0 <= total_of (map f_triangle_area (firstn k m)) <= total_of (map f_triangle_area m).
Proof.
  induction m as [|t m IH]; intros k; [rewrite firstn_nil; cbn; lra|]. destruct (f_area_nonneg t) as [_ N]. destruct k as [|k]; cbn [firstn map total_of fold_right]; fold (total_of (map f_triangle_area m)).
  - specialize (IH O). cbn in IH. fold (total_of (map f_triangle_area m)) in IH. lra.
  - fold (total_of (map f_triangle_area (firstn k m))). specialize (IH k). lra.
Qed.
Lemma clock_rel l N : (length l <= N)%nat -> INR N <= 1099511627776 -> Rabs (f_clock (map f_triangle_area l) - total_of (map f_triangle_area l)) <= INR N * (2 * U) * total_of (map f_triangle_area l).
Proof.
  intros L B. destruct (clock_error _ (areas_ok l)) as [_ E]. rewrite map_length in E. eapply Rle_trans; [exact E|]. apply le_INR in L. apply Rmult_le_compat_r; [apply (total_firstn_le l 0)|].
  assert (UU : u = U) by (rewrite u_val, U_val; reflexivity). eapply Rle_trans; [apply pow_small; rewrite u_val; pose proof (pos_INR (length l)); lra|]. rewrite UU. apply Rmult_le_compat_r; [rewrite U_val|]; lra.
Qed.
Lemma part_near mesh k : 0 < total_of (map f_triangle_area mesh) -> INR (length mesh) <= 1099511627776 -> (1 <= length mesh)%nat ->
  Rabs (f_part mesh k - total_of (map f_triangle_area (firstn k mesh)) / total_of (map f_triangle_area mesh)) <= INR (length mesh) * (8 * U) /\ 0 <= f_part mesh k <= 1.
Proof.
  intros P B L1. set (n := INR (length mesh)) in *. assert (N1 : 1 <= n) by (apply (le_INR 1) in L1; exact L1). pose proof U_pos as UP.
  assert (LK : (length (firstn k mesh) <= length mesh)%nat) by (rewrite firstn_length; lia).
  pose proof (clock_rel (firstn k mesh) (length mesh) LK B) as E1. pose proof (clock_rel mesh (length mesh) (le_n _) B) as E2. pose proof (total_firstn_le mesh k) as A0.
  pose proof (f_clock_firstn_le mesh k (Nat.max k (length mesh)) ltac:(lia)) as C1. rewrite (firstn_all2 mesh (n := Nat.max k (length mesh))) in C1 by lia. pose proof (f_clock_firstn_le mesh 0 k ltac:(lia)) as C0. change (f_clock (map f_triangle_area (firstn 0 mesh))) with 0 in C0.
  unfold f_part. set (ci := f_clock (map f_triangle_area (firstn k mesh))) in *. set (cn := f_clock (map f_triangle_area mesh)) in *. set (ai := total_of (map f_triangle_area (firstn k mesh))) in *. set (an := total_of (map f_triangle_area mesh)) in *.
  fold n in E1, E2. set (d := n * (2 * U)) in *. assert (D0 : 0 < d) by (apply Rmult_lt_0_compat; lra). assert (D1 : d <= / 1000) by (unfold d; rewrite U_val; lra).
  apply Rabs_le_inv in E1. apply Rabs_le_inv in E2. assert (DA : d * an <= / 1000 * an) by (apply Rmult_le_compat_r; lra). assert (CN : 999/1000 * an <= cn) by lra. assert (CP : 0 < cn) by lra.
  assert (DI : d * ai <= d * an) by (apply Rmult_le_compat_l; lra).
  assert (Q : 0 <= ci / cn <= 1).
  { split; [apply Rmult_le_pos; [lra|left; now apply Rinv_0_lt_compat]|]. apply (Rmult_le_reg_r cn); auto. unfold Rdiv. rewrite Rmult_assoc, Rinv_l by lra. lra. }
  destruct (unit_rnd _ Q) as [R1 R2]. split; [|exact R1].
  assert (K : Rabs (ci / cn - ai / an) <= 3 * d).
  { replace (ci / cn - ai / an) with (((ci - ai) * an - ai * (cn - an)) / (cn * an)) by (field; lra). unfold Rdiv. rewrite Rabs_mult, (Rabs_pos_eq (/ (cn * an))) by (left; apply Rinv_0_lt_compat, Rmult_lt_0_compat; lra).
    apply (Rmult_le_reg_r (cn * an)); [apply Rmult_lt_0_compat; lra|]. rewrite Rmult_assoc, Rinv_l, Rmult_1_r by (apply Rgt_not_eq, Rmult_lt_0_compat; lra).
    assert (F1 : Rabs ((ci - ai) * an) <= d * an * an) by (rewrite Rabs_mult, (Rabs_pos_eq an) by lra; apply Rmult_le_compat_r; [lra|]; apply Rabs_le; lra).
    assert (F2 : Rabs (ai * (cn - an)) <= an * (d * an)) by (rewrite Rabs_mult, (Rabs_pos_eq ai) by lra; apply Rmult_le_compat; try lra; [apply Rabs_pos|apply Rabs_le; lra]).
    unfold Rminus at 1. eapply Rle_trans; [apply Rabs_triang|]. rewrite Rabs_Ropp. assert (F3 : 999/1000 * an * (d * an) <= cn * (d * an)) by (apply Rmult_le_compat_r; [apply Rmult_le_pos; lra|lra]).
    assert (F4 : 0 <= an * (d * an)) by (repeat apply Rmult_le_pos; lra). lra. }
  replace (rnd (ci / cn) - ai / an) with ((rnd (ci / cn) - ci / cn) + (ci / cn - ai / an)) by ring. eapply Rle_trans; [apply Rabs_triang|]. unfold d in K. assert (U <= n * U) by (rewrite <- (Rmult_1_l U) at 1; apply Rmult_le_compat_r; lra). lra.
Qed.
Lemma f_pick_chance mesh t : NoDup mesh -> In t mesh -> 0 < total_of (map f_triangle_area mesh) -> INR (length mesh) <= 1099511627776 ->
  exists p, chance (f_pick_triangle mesh) (Ok t) p /\ Rabs (p - f_triangle_area t / total_of (map f_triangle_area mesh)) <= INR (length mesh) * (16 * U).
Proof.
  intros ND I P B. apply In_nth_error in I as (i & I). assert (IL : (i < length mesh)%nat) by (apply nth_error_Some; congruence).
  destruct (part_near mesh i P B ltac:(lia)) as [A1 A2]. destruct (part_near mesh (S i) P B ltac:(lia)) as [B1 B2].
  assert (MO : f_part mesh i <= f_part mesh (S i)).
  { unfold f_part. apply rnd_le, Rmult_le_compat_r; [|apply f_clock_firstn_le; lia]. pose proof (clock_rel mesh (length mesh) (le_n _) B) as E. apply Rabs_le_inv in E. left. apply Rinv_0_lt_compat.
    assert (INR (length mesh) * (2 * U) <= / 2) by (rewrite U_val; lra). assert (INR (length mesh) * (2 * U) * total_of (map f_triangle_area mesh) <= / 2 * total_of (map f_triangle_area mesh)) by (apply Rmult_le_compat_r; lra). lra. }
  exists (f_part mesh (S i) - f_part mesh i). split.
  - exists (f_part mesh i), (f_part mesh (S i)). split; [lra|]. split; [lra|]. split; [reflexivity|]. intros x X. unfold f_pick_triangle. cbv zeta.
    destruct (rev (f_area_cumsum 0 mesh)) as [|l r] eqn:E; [apply (f_equal (@length R)) in E; rewrite rev_length, f_cumsum_length in E; cbn in E; lia|].
    assert (LP : 0 < l). { rewrite (f_cumsum_last _ _ _ E). pose proof (clock_rel mesh (length mesh) (le_n _) B) as K. apply Rabs_le_inv in K. assert (INR (length mesh) * (2 * U) <= / 2) by (rewrite U_val; lra). assert (INR (length mesh) * (2 * U) * total_of (map f_triangle_area mesh) <= / 2 * total_of (map f_triangle_area mesh)) by (apply Rmult_le_compat_r; lra). lra. }
    rewrite <- (f_pick_index mesh l r x i E LP X IL). set (j := searchsorted _ _). assert (J : (j < length mesh)%nat) by (rewrite <- (f_cumsum_length mesh 0); apply (f_pick_in_range _ _ _ _ E); lra).
    destruct (nth_error mesh j) as [t'|] eqn:F; [|apply nth_error_None in F; lia]. split.
    + intros H. injection H as ->. apply (proj1 (NoDup_nth_error mesh) ND j i J). congruence.
    + intros ->. congruence.
  - assert (S1 : total_of (map f_triangle_area (firstn (S i) mesh)) = total_of (map f_triangle_area (firstn i mesh)) + f_triangle_area t).
    { clear - I. revert i I. induction mesh as [|s m IH]; intros i I; [destruct i; discriminate|]. destruct i as [|i]; cbn in I; [injection I as ->; cbn; lra|]. cbn [firstn map total_of fold_right]. cbn [firstn map total_of fold_right] in IH. specialize (IH i I). unfold total_of in *. rewrite IH. lra. }
    rewrite S1 in B1. set (an := total_of (map f_triangle_area mesh)) in *.
    replace (f_part mesh (S i) - f_part mesh i - f_triangle_area t / an) with ((f_part mesh (S i) - (total_of (map f_triangle_area (firstn i mesh)) + f_triangle_area t) / an) - (f_part mesh i - total_of (map f_triangle_area (firstn i mesh)) / an)) by (field; lra).
    unfold Rminus at 1. eapply Rle_trans; [apply Rabs_triang|]. rewrite Rabs_Ropp. lra.
Qed.
