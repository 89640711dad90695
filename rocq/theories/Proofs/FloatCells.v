(** * The cells of block lists in float64 *)
From Coq Require Import Reals ZArith Lra Lia List.
From Flocq Require Import Core Relative Plus_error.
From Verif Require Import Proofs.FloatProofs Proofs.FloatSums.
Open Scope R_scope.

Lemma fmt_int n : (Z.abs n < 2 ^ 53)%Z -> fmt (IZR n).
Proof. intros H. replace (IZR n) with (IZR n * bpow radix2 0) by (cbn; lra). apply fmt_dyadic; [exact H|lia]. Qed.
Lemma nearest_int d n : Rabs (d - IZR n) <= / 4 -> (Z.abs n < 2 ^ 53)%Z ->
  (if Rlt_bool (/ 2) (rnd (d - IZR (Zfloor d))) then rnd (IZR (Zfloor d) + 1) else IZR (Zfloor d)) = IZR n.
Proof.
  intros H N. apply Rabs_le_inv in H. assert (Q : fmt (/ 4)). { replace (/ 4) with (IZR 1 * bpow radix2 (-2)) by (cbn; lra). apply fmt_dyadic; lia. }
  assert (Q3 : fmt (3 / 4)). { replace (3 / 4) with (IZR 3 * bpow radix2 (-2)) by (cbn; lra). apply fmt_dyadic; lia. }
  destruct (Rle_or_lt (IZR n) d) as [L|L].
  - assert (F : Zfloor d = n). { apply Zfloor_imp. rewrite plus_IZR. lra. } rewrite F. rewrite Rlt_bool_false; auto.
    apply Rle_trans with (/ 4); [apply rnd_below; auto; lra|lra].
  - assert (F : Zfloor d = (n - 1)%Z). { apply Zfloor_imp. rewrite plus_IZR, minus_IZR. lra. } rewrite F, minus_IZR. rewrite Rlt_bool_true.
    + replace (IZR n - 1 + 1) with (IZR n) by ring. apply rnd_id, fmt_int, N.
    + apply Rlt_le_trans with (3 / 4); [lra|]. apply rnd_above; auto. lra.
Qed.
Lemma div_close x c : fmt x -> fmt c -> 0 < c -> Rabs x <= bpow radix2 49 * c ->
  let q := Ztrunc (x / c) in Rabs (rnd (rnd (x - c_fmod x c) / c) - IZR q) <= / 7 /\ Rabs (IZR q) <= bpow radix2 49.
Proof.
  intros X C P B. cbv zeta. assert (QB : Rabs (IZR (Ztrunc (x / c))) <= bpow radix2 49).
  { apply Rle_trans with (Rabs (x / c)).
    - rewrite <- abs_IZR, <- Ztrunc_abs. rewrite Ztrunc_floor by apply Rabs_pos. apply Zfloor_lb.
    - unfold Rdiv. rewrite Rabs_mult, Rabs_inv, (Rabs_pos_eq c) by lra. apply (Rmult_le_reg_r c); auto. rewrite Rmult_assoc, Rinv_l by lra. lra. }
  split; auto. pose proof (fmod_fmt x c X C) as M. assert (Hq : x + - c_fmod x c = IZR (Ztrunc (x / c)) * c) by (unfold c_fmod; ring).
  destruct (rnd_plus x (- c_fmod x c) X (generic_format_opp _ _ _ M)) as (e & E & R1). change (x - c_fmod x c) with (x + - c_fmod x c). rewrite R1, Hq. set (q := IZR (Ztrunc (x / c))) in *.
  replace (q * c * (1 + e) / c) with (q * (1 + e)) by (field; lra). destruct (rnd_error (q * (1 + e))) as (f & a & F & A & ->). rewrite u_val in E, F. pose proof tiny_val as [T1 T2].
  replace (q * (1 + e) * (1 + f) + a - q) with (q * (e + f + e * f) + a) by ring. eapply Rle_trans; [apply Rabs_triang|]. rewrite Rabs_mult.
  assert (K : Rabs (e + f + e * f) <= W * (1 + / 1000)).
  { eapply Rle_trans; [apply Rabs_triang|]. eapply Rle_trans; [apply Rplus_le_compat_r, Rabs_triang|]. rewrite Rabs_mult. assert (Rabs e * Rabs f <= / 9007199254740992 * / 9007199254740992) by (apply Rmult_le_compat; auto using Rabs_pos). lra. }
  assert (Rabs q * Rabs (e + f + e * f) <= bpow radix2 49 * (W * (1 + / 1000))) by (apply Rmult_le_compat; auto using Rabs_pos). assert (V : bpow radix2 49 = 562949953421312) by reflexivity. rewrite V in *. lra.
Qed.
Lemma floordiv_exact x c : fmt x -> fmt c -> 0 < c -> Rabs x <= bpow radix2 49 * c -> f_floordiv x c = IZR (Zfloor (x / c)).
Proof.
  intros X C P B. destruct (div_close x c X C P B) as [D Q]. unfold f_floordiv. set (q := Ztrunc (x / c)) in *. set (d := rnd (rnd (x - c_fmod x c) / c)) in *.
  assert (V : bpow radix2 49 = 562949953421312) by reflexivity. rewrite V in *. assert (ZQ : (Z.abs q <= 562949953421312)%Z) by (apply le_IZR; rewrite abs_IZR; exact Q).
  destruct (fmod_range x c P) as [R1 R2]. assert (M : c_fmod x c = x - IZR q * c) by reflexivity.
  assert (XC : x = x / c * c) by (field; lra).
  destruct (Rlt_bool_spec (c_fmod x c) 0) as [L|L].
  - assert (X0 : x < 0). { destruct (Rlt_or_le x 0); auto. destruct (R1 H). lra. } destruct (R2 ltac:(lra)) as [R3 R4].
    assert (F : Zfloor (x / c) = (q - 1)%Z). { apply Zfloor_imp. rewrite plus_IZR, minus_IZR. rewrite M in L, R3. split; apply (Rmult_lt_reg_r c) || (left; apply (Rmult_lt_reg_r c)); auto; lra. }
    rewrite F. apply nearest_int; [|lia]. destruct (rnd_error (d - 1)) as (e & a & E & A & ->). rewrite u_val in E. pose proof tiny_val as [T1 T2]. rewrite minus_IZR.
    replace ((d - 1) * (1 + e) + a - (IZR q - 1)) with ((d - IZR q) + (d - 1) * e + a) by ring. eapply Rle_trans; [apply Rabs_triang|]. eapply Rle_trans; [apply Rplus_le_compat_r, Rabs_triang|]. rewrite (Rabs_mult (d - 1)).
    assert (Rabs (d - 1) <= 562949953421312 + 2). { replace (d - 1) with ((d - IZR q) + IZR q + - 1) by ring. eapply Rle_trans; [apply Rabs_triang|]. eapply Rle_trans; [apply Rplus_le_compat_r, Rabs_triang|]. rewrite (Rabs_left (-1)) by lra. lra. }
    assert (Rabs (d - 1) * Rabs e <= (562949953421312 + 2) * / 9007199254740992) by (apply Rmult_le_compat; auto using Rabs_pos). lra.
  - assert (F : Zfloor (x / c) = q).
    { apply Zfloor_imp. rewrite plus_IZR. destruct (Rle_or_lt 0 x) as [X0|X0].
      - destruct (R1 X0) as [_ R3]. rewrite M in L, R3. split; [apply (Rmult_le_reg_r c)|apply (Rmult_lt_reg_r c)]; auto; lra.
      - destruct (R2 ltac:(lra)) as [_ R3]. rewrite M in L, R3. split; [apply (Rmult_le_reg_r c)|apply (Rmult_lt_reg_r c)]; auto; lra. }
    rewrite F. apply nearest_int; [lra|lia].
Qed.
