(** * np.pi is close to pi, and below it *)
From Coq Require Import Reals ZArith Lra Lia Machin QArith Qreals.
From Verif Require Import Proofs.FloatProofs.
Open Scope R_scope.

Fixpoint qpow (q : Q) (n : nat) : Q := match n with O => 1%Q | S n => (q * qpow q n)%Q end.
Definition qterm (n : nat) : Q :=
  let k := inject_Z (Z.of_nat (2 * n + 1)) in
  (qpow (-1) n * (2 * (qpow (1 # 3) (2 * n + 1) / k) + qpow (1 # 7) (2 * n + 1) / k))%Q.
Fixpoint qsum (n : nat) : Q := match n with O => qterm 0 | S m => (qsum m + qterm (S m))%Q end.
Lemma Q2R_pow q n : Q2R (qpow q n) = Q2R q ^ n.
Proof. induction n; cbn [qpow pow]; [unfold Q2R; cbn; lra|]. now rewrite Q2R_mult, IHn. Qed.
Lemma Q2R_term n : Q2R (qterm n) = tg_alt PI_2_3_7_tg n.
Proof.
  unfold qterm. cbv zeta. set (k := inject_Z (Z.of_nat (2 * n + 1))). assert (K : Q2R k = INR (2 * n + 1)).
  { unfold k, Q2R, inject_Z. cbn [Qnum Qden]. rewrite <- INR_IZR_INZ. field. }
  assert (KN : ~ (k == 0)%Q). { intros E. apply Qeq_eqR in E. rewrite K in E. unfold Q2R in E. cbn [Qnum Qden] in E. assert (INR (2 * n + 1) <> 0) by (apply not_0_INR; lia). lra. }
  rewrite Q2R_mult, Q2R_plus, Q2R_mult, !Q2R_div, !Q2R_pow, K by exact KN. unfold tg_alt, PI_2_3_7_tg, Ratan_seq.
  replace (Q2R (-1)) with (-1) by (unfold Q2R; cbn; lra). replace (Q2R 2) with 2 by (unfold Q2R; cbn; lra).
  replace (Q2R (1 # 3)) with (/ 3) by (unfold Q2R; cbn; lra). replace (Q2R (1 # 7)) with (/ 7) by (unfold Q2R; cbn; lra). reflexivity.
Qed.
Lemma Q2R_sum n : Q2R (qsum n) = sum_f_R0 (tg_alt PI_2_3_7_tg) n.
Proof. induction n; cbn [qsum sum_f_R0]; [apply Q2R_term|]. now rewrite Q2R_plus, IHn, Q2R_term. Qed.
Lemma pi_close : 0 < PI - f_pi < / 4503599627370496.
Proof.
  pose proof (PI_2_3_7_ineq 9) as [A B]. rewrite <- !Q2R_sum in A, B.
  assert (L : ((884279719003555 # 1125899906842624) < qsum (S (2 * 9)))%Q) by (apply Qlt_alt; vm_compute; reflexivity).
  assert (U : (qsum (2 * 9) < (884279719003555 # 1125899906842624) + (1 # 18014398509481984))%Q) by (apply Qlt_alt; vm_compute; reflexivity).
  apply Qlt_Rlt in L. apply Qlt_Rlt in U. rewrite Q2R_plus in U. unfold Q2R at 1 in L. unfold Q2R at 2 3 in U. cbn [Qnum Qden] in L, U. unfold f_pi. lra.
Qed.
