(** * The contact force in float64 *)
From Coq Require Import Reals ZArith List Lra Lia.
From Flocq Require Import Core.
From Verif Require Import Model.Floats Proofs.VecLemmas Proofs.FloatProofs Proofs.FloatSums Proofs.FloatGeomProofs Proofs.FloatForcesProofs.
Open Scope R_scope.

Definition T : R := bpow radix2 (-1075).
Lemma T_pos : 0 < T. Proof. apply bpow_gt_0. Qed.
Lemma U_pos : 0 < U. Proof. rewrite U_val. lra. Qed.
Lemma rnd_far x : Rabs (rnd x - x) <= U * Rabs x + T.
Proof. destruct (rnd_error x) as (e & a & E & A & ->). replace (x * (1 + e) + a - x) with (x * e + a) by ring. eapply Rle_trans; [apply Rabs_triang|]. rewrite Rabs_mult.
  assert (L : Rabs e <= U) by (eapply Rle_trans; [exact E|]; rewrite u_val, U_val; lra). pose proof (Rabs_pos x). unfold T. nra. Qed.

(** [y] is [x] after at most [k] roundings: [P] bounds the summands of [x], [e] is what
    underflow adds. *)
Definition app (k : nat) (P e x y : R) : Prop := Rabs x <= P /\ Rabs (y - x) <= ((1 + U) ^ k - 1) * P + e.
Lemma pow_up k : 1 <= (1 + U) ^ k. Proof. apply pow_R1_Rle. pose proof U_pos. lra. Qed.
Lemma app_exact x : app 0 (Rabs x) 0 x x.
Proof. split; [lra|]. cbn. rewrite Rminus_diag_eq, Rabs_R0 by reflexivity. lra. Qed.
Lemma app_rnd k P e x y : 0 <= e -> app k P e x y -> app (S k) P (2 * e + T) x (rnd y).
Proof.
  intros E [A B]. split; auto. pose proof (rnd_far y) as F. pose proof U_pos as U0. assert (U1 : U <= 1) by (rewrite U_val; lra). pose proof (pow_up k). pose proof (Rabs_pos x).
  assert (G : Rabs y <= Rabs x + Rabs (y - x)) by (replace y with (x + (y - x)) at 1 by ring; apply Rabs_triang).
  assert (H1 : Rabs (rnd y - x) <= Rabs (rnd y - y) + Rabs (y - x)) by (replace (rnd y - x) with ((rnd y - y) + (y - x)) by ring; apply Rabs_triang).
  cbn [pow]. set (p := (1 + U) ^ k) in *. assert (U * Rabs y <= U * (P + ((p - 1) * P + e))) by (apply Rmult_le_compat_l; lra). assert (U * e <= e) by nra. nra.
Qed.
Lemma app_more k m P e x y : (k <= m)%nat -> app k P e x y -> app m P e x y.
Proof. intros L [A B]. split; auto. assert ((1 + U) ^ k <= (1 + U) ^ m) by (apply Rle_pow; [pose proof U_pos; lra|auto]). pose proof (Rabs_pos x). assert (((1 + U) ^ k - 1) * P <= ((1 + U) ^ m - 1) * P) by (apply Rmult_le_compat_r; lra). lra. Qed.
Lemma app_plus k P e x y Q f z w : app k P e x y -> app k Q f z w -> app k (P + Q) (e + f) (x + z) (y + w).
Proof. intros [A B] [C D]. split; [eapply Rle_trans; [apply Rabs_triang|]; lra|]. replace (y + w - (x + z)) with ((y - x) + (w - z)) by ring. eapply Rle_trans; [apply Rabs_triang|]. lra. Qed.
Lemma app_minus k P e x y Q f z w : app k P e x y -> app k Q f z w -> app k (P + Q) (e + f) (x - z) (y - w).
Proof. intros [A B] [C D]. split; [unfold Rminus; eapply Rle_trans; [apply Rabs_triang|]; rewrite Rabs_Ropp; lra|]. replace (y - w - (x - z)) with ((y - x) + - (w - z)) by ring. eapply Rle_trans; [apply Rabs_triang|]. rewrite Rabs_Ropp. lra. Qed.
Lemma app_scale k P e x y s : app k P e x y -> app k (Rabs s * P) (Rabs s * e) (s * x) (s * y).
Proof. intros [A B]. pose proof (Rabs_pos s). split; [rewrite Rabs_mult; apply Rmult_le_compat_l; auto|]. replace (s * y - s * x) with (s * (y - x)) by ring. rewrite Rabs_mult. eapply Rle_trans; [apply Rmult_le_compat_l; [auto|exact B]|]. lra. Qed.
Lemma app_eps k P e f x y : e <= f -> app k P e x y -> app k P f x y.
Proof. intros L [A B]. split; auto. lra. Qed.

Section Contact.
  Context (B : R) (HB : 1 <= B).
  Definition summands (h mu kappa damping vx' vy' tx ty nx ny cn ct : R) : R :=
    Rabs h * (Rabs mu * Rabs cn + Rabs kappa * (Rabs (vx' * tx) + Rabs (vy' * ty)) * Rabs ct) + Rabs damping * (Rabs (vx' * nx) + Rabs (vy' * ny)) * Rabs cn.
  Lemma app_dot a b c d : app 2 (Rabs (a * c) + Rabs (b * d)) (5 * T) (a * c + b * d) (rnd (rnd (a * c) + rnd (b * d))).
  Proof.
    pose proof T_pos. eapply app_eps; [|apply app_rnd; [|apply app_plus; apply app_rnd; try apply app_exact]]; lra.
  Qed.
  (** [k * dot * c] *)
  Lemma app_term k a b c d w : Rabs k <= B -> Rabs w <= B ->
    app 4 (Rabs k * (Rabs (a * c) + Rabs (b * d)) * Rabs w) (23 * (B * B) * T) (k * (a * c + b * d) * w) (rnd (rnd (k * rnd (rnd (a * c) + rnd (b * d))) * w)).
  Proof.
    intros K W. pose proof T_pos as T0. pose proof (Rabs_pos k). pose proof (Rabs_pos w).
    assert (E1 : app 3 (Rabs k * (Rabs (a * c) + Rabs (b * d))) (11 * B * T) (k * (a * c + b * d)) (rnd (k * rnd (rnd (a * c) + rnd (b * d))))).
    { eapply app_eps; [|apply app_rnd; [|apply app_scale, app_dot]]; [|apply Rmult_le_pos; lra]. assert (Rabs k * (5 * T) <= B * (5 * T)) by (apply Rmult_le_compat_r; lra). assert (T <= B * T) by nra. lra. }
    rewrite (Rmult_comm _ w), (Rmult_comm _ (Rabs w)), (Rmult_comm _ w). eapply app_eps; [|apply app_rnd; [|apply app_scale, E1]].
    - assert (BT : 0 < B * T) by nra. assert (Rabs w * (11 * B * T) <= B * (11 * B * T)) by (apply Rmult_le_compat_r; lra). assert (B * T <= B * (B * T)) by nra. assert (T <= B * T) by nra. lra.
    - apply Rmult_le_pos; auto. nra.
  Qed.
  Lemma app_contact h mu kappa damping ax ay tx ty nx ny cn ct :
    Rabs h <= B -> Rabs mu <= B -> Rabs kappa <= B -> Rabs damping <= B -> Rabs cn <= B -> Rabs ct <= B ->
    app 7 (summands h mu kappa damping ax ay tx ty nx ny cn ct) (256 * (B * B * B) * T)
      (- h * (mu * cn - kappa * (ax * tx + ay * ty) * ct) + damping * (ax * nx + ay * ny) * cn)
      (rnd (rnd (- h * rnd (rnd (mu * cn) - rnd (rnd (kappa * rnd (rnd (ax * tx) + rnd (ay * ty))) * ct))) + rnd (rnd (damping * rnd (rnd (ax * nx) + rnd (ay * ny))) * cn))).
  Proof.
    intros H1 H2 H3 H4 H5 H6. pose proof T_pos as T0. assert (BT : 0 < B * T) by nra. assert (BBT : 0 < B * B * T) by nra. assert (B3 : B * B * T <= B * B * B * T) by nra. assert (B2 : B * T <= B * B * T) by nra. assert (B1 : T <= B * T) by nra.
    assert (E1 : app 4 (Rabs mu * Rabs cn) T (mu * cn) (rnd (mu * cn))).
    { apply (app_more 1); [lia|]. rewrite <- Rabs_mult. eapply app_eps; [|apply app_rnd; [|apply app_exact]]; lra. }
    assert (E2 := app_term kappa ax ay tx ty ct H3 H6). assert (E3 := app_term damping ax ay nx ny cn H4 H5).
    assert (E4 := app_minus _ _ _ _ _ _ _ _ _ E1 E2). apply app_rnd in E4; [|nra].
    assert (E5 := app_scale _ _ _ _ _ (- h) E4). rewrite Rabs_Ropp in E5. pose proof (Rabs_pos h). apply app_rnd in E5; [|apply Rmult_le_pos; nra].
    apply (app_more 4 6) in E3; [|lia]. assert (E6 := app_plus _ _ _ _ _ _ _ _ _ E5 E3). apply app_rnd in E6.
    - eapply app_eps; [|exact E6]. assert (Rabs h * (2 * (T + 23 * (B * B) * T) + T) <= B * (2 * (T + 23 * (B * B) * T) + T)) by (apply Rmult_le_compat_r; nra). nra.
    - assert (0 <= Rabs h * (2 * (T + 23 * (B * B) * T) + T)) by (apply Rmult_le_pos; nra). nra.
  Qed.
End Contact.
Lemma pow7 : (1 + U) ^ 7 - 1 <= 8 * U.
Proof. rewrite U_val. lra. Qed.
