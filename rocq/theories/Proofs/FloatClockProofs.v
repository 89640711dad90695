(** * Proofs about the Poisson clock in double precision *)
From Coq Require Import Reals ZArith Lra Lia List Sorting.Sorted Sorting.Permutation.
From Flocq Require Import Core.
From Verif Require Export Model.FloatClock Spec.FloatClock.
From Verif Require Import Proofs.FloatProofs Proofs.FloatSums Proofs.RandProofs.
Import ListNotations.
Open Scope R_scope.

Definition draws_from (t : R) (draw : nat -> R) (n i : nat) : R := match i with O => t | S i => draw (n + i)%nat end.
Lemma from_shift t t1 draw n m : arrival (draws_from t draw n) (S m) = arrival (draws_from t1 draw (S n)) m + (t + draw n - t1).
Proof.
  induction m as [|m IH]; [cbn; rewrite Nat.add_0_r; lra|].
  change (arrival (draws_from t draw n) (S (S m))) with (arrival (draws_from t draw n) (S m) + draw (n + S m)%nat). rewrite IH.
  change (arrival (draws_from t1 draw (S n)) (S m)) with (arrival (draws_from t1 draw (S n)) m + draw (S n + m)%nat). replace (n + S m)%nat with (S n + m)%nat by lia. lra.
Qed.
Lemma from_draws draw n k : arrival (draws_from (draw n) draw (S n)) k = arrival (fun i => draw (n + i)%nat) k.
Proof. apply arrival_ext. intros [|i]; cbn; f_equal; lia. Qed.
Lemma step_error t d dt : fmt t -> fmt d -> 0 <= t + d -> t + d < dt -> Rabs (rnd (t + d) - (t + d)) <= u * dt.
Proof.
  intros T D P L. destruct (rnd_plus t d T D) as (e & E & ->). replace ((t + d) * (1 + e) - (t + d)) with (e * (t + d)) by ring. rewrite Rabs_mult, (Rabs_pos_eq (t + d)) by lra.
  apply Rmult_le_compat; [apply Rabs_pos|lra|exact E|lra].
Qed.
Lemma f_loop_spec draw dt : fmt dt -> (forall i, fmt (draw i) /\ 0 <= draw i) -> forall fuel t n ts n', fmt t -> 0 <= t -> f_clock_loop draw dt fuel t n = Some (ts, n') ->
  n' = (n + length ts)%nat /\
  (forall k, (k < length ts)%nat -> nth k ts 0 < dt /\ Rabs (nth k ts 0 - arrival (draws_from t draw n) k) <= INR k * (u * dt)) /\
  dt <= arrival (draws_from t draw n) (length ts) + INR (length ts) * (u * dt) /\ StronglySorted Rle (t :: ts).
Proof.
  intros FD DR. assert (U : 0 < u) by apply bpow_gt_0. induction fuel as [|fuel IH]; intros t n ts n' F P H; [discriminate|]. cbn [f_clock_loop] in H. destruct (Rlt_bool_spec t dt) as [L|L].
  - destruct (f_clock_loop draw dt fuel (rnd (t + draw n)) (S n)) as [[us m]|] eqn:E; [|discriminate]. injection H as <- <-. destruct (DR n) as [FN PN].
    assert (F1 : fmt (rnd (t + draw n))) by apply rnd_fmt. assert (L1 : t <= rnd (t + draw n)) by now apply clock_next.
    destruct (IH _ _ _ _ F1 ltac:(lra) E) as (I1 & I2 & I3 & I4).
    assert (SS : StronglySorted Rle (t :: t :: us)).
    { inversion I4 as [|x l A B]; subst. rewrite Forall_forall in B. assert (C : Forall (Rle t) us) by (apply Forall_forall; intros y Y; specialize (B y Y); lra). repeat constructor; auto; lra. }
    split; [cbn; lia|]. split; [|split; [|exact SS]].
    + intros [|k] K; [cbn; split; [exact L|]; rewrite Rminus_eq_0, Rabs_R0; lra|]. cbn [length] in K. destruct (I2 k ltac:(lia)) as [K1 K2]. cbn [nth]. split; [exact K1|].
      assert (L2 : t + draw n < dt).
      { apply Rnot_le_lt. intros Q. pose proof (rnd_above _ _ FD Q) as Q1. destruct fuel; [discriminate|]. cbn [f_clock_loop] in E. rewrite Rlt_bool_false in E by lra. injection E as <- _. cbn in K. lia. }
      pose proof (step_error t (draw n) dt F FN ltac:(lra) L2) as S1. rewrite (from_shift t (rnd (t + draw n))), S_INR.
      replace (nth k us 0 - _) with (nth k us 0 - arrival (draws_from (rnd (t + draw n)) draw (S n)) k + (rnd (t + draw n) - (t + draw n))) by ring.
      eapply Rle_trans; [apply Rabs_triang|]. lra.
    + cbn [length]. destruct (Rlt_le_dec (t + draw n) dt) as [L2|L2].
      * pose proof (step_error t (draw n) dt F FN ltac:(lra) L2) as S1. apply Rabs_le_inv in S1. rewrite (from_shift t (rnd (t + draw n))), S_INR. lra.
      * pose proof (rnd_above _ _ FD L2) as Q1. destruct fuel; [discriminate|]. cbn [f_clock_loop] in E. rewrite Rlt_bool_false in E by lra. injection E as <- _. cbn [length arrival draws_from INR]. rewrite Nat.add_0_r. assert (0 <= u * dt) by (apply Rmult_le_pos; lra). lra.
  - injection H as <- <-. split; [cbn; lia|]. split; [intros k K; cbn in K; lia|]. split; [cbn; lra|]. repeat constructor.
Qed.
Lemma f_loop_strict draw dt : (forall i, fmt (draw i) /\ 0 < draw i /\ dt <= bpow radix2 52 * draw i) -> forall fuel t n ts n', fmt t -> 0 <= t -> f_clock_loop draw dt fuel t n = Some (ts, n') ->
  StronglySorted Rlt ts /\ (forall y, In y ts -> t <= y).
Proof.
  intros DR. induction fuel as [|fuel IH]; intros t n ts n' F P H; [discriminate|]. cbn [f_clock_loop] in H. destruct (Rlt_bool_spec t dt) as [L|L].
  - destruct (f_clock_loop draw dt fuel (rnd (t + draw n)) (S n)) as [[us m]|] eqn:E; [|discriminate]. injection H as <- <-. destruct (DR n) as (FN & PN & BN).
    assert (L1 : t < rnd (t + draw n)) by (apply clock_advances; auto; lra). assert (L2 : 0 <= rnd (t + draw n)) by lra. destruct (IH _ _ _ _ (rnd_fmt _) L2 E) as (I1 & I2).
    split; [constructor; auto; apply Forall_forall; intros y Y; specialize (I2 y Y); lra|]. intros y [<-|Y]; [lra|]. specialize (I2 y Y). lra.
  - injection H as <- <-. split; [constructor|intros y []].
Qed.
Lemma f_loop_ends draw dt c : 0 < c -> dt <= bpow radix2 51 * c -> (forall i, fmt (draw i) /\ c <= draw i) -> forall m fuel t n, fmt t -> 0 <= t -> dt - t <= INR m * (c / 2) -> (m < fuel)%nat -> exists r, f_clock_loop draw dt fuel t n = Some r.
Proof.
  intros C B DR. induction m as [|m IH]; intros fuel t n F P L K; destruct fuel as [|fuel]; try lia; cbn [f_clock_loop].
  - rewrite Rlt_bool_false by (cbn in L; lra). now eexists.
  - destruct (Rlt_bool_spec t dt) as [T|T]; [|now eexists]. destruct (DR n) as [FN PN]. destruct (IH fuel (rnd (t + draw n)) (S n)) as ([ts n'] & E); [apply rnd_fmt| | |lia|rewrite E; now eexists].
    + eapply Rle_trans; [exact P|]. apply clock_next; auto; lra.
    + rewrite S_INR in L. destruct (rnd_plus t (draw n) F FN) as (e & E & ->). apply Rabs_le_inv in E. rewrite u_val in E. assert (V : bpow radix2 51 = 2251799813685248) by reflexivity. rewrite V in B.
      assert ((t + draw n) * - e <= (t + draw n) * / 9007199254740992) by (apply Rmult_le_compat_l; lra). lra.
Qed.
Lemma f_clock_spec draw dt fuel n ts n' : fmt dt -> (forall i, fmt (draw i) /\ 0 <= draw i) -> f_poisson_clock draw dt fuel n = Some (ts, n') ->
  exists k, rounded_arrivals (fun i => draw (n + i)%nat) dt k ts /\ n' = (n + k + 1)%nat.
Proof.
  intros D DR H. destruct (f_loop_spec draw dt D DR fuel _ _ _ _ (proj1 (DR n)) (proj2 (DR n)) H) as (A & B & C & S).
  exists (length ts). split; [|lia]. split; [reflexivity|]. split; [now inversion S|]. rewrite <- pow2. split.
  - intros k t K. assert (L : (k < length ts)%nat) by (apply nth_error_Some; congruence). destruct (B k L) as [B1 B2]. rewrite (nth_error_nth ts k 0 K), from_draws in *. split; [exact B1|]. lra.
  - rewrite from_draws in C. lra.
Qed.
Lemma f_collect_spec draw dt fuel : fmt dt -> (forall i, fmt (draw i) /\ 0 <= draw i) -> forall players n l, f_collect draw dt fuel players n = Some l ->
  forall p, exists w k start, all_rounded w dt k p players l /\ start p = n /\
    (forall q m, (p <= q < p + length players)%nat -> w q m = draw (start q + m)%nat) /\
    (forall q, (p <= q < p + length players)%nat -> (start q + k q < start (S q))%nat).
Proof.
  intros FD DR. induction players as [|i rest IH]; intros n l H p.
  - injection H as <-. exists (fun _ _ => 0), (fun _ => O), (fun _ => n). cbn. repeat split; intros; lia.
  - cbn [f_collect] in H. destruct (f_poisson_clock draw dt fuel n) as [[ts n']|] eqn:E; [|discriminate].
    destruct (f_collect draw dt fuel rest n') as [more|] eqn:F; [|discriminate]. injection H as <-.
    apply f_clock_spec in E as (k0 & A & N); auto. destruct (IH _ _ F (S p)) as (w & k & start & B & S0 & W & St).
    exists (fun q => if Nat.eqb q p then fun m => draw (n + m)%nat else w q), (fun q => if Nat.eqb q p then k0 else k q), (fun q => if Nat.eqb q p then n else start q).
    assert (G : forall players q ev, (p < q)%nat -> all_rounded w dt k q players ev ->
      all_rounded (fun q => if Nat.eqb q p then fun m => draw (n + m)%nat else w q) dt (fun q => if Nat.eqb q p then k0 else k q) q players ev).
    { clear. induction players as [|i rest IH]; intros q ev Hq H; [exact H|]. destruct H as (ts & more & H1 & H2 & H3). exists ts, more. split; [exact H1|]. split.
      - assert (X : Nat.eqb q p = false) by (apply Nat.eqb_neq; lia). rewrite X. exact H2.
      - apply IH; [lia|exact H3]. }
    split; [|split; [|split]].
    + exists ts, more. split; [reflexivity|]. split; [rewrite Nat.eqb_refl; exact A|apply G; [lia|exact B]].
    + now rewrite Nat.eqb_refl.
    + intros q m Hq. cbn [length] in Hq. destruct (Nat.eqb_spec q p); [now subst|]. apply W. lia.
    + intros q Hq. cbn [length] in Hq. destruct (Nat.eqb_spec q p) as [->|].
      * assert (X : Nat.eqb (S p) p = false) by (apply Nat.eqb_neq; lia). rewrite X. lia.
      * assert (X : Nat.eqb (S q) p = false) by (apply Nat.eqb_neq; lia). rewrite X. apply St. lia.
Qed.
Lemma f_timings_spec shuffle argsort draw dt fuel players players' out : fmt dt -> (forall i, fmt (draw i) /\ 0 <= draw i) ->
  (forall l, Permutation l (shuffle l)) -> (forall l, is_argsort Rle l (argsort l)) -> f_poisson_timings shuffle argsort draw dt fuel players = Some (players', out) ->
  Permutation players players' /\ exists w k events ordered, all_rounded w dt k 0 players' events /\ separate_draws draw w k (length players') /\
    Permutation events ordered /\ in_time_order ordered /\ out = map snd ordered.
Proof.
  intros FD DR Sh So H. unfold f_poisson_timings in H. destruct (f_collect draw dt fuel (shuffle players) 0) as [l|] eqn:E; [|discriminate].
  injection H as <- <-. split; [apply Sh|]. destruct (f_collect_spec _ _ _ FD DR _ _ _ E 0%nat) as (w & k & start & A & _ & W & St).
  exists w, k, l, (map (fun j => nth j l (0, 0%Z)) (argsort (map fst l))).
  pose proof (argsort_sorted _ _ (So (map fst l))) as SO. destruct (So (map fst l)) as (P & _). split; [exact A|]. split.
  { exists start. split; intros; [apply W|apply St]; lia. }
  split; [|split].
  - apply Permutation_sym. rewrite <- (map_nth_seq (0, 0%Z) l) at 2. apply Permutation_map. now rewrite map_length in P.
  - unfold in_time_order. clear -SO. revert SO. assert (N : forall j, nth j (map fst l) 0 = fst (nth j l (0, 0%Z))) by (intros j; exact (map_nth fst l (0, 0%Z) j)).
    induction (argsort (map fst l)) as [|j js IH]; cbn; intros SO; [constructor|]. inversion SO as [|? ? S1 S2]; subst. constructor; [now apply IH|].
    destruct js as [|j' js]; cbn in *; constructor. inversion S2 as [|? ? S3]; subst. now rewrite !N in S3.
  - rewrite map_map. apply map_ext. intros j. exact (map_nth snd l (0, 0%Z) j).
Qed.
