(** * Proofs about clocks, truncated normal draws and random vectors *)
From Coq Require Import Lra Lia Sorting.Permutation Sorting.Sorted.
From Verif Require Import Model.Rand Spec.Chance Proofs.VecLemmas.
Open Scope R_scope.

Lemma arrival_shift w m : arrival w (S m) = w O + arrival (fun i => w (S i)) m.
Proof.
  induction m as [|m IH]; [reflexivity|].
  change (arrival w (S (S m))) with (arrival w (S m) + w (S (S m))). rewrite IH.
  cbn [arrival]. lra.
Qed.
Lemma arrival_ext w w' m : (forall i, w i = w' i) -> arrival w m = arrival w' m.
Proof. intros H. induction m as [|m IH]; cbn; now rewrite ?IH, H. Qed.

(** The loop started at time [t] yields [t], [t + w 0], [t + w 0 + w 1], ... *)
Lemma clock_loop_spec draw dt fuel : forall t n ts n',
  clock_loop draw dt fuel t n = Some (ts, n') ->
  let w := fun i => match i with O => t | S i => draw (n + i)%nat end in
  exists k, arrivals_before w dt k ts /\ n' = (n + k)%nat.
Proof.
  induction fuel as [|fuel IH]; intros t n ts n' H; [discriminate|].
  cbn [clock_loop] in H. rcase_in H.
  - destruct (clock_loop draw dt fuel (t + draw n) (S n)) as [[us m]|] eqn:E; [|discriminate].
    injection H as <- <-.
    destruct (IH _ _ _ _ E) as (k & (K1 & K2 & K3) & K4). intros w.
    assert (W : forall m, arrival w (S m) =
      arrival (fun i => match i with O => t + draw n | S i => draw (S n + i)%nat end) m).
    { intros i. induction i as [|i IHi].
      - cbn. now rewrite Nat.add_0_r.
      - change (arrival w (S (S i))) with (arrival w (S i) + w (S (S i))). rewrite IHi.
        cbn [arrival]. unfold w. replace (n + S i)%nat with (S n + i)%nat by lia. reflexivity. }
    exists (S k). split; [|lia]. split; [|split].
    + cbn [seq map]. f_equal. rewrite K1, <- seq_shift, map_map.
      apply map_ext. intros i. now rewrite W.
    + intros x [<- | Hx]; [assumption|now apply K2].
    + now rewrite W.
  - injection H as <- <-. intros w. exists O. repeat split; [now intros ? []|exact H0|lia].
Qed.

Lemma clock_spec draw dt fuel n ts n' :
  poisson_clock draw dt fuel n = Some (ts, n') ->
  exists k, arrivals_before (fun i => draw (n + i)%nat) dt k ts /\ n' = (n + k + 1)%nat.
Proof.
  intros H. destruct (clock_loop_spec _ _ _ _ _ _ _ H) as (k & (K1 & K2 & K3) & K4).
  exists k. split; [|lia].
  assert (E : forall i, arrival (fun i => match i with O => draw n | S i => draw (S n + i)%nat end) i
                        = arrival (fun i => draw (n + i)%nat) i).
  { intros i. apply arrival_ext. intros [|j]; f_equal; lia. }
  split; [|split]; [|assumption|now rewrite <- E].
  rewrite K1. apply map_ext. intros i. apply E.
Qed.

(** With non-negative waiting times the arrivals are in order. *)
Lemma arrival_mono w : (forall i, 0 <= w i) -> forall a b, (a <= b)%nat -> arrival w a <= arrival w b.
Proof.
  intros W a b H. induction H as [|b H IH]; [lra|]. cbn [arrival]. specialize (W (S b)). lra.
Qed.
Lemma arrival_mono_lt w : (forall i, 0 < w i) -> forall a b, (a < b)%nat -> arrival w a < arrival w b.
Proof.
  intros W a b H. induction H as [|b H IH]; cbn [arrival];
    [specialize (W (S a)) | specialize (W (S b))]; lra.
Qed.

Lemma sorted_map_seq (R0 : R -> R -> Prop) f : forall k a,
  (forall i j, (i < j)%nat -> R0 (f i) (f j)) -> StronglySorted R0 (map f (seq a k)).
Proof.
  induction k as [|k IH]; intros a H; cbn; constructor; [now apply IH|].
  apply Forall_forall. intros x Hx. apply in_map_iff in Hx as (i & <- & Hi).
  apply in_seq in Hi. apply H. lia.
Qed.

Lemma clock_times_increase w dt k ts :
  arrivals_before w dt k ts -> (forall i, 0 < w i) -> StronglySorted Rlt ts.
Proof.
  intros (-> & _) W. apply sorted_map_seq. intros. now apply arrival_mono_lt.
Qed.
Lemma clock_times_ordered w dt k ts :
  arrivals_before w dt k ts -> (forall i, 0 <= w i) ->
  StronglySorted Rle ts /\ forall m, arrival w m < dt <-> (m < k)%nat.
Proof.
  intros (-> & B & L) W. split.
  - apply sorted_map_seq. intros. apply arrival_mono; [assumption|lia].
  - intros m. split; intros H.
    + destruct (Nat.lt_ge_cases m k) as [|G]; [assumption|].
      pose proof (arrival_mono w W k m G). lra.
    + apply B. apply in_map. apply in_seq. lia.
Qed.

(** The loop ends once the waiting times add up to [dt]. *)
Lemma clock_loop_ends draw dt : forall k t n,
  dt <= t + (match k with O => 0 | S j => arrival (fun i => draw (n + i)%nat) j end) ->
  exists r, clock_loop draw dt (S k) t n = Some r.
Proof.
  induction k as [|k IH]; intros t n H.
  - cbn. rcase; [lra|eauto].
  - change (clock_loop draw dt (S (S k)) t n) with
      (if Rltb t dt then match clock_loop draw dt (S k) (t + draw n) (S n) with
         | Some (ts, n') => Some (t :: ts, n') | None => None end else Some ([], n)).
    rcase; [|eauto].
    destruct (IH (t + draw n) (S n)) as ([us m] & E).
    + destruct k as [|k].
      * cbn in H. rewrite Nat.add_0_r in H. lra.
      * rewrite arrival_shift in H. rewrite Nat.add_0_r in H.
        assert (E : arrival (fun i => draw (n + S i)%nat) k = arrival (fun i => draw (S n + i)%nat) k)
          by (apply arrival_ext; intros; f_equal; lia).
        lra.
    + rewrite E. eauto.
Qed.
Lemma clock_ends draw dt n k :
  dt <= arrival (fun i => draw (n + i)%nat) k -> exists fuel r, poisson_clock draw dt fuel n = Some r.
Proof.
  intros H. exists (S k). unfold poisson_clock. apply clock_loop_ends.
  destruct k as [|k]; cbn in *.
  - rewrite Nat.add_0_r in H. lra.
  - change (dt <= arrival (fun i => draw (n + i)%nat) (S k)) in H.
    rewrite arrival_shift, Nat.add_0_r in H.
    assert (E : arrival (fun i => draw (n + S i)%nat) k = arrival (fun i => draw (S (n + i))) k)
      by (apply arrival_ext; intros; f_equal; lia).
    lra.
Qed.
Lemma clock_never_ends draw dt n :
  (forall k, arrival (fun i => draw (n + i)%nat) k < dt) -> forall fuel, poisson_clock draw dt fuel n = None.
Proof.
  intros H fuel. destruct (poisson_clock draw dt fuel n) as [[ts n']|] eqn:E; [|reflexivity].
  apply clock_spec in E as (k & (_ & _ & L) & _). specialize (H k). lra.
Qed.

(** The collected events. *)
Lemma collect_spec draw dt fuel : forall players n l,
  collect draw dt fuel players n = Some l ->
  forall p, exists w k start, all_arrivals w dt k p players l /\ start p = n /\
    (forall q m, (p <= q < p + length players)%nat -> w q m = draw (start q + m)%nat) /\
    (forall q, (p <= q < p + length players)%nat -> (start q + k q < start (S q))%nat).
Proof.
  induction players as [|i rest IH]; intros n l H p.
  - injection H as <-. exists (fun _ _ => 0), (fun _ => O), (fun _ => n).
    cbn. repeat split; intros; lia.
  - cbn [collect] in H. destruct (poisson_clock draw dt fuel n) as [[ts n']|] eqn:E; [|discriminate].
    destruct (collect draw dt fuel rest n') as [more|] eqn:F; [|discriminate].
    injection H as <-.
    apply clock_spec in E as (k0 & A & N).
    destruct (IH _ _ F (S p)) as (w & k & start & B & S0 & W & St).
    exists (fun q => if Nat.eqb q p then fun m => draw (n + m)%nat else w q),
      (fun q => if Nat.eqb q p then k0 else k q),
      (fun q => if Nat.eqb q p then n else start q).
    assert (G : forall players q ev, (p < q)%nat -> all_arrivals w dt k q players ev ->
      all_arrivals (fun q => if Nat.eqb q p then fun m => draw (n + m)%nat else w q) dt
        (fun q => if Nat.eqb q p then k0 else k q) q players ev).
    { clear. induction players as [|i rest IH]; intros q ev Hq H; [exact H|].
      destruct H as (ts & more & H1 & H2 & H3). exists ts, more. split; [exact H1|]. split.
      - assert (X : Nat.eqb q p = false) by (apply Nat.eqb_neq; lia). rewrite X. exact H2.
      - apply IH; [lia|exact H3]. }
    split; [|split; [|split]].
    + exists ts, more. split; [reflexivity|]. split.
      * rewrite Nat.eqb_refl. exact A.
      * apply G; [lia|exact B].
    + now rewrite Nat.eqb_refl.
    + intros q m Hq. cbn [length] in Hq. destruct (Nat.eqb_spec q p); [now subst|]. apply W. lia.
    + intros q Hq. cbn [length] in Hq. destruct (Nat.eqb_spec q p) as [->|].
      * assert (X : Nat.eqb (S p) p = false) by (apply Nat.eqb_neq; lia). rewrite X. lia.
      * assert (X : Nat.eqb (S q) p = false) by (apply Nat.eqb_neq; lia). rewrite X. apply St. lia.
Qed.

Lemma map_nth_seq {A} (d : A) l : map (fun j => nth j l d) (seq 0 (length l)) = l.
Proof.
  induction l as [|x l IH]; [reflexivity|]. cbn. f_equal. rewrite <- seq_shift, map_map. exact IH.
Qed.

Lemma argsort_sorted l p : is_argsort Rle l p -> Sorted Rle (map (fun j => nth j l 0) p).
Proof.
  intros [P H]. assert (B : forall j, In j p -> nth_error l j = Some (nth j l 0)).
  { intros j I. apply nth_error_nth'. apply (Permutation_in _ P) in I. apply in_seq in I. lia. }
  clear P. induction p as [|j p IH]; cbn; constructor.
  - apply IH; [|intros; apply B; now right]. intros i k u v a b L I K. apply (H (S i) (S k)); auto. lia.
  - destruct p as [|k p]; cbn; constructor.
    apply (H 0%nat 1%nat j k); auto; apply B; cbn; auto.
Qed.

Lemma timings_spec shuffle argsort draw dt fuel players players' out :
  (forall l, Permutation l (shuffle l)) -> (forall l, is_argsort Rle l (argsort l)) ->
  poisson_timings shuffle argsort draw dt fuel players = Some (players', out) ->
  Permutation players players' /\
  exists w k events ordered,
    all_arrivals w dt k 0 players' events /\
    separate_draws draw w k (length players') /\
    Permutation events ordered /\ in_time_order ordered /\ out = map snd ordered.
Proof.
  intros Sh So H. unfold poisson_timings in H.
  destruct (collect draw dt fuel (shuffle players) 0) as [l|] eqn:E; [|discriminate].
  injection H as <- <-. split; [apply Sh|].
  destruct (collect_spec _ _ _ _ _ _ E 0%nat) as (w & k & start & A & _ & W & St).
  exists w, k, l, (map (fun j => nth j l (0, 0%Z)) (argsort (map fst l))).
  pose proof (argsort_sorted _ _ (So (map fst l))) as S. destruct (So (map fst l)) as (P & _).
  split; [exact A|]. split.
  { exists start. split; intros; [apply W|apply St]; lia. }
  split; [|split].
  - apply Permutation_sym. rewrite <- (map_nth_seq (0, 0%Z) l) at 2.
    apply Permutation_map. now rewrite map_length in P.
  - unfold in_time_order. clear -S. revert S.
    assert (N : forall j, nth j (map fst l) 0 = fst (nth j l (0, 0%Z)))
      by (intros j; exact (map_nth fst l (0, 0%Z) j)).
    induction (argsort (map fst l)) as [|j js IH]; cbn; intros S; [constructor|].
    inversion S as [|? ? S1 S2]; subst. constructor; [now apply IH|].
    destruct js as [|j' js]; cbn in *; constructor. inversion S2 as [|? ? S3]; subst.
    now rewrite !N in S3.
  - rewrite map_map. apply map_ext. intros j. exact (map_nth snd l (0, 0%Z) j).
Qed.

(** How often a player occurs. *)
Definition zcount (l : list Z) (i : Z) : nat := count_occ Z.eq_dec l i.
Lemma zcount_const i (ts : list R) : zcount (map snd (map (fun t => (t, i)) ts)) i = length ts.
Proof.
  induction ts as [|t ts IH]; [reflexivity|]. cbn. destruct (Z.eq_dec i i); [|congruence].
  now rewrite <- IH.
Qed.
Lemma zcount_other i j (ts : list R) : i <> j -> zcount (map snd (map (fun t => (t, i)) ts)) j = O.
Proof.
  intros N. induction ts as [|t ts IH]; [reflexivity|]. cbn. destruct (Z.eq_dec i j); [congruence|].
  exact IH.
Qed.
Lemma arrivals_count w dt k : forall players p events j,
  all_arrivals w dt k p players events -> ~ In j players -> zcount (map snd events) j = O.
Proof.
  induction players as [|i rest IH]; intros p events j H N; [now rewrite H|].
  destruct H as (ts & more & -> & _ & H). rewrite map_app. unfold zcount. rewrite count_occ_app.
  fold (zcount (map snd (map (fun t => (t, i)) ts)) j).
  rewrite zcount_other by (intros ->; apply N; now left).
  cbn. apply (IH _ _ _ H). intros X; apply N; now right.
Qed.
Lemma arrivals_count_nth w dt k : forall players p events q j,
  all_arrivals w dt k p players events -> NoDup players -> nth_error players q = Some j ->
  zcount (map snd events) j = k (p + q)%nat.
Proof.
  induction players as [|i rest IH]; intros p events q j H ND N; [destruct q; discriminate|].
  destruct H as (ts & more & -> & A & H). rewrite map_app. unfold zcount. rewrite count_occ_app.
  inversion ND as [|? ? ND1 ND2]; subst.
  destruct q as [|q]; cbn in N.
  - injection N as ->. fold (zcount (map snd (map (fun t => (t, j)) ts)) j).
    fold (zcount (map snd more) j).
    rewrite zcount_const, (arrivals_count _ _ _ _ _ _ _ H ND1). destruct A as (-> & _).
    rewrite map_length, seq_length, !Nat.add_0_r. reflexivity.
  - assert (i <> j) by (intros ->; apply ND1; now apply nth_error_In in N).
    fold (zcount (map snd (map (fun t => (t, i)) ts)) j). rewrite zcount_other by assumption.
    cbn. fold (zcount (map snd more) j). rewrite (IH _ _ _ _ H ND2 N). f_equal. lia.
Qed.
Lemma all_arrivals_nth w dt k : forall players p events q j,
  all_arrivals w dt k p players events -> nth_error players q = Some j ->
  exists ts, arrivals_before (w (p + q)%nat) dt (k (p + q)%nat) ts.
Proof.
  induction players as [|i rest IH]; intros p events q j H N; [destruct q; discriminate|].
  destruct H as (ts & more & _ & A & H). destruct q as [|q].
  - rewrite Nat.add_0_r. now exists ts.
  - destruct (IH _ _ _ _ H N) as (us & B). exists us. now replace (p + S q)%nat with (S p + q)%nat by lia.
Qed.
Lemma timings_count shuffle argsort draw dt fuel players players' out :
  (forall l, Permutation l (shuffle l)) -> (forall l, is_argsort Rle l (argsort l)) -> NoDup players ->
  poisson_timings shuffle argsort draw dt fuel players = Some (players', out) ->
  exists w k, separate_draws draw w k (length players') /\
    forall q j, nth_error players' q = Some j ->
      (exists ts, arrivals_before (w q) dt (k q) ts) /\ count_occ Z.eq_dec out j = k q.
Proof.
  intros Sh So ND H. destruct (timings_spec _ _ _ _ _ _ _ _ Sh So H)
    as (P & w & k & ev & od & A & D & Pe & _ & ->).
  exists w, k. split; [exact D|]. intros q j N. split.
  - exact (all_arrivals_nth _ _ _ _ _ _ _ _ A N).
  - assert (Pm : Permutation (map snd ev) (map snd od)) by now apply Permutation_map.
    rewrite (Permutation_count_occ Z.eq_dec) in Pm. rewrite <- Pm.
    apply (arrivals_count_nth _ _ _ _ _ _ q j A); [|exact N].
    now apply (Permutation_NoDup P).
Qed.

(** Truncated normal draws and random vectors. *)
Lemma truncnorm_spec start end_ loc scale abs_scale size z r :
  truncnorm start end_ loc scale abs_scale size z = Ok r ->
  (forall i, start <= z i <= end_) ->
  length r = size /\
  (forall k x, abs_scale = Some k -> 0 < k -> In x r -> Rabs (x - loc) <= k) /\
  (forall x, abs_scale = None -> 0 <= scale -> In x r -> loc + scale * start <= x <= loc + scale * end_).
Proof.
  unfold truncnorm. intros H Z. destruct abs_scale as [k|].
  - destruct (Reqb_spec k 0) as [K|K].
    + cbn in H. injection H as <-. split; [now rewrite map_length, seq_length|].
      split; [intros k' x E; injection E as <-; lra|discriminate].
    + destruct (Reqb_spec (Rmax (Rabs start) (Rabs end_)) 0) as [M|M]; [discriminate|].
      cbn in H. injection H as <-. split; [now rewrite map_length, seq_length|].
      split; [|discriminate].
      intros k' x E P Hx. injection E as <-. apply in_map_iff in Hx as (i & <- & _).
      specialize (Z i). set (M0 := Rmax (Rabs start) (Rabs end_)) in *.
      assert (0 < M0).
      { pose proof (Rabs_pos start). assert (Rabs start <= M0) by apply Rmax_l. lra. }
      assert (B : Rabs (z i) <= M0).
      { apply Rabs_le. pose proof (Rle_abs end_). pose proof (Rle_abs (- start)).
        rewrite Rabs_Ropp in *. assert (Rabs start <= M0) by apply Rmax_l.
        assert (Rabs end_ <= M0) by apply Rmax_r. lra. }
      replace (loc + k / M0 * z i - loc) with (k * (z i / M0)) by (field; lra).
      rewrite Rabs_mult, (Rabs_right k) by lra.
      assert (Rabs (z i / M0) <= 1).
      { unfold Rdiv. rewrite Rabs_mult, (Rabs_right (/ M0)) by (left; now apply Rinv_0_lt_compat).
        apply Rmult_le_reg_r with M0; [assumption|]. rewrite Rmult_assoc, Rinv_l by lra. lra. }
      nra.
  - cbn in H. injection H as <-. split; [now rewrite map_length, seq_length|].
    split; [discriminate|]. intros x _ P Hx. apply in_map_iff in Hx as (i & <- & _).
    specialize (Z i). nra.
Qed.
Lemma random_vector_spec size lo hi mag u v :
  lo <= hi -> (forall i, 0 <= u i < 1) -> In v (random_vector size lo hi mag u) ->
  elen v = Rabs mag /\
  exists phi, lo <= phi <= hi /\ v = V (mag * cos phi) (mag * sin phi).
Proof.
  intros L U H. apply in_map_iff in H as (i & <- & _). specialize (U i). cbn zeta.
  set (phi := lo + (hi - lo) * u i). split.
  - rewrite elen_vlength. apply vlength_eq; [apply Rabs_pos|]. cbn [vx vy].
    replace (Rabs mag * Rabs mag) with (mag * mag).
    + replace (mag * cos phi * (mag * cos phi) + mag * sin phi * (mag * sin phi))
        with (mag * mag * (Rsqr (sin phi) + Rsqr (cos phi))) by (unfold Rsqr; ring).
      rewrite sin2_cos2. ring.
    + change (Rsqr mag = Rsqr (Rabs mag)). apply Rsqr_abs.
  - exists phi. split; [unfold phi; nra|reflexivity].
Qed.
