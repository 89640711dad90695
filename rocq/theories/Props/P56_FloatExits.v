(** * Property C155: who is nearer to an exit, and which exit is nearest, in double precision *)
From Coq Require Import Reals ZArith List Lra Lia Permutation.
From Flocq Require Import Core.
From Verif Require Import Model.Floats Model.Evacuation Spec.Sight Spec.GridPoints Proofs.VecLemmas Proofs.FloatProofs Proofs.FloatCases Proofs.FloatForcesProofs Proofs.FloatContact Proofs.FloatSamplingProofs Proofs.EvacuationProofs.
From Verif Require Import Proofs.FloatDistance Props.P08_Following Props.P44_FloatGeom Props.P49_FloatWalls.
From Verif Require Import Model.FloatExits.
Import ListNotations.
Open Scope R_scope.

(** Nearer by more than the rounding error of both distances. *)
Definition dist_error (d : R) : R := powerRZ 2 (-51) * d + powerRZ 2 (-1074).
Definition clearly_less (d e : R) : Prop := d + dist_error d < e - dist_error e.
Lemma dist_near hypot a b : good_hypot hypot -> vdouble a -> vdouble b -> Rabs (f_dist hypot a b - edist a b) <= dist_error (edist a b).
Proof.
  intros G A B. unfold dist_error. assert (V1 : powerRZ 2 (-51) = 4 * U) by (rewrite U_val, <- pow2; assert (V : bpow radix2 (-51) = / 2251799813685248) by reflexivity; rewrite V; lra).
  assert (V2 : powerRZ 2 (-1074) = 2 * T) by (unfold T; rewrite <- pow2; replace (bpow radix2 (-1074)) with (bpow radix2 1 * bpow radix2 (-1075)) by (rewrite <- bpow_plus; reflexivity); reflexivity).
  rewrite V1, V2. pose proof (length_near hypot a b G A B) as L. cbv zeta in L. pose proof (edist_nonneg a b). pose proof U_tiny. assert (0 <= U * edist a b) by (apply Rmult_le_pos; lra). unfold f_dist. cbv zeta. lra.
Qed.
Lemma dist_pos hypot a b : good_hypot hypot -> 0 <= f_dist hypot a b.
Proof. intros G. destruct (f_vsub_double a b) as [A B]. unfold f_dist. cbv zeta. now destruct (G _ _ A B) as (_ & P & _). Qed.

(** Everybody gets a rank of their own, and whoever is clearly nearer to the exit gets the lower one. *)
Theorem C155_ranks : forall hypot argsort_f8 argsort_i8 c position, good_hypot hypot ->
  (forall l, is_argsort Rle l (argsort_f8 l)) -> (forall l, is_argsort le l (argsort_i8 l)) -> vdouble c -> (forall x, In x position -> vdouble x) ->
  let ranks := f_agent_closer_to_exit hypot argsort_f8 argsort_i8 c position in
  Permutation ranks (seq 0 (length position)) /\
  (forall i j x y ri rj, nth_error position i = Some x -> nth_error position j = Some y -> nth_error ranks i = Some ri -> nth_error ranks j = Some rj ->
     clearly_less (edist c x) (edist c y) -> (ri < rj)%nat).
Proof.
  intros hypot s1 s2 c position G S1 S2 C X. cbv zeta. set (line := map (fun x => V (f_dist hypot c x) 0) position).
  assert (E : f_agent_closer_to_exit hypot s1 s2 c position = agent_closer_to_exit s1 s2 (V 0 0) line).
  { unfold f_agent_closer_to_exit, agent_closer_to_exit, line. cbv zeta. do 2 f_equal. rewrite map_map. apply map_ext. intros x. unfold vlength, vsub. cbn [vx vy]. replace (_ + _) with (f_dist hypot c x * f_dist hypot c x) by ring. symmetry. apply sqrt_square, dist_pos, G. }
  rewrite E. destruct (C42_ranks s1 s2 (V 0 0) line S1 S2) as (P & _ & O). unfold line at 2 in P. rewrite map_length in P. split; [exact P|].
  intros i j x y ri rj Hx Hy Ri Rj L. assert (D : forall z, edist (V (f_dist hypot c z) 0) (V 0 0) = f_dist hypot c z) by (intros z; unfold edist; cbn [vx vy]; replace (_ + _) with (f_dist hypot c z * f_dist hypot c z) by ring; apply sqrt_square, dist_pos, G).
  apply (O i j (V (f_dist hypot c x) 0) (V (f_dist hypot c y) 0) ri rj); auto; [unfold line; rewrite nth_error_map, Hx; reflexivity|unfold line; rewrite nth_error_map, Hy; reflexivity|]. rewrite !D.
  pose proof (dist_near hypot c x G C (X x (nth_error_In _ _ Hx))) as N1. pose proof (dist_near hypot c y G C (X y (nth_error_In _ _ Hy))) as N2. apply Rabs_le_inv in N1. apply Rabs_le_inv in N2. unfold clearly_less in L. lra.
Qed.
Print Assumptions C155_ranks.

(** ** Detection of exits *)
Lemma detect_spec hypot x obs l : forall c st, let r := f_detect hypot c l x obs st in
  fst r <= fst st /\
  (forall k p, nth_error l k = Some p -> f_is_obstacle_between_points x p obs = false -> fst r <= f_dist hypot p x) /\
  (r = st \/ exists k p, nth_error l k = Some p /\ f_is_obstacle_between_points x p obs = false /\ r = (f_dist hypot p x, Some (c + k)%nat) /\ f_dist hypot p x < fst st).
Proof.
  induction l as [|q l IH]; intros c st; cbv zeta; cbn [f_detect].
  - split; [lra|]. split; [intros [|k] p; discriminate|now left].
  - set (st1 := if f_is_obstacle_between_points x q obs then st else let d := f_dist hypot q x in if Rlt_bool d (fst st) then (d, Some c) else st).
    destruct (IH (S c) st1) as (A & B & D). cbv zeta in *. set (r := f_detect hypot (S c) l x obs st1) in *.
    assert (K : fst st1 <= fst st /\ (f_is_obstacle_between_points x q obs = false -> fst st1 <= f_dist hypot q x) /\ (st1 = st \/ f_is_obstacle_between_points x q obs = false /\ st1 = (f_dist hypot q x, Some c) /\ f_dist hypot q x < fst st)).
    { unfold st1. destruct (f_is_obstacle_between_points x q obs); [split; [lra|]; split; [discriminate|now left]|]. cbv zeta. destruct (Rlt_bool_spec (f_dist hypot q x) (fst st)) as [L|L]; cbn [fst]; (split; [lra|]; split; [intros _; lra|]); [right; auto|now left]. }
    destruct K as (K1 & K2 & K3). split; [lra|]. split.
    + intros [|k] p Hp F; [injection Hp as <-; specialize (K2 F); lra|exact (B k p Hp F)].
    + destruct D as [D|(k & p & Hp & F & D & L)]; [rewrite D; destruct K3 as [K3|(F & K3 & L)]; [now left|right; exists 0%nat, q; rewrite Nat.add_0_r; auto]|].
      right. exists (S k), p. replace (c + S k)%nat with (S c + k)%nat by lia. repeat split; auto. lra.
Qed.
(** The exit found is in sight as computed, within the range and the nearest of those, but for rounding; if none is
    found, every exit in sight is out of range but for rounding. *)
Theorem C155_exit : forall hypot centers positions obs range, good_hypot hypot -> (forall p, In p centers -> vdouble p) -> (forall x, In x positions -> vdouble x) ->
  Forall2 (fun x r =>
    (forall c, fst r = Z.of_nat c -> snd r = true /\ exists p, nth_error centers c = Some p /\ f_is_obstacle_between_points x p obs = false /\
       edist p x < range + dist_error (edist p x) /\
       forall q, In q centers -> f_is_obstacle_between_points x q obs = false -> ~ clearly_less (edist q x) (edist p x)) /\
    (fst r = (-1)%Z \/ exists c, fst r = Z.of_nat c) /\
    (fst r = (-1)%Z -> snd r = false /\ forall q, In q centers -> f_is_obstacle_between_points x q obs = false -> range <= edist q x + dist_error (edist q x)))
  positions (f_exit_detection hypot centers positions obs range).
Proof.
  intros hypot centers positions obs range G C X. unfold f_exit_detection. assert (H : forall l, incl l positions -> Forall2 (fun x r =>
    (forall c, fst r = Z.of_nat c -> snd r = true /\ exists p, nth_error centers c = Some p /\ f_is_obstacle_between_points x p obs = false /\
       edist p x < range + dist_error (edist p x) /\ forall q, In q centers -> f_is_obstacle_between_points x q obs = false -> ~ clearly_less (edist q x) (edist p x)) /\
    (fst r = (-1)%Z \/ exists c, fst r = Z.of_nat c) /\
    (fst r = (-1)%Z -> snd r = false /\ forall q, In q centers -> f_is_obstacle_between_points x q obs = false -> range <= edist q x + dist_error (edist q x)))
    l (map (fun x => match snd (f_detect hypot 0 centers x obs (range, None)) with Some c => (Z.of_nat c, true) | None => ((-1)%Z, false) end) l)); [|apply H, incl_refl].
  induction l as [|x l IH]; intros I; cbn [map]; constructor; [|apply IH; intros y Y; apply I; now right].
  assert (DX : vdouble x) by (apply X, I; now left). destruct (detect_spec hypot x obs centers 0 (range, None)) as (A & B & D). cbv zeta in *. set (r := f_detect hypot 0 centers x obs (range, None)) in *. cbn [fst] in A, D.
  assert (N : forall p, In p centers -> Rabs (f_dist hypot p x - edist p x) <= dist_error (edist p x)) by (intros p P; apply dist_near; auto).
  assert (B' : forall q, In q centers -> f_is_obstacle_between_points x q obs = false -> fst r <= f_dist hypot q x) by (intros q Q F; destruct (In_nth_error _ _ Q) as (k & K); eauto).
  destruct D as [D|(k & p & Hp & F & D & L)]; rewrite D; cbn [fst snd].
  - split; [intros c K; lia|]. split; [now left|]. intros _. split; [reflexivity|]. intros q Q F. specialize (B' q Q F). rewrite D in B'. cbn [fst] in B'. specialize (N q Q). apply Rabs_le_inv in N. lra.
  - cbn [Nat.add]. split; [|split; [right; eauto|lia]]. intros c K. apply Nat2Z.inj in K. subst c. split; [reflexivity|]. exists p. split; [exact Hp|]. split; [exact F|].
    pose proof (N p (nth_error_In _ _ Hp)) as Np. apply Rabs_le_inv in Np. split; [lra|]. intros q Q Fq CL. specialize (B' q Q Fq). rewrite D in B'. cbn [fst] in B'. specialize (N q Q). apply Rabs_le_inv in N. unfold clearly_less in CL. lra.
Qed.
Print Assumptions C155_exit.

(** On a grid (C143) the line of sight is computed exactly. *)
Theorem C155_grid : forall g x p obs, (-537 <= g)%Z -> grid_point g (2 ^ 24) x -> grid_point g (2 ^ 24) p ->
  (forall o, In o obs -> grid_point g (2 ^ 24) (p0 o) /\ grid_point g (2 ^ 24) (p1 o)) -> (f_is_obstacle_between_points x p obs = false <-> sees obs x p).
Proof.
  intros g x p obs G X P O. pose proof (C143_grid_sight g x p obs G X P O) as K. split.
  - intros F o Io (NP & q & Q1 & Q2). rewrite F in K. destruct K as [_ K]. discriminate K. exists o, q. auto.
  - intros S. destruct (f_is_obstacle_between_points x p obs); auto. destruct K as [K _]. destruct (K eq_refl) as (o & q & Io & NP & Q1 & Q2). destruct (S o Io). split; [exact NP|eauto].
Qed.
Print Assumptions C155_grid.

(** An agent at the origin, exits three and four metres away: the first is clearly nearer. *)
Example C155_case : good_hypot exact_hypot /\ vdouble (V 0 0) /\ vdouble (V 3 0) /\ vdouble (V 0 4) /\ clearly_less (edist (V 0 0) (V 3 0)) (edist (V 0 0) (V 0 4)).
Proof.
  assert (D : forall n, (Z.abs n <= 8)%Z -> Spec.Doubles.double (IZR n)) by (intros n N; apply (dbl n 0); cbn; lia || lra).
  split; [exact exact_good|]. split; [split; apply D; lia|]. split; [split; apply D; lia|]. split; [split; apply D; lia|].
  assert (E1 : edist (V 0 0) (V 3 0) = 3) by (unfold edist; cbn [vx vy]; replace (_ + _) with (3 * 3) by ring; apply sqrt_square; lra). assert (E2 : edist (V 0 0) (V 0 4) = 4) by (unfold edist; cbn [vx vy]; replace (_ + _) with (4 * 4) by ring; apply sqrt_square; lra).
  rewrite E1, E2. unfold clearly_less, dist_error. rewrite <- !pow2. assert (V : bpow radix2 (-51) = / 2251799813685248) by reflexivity. rewrite V. pose proof (bpow_le radix2 (-1074) (-51) ltac:(lia)) as K. rewrite V in K. lra.
Qed.
