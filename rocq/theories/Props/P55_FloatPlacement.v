(** * Property C154: the overlap tests of placement in double precision *)
From Coq Require Import Reals ZArith List Lra Lia.
From Flocq Require Import Core.
From Verif Require Import Model.Floats Model.FloatSteps Model.Distance Proofs.VecLemmas Proofs.FloatProofs Proofs.FloatOverlap.
From Verif Require Import Proofs.FloatDistance Props.P34_FloatSteps Props.P49_FloatWalls Props.P53_FloatDistance Props.P54_FloatBodies.
From Verif Require Import Model.FloatPlacement Spec.Doubles.
Import ListNotations.
Open Scope R_scope.

(** ** The scan over the nine pairs *)
Definition pair_gap (hypot : R -> R -> R) (x0 : tri vec) (r0 : tri R) (x1 : tri vec) (r1 : tri R) (ij : nat * nat) : R :=
  fst (f_distance_circles hypot (vx (tget x0 (fst ij)), vy (tget x0 (fst ij))) (tget r0 (fst ij)) (vx (tget x1 (snd ij)), vy (tget x1 (snd ij))) (tget r1 (snd ij))).
Lemma scan_least hypot x0 r0 x1 r1 l : forall s,
  let s' := fold_left (f_scan33_step hypot x0 r0 x1 r1) l s in
  match fst (fst (fst s')) with
  | Some h => (fst (fst (fst s)) = Some h \/ exists ij, In ij l /\ h = pair_gap hypot x0 r0 x1 r1 ij) /\
              (forall m, fst (fst (fst s)) = Some m -> h <= m) /\ forall ij, In ij l -> h <= pair_gap hypot x0 r0 x1 r1 ij
  | None => fst (fst (fst s)) = None /\ l = []
  end.
Proof.
  induction l as [|[i j] l IH]; intros s; cbv zeta.
  - cbn [fold_left]. destruct (fst (fst (fst s))) as [m|] eqn:E; [|auto]. split; [now left|]. split; [intros m' [= ->]; lra|intros ij []].
  - cbn [fold_left]. set (s1 := f_scan33_step hypot x0 r0 x1 r1 s (i, j)). specialize (IH s1). cbv zeta in IH.
    assert (S1 : exists h1, fst (fst (fst s1)) = Some h1 /\ (fst (fst (fst s)) = Some h1 \/ h1 = pair_gap hypot x0 r0 x1 r1 (i, j)) /\ (forall m, fst (fst (fst s)) = Some m -> h1 <= m) /\ h1 <= pair_gap hypot x0 r0 x1 r1 (i, j)).
    { unfold s1, f_scan33_step, pair_gap. destruct s as [[[h_min nm] im] jm]. cbn [fst snd].
      destruct (f_distance_circles hypot (vx (tget x0 i), vy (tget x0 i)) (tget r0 i) (vx (tget x1 j), vy (tget x1 j)) (tget r1 j)) as [h [nx ny]]. cbn [fst].
      destruct h_min as [m|]; [destruct (Rlt_bool_spec h m) as [L|L]; cbn [fst]|cbn [fst]].
      - exists h. repeat split; auto; [intros m' [= ->]; lra|lra].
      - exists m. repeat split; auto; intros m' [= ->]; lra.
      - exists h. repeat split; auto; [discriminate|lra]. }
    destruct S1 as (h1 & E1 & O1 & M1 & L1). destruct (fst (fst (fst (fold_left (f_scan33_step hypot x0 r0 x1 r1) l s1)))) as [h|]; [|destruct IH as [E _]; congruence].
    destruct IH as (O & M & A). specialize (M h1 E1). split; [|split].
    + destruct O as [O|(ij & I & ->)]; [|right; exists ij; split; [now right|reflexivity]]. rewrite E1 in O. injection O as ->. destruct O1 as [O1 | ->]; [now left|right; exists (i, j); split; [now left|reflexivity]].
    + intros m E. specialize (M1 m E). lra.
    + intros ij [<-|I]; [lra|now apply A].
Qed.
Lemma three_least hypot x0 r0 x1 r1 : exists h n m0 m1, f_distance_three_circles hypot x0 r0 x1 r1 = (Some h, n, m0, m1) /\
  (exists i j, (i < 3)%nat /\ (j < 3)%nat /\ h = pair_gap hypot x0 r0 x1 r1 (i, j)) /\ forall i j, (i < 3)%nat -> (j < 3)%nat -> h <= pair_gap hypot x0 r0 x1 r1 (i, j).
Proof.
  pose proof (scan_least hypot x0 r0 x1 r1 idx33 (None, vzero, 0%nat, 0%nat)) as K. cbv zeta in K. cbn [fst] in K. unfold f_distance_three_circles.
  destruct (fold_left (f_scan33_step hypot x0 r0 x1 r1) idx33 (None, vzero, 0%nat, 0%nat)) as [[[[h|] n] i] j]; cbn [fst] in K; [|destruct K as [_ K]; discriminate K].
  destruct K as ([K|((i' & j') & II & E)] & _ & A); [discriminate|]. assert (IN : forall i j, In (i, j) idx33 <-> (i < 3 /\ j < 3)%nat).
  { intros a b. unfold idx33. rewrite in_prod_iff. unfold idx3. cbn [In]. lia. }
  do 4 eexists. split; [reflexivity|]. split; [exists i', j'; apply IN in II; tauto|]. intros a b Ha Hb. apply A, IN. auto.
Qed.
Lemma three_negative hypot x0 r0 x1 r1 : (let '(h, _, _, _) := f_distance_three_circles hypot x0 r0 x1 r1 in f_neg_opt h) = true <->
  exists i j, (i < 3)%nat /\ (j < 3)%nat /\ pair_gap hypot x0 r0 x1 r1 (i, j) < 0.
Proof.
  destruct (three_least hypot x0 r0 x1 r1) as (h & n & m0 & m1 & -> & (i & j & I & J & E) & A). cbn [f_neg_opt]. split.
  - destruct (Rlt_bool_spec h 0); [|discriminate]. intros _. exists i, j. repeat split; auto. lra.
  - intros (a & b & Ha & Hb & L). specialize (A a b Ha Hb). apply Rlt_bool_true. lra.
Qed.

(** The gap between two bodies is the least of the nine gaps between their circles, up to 2^-50 of distance and radii. *)
Definition pair_error (x0 : vec) (r0 : R) (x1 : vec) (r1 : R) : R := powerRZ 2 (-50) * (edist x0 x1 + r0 + r1) + powerRZ 2 (-1073).
Theorem C154_gap : forall hypot x0 r0 x1 r1, good_hypot hypot -> tri_doubles x0 -> tri_doubles x1 ->
  (forall i, (i < 3)%nat -> double (tget r0 i) /\ 0 <= tget r0 i) -> (forall j, (j < 3)%nat -> double (tget r1 j) /\ 0 <= tget r1 j) ->
  exists h n m0 m1, f_distance_three_circles hypot x0 r0 x1 r1 = (Some h, n, m0, m1) /\
    (exists i j, (i < 3)%nat /\ (j < 3)%nat /\
       Rabs (h - (edist (tget x0 i) (tget x1 j) - (tget r0 i + tget r1 j))) <= pair_error (tget x0 i) (tget r0 i) (tget x1 j) (tget r1 j)) /\
    forall i j, (i < 3)%nat -> (j < 3)%nat ->
      h <= edist (tget x0 i) (tget x1 j) - (tget r0 i + tget r1 j) + pair_error (tget x0 i) (tget r0 i) (tget x1 j) (tget r1 j).
Proof.
  intros hypot x0 r0 x1 r1 G X0 X1 R0 R1. destruct (three_least hypot x0 r0 x1 r1) as (h & n & m0 & m1 & E & (i & j & Hi & Hj & Eh) & A).
  assert (C : forall i j, (i < 3)%nat -> (j < 3)%nat -> Rabs (pair_gap hypot x0 r0 x1 r1 (i, j) - (edist (tget x0 i) (tget x1 j) - (tget r0 i + tget r1 j))) <= pair_error (tget x0 i) (tget r0 i) (tget x1 j) (tget r1 j)).
  { intros a b Ha Hb. destruct (X0 a Ha), (X1 b Hb), (R0 a Ha), (R1 b Hb). apply (C128_distance hypot (vx (tget x0 a), vy (tget x0 a)) (tget r0 a) (vx (tget x1 b), vy (tget x1 b)) (tget r1 b)); assumption. }
  exists h, n, m0, m1. split; [exact E|]. split; [exists i, j; rewrite Eh; auto|]. intros a b Ha Hb. specialize (A a b Ha Hb). specialize (C a b Ha Hb). apply Rabs_le_inv in C. lra.
Qed.
Print Assumptions C154_gap.

(** ** Two bodies of three circles *)
(** Positions and radii are doubles; no two radii are both nearly zero. *)
Definition body_tested (agents : list agent) (x : tri vec) (r : tri R) : Prop :=
  forall i, (i < 3)%nat -> vdouble (tget x i) /\ double (tget r i) /\
  forall a j, In a agents -> (j < 3)%nat -> vdouble (tget (xs_of a) j) /\ double (tget (rs_of a) j) /\ powerRZ 2 (-1000) <= tget (rs_of a) j + tget r i.
Lemma gap_close hypot agents x r a i j : good_hypot hypot -> body_tested agents x r -> In a agents -> (i < 3)%nat -> (j < 3)%nat ->
  (pair_gap hypot (xs_of a) (rs_of a) x r (i, j) < 0 -> edist (tget (xs_of a) i) (tget x j) < (1 + powerRZ 2 (-50)) * (tget (rs_of a) i + tget r j)) /\
  (0 <= pair_gap hypot (xs_of a) (rs_of a) x r (i, j) -> (1 - powerRZ 2 (-50)) * (tget (rs_of a) i + tget r j) <= edist (tget (xs_of a) i) (tget x j)).
Proof.
  intros G B I Hi Hj. destruct (B j Hj) as ((X1 & X2) & R1 & K). destruct (K a i I Hi) as ((Y1 & Y2) & R0 & Z). rewrite p50, !(Rmult_comm _ (tget (rs_of a) i + tget r j)).
  destruct (overlap_close hypot G (vx (tget (xs_of a) i), vy (tget (xs_of a) i)) (tget (rs_of a) i) (vx (tget x j), vy (tget x j)) (tget r j) Y1 Y2 X1 X2 R0 R1 Z) as [P Q]. split; assumption.
Qed.
(** A body that passes is clear of every agent, circle by circle, but for one part in 2^50 of the radii. *)
Theorem C154_accepted : forall hypot agents x r, good_hypot hypot -> body_tested agents x r -> f_overlapping_three_circles hypot agents x r = false ->
  forall a i j, In a agents -> (i < 3)%nat -> (j < 3)%nat -> (1 - powerRZ 2 (-50)) * (tget (rs_of a) i + tget r j) <= edist (tget (xs_of a) i) (tget x j).
Proof.
  intros hypot agents x r G B F a i j I Hi Hj. apply (gap_close hypot agents x r a i j G B I Hi Hj). destruct (Rle_or_lt 0 (pair_gap hypot (xs_of a) (rs_of a) x r (i, j))) as [K|K]; auto.
  assert (f_overlapping_three_circles hypot agents x r = true); [|congruence]. apply existsb_exists. exists a. split; auto. apply three_negative. eauto.
Qed.
Print Assumptions C154_accepted.
(** A body that is rejected is nearer to some agent than the sum of two radii plus one part in 2^50 of it. *)
Theorem C154_rejected : forall hypot agents x r, good_hypot hypot -> body_tested agents x r -> f_overlapping_three_circles hypot agents x r = true ->
  exists a i j, In a agents /\ (i < 3)%nat /\ (j < 3)%nat /\ edist (tget (xs_of a) i) (tget x j) < (1 + powerRZ 2 (-50)) * (tget (rs_of a) i + tget r j).
Proof.
  intros hypot agents x r G B F. apply existsb_exists in F. destruct F as (a & I & F). apply three_negative in F. destruct F as (i & j & Hi & Hj & L). exists a, i, j. repeat split; auto. now apply (gap_close hypot agents x r a i j G B I Hi Hj).
Qed.
Print Assumptions C154_rejected.

(** ** Agents and walls *)
Definition proper_wall (o : obstacle) : Prop := wall_doubles o /\ powerRZ 2 (-900) <= edist (p0 o) (p1 o).
(** No agent, one or three circles, passes the test while it overlaps a wall by more than the error... *)
Theorem C154_wall_accepted : forall hypot agents walls, good_hypot hypot -> (forall o, In o walls -> proper_wall o) ->
  (forall a, In a agents -> vdouble (a_position a)) -> f_overlapping_circle_line hypot agents walls = false ->
  forall a o e, In a agents -> In o walls -> segment_distance (p0 o) (p1 o) (a_position a) e ->
    a_radius a <= e + wall_error (a_position a) (a_radius a) (p0 o) (p1 o).
Proof.
  intros hypot agents walls G W X F a o e Ia Io SD. destruct (W o Io) as ((A & B) & L). pose proof (C152_distance hypot (a_position a) (a_radius a) _ _ e G (X a Ia) A B L SD) as D. apply Rabs_le_inv in D.
  destruct (Rlt_bool_spec (fst (f_distance_circle_line hypot (a_position a) (a_radius a) (p0 o) (p1 o))) 0) as [K|K]; [|lra].
  assert (f_overlapping_circle_line hypot agents walls = true); [|congruence]. apply existsb_exists. exists a. split; auto. apply existsb_exists. exists o. split; auto. now apply Rlt_bool_true.
Qed.
Print Assumptions C154_wall_accepted.
Theorem C154_wall_accepted_body : forall hypot agents walls, good_hypot hypot -> (forall o, In o walls -> proper_wall o) ->
  (forall a, In a agents -> tri_doubles (xs_of a)) -> f_overlapping_three_circle_line hypot agents walls = false ->
  forall a o k e, In a agents -> In o walls -> (k < 3)%nat -> segment_distance (p0 o) (p1 o) (tget (xs_of a) k) e ->
    tget (rs_of a) k <= e + wall_error (tget (xs_of a) k) (tget (rs_of a) k) (p0 o) (p1 o).
Proof.
  intros hypot agents walls G W X F a o k e Ia Io Hk SD. destruct (W o Io) as ((A & B) & L). pose proof (C152_distance hypot (tget (xs_of a) k) (tget (rs_of a) k) _ _ e G (X a Ia k Hk) A B L SD) as D. apply Rabs_le_inv in D.
  destruct (scan hypot (xs_of a) (rs_of a) (p0 o) (p1 o)) as (i & n & _ & _ & E & M). cbv zeta in E, M. specialize (M k Hk). set (h := fst (f_distance_circle_line hypot (tget (xs_of a) i) (tget (rs_of a) i) (p0 o) (p1 o))) in *.
  destruct (Rlt_bool_spec h 0) as [K|K]; [|lra].
  assert (f_overlapping_three_circle_line hypot agents walls = true); [|congruence]. apply existsb_exists. exists a. split; auto. apply existsb_exists. exists o. split; auto. rewrite E. cbn. now apply Rlt_bool_true.
Qed.
Print Assumptions C154_wall_accepted_body.
(** ... and none is rejected unless it is nearer to a wall than its radius and the error. *)
Theorem C154_wall_rejected : forall hypot agents walls, good_hypot hypot -> (forall o, In o walls -> proper_wall o) ->
  (forall a, In a agents -> vdouble (a_position a)) -> f_overlapping_circle_line hypot agents walls = true ->
  exists a o, In a agents /\ In o walls /\ forall e, segment_distance (p0 o) (p1 o) (a_position a) e -> e < a_radius a + wall_error (a_position a) (a_radius a) (p0 o) (p1 o).
Proof.
  intros hypot agents walls G W X F. apply existsb_exists in F. destruct F as (a & Ia & F). apply existsb_exists in F. destruct F as (o & Io & F). exists a, o. split; auto. split; auto. intros e SD. destruct (W o Io) as ((A & B) & L).
  pose proof (C152_distance hypot (a_position a) (a_radius a) _ _ e G (X a Ia) A B L SD) as D. apply Rabs_le_inv in D. destruct (Rlt_bool_spec (fst (f_distance_circle_line hypot (a_position a) (a_radius a) (p0 o) (p1 o))) 0) as [K|K]; [lra|discriminate].
Qed.
Print Assumptions C154_wall_rejected.
Theorem C154_wall_rejected_body : forall hypot agents walls, good_hypot hypot -> (forall o, In o walls -> proper_wall o) ->
  (forall a, In a agents -> tri_doubles (xs_of a)) -> f_overlapping_three_circle_line hypot agents walls = true ->
  exists a o k, In a agents /\ In o walls /\ (k < 3)%nat /\ forall e, segment_distance (p0 o) (p1 o) (tget (xs_of a) k) e ->
    e < tget (rs_of a) k + wall_error (tget (xs_of a) k) (tget (rs_of a) k) (p0 o) (p1 o).
Proof.
  intros hypot agents walls G W X F. apply existsb_exists in F. destruct F as (a & Ia & F). apply existsb_exists in F. destruct F as (o & Io & F). destruct (W o Io) as ((A & B) & L).
  destruct (scan hypot (xs_of a) (rs_of a) (p0 o) (p1 o)) as (k & n & Hk & _ & E & _). cbv zeta in E. rewrite E in F. cbn [option_map fst f_neg_opt] in F. exists a, o, k. repeat split; auto. intros e SD.
  pose proof (C152_distance hypot (tget (xs_of a) k) (tget (rs_of a) k) _ _ e G (X a Ia k Hk) A B L SD) as D. apply Rabs_le_inv in D. destruct (Rlt_bool_spec (fst (f_distance_circle_line hypot (tget (xs_of a) k) (tget (rs_of a) k) (p0 o) (p1 o))) 0) as [K|K]; [lra|discriminate].
Qed.
Print Assumptions C154_wall_rejected_body.

(** The body of C153 among copies of itself, at the slanted wall. *)
Example C154_case : body_tested [body54] (xs_of body54) (rs_of body54) /\ proper_wall wall53 /\ tri_doubles (xs_of body54) /\ vdouble (a_position body53) /\
  forall i, (i < 3)%nat -> double (tget (rs_of body54) i) /\ 0 <= tget (rs_of body54) i.
Proof.
  destruct C153_case as (X & W & L & _). destruct C152_case as (_ & P & _).
  assert (D : forall i, (i < 3)%nat -> double (tget (rs_of body54) i) /\ 1 <= tget (rs_of body54) i).
  { replace (rs_of body54) with (T3 6 1 1) by reflexivity. intros [|[|[|i]]] I; try lia; (split; [|cbn; lra]); [apply (dbl 6 0)|apply (dbl 1 0)|apply (dbl 1 0)]; cbn; lia || lra. }
  assert (S : powerRZ 2 (-1000) <= 1) by (rewrite <- pow2; change 1 with (bpow radix2 0); apply bpow_le; lia).
  split; [|split; [now split|split; [exact X|split; [exact P|intros i I; destruct (D i I); split; [assumption|lra]]]]].
  intros i I. split; [now apply X|]. split; [now apply D|]. intros a j [<-|[]] J. split; [now apply X|]. destruct (D i I), (D j J). split; [assumption|lra].
Qed.
