(** * Property C151: sampling polygons in double precision *)
From Coq Require Import Reals ZArith List Lra Lia.
From Flocq Require Import Core.
From Verif Require Import Proofs.VecLemmas Proofs.FloatProofs Proofs.FloatGeomProofs Proofs.FloatForcesProofs Proofs.FloatContact Proofs.SamplingProofs.
From Verif Require Import Proofs.FloatSamplingProofs Spec.Doubles.
Import ListNotations.
Open Scope R_scope.

Lemma T_powers : 8 * T <= powerRZ 2 (-1072).
Proof. rewrite <- pow2. unfold T. replace (bpow radix2 (-1072)) with (bpow radix2 3 * bpow radix2 (-1075)) by (rewrite <- bpow_plus; reflexivity). assert (V : bpow radix2 3 = 8) by reflexivity. rewrite V. lra. Qed.
Lemma U_powers : 16 * U = powerRZ 2 (-49).
Proof. rewrite U_val, <- pow2. assert (V : bpow radix2 (-49) = / 562949953421312) by reflexivity. rewrite V. lra. Qed.
(** The point in a triangle is the one the exact formula gives for the same two draws, which
    is uniform (C45_triangle_uniform), up to [2^-49] of the greatest coordinate. *)
Theorem C151_point : forall r1 r2 a b c M, 0 <= r1 <= 1 -> 0 <= r2 <= 1 -> (forall v, In v [a; b; c] -> Rabs (vx v) <= M /\ Rabs (vy v) <= M) ->
  let p := f_random_sample_triangle r1 r2 a b c in
  Rabs (vx p - ((1 - sqrt r1) * vx a + sqrt r1 * (1 - r2) * vx b + r2 * sqrt r1 * vx c)) <= powerRZ 2 (-49) * M + powerRZ 2 (-1072) /\
  Rabs (vy p - ((1 - sqrt r1) * vy a + sqrt r1 * (1 - r2) * vy b + r2 * sqrt r1 * vy c)) <= powerRZ 2 (-49) * M + powerRZ 2 (-1072).
Proof.
  intros r1 r2 a b c M R1 R2 B p. destruct (B a) as [A1 A2], (B b) as [B1 B2], (B c) as [C1 C2]; cbn [In]; auto. pose proof T_powers. rewrite <- U_powers.
  split; (eapply Rle_trans; [|apply Rplus_le_compat_l; eassumption]); [apply (sample_near r1 r2 (vx a) (vx b) (vx c) M)|apply (sample_near r1 r2 (vy a) (vy b) (vy c) M)]; auto.
Qed.
Print Assumptions C151_point.
(** Every draw gives a point, at most [2^-49] of the greatest coordinate (and [2^-1072] for
    underflow) from a point of one of the triangles. *)
Theorem C151_near : forall vs simplices x r1 r2 M, simplices <> [] ->
  (forall i j k, In (i, j, k) simplices -> (i < length vs /\ j < length vs /\ k < length vs)%nat) ->
  (forall v, In v vs -> Rabs (vx v) <= M /\ Rabs (vy v) <= M) -> x < 1 -> 0 <= r1 <= 1 -> 0 <= r2 <= 1 ->
  exists i j k a b c p q, In (i, j, k) simplices /\ nth_error vs i = Some a /\ nth_error vs j = Some b /\ nth_error vs k = Some c /\
    f_polygon_sample vs simplices x r1 r2 = Ok p /\ in_triangle a b c q /\ in_hull vs q /\
    Rabs (vx p - vx q) <= powerRZ 2 (-49) * M + powerRZ 2 (-1072) /\ Rabs (vy p - vy q) <= powerRZ 2 (-49) * M + powerRZ 2 (-1072).
Proof.
  intros vs simplices x r1 r2 M NE G B X R1 R2.
  assert (MO : exists mesh, mesh_of vs simplices = Ok mesh /\ length mesh = length simplices /\ forall t, In t mesh -> exists i j k a b c, t = (a, b, c) /\ In (i, j, k) simplices /\ nth_error vs i = Some a /\ nth_error vs j = Some b /\ nth_error vs k = Some c).
  { clear NE X. induction simplices as [|[[i j] k] rest IH]; [exists []; split; [reflexivity|split; [reflexivity|intros t []]]|].
    destruct (G i j k (or_introl eq_refl)) as (Li & Lj & Lk). destruct IH as (m & E & L & H); [intros; apply G; now right|].
    destruct (nth_error vs i) as [a|] eqn:Ea; [|apply nth_error_None in Ea; lia]. destruct (nth_error vs j) as [b|] eqn:Eb; [|apply nth_error_None in Eb; lia]. destruct (nth_error vs k) as [c|] eqn:Ec; [|apply nth_error_None in Ec; lia].
    exists ((a, b, c) :: m). cbn [mesh_of]. rewrite Ea, Eb, Ec, E. split; [reflexivity|]. split; [cbn; lia|]. intros t [<-|T].
    - exists i, j, k, a, b, c. repeat split; auto. now left.
    - destruct (H t T) as (i' & j' & k' & a' & b' & c' & -> & I' & J'). exists i', j', k', a', b', c'. split; [reflexivity|]. split; [now right|exact J']. }
  destruct MO as (mesh & E & L & H). destruct (f_pick_total mesh x) as (t & It & P); [destruct mesh; [destruct simplices; [easy|discriminate]|discriminate]|exact X|].
  destruct (H t It) as (i & j & k & a & b & c & -> & I & Ea & Eb & Ec). exists i, j, k, a, b, c, (f_random_sample_triangle r1 r2 a b c), (random_sample_triangle r1 r2 a b c).
  pose proof (nth_error_In _ _ Ea) as Ia. pose proof (nth_error_In _ _ Eb) as Ib. pose proof (nth_error_In _ _ Ec) as Ic. pose proof (sample_triangle_in r1 r2 a b c R1 R2) as TI.
  do 4 (split; [assumption|]). split; [unfold f_polygon_sample; rewrite E; cbn [rbind]; now rewrite P|]. split; [exact TI|]. split; [now apply (in_triangle_hull vs a b c)|].
  destruct (B a Ia) as [A1 A2], (B b Ib) as [B1 B2], (B c Ic) as [C1 C2]. pose proof T_powers. rewrite <- U_powers.
  split; (eapply Rle_trans; [|apply Rplus_le_compat_l; eassumption]); [apply (sample_near r1 r2 (vx a) (vx b) (vx c) M)|apply (sample_near r1 r2 (vy a) (vy b) (vy c) M)]; auto.
Qed.
Print Assumptions C151_near.
(** The chance of a triangle is its share of the area, up to [2^-49] for each triangle; the
    areas are those computed in double precision. *)
Theorem C151_chance : forall mesh t, let area := fun t : vec * vec * vec => let '(a, b, c) := t in f_polygon_area [a; b; c] in
  NoDup mesh -> In t mesh -> 0 < total_of (map area mesh) -> INR (length mesh) <= powerRZ 2 40 ->
  exists p, chance (f_pick_triangle mesh) (Ok t) p /\ Rabs (p - area t / total_of (map area mesh)) <= INR (length mesh) * powerRZ 2 (-49).
Proof.
  intros mesh t area ND I P B. rewrite <- pow2 in B. assert (V : bpow radix2 40 = 1099511627776) by reflexivity. rewrite V in B.
  destruct (f_pick_chance mesh t ND I P B) as (p & C & E). exists p. split; [exact C|]. rewrite <- U_powers. exact E.
Qed.
Print Assumptions C151_chance.
(** On a grid of [2^g] with small coordinates the areas are exact, hence the share is that of
    the true area. *)
Theorem C151_share : forall mesh t g n, NoDup mesh -> In t mesh -> INR (length mesh) <= powerRZ 2 40 -> (0 <= n)%Z -> (-536 <= g)%Z -> (6 * (n * n) < 2 ^ 53)%Z ->
  (forall a b c v, In (a, b, c) mesh -> In v [a; b; c] -> exists i j, (Z.abs i <= n /\ Z.abs j <= n)%Z /\ v = V (IZR i * powerRZ 2 g) (IZR j * powerRZ 2 g)) ->
  let area := fun t : vec * vec * vec => let '(a, b, c) := t in shoelace_area [a; b; c] in 0 < total_of (map area mesh) ->
  exists p, chance (f_pick_triangle mesh) (Ok t) p /\ Rabs (p - area t / total_of (map area mesh)) <= INR (length mesh) * powerRZ 2 (-49).
Proof.
  intros mesh t g n ND I B N G S C area P.
  assert (EQ : forall s, In s mesh -> f_triangle_area s = area s).
  { intros [[a b] c] J. unfold f_triangle_area, area. rewrite <- triangle_area_shoelace. unfold triangle_area. apply (f_polygon_area_exact g n); auto; [|cbn [length]; lia].
    intros v Iv. destruct (C a b c v J Iv) as (i & j & [Hi Hj] & ->). rewrite <- pow2. split; [exists i|exists j]; split; auto. }
  assert (EM : map f_triangle_area mesh = map area mesh) by (apply map_ext_in; exact EQ).
  destruct (C151_chance mesh t ND I) as (p & H & E); auto; [change (0 < total_of (map f_triangle_area mesh)); now rewrite EM|]. exists p. split; [exact H|].
  change (Rabs (p - f_triangle_area t / total_of (map f_triangle_area mesh)) <= INR (length mesh) * powerRZ 2 (-49)) in E. now rewrite EM, (EQ t I) in E.
Qed.
Print Assumptions C151_share.
(** The spawn areas of the shipped fields are rectangles, split in two triangles. *)
Example C151_case : let quad := [V 0 0; V 3 0; V 3 1; V 0 1] in let mesh := [(V 0 0, V 3 0, V 3 1); (V 0 0, V 3 1, V 0 1)] in
  (exists p q, f_polygon_sample quad [(0, 1, 2); (0, 2, 3)]%nat (3/4) (1/4) (1/2) = Ok p /\ in_hull quad q /\ Rabs (vx p - vx q) <= powerRZ 2 (-47) /\ Rabs (vy p - vy q) <= powerRZ 2 (-47)) /\
  exists p, chance (f_pick_triangle mesh) (Ok (V 0 0, V 3 0, V 3 1)) p /\ Rabs (p - 1/2) <= powerRZ 2 (-48).
Proof.
  intros quad mesh. split.
  - destruct (C151_near quad [(0, 1, 2); (0, 2, 3)]%nat (3/4) (1/4) (1/2) 3) as (i & j & k & a & b & c & p & q & _ & _ & _ & _ & E & _ & H & X & Y); try lra; [discriminate| | |].
    + intros i j k [E|[E|[]]]; injection E as <- <- <-; cbn; lia.
    + intros v J. unfold quad in J. cbn [In] in J. destruct J as [<-|[<-|[<-|[<-|[]]]]]; cbn; split; rewrite Rabs_pos_eq; lra.
    + exists p, q. split; [exact E|]. split; [exact H|]. assert (K : powerRZ 2 (-49) * 3 + powerRZ 2 (-1072) <= powerRZ 2 (-47)); [|split; lra].
      rewrite <- !pow2. assert (bpow radix2 (-1072) <= bpow radix2 (-49)) by (apply bpow_le; lia). assert (V1 : bpow radix2 (-49) = / 562949953421312) by reflexivity. assert (V2 : bpow radix2 (-47) = / 140737488355328) by reflexivity. rewrite V1, V2 in *. lra.
  - assert (A1 : shoelace_area [V 0 0; V 3 0; V 3 1] = 3/2) by (rewrite <- triangle_area_shoelace; unfold triangle_area, Geom2D.polygon_area, Geom2D.shoelace_loop, Geom2D.vat; cbn; rewrite Rabs_pos_eq; lra).
    assert (A2 : shoelace_area [V 0 0; V 3 1; V 0 1] = 3/2) by (rewrite <- triangle_area_shoelace; unfold triangle_area, Geom2D.polygon_area, Geom2D.shoelace_loop, Geom2D.vat; cbn; rewrite Rabs_pos_eq; lra).
    destruct (C151_share mesh (V 0 0, V 3 0, V 3 1) 0 3) as (p & C & E); try lia.
    + repeat constructor; cbn; [intros [H|[]]|intros []]. injection H. intros. lra.
    + now left.
    + rewrite <- pow2. assert (V : bpow radix2 40 = 1099511627776) by reflexivity. rewrite V. cbn. lra.
    + intros a b c v J K. unfold mesh in J. cbn [In] in J. assert (Z : forall i j, (Z.abs i <= 3 /\ Z.abs j <= 3)%Z -> exists i' j', (Z.abs i' <= 3 /\ Z.abs j' <= 3)%Z /\ V (IZR i) (IZR j) = V (IZR i' * powerRZ 2 0) (IZR j' * powerRZ 2 0)).
      { intros i j H. exists i, j. split; [exact H|]. cbn [powerRZ]. now rewrite !Rmult_1_r. }
      destruct J as [J|[J|[]]]; injection J as <- <- <-; cbn [In] in K; destruct K as [<-|[<-|[<-|[]]]]; apply Z; lia.
    + unfold mesh. cbn [map total_of fold_right]. rewrite A1, A2. lra.
    + exists p. split; [exact C|]. unfold mesh in E. cbn [map total_of fold_right length INR] in E. rewrite A1, A2 in E. replace (3/2 / (3/2 + (3/2 + 0))) with (1/2) in E by field.
      rewrite <- !pow2 in *. assert (V1 : bpow radix2 (-49) = / 562949953421312) by reflexivity. assert (V2 : bpow radix2 (-48) = / 281474976710656) by reflexivity. rewrite V1 in E. rewrite V2. lra.
Qed.
