(** Concrete Voronoi diagrams. *)
From Coq Require Import Lra Lia Permutation.
From Verif Require Export Spec.Voronoi.
From Verif Require Import Proofs.VecLemmas Proofs.VoronoiProofs.
Open Scope R_scope.

(** The corners of a square and its middle, with the empty region that scipy puts first. *)
Definition quincunx : diagram := Diagram
  [V 0 0; V 2 0; V 0 2; V 2 2; V 1 1]
  [V 1 0; V 0 1; V 2 1; V 1 2]
  [(0, 1); (0, 2); (1, 3); (2, 3); (4, 0); (4, 1); (4, 2); (4, 3)]%nat
  [(-1, 0); (-1, 1); (-1, 2); (-1, 3); (0, 1); (0, 2); (1, 3); (2, 3)]%Z
  [[]; [-1; 0; 1]; [-1; 0; 2]; [-1; 1; 3]; [-1; 2; 3]; [0; 1; 3; 2]]%Z
  [1; 2; 3; 4; 5]%Z.
(** Four agents: one far on the left, one far on the right, two close together in the middle. *)
Definition kite : diagram := Diagram
  [V 0 0; V 220 21; V 220 (-21); V 440 0]
  [V (48841/440) 0; V (440 - 48841/440) 0]
  [(0, 1); (0, 2); (1, 2); (3, 1); (3, 2)]%nat
  [(-1, 0); (-1, 0); (0, 1); (-1, 1); (-1, 1)]%Z
  [[-1; 0]; [-1; 0; 1]; [-1; 0; 1]; [-1; 1]]%Z
  [0; 1; 2; 3]%Z.

Ltac pick H := cbn in H; repeat (destruct H as [H|H]); try contradiction.
Ltac nearest := let q := fresh "q" in let H := fresh "H" in intros q H; pick H; subst q; apply edist_sq; unfold sq; cbn; lra.
Ltac side := let q := fresh "q" in let H := fresh "H" in intros q H; pick H; subst q; unfold turn; cbn; lra.
Ltac ridge_cases H := let i := fresh "i" in let P := fresh "P" in let Q := fresh "Q" in
  destruct H as (i & P & Q); repeat (destruct i as [|i]; [cbn in P, Q; destruct P as [P|P]; destruct Q as [Q|Q]; injection P as <- <-; injection Q as <- <-|]);
  try (exfalso; cbn in P; destruct i; destruct P; discriminate).
Ltac region_cases k H := let r := fresh "r" in let K := fresh "K" in let N := fresh "N" in
  destruct H as (r & K & _ & N); repeat (destruct k as [|k]; [cbn in K; injection K as <-; cbn in N; injection N as <-|]); try (exfalso; cbn in K; destruct k; discriminate).

Lemma quincunx_ok : is_voronoi quincunx.
Proof.
  constructor; try reflexivity.
  - intros k L. cbn in L. destruct k as [|[|[|[|[|k]]]]]; try lia; eexists; eexists; (split; [reflexivity|split; [lia|reflexivity]]).
  - intros k p vs v P R I V0. region_cases k R; cbn in P; injection P as <-; pick I; subst v; try lia; eexists; (split; [split; [lia|reflexivity]|]); nearest.
  - intros k vs v R I V0. region_cases k R; pick I; subst v; try lia.
    + exists 1%nat, (-1)%Z, 0%Z. split; [|lia]. exists 0%nat. cbn. auto.
    + exists 0%nat, (-1)%Z, 0%Z. split; [|lia]. exists 0%nat. cbn. auto.
    + exists 0%nat, (-1)%Z, 1%Z. split; [|lia]. exists 1%nat. cbn. auto.
    + exists 1%nat, (-1)%Z, 2%Z. split; [|lia]. exists 2%nat. cbn. auto.
  - intros k q v w R. ridge_cases R; eexists; eexists; (split; [reflexivity|split; [reflexivity|lia]]).
  - intros k q v w a b R V0 A B. ridge_cases R; try lia; cbn in A, B; injection A as <-; injection B as <-;
      (eexists; split; [split; [lia|reflexivity]|split; [nearest|split; [nearest|]]]);
      (split; [let N := fresh in intros N; injection N; intros; lra|split; [first [left; side|right; side]|exists (V 1 1); split; [cbn; tauto|unfold turn; cbn; lra]]]).
Qed.
Lemma kite_ok : is_voronoi kite.
Proof.
  constructor; try reflexivity.
  - intros k L. cbn in L. destruct k as [|[|[|[|k]]]]; try lia; eexists; eexists; (split; [reflexivity|split; [lia|reflexivity]]).
  - intros k p vs v P R I V0. region_cases k R; cbn in P; injection P as <-; pick I; subst v; try lia; eexists; (split; [split; [lia|reflexivity]|]); nearest.
  - intros k vs v R I V0. region_cases k R; pick I; subst v; try lia.
    + exists 1%nat, (-1)%Z, 0%Z. split; [|lia]. exists 0%nat. cbn. auto.
    + exists 0%nat, (-1)%Z, 0%Z. split; [|lia]. exists 0%nat. cbn. auto.
    + exists 0%nat, (-1)%Z, 0%Z. split; [|lia]. exists 1%nat. cbn. auto.
    + exists 1%nat, (-1)%Z, 1%Z. split; [|lia]. exists 3%nat. cbn. auto.
  - intros k q v w R. ridge_cases R; eexists; eexists; (split; [reflexivity|split; [reflexivity|lia]]).
  - intros k q v w a b R V0 A B. ridge_cases R; try lia; cbn in A, B; injection A as <-; injection B as <-;
      (eexists; split; [split; [lia|reflexivity]|split; [nearest|split; [nearest|]]]);
      (split; [let N := fresh in intros N; injection N; intros; lra|split; [first [left; side|right; side]|]]);
      (first [exists (V 0 0); split; [cbn; tauto|unfold turn; cbn; lra] | exists (V 440 0); split; [cbn; tauto|unfold turn; cbn; lra]]).
Qed.

(** The two new corners of the left agent's region, and every mixture, are to its right. *)
Lemma kite_left_open b y : (b = V 220 21 \/ b = V 220 (-21)) -> opened (d_points kite) 922 (V 0 0) b (V (48841/440) 0) y -> 0 < vx y.
Proof.
  intros B (D & P & _). destruct y as [y1 y2]. unfold edist in D. cbn [vx vy] in *.
  assert (Q : (48841/440 - y1) * (48841/440 - y1) + (0 - y2) * (0 - y2) = 922 * 922).
  { rewrite <- D. symmetry. apply sqrt_def. apply Rplus_le_le_0_compat; apply Rle_0_sqr. }
  destruct (Rlt_dec 0 y1) as [|N]; [assumption|exfalso]. set (u := y1 - 48841/440) in *.
  assert (U : u <= - (48841/440)) by (unfold u; lra).
  assert (E : 220 * 220 * (u * u) = 21 * 21 * (y2 * y2)).
  { destruct B as [-> | ->]; cbn [vx vy] in P.
    - assert (220 * u = - (21 * y2)) by lra. replace (220 * 220 * (u * u)) with ((220 * u) * (220 * u)) by ring. rewrite H. ring.
    - assert (220 * u = 21 * y2) by lra. replace (220 * 220 * (u * u)) with ((220 * u) * (220 * u)) by ring. rewrite H. ring. }
  assert (F : u * u + y2 * y2 = 922 * 922) by (rewrite <- Q; unfold u; ring).
  assert (G : (48841/440) * (48841/440) <= u * u) by nra. lra.
Qed.
Lemma mixture_right l y : (forall x, In x l -> 0 < vx x) -> mixture l y -> 0 < vx y.
Proof.
  intros H. induction 1 as [x l I|l x y t M1 IH1 M2 IH2 T]; [auto|]. specialize (IH1 H). specialize (IH2 H). cbn [vx]. nra.
Qed.
Lemma kite_left argsort : sorts argsort -> exists regions vertices region, voronoi_finite_polygons_2d argsort kite None = Ok (regions, vertices) /\
  nth_error regions 0 = Some region /\ forall corners y, Forall2 (vertex vertices) region corners -> mixture corners y -> y <> V 0 0.
Proof.
  intros Hs. destruct (default_radius argsort kite ltac:(discriminate)) as (lo & hi & A & L & H & _ & ->).
  assert (lo = -21 /\ hi = 440) as [-> ->].
  { pose proof (A (V 0 0) ltac:(cbn; tauto)) as A1. pose proof (A (V 220 (-21)) ltac:(cbn; tauto)) as A2. pose proof (A (V 440 0) ltac:(cbn; tauto)) as A3. cbn [vx vy] in *.
    destruct L as (p & L1 & L2). destruct H as (q & H1 & H2). pick L1; pick H1; subst p q; cbn [vx vy] in *; lra. }
  replace (2 * (440 - -21)) with 922 by ring.
  destruct (finite_spec argsort kite 922 Hs kite_ok ltac:(lra)) as (regions & extra & E & Len & F).
  destruct (nth_error regions 0) as [region|] eqn:R; [|apply nth_error_None in R; cbn in Len; lia].
  exists regions, (d_vertices kite ++ extra), region. split; [exact E|]. split; [exact R|]. intros corners y C M.
  specialize (F 0%nat (V 0 0) [-1; 0]%Z region eq_refl ltac:(exists 0%Z; split; [reflexivity|split; [lia|reflexivity]]) R).
  assert (0 < vx y) as Y; [|intros ->; cbn in Y; lra].
  apply (mixture_right corners); [|exact M]. intros x Hx. apply In_nth_error in Hx as (i & Hi).
  destruct (Forall2_nth' _ _ _ C i x Hi) as (v & Hv & Vx). apply nth_error_In in Hv.
  destruct (fin_new _ _ _ _ _ _ _ F v Hv) as [O|(q & v1 & w & b & x0 & z & Rg & V1 & B & X0 & Z1 & O)].
  - pick O; subst v; [destruct Vx; lia|]. destruct Vx as [_ Vx]. cbn in Vx. injection Vx as <-. cbn. lra.
  - rewrite (vertex_fun _ _ _ _ Vx Z1) in *. assert (W : w = 0%Z /\ (b = V 220 21 \/ b = V 220 (-21))).
    { clear - Rg V1 B. remember 0%nat as k eqn:K. ridge_cases Rg; try lia; cbn in B; injection B as <-; auto; discriminate. }
    destruct W as [-> W]. destruct X0 as [_ X0]. cbn in X0. injection X0 as <-. eapply kite_left_open; eauto.
Qed.
Lemma quincunx_overrun : NoDup (d_point_region quincunx) /\ length (d_regions quincunx) = S (length (d_points quincunx)) /\
  exists e, (e < length (d_points quincunx))%nat /\ ~ In (Z.of_nat e) (d_point_region quincunx).
Proof.
  split; [|split; [reflexivity|exists 0%nat; cbn; split; [lia|intuition lia]]]. cbn. repeat constructor; cbn; intuition lia.
Qed.
