(** * Proofs about density grids *)
From Coq Require Import Lra Lia.
From Verif Require Import Model.Quantities Spec.Densities Proofs.VecLemmas Proofs.SteeringProofs.
Open Scope R_scope.

(** ** Sums *)
Lemma total_ext {A} (l : list A) f g : (forall x, In x l -> f x = g x) -> total l f = total l g.
Proof. induction l; cbn; intros H; auto. rewrite H, IHl; auto. Qed.
Lemma total_plus {A} (l : list A) f g : total l (fun x => f x + g x) = total l f + total l g.
Proof. induction l; cbn; [lra|]. rewrite IHl. lra. Qed.
Lemma total_scale {A} (l : list A) f k : total l (fun x => f x * k) = total l f * k.
Proof. induction l; cbn; [lra|]. rewrite IHl. lra. Qed.
Lemma total_zero {A} (l : list A) f : (forall x, In x l -> f x = 0) -> total l f = 0.
Proof. induction l; cbn; intros H; auto. rewrite H, IHl; auto. lra. Qed.
Lemma total_const {A} (l : list A) k : total l (fun _ => k) = INR (length l) * k.
Proof. induction l; cbn [total length]; [cbn; lra|]. rewrite IHl, S_INR. lra. Qed.
Lemma total_delta (l : list Z) k x : NoDup l -> total l (fun i => if Z.eqb i k then x else 0) = if in_dec Z.eq_dec k l then x else 0.
Proof.
  induction l as [|a l IH]; cbn [total]; intros N. { destruct (in_dec _ _ _) as [[]|]; auto. }
  inversion N as [|? ? Na N']; subst. rewrite IH by auto. destruct (Z.eqb_spec a k) as [->|Ne].
  - destruct (in_dec _ k l); [contradiction|]. destruct (in_dec _ _ _) as [|H]; [lra|]. exfalso; apply H; now left.
  - destruct (in_dec _ k l), (in_dec _ k (a :: l)) as [H|H]; try lra.
    + exfalso; apply H; now right.
    + destruct H; [contradiction|contradiction].
Qed.

Lemma zrange_from_to lo hi : zrange lo (hi + 1) = from_to lo hi.
Proof. unfold zrange, from_to. reflexivity. Qed.
Lemma in_from_to lo hi k : In k (from_to lo hi) <-> (lo <= k <= hi)%Z.
Proof.
  unfold from_to. rewrite in_map_iff. split.
  - intros (n & <- & H). apply in_seq in H. lia.
  - intros H. exists (Z.to_nat (k - lo)). split; [lia|]. apply in_seq. lia.
Qed.
Lemma from_to_nodup lo hi : NoDup (from_to lo hi).
Proof.
  unfold from_to. apply FinFun.Injective_map_NoDup; [|apply seq_NoDup]. intros a b H. lia.
Qed.

(** ** Loops *)
Section Each.
  Context {A S : Type} (body : S -> A -> res S) (I : S -> Prop).
  Lemma each_sum (m : S -> R) (g : A -> R) : forall l s s',
    (forall s x s', In x l -> I s -> body s x = Ok s' -> I s' /\ m s' = m s + g x) ->
    I s -> each l body s = Ok s' -> I s' /\ m s' = m s + total l g.
  Proof.
    induction l as [|x l IH]; cbn; intros s s' H Is E. { injection E as <-. split; auto; lra. }
    destruct (body s x) as [s1|] eqn:B; cbn in E; [|discriminate].
    destruct (H s x s1 (or_introl eq_refl) Is B) as [I1 M1].
    destruct (IH s1 s' (fun s x s' h => H s x s' (or_intror h)) I1 E) as [I2 M2]. split; auto. lra.
  Qed.
  Lemma each_inv : forall l s s',
    (forall s x s', In x l -> I s -> body s x = Ok s' -> I s') -> I s -> each l body s = Ok s' -> I s'.
  Proof.
    induction l as [|x l IH]; cbn; intros s s' H Is E. { now injection E as <-. }
    destruct (body s x) as [s1|] eqn:B; cbn in E; [|discriminate].
    apply (IH s1 s'); auto. { intros; eapply H; eauto. } eapply H; eauto.
  Qed.
  Lemma each_ok : forall l s,
    (forall s x, In x l -> I s -> exists s', body s x = Ok s' /\ I s') -> I s -> exists s', each l body s = Ok s' /\ I s'.
  Proof.
    induction l as [|x l IH]; cbn; intros s H Is. { exists s; auto. }
    destruct (H s x (or_introl eq_refl) Is) as (s1 & -> & I1). cbn. apply IH; auto.
  Qed.
  Lemma each_fail : forall l s x,
    (forall s x s', In x l -> I s -> body s x = Ok s' -> I s') -> I s -> In x l ->
    (forall s s', I s -> body s x <> Ok s') -> forall s', each l body s <> Ok s'.
  Proof.
    induction l as [|y l IH]; cbn; intros s x H Is Ix F s' E; [contradiction|].
    destruct (body s y) as [s1|] eqn:B; cbn in E; [|discriminate].
    destruct Ix as [->|Ix]; [now apply (F s s1)|].
    exact (IH s1 x (fun s x s' h => H s x s' (or_intror h)) (H s y s1 (or_introl eq_refl) Is B) Ix F s' E).
  Qed.
End Each.

(** ** One update *)
Definition shape (n m : Z) (d : density) : Prop := d_rows d = n /\ d_cols d = m.
Lemma np_index_ok n i k : np_index n i = Ok k -> (0 <= k < n)%Z /\ (k = i \/ k = i + n)%Z.
Proof.
  unfold np_index. destruct (Z.leb_spec (- n) i), (Z.ltb_spec i n); cbn; try discriminate.
  intros [= <-]. destruct (Z.ltb_spec i 0); lia.
Qed.
Lemma np_index_in n i : (0 <= i < n)%Z -> np_index n i = Ok i.
Proof.
  intros H. unfold np_index. destruct (Z.leb_spec (- n) i), (Z.ltb_spec i n), (Z.ltb_spec i 0); cbn; auto; lia.
Qed.
Lemma np_index_out n i k : (n <= i)%Z -> np_index n i <> Ok k.
Proof. intros H E. unfold np_index in E. destruct (Z.ltb_spec i n); [lia|]. now rewrite Bool.andb_false_r in E. Qed.

Lemma add_at_total d i j x d' : add_at d i j x = Ok d' -> shape (d_rows d) (d_cols d) d' /\ grid_total d' = grid_total d + x.
Proof.
  unfold add_at. destruct (np_index (d_rows d) i) as [a|] eqn:Ea; cbn; [|discriminate].
  destruct (np_index (d_cols d) j) as [b|] eqn:Eb; cbn; [|discriminate]. intros [= <-].
  apply np_index_ok in Ea as [Ba _], Eb as [Bb _]. split; [split; reflexivity|]. unfold grid_total; cbn [d_rows d_cols d_at].
  transitivity (total (from_to 0 (d_rows d - 1)) (fun i => total (from_to 0 (d_cols d - 1)) (fun j => d_at d i j)
     + (if Z.eqb i a then x else 0))).
  - apply total_ext. intros r _. destruct (Z.eqb_spec r a) as [->|N]; cbn [andb].
    + transitivity (total (from_to 0 (d_cols d - 1)) (fun j => d_at d a j + (if Z.eqb j b then x else 0))).
      * apply total_ext. intros k _. destruct (Z.eqb_spec k b); lra.
      * rewrite total_plus, total_delta by apply from_to_nodup.
        destruct (in_dec _ _ _) as [|H]; [reflexivity|]. exfalso; apply H, in_from_to; lia.
    + rewrite Rplus_0_r. apply total_ext. reflexivity.
  - rewrite total_plus, total_delta by apply from_to_nodup.
    destruct (in_dec _ _ _) as [|H]; [lra|]. exfalso; apply H, in_from_to; lia.
Qed.
Lemma add_at_in d i j x : (0 <= i < d_rows d)%Z -> (0 <= j < d_cols d)%Z ->
  add_at d i j x = Ok (Density (d_rows d) (d_cols d) (fun a b => if (Z.eqb a i && Z.eqb b j)%bool then d_at d a b + x else d_at d a b)).
Proof. intros Hi Hj. unfold add_at. now rewrite !np_index_in by auto. Qed.
Lemma add_at_shape n m d i j x d' : shape n m d -> add_at d i j x = Ok d' -> shape n m d'.
Proof. intros [<- <-] E. now apply add_at_total in E. Qed.

(** ** One Voronoi cell *)
Section Region.
  Variable c : R.
  Hypothesis Hc : 0 < c.
  Variables imin jmin : Z.
  Definition rows_of (v : vregion) := from_to (trunc (v_minx v / c)) (trunc (v_maxx v / c)).
  Definition cols_of (v : vregion) := from_to (trunc (v_miny v / c)) (trunc (v_maxy v / c)).
  Definition share (v : vregion) : R := total (rows_of v) (fun i => total (cols_of v) (fun j => v_common v i j / v_area v)).

  Lemma add_region_total v d d' n m : shape n m d -> add_region c imin jmin d v = Ok d' ->
    shape n m d' /\ grid_total d' = grid_total d + share v.
  Proof.
    intros Sh E. unfold add_region in E. rewrite zrange_from_to in E.
    revert Sh E. apply (each_sum (add_row c imin jmin v) (shape n m) grid_total).
    clear d d'. intros d i d' _ Sh E. unfold add_row in E. rewrite zrange_from_to in E.
    revert Sh E. apply (each_sum (add_cell c imin jmin v i) (shape n m) grid_total).
    clear d d'. intros d j d' _ Sh E. unfold add_cell in E. rcase_in E; [discriminate|].
    split; [eapply add_at_shape; eauto|now apply add_at_total in E].
  Qed.

  Lemma regions_total vs d d' n m : shape n m d -> each vs (add_region c imin jmin) d = Ok d' ->
    shape n m d' /\ grid_total d' = grid_total d + total vs share.
  Proof. apply (each_sum (add_region c imin jmin) (shape n m) grid_total). intros s x s' _ Sh E. now apply add_region_total. Qed.

  (** Cell numbers *)
  Lemma square_of_floor x : square_of c x (Int_part (x / c)).
  Proof.
    unfold square_of. pose proof (Int_part_bounds (x / c)) as B. assert (x = x / c * c) by (field; lra). split; nra.
  Qed.
  Lemma square_of_unique x n : square_of c x n -> n = Int_part (x / c).
  Proof.
    intros [A B]. symmetry. apply Int_part_unique. assert (E : x = x / c * c) by (field; lra).
    split; nra.
  Qed.
  Lemma trunc_cell x : 0 <= x -> square_of c x (trunc (x / c)).
  Proof. intros H. rewrite trunc_nonneg; [apply square_of_floor|]. apply Rmult_le_pos; auto. left; now apply Rinv_0_lt_compat. Qed.

  Lemma share_tiled v : tiled c v -> share v = 1.
  Proof.
    intros (Ha & (X0 & X1) & (Y0 & Y1) & T). unfold share.
    transitivity (total (rows_of v) (fun i => total (cols_of v) (fun j => v_common v i j)) * / v_area v).
    - rewrite <- total_scale. apply total_ext. intros i _. rewrite <- total_scale. reflexivity.
    - unfold rows_of, cols_of. rewrite T; try (apply trunc_cell; lra). field. lra.
  Qed.

  (** Entries *)
  Lemma add_region_at v d d' n m a b :
    (forall i, In i (rows_of v) -> (0 <= i - imin < n)%Z) ->
    (forall j, In j (cols_of v) -> (0 <= j - jmin < m)%Z) ->
    shape n m d -> add_region c imin jmin d v = Ok d' ->
    shape n m d' /\ d_at d' a b = d_at d a b +
      total (rows_of v) (fun i => if Z.eqb i (a + imin) then total (cols_of v) (fun j => if Z.eqb j (b + jmin) then v_common v i j / v_area v else 0) else 0).
  Proof.
    intros Hr Hcl Sh E. unfold add_region in E. rewrite zrange_from_to in E.
    revert Sh E. apply (each_sum (add_row c imin jmin v) (shape n m) (fun d => d_at d a b)).
    clear d d'. intros d i d' Hi Sh E. unfold add_row in E. rewrite zrange_from_to in E.
    assert (G : shape n m d' /\ d_at d' a b = d_at d a b + total (cols_of v) (fun j => if (Z.eqb i (a + imin) && Z.eqb j (b + jmin))%bool then v_common v i j / v_area v else 0)).
    { revert Sh E. apply (each_sum (add_cell c imin jmin v i) (shape n m) (fun d => d_at d a b)).
      clear d d'. intros d j d' Hj Sh E. unfold add_cell in E. rcase_in E; [discriminate|].
      specialize (Hr i Hi). specialize (Hcl j Hj). destruct Sh as [S1 S2].
      rewrite add_at_in in E by (rewrite ?S1, ?S2; auto). injection E as <-. split; [now split|]. cbn.
      destruct (Z.eqb_spec i (a + imin)), (Z.eqb_spec a (i - imin)), (Z.eqb_spec j (b + jmin)), (Z.eqb_spec b (j - jmin)); cbn; try lra; lia. }
    destruct G as [G1 G2]. split; auto. rewrite G2. f_equal. destruct (Z.eqb i (a + imin)); cbn; auto. apply total_zero; auto.
  Qed.
End Region.

(** ** Boxes *)
Lemma fold_rmin l : forall a, (fold_left Rmin l a = a \/ In (fold_left Rmin l a) l) /\ fold_left Rmin l a <= a /\ forall x, In x l -> fold_left Rmin l a <= x.
Proof.
  induction l as [|b l IH]; intros a; cbn. { split; [auto|]. split; [lra|contradiction]. }
  destruct (IH (Rmin a b)) as (H1 & H2 & H3). pose proof (Rmin_l a b). pose proof (Rmin_r a b).
  split; [|split; [lra|intros x [<-|Hx]; [lra|auto]]].
  destruct H1 as [H1|H1]; auto. rewrite H1. destruct (Rle_dec a b).
  - left. now apply Rmin_left.
  - right; left. symmetry. apply Rmin_right. lra.
Qed.
Lemma fold_rmax l : forall a, (fold_left Rmax l a = a \/ In (fold_left Rmax l a) l) /\ a <= fold_left Rmax l a /\ forall x, In x l -> x <= fold_left Rmax l a.
Proof.
  induction l as [|b l IH]; intros a; cbn. { split; [auto|]. split; [lra|contradiction]. }
  destruct (IH (Rmax a b)) as (H1 & H2 & H3). pose proof (Rmax_l a b). pose proof (Rmax_r a b).
  split; [|split; [lra|intros x [<-|Hx]; [lra|auto]]].
  destruct H1 as [H1|H1]; auto. rewrite H1. destruct (Rle_dec a b).
  - right; left. symmetry. now apply Rmax_right.
  - left. apply Rmax_left. lra.
Qed.
Lemma rmin_ok l m : In m l -> (forall x, In x l -> m <= x) -> rmin l = Ok m.
Proof.
  destruct l as [|a l]; [contradiction|]. intros Im H. cbn [rmin]. f_equal. destruct (fold_rmin l a) as (H1 & H2 & H3).
  assert (m <= fold_left Rmin l a). { destruct H1 as [H1|H1]; [rewrite H1; apply H; now left|apply H; now right]. }
  destruct Im as [<-|Im]; [lra|]. specialize (H3 _ Im). lra.
Qed.
Lemma rmax_ok l m : In m l -> (forall x, In x l -> x <= m) -> rmax l = Ok m.
Proof.
  destruct l as [|a l]; [contradiction|]. intros Im H. cbn [rmax]. f_equal. destruct (fold_rmax l a) as (H1 & H2 & H3).
  assert (fold_left Rmax l a <= m). { destruct H1 as [H1|H1]; [rewrite H1; apply H; now left|apply H; now right]. }
  destruct Im as [<-|Im]; [lra|]. specialize (H3 _ Im). lra.
Qed.
Lemma rmin_inv l m : rmin l = Ok m -> In m l /\ forall x, In x l -> m <= x.
Proof.
  destruct l as [|a l]; [discriminate|]. cbn [rmin]. intros [= <-]. destruct (fold_rmin l a) as (H1 & H2 & H3).
  split. { destruct H1 as [->|H1]; [now left|now right]. } intros x [<-|Hx]; auto.
Qed.
Lemma rmax_inv l m : rmax l = Ok m -> In m l /\ forall x, In x l -> x <= m.
Proof.
  destruct l as [|a l]; [discriminate|]. cbn [rmax]. intros [= <-]. destruct (fold_rmax l a) as (H1 & H2 & H3).
  split. { destruct H1 as [->|H1]; [now left|now right]. } intros x [<-|Hx]; auto.
Qed.
Lemma box_ok points x0 x1 y0 y1 : is_box points x0 x1 y0 y1 ->
  rmin (map vx points) = Ok x0 /\ rmax (map vx points) = Ok x1 /\ rmin (map vy points) = Ok y0 /\ rmax (map vy points) = Ok y1.
Proof.
  intros (B & (p1 & I1 & <-) & (p2 & I2 & <-) & (p3 & I3 & <-) & (p4 & I4 & <-)).
  repeat split; (apply rmin_ok || apply rmax_ok); try (apply in_map; assumption);
    intros x Hx; apply in_map_iff in Hx as (q & <- & Iq); destruct (B q Iq); lra.
Qed.

(** ** The first density *)
Lemma grid_total_per_area d c : grid_total (per_area d c) = grid_total d * / (c * c).
Proof.
  unfold grid_total, per_area; cbn [d_rows d_cols d_at]. rewrite <- total_scale. apply total_ext. intros i _. now rewrite <- total_scale.
Qed.
Lemma zeros_inv n m d : zeros n m = Ok d -> shape n m d /\ (0 <= n)%Z /\ (0 <= m)%Z /\ (forall a b, d_at d a b = 0) /\ grid_total d = 0.
Proof.
  unfold zeros. destruct (Z.ltb_spec n 0); cbn; [discriminate|]. destruct (Z.ltb_spec m 0); cbn; [discriminate|].
  intros [= <-]. repeat split; auto. unfold grid_total; cbn. apply total_zero. intros. now apply total_zero.
Qed.
Lemma zeros_ok n m : (0 <= n)%Z -> (0 <= m)%Z -> zeros n m = Ok (Density n m (fun _ _ => 0)).
Proof. intros. unfold zeros. destruct (Z.ltb_spec n 0), (Z.ltb_spec m 0); auto; lia. Qed.

Lemma voronoi_1_total points c regions d : Forall (tiled c) regions ->
  density_voronoi_1 points c regions = Ok d -> grid_total d * (c * c) = INR (length regions).
Proof.
  intros T. unfold density_voronoi_1. destruct (Nat.leb 3 (length points)); cbn [andb]; [|discriminate]. rcase; [|discriminate].
  destruct (rmin (map vx points)) as [x0|]; cbn; [|discriminate]. destruct (rmax (map vx points)) as [x1|]; cbn; [|discriminate].
  destruct (rmin (map vy points)) as [y0|]; cbn; [|discriminate]. destruct (rmax (map vy points)) as [y1|]; cbn; [|discriminate].
  destruct (zeros _ _) as [z|] eqn:Z0; cbn; [|discriminate]. apply zeros_inv in Z0 as (Sh & _ & _ & _ & T0).
  destruct (each _ _ _) as [e|] eqn:E; cbn; [|discriminate]. intros [= <-].
  apply regions_total with (1 := Sh) in E as [_ E]. rewrite grid_total_per_area, E, T0, Rplus_0_l.
  rewrite (total_ext regions (share c) (fun _ => 1)); [rewrite total_const; field; lra|].
  intros v Hv. apply share_tiled; auto. now apply (proj1 (Forall_forall _ _) T).
Qed.

Lemma square_mono c x y i j : 0 < c -> square_of c x i -> square_of c y j -> x <= y -> (i <= j)%Z.
Proof.
  intros Hc [A B] [C D] H. apply Z.lt_succ_r. apply lt_IZR. rewrite succ_IZR. nra.
Qed.
Lemma square_trunc c x i : 0 < c -> 0 <= x -> square_of c x i -> trunc (x / c) = i.
Proof.
  intros Hc H0 H. rewrite trunc_nonneg. { symmetry. now apply square_of_unique. }
  apply Rmult_le_pos; auto. left; now apply Rinv_0_lt_compat.
Qed.

Section First.
  Variables (points : list vec) (c : R) (regions : list vregion) (x0 x1 y0 y1 : R) (i0 i1 j0 j1 : Z).
  Hypothesis N : (3 <= length points)%nat.
  Hypothesis Hc : 0 < c.
  Hypothesis B : is_box points x0 x1 y0 y1.
  Hypothesis X0 : 0 <= x0.
  Hypothesis Y0 : 0 <= y0.
  Hypothesis I0 : square_of c x0 i0.
  Hypothesis I1 : square_of c x1 i1.
  Hypothesis J0 : square_of c y0 j0.
  Hypothesis J1 : square_of c y1 j1.
  Hypothesis T : Forall (fun v => tiled c v /\ in_box x0 x1 y0 y1 v) regions.

  Lemma box_order : x0 <= x1 /\ y0 <= y1.
  Proof using B. clear - B. destruct B as (Q & (p & Ip & <-) & _). destruct (Q p Ip). lra. Qed.
  Lemma voronoi_1_eq : density_voronoi_1 points c regions =
    do d <- zeros (i1 - i0 + 1) (j1 - i0 + 1); do d <- each regions (add_region c i0 j0) d; Ok (per_area d c).
  Proof using N Hc B X0 Y0 I0 I1 J0 J1. clear T.
    unfold density_voronoi_1. destruct (Nat.leb_spec 3 (length points)); [|lia]. rdec. cbn [andb].
    destruct (box_ok _ _ _ _ _ B) as (-> & -> & -> & ->). cbn [rbind]. pose proof box_order.
    now rewrite !(square_trunc c x0 i0), !(square_trunc c x1 i1), !(square_trunc c y0 j0), !(square_trunc c y1 j1) by (auto; lra).
  Qed.
  Lemma rows_in v i : tiled c v -> in_box x0 x1 y0 y1 v -> In i (rows_of c v) -> (i0 <= i <= i1)%Z.
  Proof.
    intros (_ & (A1 & A2) & _ & _) (B1 & B2 & _ & _) Hi. unfold rows_of in Hi. apply in_from_to in Hi.
    pose proof (trunc_cell c Hc (v_minx v) A1) as C1. assert (A3 : 0 <= v_maxx v) by lra. pose proof (trunc_cell c Hc (v_maxx v) A3) as C2.
    pose proof (square_mono c _ _ _ _ Hc I0 C1 B1). pose proof (square_mono c _ _ _ _ Hc C2 I1 B2). lia.
  Qed.
  Lemma cols_in v j : tiled c v -> in_box x0 x1 y0 y1 v -> In j (cols_of c v) -> (j0 <= j <= j1)%Z.
  Proof.
    intros (_ & _ & (A1 & A2) & _) (_ & _ & B1 & B2) Hi. unfold cols_of in Hi. apply in_from_to in Hi.
    pose proof (trunc_cell c Hc (v_miny v) A1) as C1. assert (A3 : 0 <= v_maxy v) by lra. pose proof (trunc_cell c Hc (v_maxy v) A3) as C2.
    pose proof (square_mono c _ _ _ _ Hc J0 C1 B1). pose proof (square_mono c _ _ _ _ Hc C2 J1 B2). lia.
  Qed.
  Lemma tiled_area v : tiled c v -> 0 < v_area v.
  Proof. now intros [H _]. Qed.

  Lemma voronoi_1_returns : (i0 <= j0)%Z -> exists d, density_voronoi_1 points c regions = Ok d /\ d_rows d = (i1 - i0 + 1)%Z.
  Proof.
    intros L. rewrite voronoi_1_eq. pose proof box_order as [O1 O2].
    pose proof (square_mono c _ _ _ _ Hc I0 I1 O1). pose proof (square_mono c _ _ _ _ Hc J0 J1 O2).
    rewrite zeros_ok by lia. cbn [rbind].
    destruct (each_ok (add_region c i0 j0) (shape (i1 - i0 + 1) (j1 - i0 + 1)) regions (Density (i1 - i0 + 1) (j1 - i0 + 1) (fun _ _ => 0))) as (d & -> & S1 & S2).
    - intros s v Iv Sh. destruct (proj1 (Forall_forall _ _) T v Iv) as [Tv Bv]. unfold add_region. rewrite zrange_from_to.
      apply each_ok; auto. clear s Sh. intros s i Hi Sh. unfold add_row. rewrite zrange_from_to. apply each_ok; auto.
      clear s Sh. intros s j Hj Sh. unfold add_cell. pose proof (tiled_area v Tv). rdec.
      pose proof (rows_in v i Tv Bv Hi). pose proof (cols_in v j Tv Bv Hj). destruct Sh as [S1 S2].
      rewrite add_at_in by lia. eexists; split; [reflexivity|]. now split.
    - now split.
    - cbn [rbind]. eexists; split; [reflexivity|]. exact S1.
  Qed.

  Lemma voronoi_1_at d : (i0 <= j0)%Z -> Forall (tight c) regions -> density_voronoi_1 points c regions = Ok d ->
    forall i j, d_at d (i - i0) (j - j0) * (c * c) = total regions (fun v => v_common v i j / v_area v).
  Proof.
    intros L Ti. rewrite voronoi_1_eq. pose proof box_order as [O1 O2].
    pose proof (square_mono c _ _ _ _ Hc I0 I1 O1). pose proof (square_mono c _ _ _ _ Hc J0 J1 O2).
    rewrite zeros_ok by lia. cbn [rbind]. destruct (each _ _ _) as [e|] eqn:E; cbn [rbind]; [|discriminate].
    intros [= <-] i j. cbn [per_area d_at].
    assert (G : d_at e (i - i0) (j - j0) = 0 + total regions (fun v => v_common v i j / v_area v)).
    { revert E. intros E. eapply (each_sum (add_region c i0 j0) (shape (i1 - i0 + 1) (j1 - i0 + 1)) (fun d => d_at d (i - i0) (j - j0))) in E;
        [destruct E as [_ E]; exact E| |now split].
      intros s v s' Iv Sh Es. destruct (proj1 (Forall_forall _ _) T v Iv) as [Tv Bv].
      apply add_region_at with (n := (i1 - i0 + 1)%Z) (m := (j1 - i0 + 1)%Z) (a := (i - i0)%Z) (b := (j - j0)%Z) in Es; auto.
      2:{ intros k Hk. pose proof (rows_in v k Tv Bv Hk). lia. }
      2:{ intros k Hk. pose proof (cols_in v k Tv Bv Hk). lia. }
      destruct Es as [Sh' Es]. split; auto. rewrite Es. f_equal. replace (i - i0 + i0)%Z with i by lia. replace (j - j0 + j0)%Z with j by lia.
      destruct (in_dec Z.eq_dec i (rows_of c v)) as [Hi|Hi], (in_dec Z.eq_dec j (cols_of c v)) as [Hj|Hj].
      - transitivity (total (rows_of c v) (fun k => if Z.eqb k i then v_common v i j / v_area v else 0)).
        + apply total_ext. intros k _. destruct (Z.eqb_spec k i) as [->|]; auto.
          transitivity (total (cols_of c v) (fun k => if Z.eqb k j then v_common v i j / v_area v else 0)).
          * apply total_ext. intros k _. destruct (Z.eqb_spec k j) as [->|]; auto.
          * unfold cols_of. rewrite total_delta by apply from_to_nodup. now destruct (in_dec _ _ _).
        + unfold rows_of. rewrite total_delta by apply from_to_nodup. now destruct (in_dec _ _ _).
      - rewrite total_zero.
        + assert (Z0 : v_common v i j = 0); [|rewrite Z0; unfold Rdiv; lra].
          destruct Tv as (Ta & (A1 & A2) & (A3 & A4) & _).
          apply ((proj1 (Forall_forall _ _) Ti v Iv) i j (trunc (v_minx v / c)) (trunc (v_maxx v / c)) (trunc (v_miny v / c)) (trunc (v_maxy v / c)));
            try (apply trunc_cell; lra). intros [_ Q]. apply Hj, in_from_to; auto.
        + intros k _. destruct (Z.eqb k i); auto. apply total_zero. intros l Hl. destruct (Z.eqb_spec l j) as [->|]; auto. contradiction.
      - rewrite total_zero.
        + assert (Z0 : v_common v i j = 0); [|rewrite Z0; unfold Rdiv; lra].
          destruct Tv as (Ta & (A1 & A2) & (A3 & A4) & _).
          apply ((proj1 (Forall_forall _ _) Ti v Iv) i j (trunc (v_minx v / c)) (trunc (v_maxx v / c)) (trunc (v_miny v / c)) (trunc (v_maxy v / c)));
            try (apply trunc_cell; lra). intros [Q _]. apply Hi, in_from_to; auto.
        + intros k Hk. destruct (Z.eqb_spec k i) as [->|]; auto. contradiction.
      - rewrite total_zero.
        + assert (Z0 : v_common v i j = 0); [|rewrite Z0; unfold Rdiv; lra].
          destruct Tv as (Ta & (A1 & A2) & (A3 & A4) & _).
          apply ((proj1 (Forall_forall _ _) Ti v Iv) i j (trunc (v_minx v / c)) (trunc (v_maxx v / c)) (trunc (v_miny v / c)) (trunc (v_maxy v / c)));
            try (apply trunc_cell; lra). intros [Q _]. apply Hi, in_from_to; auto.
        + intros k Hk. destruct (Z.eqb_spec k i) as [->|]; auto. contradiction. }
    rewrite G. field. lra.
  Qed.

  (** The number of columns is taken from the wrong axis. *)
  Lemma voronoi_1_raises v : (j0 < i0)%Z -> In v regions -> square_of c (v_maxy v) j1 ->
    forall d, density_voronoi_1 points c regions <> Ok d.
  Proof.
    intros L Iv Jv d. rewrite voronoi_1_eq. destruct (zeros _ _) as [z|] eqn:Z0; cbn [rbind]; [|discriminate].
    apply zeros_inv in Z0 as (Sh & _ & M & _). intros E. destruct (each _ _ _) as [e|] eqn:F; [|discriminate]. clear E. revert F.
    destruct (proj1 (Forall_forall _ _) T v Iv) as [Tv Bv]. pose proof Tv as (Ta & (A1 & A2) & (A3 & A4) & _).
    set (P := shape (i1 - i0 + 1) (j1 - i0 + 1)).
    apply (each_fail (add_region c i0 j0) P) with (x := v); auto.
    { intros s x s' _ S1 E. now apply add_region_total with (1 := S1) in E as [? _]. }
    clear e z Sh M. intros s s' S1. unfold add_region. rewrite zrange_from_to.
    apply (each_fail (add_row c i0 j0 v) P) with (x := trunc (v_minx v / c)); auto.
    { intros z k z' _ S2. unfold add_row. apply (each_inv (add_cell c i0 j0 v k) P); auto.
      intros u w u' _ S3 E. unfold add_cell in E. rcase_in E; [discriminate|]. eapply add_at_shape; eauto. }
    { apply in_from_to. split; [lia|]. pose proof (trunc_cell c Hc (v_minx v) A1). assert (A5 : 0 <= v_maxx v) by lra.
      pose proof (trunc_cell c Hc (v_maxx v) A5). apply (square_mono c (v_minx v) (v_maxx v)); auto. }
    clear s s' S1. intros s s' S1. unfold add_row. rewrite zrange_from_to.
    apply (each_fail (add_cell c i0 j0 v (trunc (v_minx v / c))) P) with (x := j1); auto.
    { intros u w u' _ S3 E. unfold add_cell in E. rcase_in E; [discriminate|]. eapply add_at_shape; eauto. }
    { apply in_from_to. assert (A5 : 0 <= v_maxy v) by lra. rewrite (square_trunc c (v_maxy v) j1) by auto. split; [|lia].
      pose proof (trunc_cell c Hc (v_miny v) A3). apply (square_mono c (v_miny v) (v_maxy v)); auto. }
    clear s s' S1. intros s s' [S1 S2] E. unfold add_cell in E. rcase_in E; [discriminate|]. unfold add_at in E.
    destruct (np_index (d_rows s) _); cbn in E; [|discriminate].
    destruct (np_index (d_cols s) (j1 - j0)) eqn:F; cbn in E; [|discriminate].
    apply np_index_out in F; auto. rewrite S2. lia.
  Qed.
  Lemma flat_region v d : v_area v = 0 -> 0 <= v_minx v <= v_maxx v -> 0 <= v_miny v <= v_maxy v -> add_region c i0 j0 d v = Err ZeroDivisionError.
  Proof using Hc. clear T N B.
    intros A (A1 & A2) (A3 & A4). assert (K : forall a b, 0 <= a <= b -> exists l, from_to (trunc (a / c)) (trunc (b / c)) = trunc (a / c) :: l).
    { intros a b [L1 L2]. pose proof (trunc_cell c Hc a L1) as C1. pose proof (trunc_cell c Hc b ltac:(lra)) as C2. pose proof (square_mono c a b _ _ Hc C1 C2 L2) as M.
      unfold from_to. replace (Z.to_nat (trunc (b / c) + 1 - trunc (a / c))) with (S (Z.to_nat (trunc (b / c) - trunc (a / c)))) by lia. cbn [seq map]. eexists. f_equal. lia. }
    unfold add_region. rewrite zrange_from_to. destruct (K _ _ (conj A1 A2)) as [l ->]. cbn [each]. unfold add_row at 1. rewrite zrange_from_to. destruct (K _ _ (conj A3 A4)) as [l' ->]. cbn [each].
    unfold add_cell at 1. rewrite A, (proj2 (Reqb_true 0 0) eq_refl). reflexivity.
  Qed.
End First.

(** ** The second density *)
From Coq Require Import Permutation.
Lemma total_perm {A} (l l' : list A) f : Permutation l l' -> total l f = total l' f.
Proof. induction 1; cbn; lra. Qed.
Lemma total_filter {A} (l : list A) (b : A -> bool) f : total (filter b l) f = total l (fun x => if b x then f x else 0).
Proof. induction l as [|x l IH]; cbn; auto. destruct (b x); cbn; lra. Qed.
Lemma total_map {A B} (g : A -> B) l f : total (map g l) f = total l (fun x => f (g x)).
Proof. induction l as [|x l IH]; cbn; auto. now rewrite IH. Qed.
Lemma total_nth {A} (l : list A) d f : total l f = total (seq 0 (length l)) (fun k => f (nth k l d)).
Proof.
  induction l as [|x l IH]; cbn; auto. f_equal. rewrite IH, <- seq_shift, total_map. reflexivity.
Qed.

Lemma fold_zmin l : forall a, (fold_left Z.min l a = a \/ In (fold_left Z.min l a) l) /\ (fold_left Z.min l a <= a)%Z /\ forall x, In x l -> (fold_left Z.min l a <= x)%Z.
Proof.
  induction l as [|b l IH]; intros a; cbn. { split; [auto|]. split; [lia|contradiction]. }
  destruct (IH (Z.min a b)) as (H1 & H2 & H3).
  split; [|split; [lia|intros x [<-|Hx]; [lia|auto]]].
  destruct H1 as [H1|H1]; auto. rewrite H1. destruct (Z.le_gt_cases a b); [left|right; left]; lia.
Qed.
Lemma fold_zmax l : forall a, (fold_left Z.max l a = a \/ In (fold_left Z.max l a) l) /\ (a <= fold_left Z.max l a)%Z /\ forall x, In x l -> (x <= fold_left Z.max l a)%Z.
Proof.
  induction l as [|b l IH]; intros a; cbn. { split; [auto|]. split; [lia|contradiction]. }
  destruct (IH (Z.max a b)) as (H1 & H2 & H3).
  split; [|split; [lia|intros x [<-|Hx]; [lia|auto]]].
  destruct H1 as [H1|H1]; auto. rewrite H1. destruct (Z.le_gt_cases a b); [right; left|left]; lia.
Qed.
Lemma zmin_ok l m : In m l -> (forall x, In x l -> (m <= x)%Z) -> zmin l = Ok m.
Proof.
  destruct l as [|a l]; [contradiction|]. intros Im H. cbn [zmin]. f_equal. destruct (fold_zmin l a) as (H1 & H2 & H3).
  assert (m <= fold_left Z.min l a)%Z. { destruct H1 as [H1|H1]; [rewrite H1; apply H; now left|apply H; now right]. }
  destruct Im as [<-|Im]; [lia|]. specialize (H3 _ Im). lia.
Qed.
Lemma zmax_ok l m : In m l -> (forall x, In x l -> (x <= m)%Z) -> zmax l = Ok m.
Proof.
  destruct l as [|a l]; [contradiction|]. intros Im H. cbn [zmax]. f_equal. destruct (fold_zmax l a) as (H1 & H2 & H3).
  assert (fold_left Z.max l a <= m)%Z. { destruct H1 as [H1|H1]; [rewrite H1; apply H; now left|apply H; now right]. }
  destruct Im as [<-|Im]; [lia|]. specialize (H3 _ Im). lia.
Qed.

Lemma nth_error_combine {A B} : forall (l : list A) (m : list B) k,
  nth_error (combine l m) k = match nth_error l k, nth_error m k with Some a, Some b => Some (a, b) | _, _ => None end.
Proof.
  induction l as [|a l IH]; intros [|b m] [|k]; cbn; auto. now destruct (nth_error l k).
Qed.

Section Second.
  Variables (points : list vec) (c : R) (area : list R) (region : list nat) (x0 x1 y0 y1 : R) (i0 i1 j0 j1 : Z).
  Hypothesis Hc : 0 < c.
  Hypothesis B : is_box points x0 x1 y0 y1.
  Hypothesis X0 : 0 <= x0.
  Hypothesis Y0 : 0 <= y0.
  Hypothesis I0 : square_of c x0 i0.
  Hypothesis I1 : square_of c x1 i1.
  Hypothesis J0 : square_of c y0 j0.
  Hypothesis J1 : square_of c y1 j1.
  Hypothesis Lr : length region = length points.
  Hypothesis Hr : forall r, In r region -> (r < length area)%nat.

  Let xs := map (fun p => trunc (vx p / c)) points.
  Let ys := map (fun p => trunc (vy p / c)) points.
  Lemma point_nonneg p : In p points -> 0 <= vx p /\ 0 <= vy p.
  Proof. intros Hp. destruct B as (Q & _). destruct (Q p Hp). lra. Qed.
  Lemma index_box : zmin xs = Ok i0 /\ zmax xs = Ok i1 /\ zmin ys = Ok j0 /\ zmax ys = Ok j1.
  Proof.
    destruct B as (Q & (p1 & P1 & E1) & (p2 & P2 & E2) & (p3 & P3 & E3) & (p4 & P4 & E4)).
    repeat split; (apply zmin_ok || apply zmax_ok).
    all: try (intros k Hk; apply in_map_iff in Hk as (q & <- & Iq); destruct (Q q Iq) as [? ?]).
    - apply in_map_iff. exists p1. split; auto. rewrite E1. apply square_trunc; auto.
    - apply (square_mono c x0 (vx q)); auto; [|lra]. apply trunc_cell; lra.
    - apply in_map_iff. exists p2. split; auto. rewrite E2. apply square_trunc; auto. destruct (Q p2 P2); lra.
    - apply (square_mono c (vx q) x1); auto; [|lra]. apply trunc_cell; lra.
    - apply in_map_iff. exists p3. split; auto. rewrite E3. apply square_trunc; auto.
    - apply (square_mono c y0 (vy q)); auto; [|lra]. apply trunc_cell; lra.
    - apply in_map_iff. exists p4. split; auto. rewrite E4. apply square_trunc; auto. destruct (Q p4 P4); lra.
    - apply (square_mono c (vy q) y1); auto; [|lra]. apply trunc_cell; lra.
  Qed.
  Let entries := combine (combine xs ys) region.
  Lemma entry_in e : In e entries -> (i0 <= fst (fst e) <= i1)%Z /\ (j0 <= snd (fst e) <= j1)%Z /\ (snd e < length area)%nat.
  Proof.
    destruct e as [[i j] r]. intros He. pose proof (in_combine_l _ _ _ _ He) as H1. pose proof (in_combine_r _ _ _ _ He) as H2.
    pose proof (in_combine_l _ _ _ _ H1) as H3. pose proof (in_combine_r _ _ _ _ H1) as H4. cbn.
    apply in_map_iff in H3 as (p & <- & Ip). apply in_map_iff in H4 as (q & <- & Iq).
    destruct B as (Q & _). destruct (Q p Ip), (Q q Iq).
    repeat split; auto.
    - apply (square_mono c x0 (vx p)); auto; [|lra]. apply trunc_cell; lra.
    - apply (square_mono c (vx p) x1); auto; [|lra]. apply trunc_cell; lra.
    - apply (square_mono c y0 (vy q)); auto; [|lra]. apply trunc_cell; lra.
    - apply (square_mono c (vy q) y1); auto; [|lra]. apply trunc_cell; lra.
  Qed.

  Definition here (a b : Z) (e : (Z * Z) * nat) : bool := (Z.eqb (fst (fst e)) a && Z.eqb (snd (fst e)) b)%bool.
  Let P (s : density * density) := shape (i1 - i0 + 1) (j1 - j0 + 1) (fst s) /\ shape (i1 - i0 + 1) (j1 - j0 + 1) (snd s).
  Lemma count_point_eq s e : P s -> In e entries -> exists s', count_point area i0 j0 s e = Ok s' /\ P s' /\
    forall a b, d_at (fst s') (a - i0) (b - j0) = d_at (fst s) (a - i0) (b - j0) + (if here a b e then 1 else 0) /\
                d_at (snd s') (a - i0) (b - j0) = d_at (snd s) (a - i0) (b - j0) + (if here a b e then nth (snd e) area 0 else 0).
  Proof.
    destruct e as [[i j] r]. intros [[S1 S2] [S3 S4]] He. destruct (entry_in _ He) as (H1 & H2 & H3). cbn in H1, H2, H3.
    unfold count_point. rewrite add_at_in by lia. cbn [rbind].
    rewrite (nth_error_nth' area 0) by auto. rewrite add_at_in by lia. cbn [rbind].
    eexists; split; [reflexivity|]. cbn. split; [repeat split; auto|]. intros a b. unfold here; cbn.
    destruct (Z.eqb_spec i a), (Z.eqb_spec j b), (Z.eqb_spec (a - i0) (i - i0)), (Z.eqb_spec (b - j0) (j - j0)); cbn; try lia; split; lra.
  Qed.
  Lemma core_2_ok : exists d, core_2 points c area region = Ok d /\ d_rows d = (i1 - i0 + 1)%Z /\ d_cols d = (j1 - j0 + 1)%Z /\
    forall a b, d_at d (a - i0) (b - j0) =
      let n := total entries (fun e => if here a b e then 1 else 0) in
      let s := total entries (fun e => if here a b e then nth (snd e) area 0 else 0) in
      if Rltb 0 s then n / s else n.
  Proof.
    unfold core_2. rdec. fold xs ys. destruct index_box as (-> & -> & -> & ->). cbn [rbind].
    assert (O : x0 <= x1 /\ y0 <= y1). { destruct B as (Q & (p & Ip & <-) & _). destruct (Q p Ip). lra. } destruct O as [O1 O2].
    pose proof (square_mono c _ _ _ _ Hc I0 I1 O1). pose proof (square_mono c _ _ _ _ Hc J0 J1 O2).
    rewrite zeros_ok by lia. cbn [rbind]. fold entries.
    set (z := Density (i1 - i0 + 1) (j1 - j0 + 1) (fun _ _ => 0)).
    assert (Pz : P (z, z)) by (repeat split; auto).
    destruct (each_ok (count_point area i0 j0) P entries (z, z)) as (s & E & Ps); auto.
    { intros s e He Hs. destruct (count_point_eq s e Hs He) as (s' & E & Ps & _). eauto. }
    rewrite E. cbn [rbind]. eexists; split; [reflexivity|]. destruct Ps as [[S1 S2] _]. cbn [d_rows d_cols]. split; auto. split; auto.
    intros a b. cbn [d_at].
    assert (G1 : d_at (fst s) (a - i0) (b - j0) = 0 + total entries (fun e => if here a b e then 1 else 0)).
    { apply (each_sum (count_point area i0 j0) P (fun s => d_at (fst s) (a - i0) (b - j0)) (fun e => if here a b e then 1 else 0) entries (z, z)); auto.
      intros u e u' He Pu Eu. destruct (count_point_eq u e Pu He) as (w & Ew & Pw & Aw). rewrite Ew in Eu. injection Eu as <-.
      split; auto. now destruct (Aw a b). }
    assert (G2 : d_at (snd s) (a - i0) (b - j0) = 0 + total entries (fun e => if here a b e then nth (snd e) area 0 else 0)).
    { apply (each_sum (count_point area i0 j0) P (fun s => d_at (snd s) (a - i0) (b - j0)) (fun e => if here a b e then nth (snd e) area 0 else 0) entries (z, z)); auto.
      intros u e u' He Pu Eu. destruct (count_point_eq u e Pu He) as (w & Ew & Pw & Aw). rewrite Ew in Eu. injection Eu as <-.
      split; auto. now destruct (Aw a b). }
    rewrite Rplus_0_l in G1, G2. cbn zeta. now rewrite G1, G2.
  Qed.

  Lemma entries_length : length entries = length points.
  Proof. unfold entries, xs, ys. rewrite !combine_length, !map_length. lia. Qed.
  Lemma entries_nth k p : nth_error points k = Some p -> nth_error entries k = Some ((trunc (vx p / c), trunc (vy p / c)), nth k region 0%nat).
  Proof.
    intros H. unfold entries, xs, ys. rewrite !nth_error_combine, !nth_error_map, H. cbn.
    rewrite (nth_error_nth' region 0%nat); auto. rewrite Lr. apply nth_error_Some. now rewrite H.
  Qed.
  Lemma standing_total a b l (g : nat -> R) : standing c points a b l ->
    total entries (fun e => if here a b e then g (snd e) else 0) = total l (fun k => g (nth k region 0%nat)).
  Proof.
    intros [Nl Hl]. set (dflt := ((0%Z, 0%Z), 0%nat)).
    rewrite (total_nth entries dflt). rewrite <- (total_filter (seq 0 (length entries)) (fun k => here a b (nth k entries dflt)) (fun k => g (snd (nth k entries dflt)))).
    assert (Q : Permutation (filter (fun k => here a b (nth k entries dflt)) (seq 0 (length entries))) l).
    { apply NoDup_Permutation; auto. { apply NoDup_filter, seq_NoDup. }
      intros k. rewrite filter_In, in_seq, Hl, entries_length. split.
      - intros [[_ Lk] Hk]. destruct (nth_error points k) as [p|] eqn:E; [|apply nth_error_None in E; lia]. exists p. split; auto.
        pose proof (nth_error_nth _ _ dflt (entries_nth k p E)) as En. rewrite En in Hk. unfold here in Hk; cbn in Hk.
        apply andb_prop in Hk as [H1 H2]. apply Z.eqb_eq in H1, H2. subst a b.
        destruct (point_nonneg p (nth_error_In _ _ E)). split; apply trunc_cell; auto.
      - intros (p & E & H1 & H2). split. { split; [lia|]. cbn. apply nth_error_Some. now rewrite E. }
        rewrite (nth_error_nth _ _ dflt (entries_nth k p E)). unfold here; cbn. destruct (point_nonneg p (nth_error_In _ _ E)).
        rewrite (square_trunc c (vx p) a), (square_trunc c (vy p) b) by auto. now rewrite !Z.eqb_refl. }
    rewrite (total_perm _ _ _ Q). apply total_ext. intros k Hk. apply Hl in Hk as (p & E & _).
    now rewrite (nth_error_nth _ _ dflt (entries_nth k p E)).
  Qed.

  Lemma core_2_at : exists d, core_2 points c area region = Ok d /\ d_rows d = (i1 - i0 + 1)%Z /\ d_cols d = (j1 - j0 + 1)%Z /\
    forall a b l, standing c points a b l ->
      let s := total l (fun k => nth (nth k region 0%nat) area 0) in
      (0 < s -> d_at d (a - i0) (b - j0) = INR (length l) / s) /\
      (s <= 0 -> d_at d (a - i0) (b - j0) = INR (length l)).
  Proof.
    destruct core_2_ok as (d & E & R1 & C1 & A). exists d. split; [auto|]. split; [auto|]. split; [auto|].
    intros a b l Hl s. split; intros H; rewrite A; cbn zeta.
    all: rewrite (standing_total a b l (fun _ => 1)) by auto; rewrite (standing_total a b l (fun r => nth r area 0)) by auto.
    all: rewrite total_const, Rmult_1_r; fold s; rcase; lra.
  Qed.
End Second.

(** Truncation puts agents around the origin in one cell. *)
Lemma trunc_small c x : 0 < c -> - c < x < c -> trunc (x / c) = 0%Z.
Proof.
  intros Hc H. assert (E : x = x / c * c) by (field; lra). assert (B : -1 < x / c < 1) by (split; nra).
  destruct (Rlt_dec (x / c) 0).
  - rewrite trunc_neg by auto. unfold ceil. rewrite (Int_part_unique (- (x / c)) 0); auto. lra.
  - rewrite trunc_nonneg by lra. apply Int_part_unique. lra.
Qed.
Lemma core_2_merges points c area region : 0 < c -> points <> [] ->
  (forall p, In p points -> - c < vx p < c /\ - c < vy p < c) ->
  length region = length points -> (forall r, In r region -> (r < length area)%nat) ->
  exists d, core_2 points c area region = Ok d /\ d_rows d = 1%Z /\ d_cols d = 1%Z.
Proof.
  intros Hc Ne Hp Lr Hr. unfold core_2. rdec.
  assert (X : map (fun p => trunc (vx p / c)) points = map (fun _ => 0%Z) points) by (apply map_ext_in; intros p Ip; apply trunc_small; auto; now apply Hp).
  assert (Y : map (fun p => trunc (vy p / c)) points = map (fun _ => 0%Z) points) by (apply map_ext_in; intros p Ip; apply trunc_small; auto; now apply Hp).
  rewrite X, Y. clear X Y. set (zs := map (fun _ => 0%Z) points).
  assert (Z1 : forall z, In z zs -> z = 0%Z) by (intros z Hz; apply in_map_iff in Hz as (? & ? & _); auto).
  assert (Z2 : In 0%Z zs). { destruct points as [|p l]; [congruence|now left]. }
  rewrite (zmin_ok zs 0), (zmax_ok zs 0); auto; try (intros z Hz; apply Z1 in Hz; lia). cbn [rbind]. rewrite zeros_ok by (cbn; lia). cbn [rbind].
  set (P := fun s : density * density => shape 1 1 (fst s) /\ shape 1 1 (snd s)).
  destruct (each_ok (count_point area 0 0) P (combine (combine zs zs) region) (Density (0-0+1) (0-0+1) (fun _ _ => 0), Density (0-0+1) (0-0+1) (fun _ _ => 0))) as (s & E & [S1 S2]).
  - intros s [[i j] r] He [[A1 A2] [A3 A4]]. pose proof (in_combine_l _ _ _ _ He) as H1. pose proof (in_combine_r _ _ _ _ He) as H2.
    pose proof (Z1 _ (in_combine_l _ _ _ _ H1)). pose proof (Z1 _ (in_combine_r _ _ _ _ H1)). subst i j.
    unfold count_point. rewrite add_at_in by lia. cbn [rbind]. rewrite (nth_error_nth' area 0) by auto. rewrite add_at_in by lia. cbn [rbind].
    eexists; split; [reflexivity|]. repeat split; cbn; auto.
  - repeat split.
  - rewrite E. cbn [rbind]. eexists; split; [reflexivity|]. destruct S1. now split.
Qed.

Lemma classical_raises points c d : density_classical points c <> Ok d.
Proof.
  unfold density_classical. destruct (rmin _); cbn; [|discriminate]. destruct (rmin _); cbn; [|discriminate].
  destruct (rmax _); cbn; [|discriminate]. destruct (rmax _); cbn; discriminate.
Qed.
