From Coq Require Import Lra Lia Psatz.
From Verif Require Export Proofs.Vector2DProofs Proofs.ListLemmas Model.Distance Spec.Bodies.
Open Scope R_scope.

(** ** circles *)
Lemma distance_circles_fst x0 r0 x1 r1 : fst (distance_circles x0 r0 x1 r1) = gap (x0, r0) (x1, r1).
Proof. reflexivity. Qed.
Lemma distance_circles_normal x0 r0 x1 r1 :
  direction_from_to x1 x0 (snd (distance_circles x0 r0 x1 r1)).
Proof.
  unfold distance_circles, direction_from_to; cbn [snd]. rewrite edist_vlength.
  destruct (Reqb_spec (vlength (vsub x0 x1)) 0) as [E|E].
  - assert (x0 = x1). { apply edist_zero. exact E. } subst.
    rewrite E. split; [|split].
    + veq; ring.
    + now intros [].
    + auto.
  - split; [|split].
    + veq; field; auto.
    + intros H. unfold is_unit. rewrite elen_vlength. pose proof (vlength_nonneg (vsub x0 x1)).
      rewrite vlength_div by lra. field; lra.
    + intros ->. exfalso. apply E. apply edist_zero. reflexivity.
Qed.
Lemma discs_meet_iff x0 r0 x1 r1 : 0 < r0 -> 0 < r1 ->
  (gap (x0,r0) (x1,r1) < 0 <-> open_discs_meet x0 r0 x1 r1).
Proof.
  intros H0 H1. unfold gap, open_discs_meet, in_open_disc; cbn [fst snd]. split.
  - intros Hd. set (d := edist x0 x1) in *.
    assert (Hd0 : 0 <= d) by apply edist_nonneg.
    set (k := r1 / (r0 + r1)).
    assert (Hk : k * (r0 + r1) = r1) by (unfold k; field; lra).
    assert (0 < k) by (unfold k; apply Rdiv_lt_0_compat; lra).
    assert (k < 1) by nra.
    assert (Hdd : d * d = (vx x0 - vx x1)*(vx x0 - vx x1) + (vy x0 - vy x1)*(vy x0 - vy x1)).
    { unfold d. rewrite edist_vlength, vlength_sq. reflexivity. }
    exists (along x1 x0 k). split.
    + rewrite (edist_eq _ _ ((1-k)*d)).
      * nra.
      * apply Rmult_le_pos; lra.
      * replace ((1-k)*d*((1-k)*d)) with ((1-k)*(1-k)*(d*d)) by ring. rewrite Hdd.
        unfold along; cbn. ring.
    + rewrite (edist_eq _ _ (k*d)).
      * nra.
      * apply Rmult_le_pos; lra.
      * replace (k*d*(k*d)) with (k*k*(d*d)) by ring. rewrite Hdd.
        unfold along; cbn. ring.
  - intros (p & A & B). pose proof (edist_triangle x0 p x1).
    rewrite (edist_sym x0 p) in *. lra.
Qed.
Lemma distance_circles_swap x0 r0 x1 r1 :
  distance_circles x1 r1 x0 r0 =
  (fst (distance_circles x0 r0 x1 r1), vneg (snd (distance_circles x0 r0 x1 r1))).
Proof.
  unfold distance_circles; cbn [fst snd].
  assert (vlength (vsub x1 x0) = vlength (vsub x0 x1)) as -> by apply edist_sym.
  f_equal; [ring|]. rcase; veq; try ring. field; auto. field; auto.
Qed.

(** ** three circles *)
Definition circ (x : tri vec) (r : tri R) (i : nat) : circle := (tget x i, tget r i).

Definition inv33 x0 r0 x1 r1 (done : list (nat*nat)) (s : scan33) : Prop :=
  let '(h, n, i, j) := s in
  match h with
  | None => done = []
  | Some h => In (i,j) done /\ h = gap (circ x0 r0 i) (circ x1 r1 j) /\
      n = snd (distance_circles (tget x0 i) (tget r0 i) (tget x1 j) (tget r1 j)) /\
      forall i' j', In (i',j') done -> h <= gap (circ x0 r0 i') (circ x1 r1 j')
  end.
Lemma scan33_inv x0 r0 x1 r1 l :
  inv33 x0 r0 x1 r1 l (fold_left (scan33_step x0 r0 x1 r1) l (None, vzero, 0%nat, 0%nat)).
Proof.
  apply (fold_left_inv (scan33_step x0 r0 x1 r1)).
  - reflexivity.
  - intros done [i j] [[[h n] i0] j0] H. unfold scan33_step.
    destruct (distance_circles (tget x0 i) (tget r0 i) (tget x1 j) (tget r1 j)) as [h' n'] eqn:E.
    assert (Eh : h' = gap (circ x0 r0 i) (circ x1 r1 j)).
    { change h' with (fst (h', n')). rewrite <- E. reflexivity. }
    destruct h as [h|]; cbn [inv33] in H.
    + destruct H as (Hin & Hh & Hn & Hmin). destruct (Rltb_spec h' h) as [L|L]; cbn [inv33].
      * split; [apply in_or_app; right; left; auto|]. split; [auto|]. split; [rewrite E; auto|].
        intros i' j' Hin'. apply in_app_or in Hin' as [Hin'|[Hin'|[]]].
        -- specialize (Hmin _ _ Hin'). lra.
        -- inversion Hin'; subst. lra.
      * split; [apply in_or_app; left; auto|]. split; [auto|]. split; [auto|].
        intros i' j' Hin'. apply in_app_or in Hin' as [Hin'|[Hin'|[]]].
        -- auto.
        -- inversion Hin'; subst. lra.
    + subst done. cbn [inv33 app]. split; [left; auto|]. split; [auto|]. split; [rewrite E; auto|].
      intros i' j' [Hin'|[]]. inversion Hin'; subst; lra.
Qed.
Lemma in_idx33 i j : In (i,j) idx33 <-> (i < 3 /\ j < 3)%nat.
Proof.
  unfold idx33. rewrite in_prod_iff. unfold idx3. cbn. lia.
Qed.
Lemma distance_three_circles_spec x0 r0 x1 r1 :
  exists h n m0 m1 i j, (i < 3)%nat /\ (j < 3)%nat /\
    distance_three_circles x0 r0 x1 r1 = (Some h, n, m0, m1) /\
    h = gap (circ x0 r0 i) (circ x1 r1 j) /\
    (forall i' j', (i' < 3)%nat -> (j' < 3)%nat -> h <= gap (circ x0 r0 i') (circ x1 r1 j')) /\
    direction_from_to (tget x1 j) (tget x0 i) n /\
    m0 = vsub (vadd (tget x0 i) (vscale (tget r0 i) n)) (t_0 x0) /\
    m1 = vsub (vsub (tget x0 j) (vscale (tget r1 j) n)) (t_0 x1).
Proof.
  unfold distance_three_circles. pose proof (scan33_inv x0 r0 x1 r1 idx33) as H.
  destruct (fold_left _ idx33 _) as [[[h n] i] j]. destruct h as [h|]; [|discriminate H].
  destruct H as (Hin & Hh & Hn & Hmin). apply in_idx33 in Hin as [Hi Hj].
  do 6 eexists. split; [exact Hi|]. split; [exact Hj|]. split; [reflexivity|]. split; [exact Hh|].
  split.
  - intros i' j' Hi' Hj'. apply Hmin. apply in_idx33; auto.
  - split; [|auto]. subst n. apply distance_circles_normal.
Qed.

(** ** wall *)
Section Wall.
  Variables (x a b : vec).
  Hypothesis Hab : a <> b.
  Let d := vsub b a.
  Let L := vlength d.
  Let t := vdiv d L.
  Let n := rotate90 t.
  Let s := dot t (vsub x a).
  Let w := dot n (vsub x a).
  Lemma wall_L_pos : 0 < L.
  Proof.
    apply vlength_pos. intros E. apply Hab.
    apply (f_equal vx) in E as E1. apply (f_equal vy) in E as E2. cbn in *. apply vec_eq; lra.
  Qed.
  Lemma wall_t_unit : vx t * vx t + vy t * vy t = 1.
  Proof.
    pose proof wall_L_pos. pose proof (vlength_sq d) as E. fold L in E.
    unfold t, vdiv; cbn [vx vy].
    replace (vx d / L * (vx d / L) + vy d / L * (vy d / L)) with ((vx d * vx d + vy d * vy d) / (L * L)) by (field; lra).
    rewrite <- E. field; lra.
  Qed.
  Lemma wall_d : vx b - vx a = L * vx t /\ vy b - vy a = L * vy t.
  Proof. pose proof wall_L_pos. unfold t, d; cbn. split; field; lra. Qed.
  Lemma wall_decomp : vx x - vx a = s * vx t - w * vy t /\ vy x - vy a = s * vy t + w * vx t.
  Proof.
    pose proof wall_t_unit as U. unfold s, w, n, dot; cbn [vx vy vsub rotate90].
    set (A := vx x - vx a). set (B := vy x - vy a). set (p := vx t) in *. set (q := vy t) in *.
    replace (((p * A + q * B) * p - (- q * A + p * B) * q)) with (A * (p*p+q*q)) by ring.
    replace (((p * A + q * B) * q + (- q * A + p * B) * p)) with (B * (p*p+q*q)) by ring.
    rewrite U. split; ring.
  Qed.
  Lemma wall_sq u : (vx x - vx (along a b u)) * (vx x - vx (along a b u)) +
     (vy x - vy (along a b u)) * (vy x - vy (along a b u)) = (s - u * L)*(s - u * L) + w * w.
  Proof.
    destruct wall_d as [D1 D2]. destruct wall_decomp as [E1 E2]. pose proof wall_t_unit as U.
    unfold along; cbn [vx vy]. rewrite D1, D2.
    replace (vx x - (vx a + u * (L * vx t))) with ((s - u * L) * vx t - w * vy t) by (unfold Rminus in *; lra).
    replace (vy x - (vy a + u * (L * vy t))) with ((s - u * L) * vy t + w * vx t) by (unfold Rminus in *; lra).
    replace (((s - u * L) * vx t - w * vy t) * ((s - u * L) * vx t - w * vy t) + ((s - u * L) * vy t + w * vx t) * ((s - u * L) * vy t + w * vx t))
      with (((s - u * L) * (s - u * L) + w * w) * (vx t * vx t + vy t * vy t)) by ring.
    rewrite U. ring.
  Qed.
  Lemma wall_lt : - dot t (vsub x b) - dot t (vsub x a) = L - 2 * s.
  Proof.
    destruct wall_d as [D1 D2]. pose proof wall_t_unit as U. unfold s, dot; cbn [vsub vx vy].
    replace (vx x - vx b) with (vx x - vx a - L * vx t) by lra.
    replace (vy x - vy b) with (vy x - vy a - L * vy t) by lra.
    replace (- (vx t * (vx x - vx a - L * vx t) + vy t * (vy x - vy a - L * vy t)) - (vx t * (vx x - vx a) + vy t * (vy x - vy a)))
      with (L * (vx t * vx t + vy t * vy t) - 2 * (vx t * (vx x - vx a) + vy t * (vy x - vy a))) by ring.
    rewrite U. ring.
  Qed.
  Lemma along_0 : along a b 0 = a. Proof. veq; ring. Qed.
  Lemma along_1 : along a b 1 = b. Proof. veq; ring. Qed.

  Lemma edist_along_ge u e : 0 <= e -> e * e <= (s - u*L)*(s-u*L) + w*w -> e <= edist x (along a b u).
  Proof.
    intros He H. rewrite <- wall_sq in H. unfold edist.
    rewrite <- (sqrt_square e He). apply sqrt_le_1_alt. exact H.
  Qed.

  Lemma distance_circle_line_spec_sec r :
    exists e q m, distance_circle_line x r a b = Some (e - r, m) /\
      on_segment a b q /\ edist x q = e /\ segment_distance a b x e /\
      direction_from_to q x m.
  Proof.
    pose proof wall_L_pos as HL. unfold distance_circle_line.
    fold d. fold L. fold t. fold n.
    destruct (Reqb_spec L 0); [lra|]. rewrite wall_lt.
    destruct (Rltb_spec L (L - 2 * s)) as [H1|H1].
    - exists (vlength (vsub x a)), a, (vdiv (vsub x a) (vlength (vsub x a))).
      pose proof (wall_sq 0) as Q. rewrite along_0 in Q.
      assert (Hne : x <> a).
      { intros Exa. assert (s = 0) by (unfold s, dot; rewrite Exa; cbn; ring). lra. }
      assert (Hp : 0 < vlength (vsub x a)).
      { destruct (Rle_lt_or_eq_dec _ _ (vlength_nonneg (vsub x a))) as [|E]; auto.
        exfalso; apply Hne, edist_zero; symmetry; exact E. }
      split; [reflexivity|]. split; [exists 0; split; [lra|now rewrite along_0]|].
      split; [reflexivity|]. split.
      + split.
        * exists a. split; [exists 0; split; [lra|now rewrite along_0]|reflexivity].
        * intros e (p & (u & Hu & ->) & ->). apply edist_along_ge; [apply vlength_nonneg|].
          rewrite vlength_sq. cbn [vx vy vsub]. rewrite Q.
          assert (0 <= u * L) by (apply Rmult_le_pos; lra). nra.
      + split; [|split].
        * rewrite edist_vlength. set (l := vlength (vsub x a)) in *. clearbody l. veq; field; lra.
        * intros _. unfold is_unit. rewrite elen_vlength, vlength_div by auto. field; lra.
        * intros; contradiction.
    - destruct (Rltb_spec (L - 2 * s) (- L)) as [H2|H2].
      + exists (vlength (vsub x b)), b, (vdiv (vsub x b) (vlength (vsub x b))).
        pose proof (wall_sq 1) as Q. rewrite along_1 in Q.
        assert (Hne : x <> b).
        { intros Exb. pose proof wall_lt as W.
          assert (dot t (vsub x b) = 0) by (rewrite Exb; unfold dot; cbn; ring).
          assert (dot t (vsub x a) = s) by reflexivity.
          lra. }
        assert (Hp : 0 < vlength (vsub x b)).
        { destruct (Rle_lt_or_eq_dec _ _ (vlength_nonneg (vsub x b))) as [|E]; auto.
          exfalso; apply Hne, edist_zero; symmetry; exact E. }
        split; [reflexivity|]. split; [exists 1; split; [lra|now rewrite along_1]|].
        split; [reflexivity|]. split.
        * split.
          -- exists b. split; [exists 1; split; [lra|now rewrite along_1]|reflexivity].
          -- intros e (p & (u & Hu & ->) & ->). apply edist_along_ge; [apply vlength_nonneg|].
             rewrite vlength_sq. cbn [vx vy vsub]. rewrite Q.
             assert (0 <= (1 - u) * L) by (apply Rmult_le_pos; lra). nra.
        * split; [|split].
          -- rewrite edist_vlength. set (l := vlength (vsub x b)) in *. clearbody l. veq; field; lra.
          -- intros _. unfold is_unit. rewrite elen_vlength, vlength_div by auto. field; lra.
          -- intros; contradiction.
      + fold w. set (u := s / L).
        assert (Hu : u * L = s) by (unfold u; field; lra).
        assert (Hu01 : 0 <= u <= 1) by (split; nra).
        pose proof (wall_sq u) as Q. rewrite Hu in Q.
        assert (Eq : edist x (along a b u) = Rabs w).
        { apply edist_eq; [apply Rabs_pos|]. rewrite Q, <- Rabs_mult, Rabs_pos_eq by nra. ring. }
        exists (Rabs w), (along a b u), (vscale (rsign w) n).
        split; [reflexivity|]. split; [exists u; auto|]. split; [auto|]. split.
        * split.
          -- exists (along a b u). split; [exists u; auto|auto].
          -- intros e (p & (u' & Hu' & ->) & ->). apply edist_along_ge; [apply Rabs_pos|].
             rewrite <- Rabs_mult, Rabs_pos_eq by nra.
             pose proof (Rle_0_sqr (s - u' * L)) as SQ. unfold Rsqr in SQ. lra.
        * destruct wall_d as [D1 D2]. destruct wall_decomp as [E1 E2].
          assert (S : Rabs w * rsign w = w).
          { unfold rsign. destruct (Rltb_spec 0 w); [rewrite Rabs_right by lra; ring|].
            destruct (Rltb_spec w 0); [rewrite Rabs_left by lra; ring|].
            assert (W0 : w = 0) by lra. rewrite W0. ring. }
          split; [|split].
          -- rewrite Eq. unfold along; cbn [vx vy vscale]. rewrite D1, D2.
             replace (Rabs w * (rsign w * vx n)) with (Rabs w * rsign w * vx n) by ring.
             replace (Rabs w * (rsign w * vy n)) with (Rabs w * rsign w * vy n) by ring.
             rewrite S. unfold n, rotate90; cbn [vx vy]. unfold Rminus in *. veq.
             ++ replace (u * (L * vx t)) with (s * vx t) by (rewrite <- Hu; ring). lra.
             ++ replace (u * (L * vy t)) with (s * vy t) by (rewrite <- Hu; ring). lra.
          -- intros Hne. unfold is_unit. rewrite elen_vlength. apply vlength_eq; [lra|].
             cbn [vx vy vscale]. unfold n, rotate90; cbn [vx vy].
             assert (w <> 0). { intros W0. apply Hne, edist_zero. rewrite Eq, W0. apply Rabs_R0. }
             assert (RS : rsign w * rsign w = 1).
             { unfold rsign. destruct (Rltb_spec 0 w); [ring|]. destruct (Rltb_spec w 0); [ring|]. lra. }
             pose proof wall_t_unit as U.
             replace (rsign w * - vy t * (rsign w * - vy t) + rsign w * vx t * (rsign w * vx t))
               with ((rsign w * rsign w) * (vx t * vx t + vy t * vy t)) by ring.
             rewrite RS, U. ring.
          -- intros E. assert (W : Rabs w = 0) by (rewrite <- Eq; now apply edist_zero).
             destruct (Req_dec w 0) as [W0|W0]; [|apply Rabs_no_R0 in W0; contradiction].
             rewrite W0. unfold rsign. rdec. veq; ring.
  Qed.
End Wall.

Lemma distance_circle_line_spec x r a b : a <> b ->
  exists e q m, distance_circle_line x r a b = Some (e - r, m) /\
    on_segment a b q /\ edist x q = e /\ segment_distance a b x e /\
    direction_from_to q x m.
Proof. intros H. now apply distance_circle_line_spec_sec. Qed.
Lemma distance_circle_line_degenerate x r a : distance_circle_line x r a a = None.
Proof.
  unfold distance_circle_line. assert (vlength (vsub a a) = 0) as -> by apply edist_refl.
  rdec. reflexivity.
Qed.

(** ** three circles to wall *)
Definition inv3 x r a b (done : list nat) (s : scan3) : Prop :=
  let '(h, n, i) := s in
  match h with
  | None => done = []
  | Some h => In i done /\ distance_circle_line (tget x i) (tget r i) a b = Some (h, n) /\
      forall i' h' n', In i' done -> distance_circle_line (tget x i') (tget r i') a b = Some (h', n') -> h <= h'
  end.
Lemma scan3_inv x r a b l : a <> b ->
  inv3 x r a b l (fold_left (scan3_step x r a b) l (None, vzero, 0%nat)).
Proof.
  intros Hab. apply (fold_left_inv (scan3_step x r a b)); [reflexivity|].
  intros done i [[h n] i0] H. unfold scan3_step.
  destruct (distance_circle_line_spec (tget x i) (tget r i) a b Hab) as (e & q & m & E & _).
  rewrite E. destruct h as [h|]; cbn [inv3] in H.
  - destruct H as (Hin & Hh & Hmin). destruct (Rltb_spec (e - tget r i) h) as [L|L]; cbn [inv3].
    + split; [apply in_or_app; right; left; auto|]. split; [auto|].
      intros i' h' n' Hin' E'. apply in_app_or in Hin' as [Hin'|[Hin'|[]]].
      * specialize (Hmin _ _ _ Hin' E'). lra.
      * subst. rewrite E in E'. inversion E'. lra.
    + split; [apply in_or_app; left; auto|]. split; [auto|].
      intros i' h' n' Hin' E'. apply in_app_or in Hin' as [Hin'|[Hin'|[]]].
      * eauto.
      * subst. rewrite E in E'. inversion E'. subst. lra.
  - subst done. cbn [inv3 app]. split; [left; auto|]. split; [auto|].
    intros i' h' n' [Hin'|[]] E'. subst. rewrite E in E'. inversion E'. lra.
Qed.
Lemma distance_three_circle_line_spec x r a b : a <> b ->
  exists h n m i, (i < 3)%nat /\
    distance_three_circle_line x r a b = Some (h, n, m) /\
    distance_circle_line (tget x i) (tget r i) a b = Some (h, n) /\
    (forall i' h' n', (i' < 3)%nat ->
        distance_circle_line (tget x i') (tget r i') a b = Some (h', n') -> h <= h') /\
    m = vsub (vsub (tget x i) (vscale (tget r i) n)) (t_0 x).
Proof.
  intros Hab. unfold distance_three_circle_line. pose proof (scan3_inv x r a b idx3 Hab) as H.
  destruct (fold_left _ idx3 _) as [[h n] i]. destruct h as [h|]; [|discriminate H].
  destruct H as (Hin & Hh & Hmin).
  do 4 eexists. split; [|split; [reflexivity|split; [exact Hh|split; [|reflexivity]]]].
  - unfold idx3 in Hin. cbn in Hin. lia.
  - intros i' h' n' Hi'. apply Hmin. unfold idx3; cbn. lia.
Qed.
Lemma distance_three_circle_line_degenerate x r a : distance_three_circle_line x r a a = None.
Proof.
  unfold distance_three_circle_line, idx3. cbn [fold_left]. unfold scan3_step.
  rewrite !distance_circle_line_degenerate. reflexivity.
Qed.
