From Coq Require Import Lra Lia Psatz Permutation.
From Verif Require Export Proofs.VecLemmas Model.Geom2D Spec.Polygon.
Open Scope R_scope.

(** ** Shoelace *)
Fixpoint sumf (f : nat -> R) (a n : nat) : R :=
  match n with O => 0 | S m => f a + sumf f (S a) m end.

Lemma fold_sumf f a n acc :
  fold_left (fun s i => s + f i) (seq a n) acc = acc + sumf f a n.
Proof.
  revert a acc; induction n as [|n IH]; intros; cbn; [lra|].
  rewrite IH. lra.
Qed.
Lemma sumf_ext f g a n : (forall i, (a <= i < a + n)%nat -> f i = g i) -> sumf f a n = sumf g a n.
Proof.
  revert a; induction n; intros a H; cbn; auto. rewrite H by lia.
  f_equal. apply IHn. intros; apply H; lia.
Qed.
Lemma sumf_snoc f a n : sumf f a (S n) = sumf f a n + f (a + n)%nat.
Proof.
  revert a; induction n; intros a. { cbn. rewrite Nat.add_0_r. lra. }
  change (sumf f a (S (S n))) with (f a + sumf f (S a) (S n)).
  rewrite IHn. cbn [sumf]. replace (S a + n)%nat with (a + S n)%nat by lia. lra.
Qed.
Lemma sumf_minus f g a n : sumf f a n - sumf g a n = sumf (fun i => f i - g i) a n.
Proof. revert a; induction n; intros; cbn; [lra|]. rewrite <- IHn. lra. Qed.
Lemma sumf_shift f a n : sumf (fun i => f (i - 1)%nat) (S a) n = sumf f a n.
Proof.
  revert a; induction n; intros; cbn; auto. rewrite IHn. rewrite Nat.sub_0_r. auto.
Qed.

Lemma path_sum_sumf l :
  path_sum l = sumf (fun i => outer (vat l i) (vat l (i + 1))) 0 (List.length l - 1).
Proof.
  assert (Shift : forall a l i, vat (a :: l) (S i) = vat l i) by reflexivity.
  induction l as [|a [|b l] IH]; try reflexivity.
  change (path_sum (a :: b :: l)) with (outer a b + path_sum (b :: l)). rewrite IH.
  replace (List.length (a :: b :: l) - 1)%nat with (S (List.length (b :: l) - 1)) by (cbn; lia).
  cbn [sumf]. f_equal.
  rewrite <- (sumf_shift _ 0). apply sumf_ext. intros i Hi.
  destruct i; [lia|]. cbn [Nat.sub]. rewrite Nat.sub_0_r. reflexivity.
Qed.
Lemma path_sum_snoc l a b : path_sum (l ++ [a; b]) = path_sum (l ++ [a]) + outer a b.
Proof.
  induction l as [|c l IH]; cbn; [lra|].
  destruct l as [|d l]; cbn in *; [lra|]. rewrite IH. lra.
Qed.

Lemma polygon_area_shoelace vs : polygon_area vs = shoelace_area vs.
Proof.
  unfold polygon_area, shoelace_area.
  destruct (Nat.ltb_spec (List.length vs) 3) as [Hn|Hn].
  { destruct vs as [|a [|b [|c vs]]]; cbn in Hn; try lia; cbn; unfold outer;
      (rewrite Rabs_right; [|lra]) || idtac; try lra. }
  set (n := List.length vs) in *.
  enough (shoelace_loop vs n + vx (vat vs (n - 1)) * (vy (vat vs 0) - vy (vat vs (n - 2))) +
          vx (vat vs 0) * (vy (vat vs 1) - vy (vat vs (n - 1))) = signed2 vs) as -> by lra.
  unfold shoelace_loop.
  rewrite (fold_sumf (fun i => vx (vat vs i) * (vy (vat vs (i + 1)) - vy (vat vs (i - 1))))).
  destruct vs as [|v t]; [cbn in Hn; lia|]. unfold signed2. set (vs := v :: t) in *.
  rewrite path_sum_sumf.
  replace (List.length (vs ++ [v]) - 1)%nat with (S (n - 1)) by (rewrite app_length; cbn; subst n; cbn; lia).
  rewrite sumf_snoc.
  rewrite (sumf_ext _ (fun i => outer (vat vs i) (vat vs (i+1))) 0 (n-1)).
  2:{ intros i Hi. unfold vat. rewrite !app_nth1 by (subst n; cbn in *; lia). reflexivity. }
  replace (vat (vs ++ [v]) (0 + (n-1))) with (vat vs (n-1)).
  2:{ unfold vat. rewrite app_nth1 by (fold n; lia). reflexivity. }
  replace (vat (vs ++ [v]) (0 + (n-1) + 1)) with (vat vs 0).
  2:{ unfold vat. rewrite app_nth2 by (fold n; lia). fold n.
      replace (0 + (n-1) + 1 - n)%nat with 0%nat by lia. reflexivity. }
  set (X := fun i => vx (vat vs i)). set (Y := fun i => vy (vat vs i)).
  transitivity (0 + (sumf (fun i => X i * Y (i+1)%nat) 1 (n-2) - sumf (fun i => X i * Y (i-1)%nat) 1 (n-2))
     + X (n-1)%nat * (Y 0%nat - Y (n-2)%nat) + X 0%nat * (Y 1%nat - Y (n-1)%nat)).
  { rewrite sumf_minus. do 3 f_equal. apply sumf_ext. intros. unfold X, Y. ring. }
  transitivity (sumf (fun i => X i * Y (i+1)%nat) 0 (n-1) - sumf (fun i => X (i+1)%nat * Y i) 0 (n-1)
     + (X (n-1)%nat * Y 0%nat - Y (n-1)%nat * X 0%nat)).
  2:{ rewrite sumf_minus. f_equal. apply sumf_ext. intros. unfold X, Y, outer. ring. }
  assert (E1 : sumf (fun i => X i * Y (i+1)%nat) 0 (n-1) = X 0%nat * Y 1%nat + sumf (fun i => X i * Y (i+1)%nat) 1 (n-2)).
  { replace (n-1)%nat with (S (n-2)) by lia. reflexivity. }
  assert (E2 : sumf (fun i => X (i+1)%nat * Y i) 0 (n-1) = sumf (fun i => X i * Y (i-1)%nat) 1 (n-2) + X (n-1)%nat * Y (n-2)%nat).
  { rewrite <- (sumf_shift _ 0).
    rewrite (sumf_ext _ (fun i => X i * Y (i-1)%nat)).
    2:{ intros i Hi. replace (i - 1 + 1)%nat with i by lia. reflexivity. }
    replace (n-1)%nat with (S (n-2)) by lia. rewrite sumf_snoc.
    replace (1 + (n-2))%nat with (n-1)%nat by lia.
    replace (n - 1 - 1)%nat with (n-2)%nat by lia.
    replace (S (n-2)) with (n-1)%nat by lia. reflexivity. }
  rewrite E1, E2. ring.
Qed.

(** Invariances of the signed area. *)
Lemma path_translate t a l :
  path_sum (translate t (a :: l)) = path_sum (a :: l)
     + outer t (V (vx (last l a) - vx a) (vy (last l a) - vy a)).
Proof.
  revert a; induction l as [|b l IH]; intros a.
  - cbn. unfold outer; cbn. lra.
  - change (path_sum (translate t (a :: b :: l)))
      with (outer (V (vx a + vx t) (vy a + vy t)) (V (vx b + vx t) (vy b + vy t))
            + path_sum (translate t (b :: l))).
    rewrite IH. change (path_sum (a :: b :: l)) with (outer a b + path_sum (b :: l)).
    change (last (b :: l) a) with (last (b::l) a).
    replace (last (b :: l) a) with (last l b).
    2:{ clear. revert b; induction l as [|c l IH]; intros; auto. cbn in *. destruct l; auto. }
    unfold outer; cbn. ring.
Qed.
Lemma signed2_translate t vs : signed2 (translate t vs) = signed2 vs.
Proof.
  destruct vs as [|a l]; auto.
  unfold signed2. change (translate t (a :: l)) with (V (vx a + vx t) (vy a + vy t) :: translate t l).
  cbn [app].
  replace (V (vx a + vx t) (vy a + vy t) :: translate t l ++ [V (vx a + vx t) (vy a + vy t)])
    with (translate t (a :: (l ++ [a]))) by (unfold translate; rewrite map_cons, map_app; reflexivity).
  rewrite path_translate. rewrite last_last. unfold outer; cbn. ring.
Qed.
Lemma signed2_rotate a l : signed2 (l ++ [a]) = signed2 (a :: l).
Proof.
  destruct l as [|b l]; auto. unfold signed2. cbn [app].
  change (path_sum (a :: b :: (l ++ [a]))) with (outer a b + path_sum ((b :: l) ++ [a])).
  rewrite <- app_assoc. cbn [app].
  change (b :: l ++ [a; b]) with ((b :: l) ++ [a; b]). rewrite path_sum_snoc. cbn [app]. lra.
Qed.
Lemma path_sum_rev l : path_sum (rev l) = - path_sum l.
Proof.
  induction l as [|a [|b l] IH]; cbn; try lra.
  cbn in IH. rewrite <- app_assoc. cbn [app]. rewrite path_sum_snoc, IH.
  unfold outer. destruct l; cbn; ring.
Qed.
Lemma signed2_rev vs : signed2 (rev vs) = - signed2 vs.
Proof.
  destruct vs as [|a l]; [cbn; lra|]. cbn [rev]. rewrite signed2_rotate.
  unfold signed2. cbn [app].
  replace (a :: rev l ++ [a]) with (rev (a :: l ++ [a])).
  - apply path_sum_rev.
  - cbn. rewrite rev_app_distr. reflexivity.
Qed.
Lemma signed2_closed a l : signed2 (a :: l ++ [a]) = signed2 (a :: l).
Proof.
  unfold signed2. cbn [app]. rewrite <- app_assoc. cbn [app].
  change (a :: l ++ [a; a]) with ((a :: l) ++ [a; a]). rewrite path_sum_snoc.
  unfold outer. cbn. ring.
Qed.
Lemma path_dilate k l : path_sum (dilate k l) = k * k * path_sum l.
Proof.
  induction l as [|a [|b l] IH]; cbn; try lra.
  cbn in IH. rewrite IH. unfold outer; cbn. ring.
Qed.
Lemma signed2_dilate k vs : signed2 (dilate k vs) = k * k * signed2 vs.
Proof.
  destruct vs as [|a l]; [cbn; lra|].
  transitivity (path_sum (dilate k ((a :: l) ++ [a]))).
  { unfold dilate. rewrite map_app. reflexivity. }
  apply path_dilate.
Qed.
Lemma path_sum_app l a l' : path_sum (l ++ a :: l') = path_sum (l ++ [a]) + path_sum (a :: l').
Proof.
  induction l as [|b l IH].
  - cbn. destruct l'; lra.
  - destruct l as [|c l]; [cbn; destruct l'; cbn; lra|].
    change (path_sum ((b :: c :: l) ++ a :: l')) with (outer b c + path_sum ((c :: l) ++ a :: l')).
    rewrite IH. cbn. lra.
Qed.
Lemma signed2_cut a l1 b l2 :
  signed2 (a :: l1 ++ b :: l2) = signed2 (a :: l1 ++ [b]) + signed2 (a :: b :: l2).
Proof.
  unfold signed2. cbn [app]. rewrite <- !app_assoc. cbn [app].
  change (a :: l1 ++ b :: l2 ++ [a]) with ((a :: l1) ++ b :: (l2 ++ [a])).
  rewrite path_sum_app.
  change (a :: l1 ++ [b; a]) with ((a :: l1) ++ [b; a]). rewrite path_sum_snoc.
  change (path_sum (a :: b :: l2 ++ [a])) with (outer a b + path_sum (b :: l2 ++ [a])).
  unfold outer. ring.
Qed.
Lemma signed2_triangle a b c :
  signed2 [a; b; c] = outer (V (vx b - vx a) (vy b - vy a)) (V (vx c - vx a) (vy c - vy a)).
Proof. unfold signed2, outer; cbn; unfold outer; ring. Qed.

(** ** line_intersect *)
Lemma parallel_outer a b : parallel a b <-> outer a b = 0.
Proof.
  unfold parallel, outer. split.
  - intros (s & t & H & E1 & E2). destruct H as [H|H].
    + apply Rmult_eq_reg_l with s; auto.
      replace (s * (vx a * vy b - vy a * vx b)) with (s * vx a * vy b - s * vy a * vx b) by ring.
      rewrite E1, E2. ring.
    + apply Rmult_eq_reg_l with t; auto.
      replace (t * (vx a * vy b - vy a * vx b)) with (vx a * (t * vy b) - vy a * (t * vx b)) by ring.
      rewrite <- E1, <- E2. ring.
  - intros E. destruct (Req_dec (vx a) 0) as [A|A].
    + destruct (Req_dec (vy a) 0) as [B|B].
      * exists 1, 0. split; [left; lra|]. split; nra.
      * exists (vy b), (vy a). split; [right; auto|]. split; nra.
    + exists (vx b), (vx a). split; [right; auto|]. split; nra.
Qed.
Lemma line_intersect_iff x0 x1 y0 y1 :
  line_intersect x0 x1 y0 y1 = true <->
  ~ parallel (vsub x1 x0) (vsub y1 y0) /\ exists p, on_segment x0 x1 p /\ on_segment y0 y1 p.
Proof.
  rewrite parallel_outer. unfold line_intersect.
  change (vx (vsub x1 x0) * vy (vsub y1 y0) - vy (vsub x1 x0) * vx (vsub y1 y0))
    with (outer (vsub x1 x0) (vsub y1 y0)).
  set (d := outer (vsub x1 x0) (vsub y1 y0)).
  destruct (Reqb_spec d 0) as [E|E].
  { split; [discriminate|]. intros [H _]; contradiction. }
  rewrite !andb_true_iff, !Rleb_true.
  set (t0 := vx (vsub y0 x0) * vy (vsub y1 y0) - vy (vsub y0 x0) * vx (vsub y1 y0)).
  set (t1 := vx (vsub y0 x0) * vy (vsub x1 x0) - vy (vsub y0 x0) * vx (vsub x1 x0)).
  split.
  - intros [H0 H1]. split; auto. exists (along x0 x1 (t0 / d)). split.
    + exists (t0 / d). split; auto.
    + exists (t1 / d). split; auto.
      subst d t0 t1. unfold outer in *. veq; cbn in *; field; auto.
  - intros [_ (p & (s & Hs & Ep) & (t & Ht & Ep'))].
    rewrite Ep in Ep'. apply vec_eq_inv in Ep' as [E1 E2].
    assert (t0 / d = s) as ->.
    { apply Rmult_eq_reg_r with d; auto. unfold Rdiv. rewrite Rmult_assoc, Rinv_l, Rmult_1_r by auto.
      subst t0 d. unfold outer; cbn.
      assert (A : vx y0 - vx x0 = s * (vx x1 - vx x0) - t * (vx y1 - vx y0)) by lra.
      assert (B : vy y0 - vy x0 = s * (vy x1 - vy x0) - t * (vy y1 - vy y0)) by lra.
      rewrite A, B. ring. }
    assert (t1 / d = t) as ->.
    { apply Rmult_eq_reg_r with d; auto. unfold Rdiv. rewrite Rmult_assoc, Rinv_l, Rmult_1_r by auto.
      subst t1 d. unfold outer; cbn.
      assert (A : vx y0 - vx x0 = s * (vx x1 - vx x0) - t * (vx y1 - vx y0)) by lra.
      assert (B : vy y0 - vy x0 = s * (vy x1 - vy x0) - t * (vy y1 - vy y0)) by lra.
      rewrite A, B. ring. }
    auto.
Qed.
Lemma on_segment_sym a b p : on_segment a b p <-> on_segment b a p.
Proof.
  assert (H : forall a b, on_segment a b p -> on_segment b a p).
  { intros c d (t & Ht & ->). exists (1 - t). split; [lra|]. veq; ring. }
  split; apply H.
Qed.
Lemma parallel_sym a b : parallel a b <-> parallel b a.
Proof. rewrite !parallel_outer. unfold outer. split; lra. Qed.
Lemma parallel_neg a b c d : parallel (vsub a b) (vsub c d) <-> parallel (vsub b a) (vsub c d).
Proof. rewrite !parallel_outer. unfold outer, vsub; cbn. split; lra. Qed.
Lemma bool_iff (a b : bool) : (a = true <-> b = true) -> a = b.
Proof. destruct a, b; intuition congruence. Qed.
Lemma line_intersect_swap x0 x1 y0 y1 : line_intersect x0 x1 y0 y1 = line_intersect y0 y1 x0 x1.
Proof. apply bool_iff. rewrite !line_intersect_iff, parallel_sym. firstorder. Qed.
Lemma line_intersect_flip x0 x1 y0 y1 : line_intersect x0 x1 y0 y1 = line_intersect x1 x0 y0 y1.
Proof.
  apply bool_iff. rewrite !line_intersect_iff, parallel_neg.
  setoid_rewrite (on_segment_sym x0 x1). reflexivity.
Qed.
Lemma line_intersect_flip2 x0 x1 y0 y1 : line_intersect x0 x1 y0 y1 = line_intersect x0 x1 y1 y0.
Proof. rewrite line_intersect_swap, line_intersect_flip. apply line_intersect_swap. Qed.

(** ** visibility *)
Lemma between_iff a b obs :
  is_obstacle_between_points a b obs = true <->
  exists o, In o obs /\ line_intersect a b (p0 o) (p1 o) = true.
Proof.
  induction obs as [|o obs IH]; cbn.
  - split; [discriminate|]. intros (o & [] & _).
  - destruct (line_intersect a b (p0 o) (p1 o)) eqn:E.
    + split; auto. intros _. exists o; auto.
    + rewrite IH. split.
      * intros (o' & ? & ?); exists o'; auto.
      * intros (o' & [->|?] & ?); [congruence|]. exists o'; auto.
Qed.
Lemma between_sym a b obs : is_obstacle_between_points a b obs = is_obstacle_between_points b a obs.
Proof. induction obs; cbn; auto. rewrite line_intersect_flip, IHobs. reflexivity. Qed.
Lemma between_perm a b o1 o2 : (forall o, In o o1 <-> In o o2) ->
  is_obstacle_between_points a b o1 = is_obstacle_between_points a b o2.
Proof. intros H. apply bool_iff. rewrite !between_iff. firstorder. Qed.
Lemma between_mono a b o1 o2 : (forall o, In o o1 -> In o o2) ->
  is_obstacle_between_points a b o1 = true -> is_obstacle_between_points a b o2 = true.
Proof. intros H. rewrite !between_iff. firstorder. Qed.
