(** Basic lemmas and tactics on reals and plane vectors. *)
From Coq Require Import Lra Lia Psatz.
From Verif Require Export Model.Vector2D Spec.Plane.
Open Scope R_scope.

#[global] Arguments IZR : simpl never.

Lemma Rltb_spec x y : BoolSpec (x < y) (y <= x) (Rltb x y).
Proof. unfold Rltb; destruct (Rlt_dec x y); constructor; lra. Qed.
Lemma Rleb_spec x y : BoolSpec (x <= y) (y < x) (Rleb x y).
Proof. unfold Rleb; destruct (Rle_dec x y); constructor; lra. Qed.
Lemma Reqb_spec x y : BoolSpec (x = y) (x <> y) (Reqb x y).
Proof. unfold Reqb; destruct (Req_EM_T x y); constructor; auto. Qed.

Lemma Rltb_true x y : Rltb x y = true <-> x < y.
Proof. destruct (Rltb_spec x y); split; intros; try easy; lra. Qed.
Lemma Rltb_false x y : Rltb x y = false <-> y <= x.
Proof. destruct (Rltb_spec x y); split; intros; try easy; lra. Qed.
Lemma Rleb_true x y : Rleb x y = true <-> x <= y.
Proof. destruct (Rleb_spec x y); split; intros; try easy; lra. Qed.
Lemma Rleb_false x y : Rleb x y = false <-> y < x.
Proof. destruct (Rleb_spec x y); split; intros; try easy; lra. Qed.
Lemma Reqb_true x y : Reqb x y = true <-> x = y.
Proof. destruct (Reqb_spec x y); split; intros; try easy. Qed.
Lemma Reqb_false x y : Reqb x y = false <-> x <> y.
Proof. destruct (Reqb_spec x y); split; intros; try easy. Qed.

(** Split on one boolean comparison of the goal. *)
Ltac rcase :=
  match goal with
  | |- context [Rltb ?a ?b] => destruct (Rltb_spec a b)
  | |- context [Rleb ?a ?b] => destruct (Rleb_spec a b)
  | |- context [Reqb ?a ?b] => destruct (Reqb_spec a b)
  end.
Ltac rcase_in H :=
  match type of H with
  | context [Rltb ?a ?b] => destruct (Rltb_spec a b)
  | context [Rleb ?a ?b] => destruct (Rleb_spec a b)
  | context [Reqb ?a ?b] => destruct (Reqb_spec a b)
  end.
(** Decide a comparison by arithmetic. *)
Ltac rdec :=
  repeat match goal with
  | |- context [Rltb ?a ?b] =>
      first [ replace (Rltb a b) with true by (symmetry; apply Rltb_true; lra)
            | replace (Rltb a b) with false by (symmetry; apply Rltb_false; lra) ]
  | |- context [Rleb ?a ?b] =>
      first [ replace (Rleb a b) with true by (symmetry; apply Rleb_true; lra)
            | replace (Rleb a b) with false by (symmetry; apply Rleb_false; lra) ]
  | |- context [Reqb ?a ?b] =>
      first [ replace (Reqb a b) with true by (symmetry; apply Reqb_true; lra)
            | replace (Reqb a b) with false by (symmetry; apply Reqb_false; lra) ]
  end.

Ltac vunfold := unfold vadd, vsub, vneg, vscale, vdiv, vzero, dot, cross, rotate90, rotate270,
   inner, outer, along in *; cbn [vx vy] in *.
Ltac vd v := let x := fresh v "x" in let y := fresh v "y" in destruct v as [x y].

Lemma vec_eq a b : vx a = vx b -> vy a = vy b -> a = b.
Proof. destruct a, b; cbn; intros -> ->; reflexivity. Qed.
Lemma vec_eq_inv a b c d : V a b = V c d -> a = c /\ b = d.
Proof. intros H; inversion H; auto. Qed.
Ltac veq := apply vec_eq; unfold vadd, vsub, vneg, vscale, vdiv, vzero, rotate90, rotate270, along; cbn [vx vy].

Lemma veqb_true a b : veqb a b = true <-> a = b.
Proof.
  unfold veqb. rewrite andb_true_iff, !Reqb_true. split.
  - intros []; now apply vec_eq.
  - now intros ->.
Qed.

(** ** Length *)
Lemma sumsq_nonneg x y : 0 <= x * x + y * y. Proof. nra. Qed.
Lemma vlength_nonneg v : 0 <= vlength v. Proof. apply sqrt_pos. Qed.
Lemma vlength_sq v : vlength v * vlength v = vx v * vx v + vy v * vy v.
Proof. apply sqrt_sqrt, sumsq_nonneg. Qed.
Lemma vlength_zero v : vlength v = 0 <-> v = vzero.
Proof.
  split; intros H.
  - pose proof (vlength_sq v) as E. rewrite H in E.
    apply vec_eq; cbn [vx vy]; unfold vzero; cbn [vx vy]; nra.
  - subst. unfold vlength; cbn. replace (0*0+0*0) with 0 by lra. apply sqrt_0.
Qed.
Lemma vlength_pos v : v <> vzero -> 0 < vlength v.
Proof.
  intros H. destruct (Rle_lt_or_eq_dec _ _ (vlength_nonneg v)) as [|E]; auto.
  exfalso; apply H; apply vlength_zero; auto.
Qed.
Lemma vlength_eq v l : 0 <= l -> l * l = vx v * vx v + vy v * vy v -> vlength v = l.
Proof. intros Hl E. unfold vlength. rewrite <- E. now apply sqrt_square. Qed.
Lemma vlength_scale k v : vlength (vscale k v) = Rabs k * vlength v.
Proof.
  apply vlength_eq.
  - apply Rmult_le_pos; [apply Rabs_pos|apply vlength_nonneg].
  - replace (Rabs k * vlength v * (Rabs k * vlength v))
      with (Rabs k * Rabs k * (vlength v * vlength v)) by ring.
    rewrite vlength_sq, <- Rabs_mult, (Rabs_pos_eq (k*k)) by nra. cbn. ring.
Qed.
Lemma vlength_div k v : 0 < k -> vlength (vdiv v k) = vlength v / k.
Proof.
  intros Hk. replace (vdiv v k) with (vscale (/ k) v) by (veq; field; lra).
  rewrite vlength_scale, Rabs_pos_eq by (left; now apply Rinv_0_lt_compat).
  field; lra.
Qed.
Lemma vlength_neg v : vlength (vneg v) = vlength v.
Proof. unfold vlength; cbn. f_equal. ring. Qed.
Lemma elen_vlength v : elen v = vlength v.
Proof. unfold elen, edist, vlength; cbn. f_equal; ring. Qed.
Lemma edist_vlength a b : edist a b = vlength (vsub a b).
Proof. reflexivity. Qed.
Lemma edist_sym a b : edist a b = edist b a.
Proof. unfold edist. f_equal. ring. Qed.
Lemma edist_nonneg a b : 0 <= edist a b. Proof. apply sqrt_pos. Qed.
Lemma edist_refl a : edist a a = 0.
Proof. unfold edist. replace (_ + _) with 0 by ring. apply sqrt_0. Qed.

(** Cauchy-Schwarz and the triangle inequality. *)
Lemma inner_le a b : inner a b <= vlength a * vlength b.
Proof.
  pose proof (vlength_nonneg a); pose proof (vlength_nonneg b).
  destruct (Rle_dec (inner a b) 0) as [|Hp]. { nra. }
  apply Rsqr_incr_0; try nra. unfold Rsqr.
  replace (vlength a * vlength b * (vlength a * vlength b))
    with ((vlength a * vlength a) * (vlength b * vlength b)) by ring.
  rewrite !vlength_sq. unfold inner. destruct a as [a1 a2], b as [b1 b2]; cbn.
  pose proof (Rle_0_sqr (a1*b2-a2*b1)). unfold Rsqr in *. nra.
Qed.
Lemma vlength_triangle a b : vlength (vadd a b) <= vlength a + vlength b.
Proof.
  pose proof (vlength_nonneg a); pose proof (vlength_nonneg b).
  pose proof (vlength_nonneg (vadd a b)).
  apply Rsqr_incr_0; try lra. unfold Rsqr. rewrite vlength_sq.
  pose proof (inner_le a b). pose proof (vlength_sq a). pose proof (vlength_sq b).
  unfold inner in *. cbn. nra.
Qed.
Lemma edist_triangle a b c : edist a c <= edist a b + edist b c.
Proof.
  rewrite !edist_vlength.
  replace (vsub a c) with (vadd (vsub a b) (vsub b c)) by (veq; ring).
  apply vlength_triangle.
Qed.
Lemma vlength_lt_iff a b : vlength a < vlength b <-> inner a a < inner b b.
Proof.
  pose proof (vlength_nonneg a); pose proof (vlength_nonneg b).
  pose proof (vlength_sq a); pose proof (vlength_sq b). unfold inner. split; nra.
Qed.
Lemma edist_le_sq a b d : 0 <= d -> (edist a b <= d <->
   (vx a - vx b)*(vx a - vx b) + (vy a - vy b)*(vy a - vy b) <= d * d).
Proof.
  intros Hd. rewrite edist_vlength. pose proof (vlength_nonneg (vsub a b)).
  pose proof (vlength_sq (vsub a b)) as E. cbn in E. rewrite <- E. split; intros; nra.
Qed.
Lemma edist_eq a b d : 0 <= d -> d * d = (vx a - vx b)*(vx a - vx b) + (vy a - vy b)*(vy a - vy b) ->
  edist a b = d.
Proof. intros. unfold edist. rewrite <- H0. now apply sqrt_square. Qed.
Lemma edist_zero a b : edist a b = 0 <-> a = b.
Proof.
  rewrite edist_vlength, vlength_zero. split; intros H.
  - apply vec_eq; apply (f_equal vx) in H as H1; apply (f_equal vy) in H as H2; cbn in *; lra.
  - subst. veq; cbn; ring.
Qed.

(** ** Floor *)
Lemma fmod_range x c : 0 < c -> 0 <= fmod x c < c.
Proof.
  intros Hc. unfold fmod, floordiv.
  destruct (base_Int_part (x / c)) as [H1 H2].
  set (k := IZR (Int_part (x / c))) in *.
  assert (x = c * (x / c)) as E by (field; lra).
  set (q := x / c) in *. clearbody q k. subst x. split; nra.
Qed.
Lemma Int_part_unique x k : IZR k <= x < IZR k + 1 -> Int_part x = k.
Proof.
  intros [H1 H2]. destruct (base_Int_part x) as [H3 H4].
  assert (IZR (Int_part x) < IZR k + 1) by lra.
  assert (IZR k < IZR (Int_part x) + 1) by lra.
  assert (Int_part x < k + 1)%Z by (apply lt_IZR; rewrite plus_IZR; lra).
  assert (k < Int_part x + 1)%Z by (apply lt_IZR; rewrite plus_IZR; lra).
  lia.
Qed.
Lemma fmod_unique x c k r : 0 < c -> 0 <= r < c -> x = c * IZR k + r -> fmod x c = r.
Proof.
  intros Hc Hr E. unfold fmod, floordiv. rewrite (Int_part_unique _ k).
  - lra.
  - subst x. replace ((c * IZR k + r)/c) with (IZR k + r / c) by (field; lra).
    assert (0 <= r / c < 1). { split. apply Rmult_le_pos. lra. left; apply Rinv_0_lt_compat; lra.
      apply Rmult_lt_reg_r with c; auto. unfold Rdiv. rewrite Rmult_assoc, Rinv_l; lra. }
    lra.
Qed.
Lemma fmod_decomp x c : exists k, x = c * IZR k + fmod x c.
Proof. exists (floordiv x c). unfold fmod. lra. Qed.
Lemma two_pi_pos : 0 < 2 * PI. Proof. pose proof PI_RGT_0; lra. Qed.
