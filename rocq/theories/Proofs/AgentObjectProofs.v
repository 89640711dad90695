From Coq Require Import Lra Lia.
From Verif Require Export Proofs.BodyProofs Spec.Traits.
Open Scope R_scope.

Lemma assign_radius_eff zs v b : 0 <= v -> exists b', assign zs Radius v b = (None, b') /\ b_radius b' = v.
Proof.
  intros H. unfold assign, bvalid. replace (Rleb 0 v) with true by (symmetry; now apply Rleb_true). cbn [andb].
  destruct (Reqb_spec v (bget Radius b)) as [E|_].
  - exists b. cbn in E. auto.
  - eexists. split; [reflexivity|]. unfold observe_inertia. destruct b. cbn. destruct (_ && _); reflexivity.
Qed.
Lemma assign_mass_eff zs v b : 0 <= v -> exists b', assign zs Mass v b = (None, b') /\ b_mass b' = v /\
  b_radius b' = b_radius b /\ b_r_t b' = b_r_t b /\ b_r_s b' = b_r_s b /\ b_r_ts b' = b_r_ts b.
Proof.
  intros H. unfold assign, bvalid. replace (Rleb 0 v) with true by (symmetry; now apply Rleb_true). cbn [andb].
  destruct (Reqb_spec v (bget Mass b)) as [E|_].
  - exists b. cbn in E. repeat split; auto.
  - eexists. split; [reflexivity|]. unfold observe_inertia. destruct b. cbn. destruct (_ && _); cbn; repeat split; auto.
Qed.
Lemma assign_tv_eff zs v b : 0 <= v -> assign zs TargetVelocity v b = (None, bput TargetVelocity v b).
Proof.
  intros H. unfold assign, bvalid. replace (Rleb 0 v) with true by (symmetry; now apply Rleb_true). cbn [andb].
  destruct (Reqb_spec v (bget TargetVelocity b)) as [E|_]; auto. f_equal. destruct b. cbn in *. now subst.
Qed.
Definition body_eq_row (b : bodyt) (row : agent) : Prop :=
  b_radius b = a_radius row /\ b_r_t b = a_r_t row /\ b_r_s b = a_r_s row /\ b_r_ts b = a_r_ts row /\
  b_mass b = a_mass row /\ b_inertia_rot b = a_inertia_rot row /\
  b_target_velocity b = a_target_velocity row /\ b_target_angular_velocity b = a_target_angular_velocity row.
Lemma store_ok v put b : 0 <= v -> store_checked v put b = (None, put b).
Proof. intros H. unfold store_checked. replace (Rleb 0 v) with true by (symmetry; now apply Rleb_true). reflexivity. Qed.
Lemma body_from_row_ok zs row b :
  0 <= a_radius row -> 0 <= a_r_t row -> 0 <= a_r_s row -> 0 <= a_r_ts row -> 0 <= a_mass row ->
  0 <= a_inertia_rot row -> 0 <= a_target_velocity row -> 0 <= a_target_angular_velocity row ->
  exists b', body_from_row zs row b = (None, b') /\ body_eq_row b' row.
Proof.
  intros H1 H2 H3 H4 H5 H6 H7 H8. unfold body_from_row.
  destruct (assign_radius_eff zs (a_radius row) b H1) as (b1 & E1 & R1). rewrite E1. cbn [bseq].
  rewrite !store_ok by auto. cbn [bseq]. rewrite store_ok by auto. cbn [bseq]. rewrite store_ok by auto. cbn [bseq].
  match goal with |- context [assign zs Mass _ ?b] => destruct (assign_mass_eff zs (a_mass row) b H5) as (b2 & E2 & M & X1 & X2 & X3 & X4) end.
  rewrite E2. cbn [bseq]. rewrite store_ok by auto. cbn [bseq]. rewrite assign_tv_eff by auto. cbn [bseq].
  rewrite store_ok by auto. eexists. split; [reflexivity|].
  clear E1 E2. destruct b1 as [q1 q2 q3 q4 q5 q6 q7 q8 q9 qa qb qc qd qe qf qg qh qi qj].
  destruct b2 as [p1 p2 p3 p4 p5 p6 p7 p8 p9 pa pb pc pd pe pf pg ph pi pj]. unfold body_eq_row.
  cbn in R1, M, X1, X2, X3, X4 |- *. subst. repeat split; auto.
Qed.
Lemma round_trip zs k o o' : obj_valid k o ->
  exists o'', from_array zs k [obj_row o] o' = Ok o'' /\ obj_row o'' = obj_row o.
Proof.
  destruct o as [b0 a]. destruct a, b0.
  intros (Hr & H1 & H2 & H3 & H4 & H5 & H6 & H7 & H8). cbn in H1, H2, H3, H4, H5, H6, H7, H8.
  match goal with |- context [obj_row ?o] => let r := eval cbn in (obj_row o) in change (obj_row o) with r; set (row := r) end.
  unfold from_array. replace (rest_valid k row) with true by (symmetry; exact Hr).
  destruct (body_from_row_ok zs row (ob_body o')) as (b & E & B1 & B2 & B3 & B4 & B5 & B6 & B7 & B8); auto.
  rewrite E. eexists. split; [reflexivity|]. destruct b. cbn in B1, B2, B3, B4, B5, B6, B7, B8. subst. subst row. reflexivity.
Qed.
Lemma round_trip_traits zs k o o' : obj_valid k o ->
  exists o'', from_array zs k [obj_row o] o' = Ok o'' /\ same_traits o'' o.
Proof.
  destruct o as [b0 a]. destruct a, b0.
  intros (Hr & H1 & H2 & H3 & H4 & H5 & H6 & H7 & H8). cbn in H1, H2, H3, H4, H5, H6, H7, H8.
  match goal with |- context [obj_row ?o] => let r := eval cbn in (obj_row o) in change (obj_row o) with r; set (row := r) end.
  unfold from_array. replace (rest_valid k row) with true by (symmetry; exact Hr).
  destruct (body_from_row_ok zs row (ob_body o')) as (b & E & B1 & B2 & B3 & B4 & B5 & B6 & B7 & B8); auto.
  rewrite E. eexists. split; [reflexivity|]. destruct b. cbn in B1, B2, B3, B4, B5, B6, B7, B8. subst. subst row.
  split; [reflexivity|]. split; [reflexivity|]. split; reflexivity.
Qed.
Lemma obj_row_values o : row_of_object (obj_row o) o.
Proof. split; [reflexivity|]. split; [reflexivity|]. split; reflexivity. Qed.
Lemma from_array_needs_one zs k rows o : length rows <> 1%nat -> from_array zs k rows o = Err ValueError.
Proof. destruct rows as [|a [|b rows]]; cbn; auto. lia. Qed.

Lemma example_obj_valid :
  obj_valid Circular (AObj (bput Radius 1 (bput Mass 80 (put_radii (1/2) (1/3) (2/3) body0))) default_row).
Proof.
  unfold obj_valid, rest_valid, default_row. cbn -[length_valid Z.leb].
  replace (length_valid _) with true.
  - cbn. do 12 (rdec; cbn). repeat split; lra.
  - unfold length_valid, isclose, vlength. cbn. rewrite !Rmult_0_l, Rplus_0_l, sqrt_0.
    rewrite Rminus_0_r, Rabs_R0. rdec. reflexivity.
Qed.

(** ** Values set explicitly *)
Definition drawn (f : bfield) : Prop := f = Radius \/ f = Mass \/ f = TargetVelocity.
Lemma observe_inertia_get f b : drawn f -> bget f (observe_inertia b) = bget f b.
Proof. intros [-> | [-> | ->]]; unfold observe_inertia; destruct b; cbn; destruct (_ && _); reflexivity. Qed.
Lemma observe_radius_get f g b : drawn f -> bget f (observe_radius g b) = bget f b.
Proof. intros [-> | [-> | ->]]; destruct b, g; cbn; try reflexivity; destruct (Rltb _ _); reflexivity. Qed.
Lemma bput_get f g v b : f <> g -> bget f (bput g v b) = bget f b.
Proof. intros N. destruct f, g; try congruence; destruct b; reflexivity. Qed.
Lemma put_draws_get f n b : bget f (put_draws n b) = bget f b.
Proof. now destruct b, f. Qed.
Lemma put_body_type_get f n b : bget f (put_body_type n b) = bget f b.
Proof. now destruct b, f. Qed.
Lemma assign_drawn_get f g v b : drawn f -> f <> g -> bget f (snd (assign_drawn g v b)) = bget f b.
Proof.
  intros D N. unfold assign_drawn. destruct (bvalid g v); [|reflexivity]. destruct (Reqb v (bget g b)); [reflexivity|].
  cbn [snd]. rewrite <- (bput_get f g v b N).
  destruct g; rewrite ?observe_inertia_get, ?observe_radius_get by exact D; reflexivity.
Qed.
Lemma observe_truncnorm_get zs f g m s b : drawn f -> bget f b <> 0 -> bget f (snd (observe_truncnorm zs g m s b)) = bget f b.
Proof.
  intros D N. unfold observe_truncnorm. destruct (Reqb_spec (bget g b) 0) as [E|_]; [|reflexivity].
  destruct (_ && _); [|reflexivity]. rewrite assign_drawn_get; auto using put_draws_get. congruence.
Qed.
Lemma assign_get zs f g v b : drawn f -> f <> g -> bget f b <> 0 -> bget f (snd (assign zs g v b)) = bget f b.
Proof.
  intros D N Z. unfold assign. destruct (bvalid g v); [|reflexivity]. destruct (Reqb v (bget g b)); [reflexivity|].
  rewrite <- (bput_get f g v b N) in Z |- *.
  destruct g; cbn [snd]; rewrite ?observe_truncnorm_get, ?observe_inertia_get, ?observe_radius_get by auto; reflexivity.
Qed.
Lemma assign_items_get zs f items : drawn f -> ~ In f (map fst items) -> forall b, bget f b <> 0 ->
  bget f (snd (assign_items zs items b)) = bget f b.
Proof.
  intros D. induction items as [|[g v] items IH]; intros N b Z; [reflexivity|]. cbn in N. cbn [assign_items].
  pose proof (assign_get zs f g v b D ltac:(intros ->; apply N; now left) Z) as E.
  destruct (assign zs g v b) as [[e|] b']; cbn [snd] in *; [exact E|]. rewrite IH; [exact E|tauto|congruence].
Qed.
Lemma bstep_get zs cfg f b o : drawn f -> leaves_alone cfg f o -> bget f b <> 0 -> bget f (snd (bstep zs cfg b o)) = bget f b.
Proof.
  intros D L Z. destruct o as [g v | name]; cbn in L |- *; [apply assign_get; auto|].
  unfold assign_body_type. destruct (String.eqb name (b_body_type b)); [reflexivity|].
  destruct (String.eqb (b_body_type b) ""); [|apply put_body_type_get].
  destruct (cfg name) as [items|]; [|apply put_body_type_get].
  rewrite assign_items_get; auto; rewrite put_body_type_get; auto.
Qed.
Lemma explicit_kept zs cfg f os : drawn f -> forall b, (forall o, In o os -> leaves_alone cfg f o) -> bget f b <> 0 ->
  bget f (brun zs cfg b os) = bget f b.
Proof.
  intros D. induction os as [|o os IH]; intros b L Z; [reflexivity|]. unfold brun. cbn [fold_left].
  pose proof (bstep_get zs cfg f b o D (L o (or_introl eq_refl)) Z) as E.
  rewrite <- E. apply (IH (snd (bstep zs cfg b o))); [intros; apply L; now right|congruence].
Qed.
Lemma shipped_leaves_alone f name : drawn f -> leaves_alone shipped_config f (SetBodyType name).
Proof.
  intros D. cbn. unfold shipped_config. destruct (find _ shipped) as [[n items]|] eqn:F; cbn [option_map snd]; [|exact I].
  apply find_some in F as [F _]. cbn in F.
  destruct D as [-> | [-> | ->]]; destruct F as [F | [F | [F | [F | [F | []]]]]]; injection F as _ <-; cbn; intuition discriminate.
Qed.

(** ** The inertia *)
Lemma observe_inertia_keep b : b_inertia_rot b <> 0 -> observe_inertia b = b.
Proof. intros N. unfold observe_inertia. destruct (Reqb_spec (b_inertia_rot b) 0); [easy|reflexivity]. Qed.
Lemma observe_radius_inertia g b : b_inertia_rot (observe_radius g b) = b_inertia_rot b.
Proof. destruct b, g; cbn; try reflexivity; destruct (Rltb _ _); reflexivity. Qed.
Lemma bput_inertia g v b : b_inertia_rot (bput g v b) = b_inertia_rot b.
Proof. now destruct b, g. Qed.
Lemma put_draws_inertia n b : b_inertia_rot (put_draws n b) = b_inertia_rot b.
Proof. now destruct b. Qed.
Lemma put_body_type_inertia n b : b_inertia_rot (put_body_type n b) = b_inertia_rot b.
Proof. now destruct b. Qed.
Lemma assign_drawn_inertia g v b : b_inertia_rot b <> 0 -> b_inertia_rot (snd (assign_drawn g v b)) = b_inertia_rot b.
Proof.
  intros N. unfold assign_drawn. destruct (bvalid g v); [|reflexivity]. destruct (Reqb v (bget g b)); [reflexivity|].
  cbn [snd]. destruct g; rewrite ?observe_inertia_keep; rewrite ?observe_radius_inertia; rewrite ?bput_inertia; auto.
Qed.
Lemma observe_truncnorm_inertia zs g m s b : b_inertia_rot b <> 0 -> b_inertia_rot (snd (observe_truncnorm zs g m s b)) = b_inertia_rot b.
Proof.
  intros N. unfold observe_truncnorm. destruct (_ && _); [|reflexivity].
  rewrite assign_drawn_inertia; rewrite put_draws_inertia; auto.
Qed.
Lemma assign_inertia zs g v b : b_inertia_rot b <> 0 -> b_inertia_rot (snd (assign zs g v b)) = b_inertia_rot b.
Proof.
  intros N. unfold assign. destruct (bvalid g v); [|reflexivity]. destruct (Reqb v (bget g b)); [reflexivity|].
  rewrite <- (bput_inertia g v b) in N |- *.
  destruct g; cbn [snd]; rewrite ?observe_truncnorm_inertia, ?observe_inertia_keep; rewrite ?observe_radius_inertia; auto.
Qed.
Lemma assign_items_inertia zs items : forall b, b_inertia_rot b <> 0 -> b_inertia_rot (snd (assign_items zs items b)) = b_inertia_rot b.
Proof.
  induction items as [|[g v] items IH]; intros b N; [reflexivity|]. cbn [assign_items].
  pose proof (assign_inertia zs g v b N) as E. destruct (assign zs g v b) as [[e|] b']; cbn [snd] in *; [exact E|]. rewrite IH; congruence.
Qed.
Lemma inertia_kept zs cfg os : forall b, b_inertia_rot b <> 0 -> b_inertia_rot (brun zs cfg b os) = b_inertia_rot b.
Proof.
  induction os as [|o os IH]; intros b N; [reflexivity|]. unfold brun. cbn [fold_left].
  assert (E : b_inertia_rot (snd (bstep zs cfg b o)) = b_inertia_rot b).
  { destruct o as [g v | name]; cbn; [now apply assign_inertia|].
    unfold assign_body_type. destruct (String.eqb name (b_body_type b)); [reflexivity|].
    destruct (String.eqb (b_body_type b) ""); [|apply put_body_type_inertia].
    destruct (cfg name) as [items|]; [|apply put_body_type_inertia].
    rewrite assign_items_inertia; rewrite put_body_type_inertia; auto. }
  rewrite <- E in N |- *. now apply IH.
Qed.

Lemma first_inertia zs cfg b v f : (f = Radius \/ f = Mass) -> b_inertia_rot b = 0 -> 0 < v -> v <> bget f b ->
  let b' := snd (bstep zs cfg b (SetField f v)) in
  0 < b_radius b' -> 0 < b_mass b' -> b_inertia_rot b' = 4 * PI * (b_mass b' / 80) * (b_radius b' / (27/100)) ^ 2.
Proof.
  intros F I V N b' R M. subst b'. cbn [bstep] in *. unfold assign in *.
  assert (B : bvalid f v = true) by (destruct F as [-> | ->]; unfold bvalid; rdec; reflexivity). rewrite B in *.
  destruct (Reqb_spec v (bget f b)); [easy|].
  assert (G : forall c, b_inertia_rot c = 0 -> 0 < b_radius (observe_inertia c) -> 0 < b_mass (observe_inertia c) ->
    b_inertia_rot (observe_inertia c) = 4 * PI * (b_mass (observe_inertia c) / 80) * (b_radius (observe_inertia c) / (27/100)) ^ 2).
  { intros c I1 R1 M1. unfold observe_inertia in *. rewrite I1 in *.
    destruct (Reqb_spec 0 0); [|easy]. cbn [andb] in *.
    destruct (Rltb_spec 0 (b_mass c)); destruct (Rltb_spec 0 (b_radius c)); cbn [andb] in *; try lra.
    destruct c. cbn. ring. }
  destruct F as [-> | ->]; apply G; auto; rewrite ?observe_radius_inertia, bput_inertia; exact I.
Qed.
Lemma stale_inertia zs cfg : let b := brun zs cfg body0 [SetField Mass 80; SetField Radius (27/100); SetField Mass 40] in
  0 < b_radius b /\ 0 < b_mass b /\ b_inertia_rot b <> 4 * PI * (b_mass b / 80) * (b_radius b / (27/100)) ^ 2.
Proof.
  pose proof PI_RGT_0 as P. unfold brun. cbn [fold_left].
  destruct (assign_mass_eff zs 80 body0 ltac:(lra)) as (b1 & E1 & M1 & R1 & _).
  assert (I1 : b_inertia_rot b1 = 0).
  { unfold assign, bvalid in E1. revert E1. cbn. rdec. cbn. rdec. unfold observe_inertia. cbn. rdec. cbn. rdec. cbn. rdec.
    intros E. injection E as <-. reflexivity. }
  destruct (assign_radius_eff zs (27/100) b1 ltac:(lra)) as (b2 & E2 & R2).
  assert (M2 : b_mass b2 = 80).
  { rewrite <- M1. change (bget Mass b2 = bget Mass b1). replace b2 with (snd (assign zs Radius (27/100) b1)) by now rewrite E2.
    apply assign_get; [right; now left|discriminate|]. cbn. lra. }
  assert (I2 : b_inertia_rot b2 = 4 * PI).
  { pose proof (first_inertia zs cfg b1 (27/100) Radius) as F. cbn [bstep] in F. rewrite E2 in F. cbn [snd] in F.
    rewrite F; auto; try lra. 2: cbn; rewrite R1; cbn; lra. rewrite M2, R2. field. }
  destruct (assign_mass_eff zs 40 b2 ltac:(lra)) as (b3 & E3 & M3 & R3 & _).
  cbn [bstep]. rewrite E1. cbn [snd]. rewrite E2. cbn [snd].
  pose proof (assign_inertia zs Mass 40 b2 ltac:(lra)) as I3. rewrite E3 in I3 |- *. cbn [snd] in *.
  rewrite I3, I2, M3, R3, R2. repeat split; try lra.
Qed.
