(** Time to collision and social forces. *)
From Coq Require Import Lra Lia Psatz.
From Coquelicot Require Import Coquelicot.
From Verif Require Export Proofs.Vector2DProofs Proofs.DistanceProofs Model.PowerLaw Spec.Collide.
Open Scope R_scope.

Lemma elen_lt p r : 0 <= r -> (elen p < r <-> inner p p < r * r).
Proof.
  intros Hr. rewrite elen_vlength. pose proof (vlength_nonneg p). pose proof (vlength_sq p). unfold inner. split; nra.
Qed.
Lemma elen_gt p r : 0 <= r -> (r < elen p <-> r * r < inner p p).
Proof.
  intros Hr. rewrite elen_vlength. pose proof (vlength_nonneg p). pose proof (vlength_sq p). unfold inner. split; nra.
Qed.
Lemma elen_is p r : 0 <= r -> (elen p = r <-> inner p p = r * r).
Proof.
  intros Hr. rewrite elen_vlength. pose proof (vlength_nonneg p). pose proof (vlength_sq p). unfold inner. split; nra.
Qed.

(** Squared distance minus squared radius along the motion. *)
Definition quad (a b c s : R) : R := a * (s * s) - 2 * b * s + c.
Lemma moved_quad x v r s : inner (moved x v s) (moved x v s) - r * r = quad (coeff_a v) (coeff_b x v) (coeff_c x r) s.
Proof. unfold quad, coeff_a, coeff_b, coeff_c, moved, inner, dot. cbn [vx vy]. ring. Qed.
Lemma first_contact_quad x v r tau : 0 <= r ->
  (first_contact x v r tau <->
   0 < tau /\ quad (coeff_a v) (coeff_b x v) (coeff_c x r) tau = 0 /\
   forall s, 0 <= s < tau -> 0 < quad (coeff_a v) (coeff_b x v) (coeff_c x r) s).
Proof.
  intros Hr. unfold first_contact. rewrite elen_is by auto. rewrite <- moved_quad. split; intros (H1 & H2 & H3).
  - split; auto. split; [lra|]. intros s Hs. specialize (H3 s Hs). rewrite elen_gt in H3 by auto.
    rewrite <- moved_quad. lra.
  - split; auto. split; [lra|]. intros s Hs. specialize (H3 s Hs). rewrite <- moved_quad in H3.
    apply elen_gt; auto. lra.
Qed.
Lemma moved_0 x v : moved x v 0 = x.
Proof. unfold moved. veq; ring. Qed.
Lemma course_quad x v r : 0 <= r ->
  (on_collision_course x v r <->
   0 < coeff_c x r /\ exists s, 0 < s /\ quad (coeff_a v) (coeff_b x v) (coeff_c x r) s < 0).
Proof.
  intros Hr. unfold on_collision_course. rewrite elen_gt by auto.
  assert (E : 0 < coeff_c x r <-> r * r < inner x x) by (unfold coeff_c, dot, inner; lra).
  split; intros (H1 & s & H2 & H3).
  - split; [now apply E|]. exists s. split; auto. rewrite <- moved_quad. rewrite elen_lt in H3 by auto. lra.
  - split; [now apply E|]. exists s. split; auto. rewrite elen_lt by auto. rewrite <- moved_quad in H3. lra.
Qed.

Lemma quad_factor a b c d s : a <> 0 -> d * d = b * b - a * c ->
  quad a b c s = a * ((s - (b - d) / a) * (s - (b + d) / a)).
Proof.
  intros Ha Hd. unfold quad. replace c with ((b * b - d * d) / a) by (rewrite Hd; field; auto). field. auto.
Qed.
Lemma coeff_a_nonneg v : 0 <= coeff_a v.
Proof. unfold coeff_a, dot. nra. Qed.
Lemma coeff_a_zero v : coeff_a v = 0 -> v = vzero.
Proof. unfold coeff_a, dot. intros. veq; nra. Qed.

(** What a defined, non-zero [d] and [tau > 0] mean. *)
Lemma roots_course a b c d : 0 < a -> 0 < d -> d * d = b * b - a * c -> 0 < (b - d) / a ->
  0 < c /\ (exists s, 0 < s /\ quad a b c s < 0) /\
  quad a b c ((b - d) / a) = 0 /\ forall s, 0 <= s < (b - d) / a -> 0 < quad a b c s.
Proof.
  intros Ha Hd E Ht.
  assert (Hlt : (b - d) / a < (b + d) / a) by (apply Rmult_lt_compat_r; [now apply Rinv_0_lt_compat|lra]).
  assert (Hpos : forall s, s < (b - d) / a -> 0 < quad a b c s).
  { intros s Hs. rewrite (quad_factor a b c d) by (auto; lra). apply Rmult_lt_0_compat; auto. nra. }
  split. { specialize (Hpos 0 Ht). unfold quad in Hpos. lra. }
  split.
  { exists (((b - d) / a + (b + d) / a) / 2). split; [lra|].
    rewrite (quad_factor a b c d) by (auto; lra).
    set (t1 := (b - d) / a) in *. set (t2 := (b + d) / a) in *. clearbody t1 t2.
    assert (0 < a * ((t2 - t1) * (t2 - t1))) by (apply Rmult_lt_0_compat; auto; nra). lra. }
  split. { rewrite (quad_factor a b c d) by (auto; lra). ring. }
  intros s Hs. apply Hpos. lra.
Qed.
(** Conversely. *)
Lemma course_roots a b c : 0 <= a -> 0 < c -> (a = 0 -> b = 0) -> (exists s, 0 < s /\ quad a b c s < 0) ->
  0 < a /\ 0 < b * b - a * c /\ 0 < (b - sqrt (b * b - a * c)) / a.
Proof.
  intros Ha Hc Hb (s & Hs & Hq).
  assert (Ha' : 0 < a).
  { destruct (Req_dec a 0) as [E|]; [|lra]. rewrite E, (Hb E) in Hq. unfold quad in Hq. lra. }
  assert (Hd : 0 < b * b - a * c).
  { unfold quad in Hq. pose proof (Rle_0_sqr (a * s - b)) as SQ. unfold Rsqr in SQ. nra. }
  split; auto. split; auto.
  set (d := sqrt (b * b - a * c)). assert (Hd0 : 0 < d) by (apply sqrt_lt_R0; auto).
  assert (Ed : d * d = b * b - a * c) by (apply sqrt_sqrt; lra).
  rewrite (quad_factor a b c d) in Hq by (auto; lra).
  assert (Hlt : (b - d) / a < (b + d) / a) by (apply Rmult_lt_compat_r; [now apply Rinv_0_lt_compat|lra]).
  assert (P : (b - d) / a * ((b + d) / a) = c / a) by (field_simplify_eq; [|lra]; lra || nra).
  assert (0 < c / a) by (apply Rmult_lt_0_compat; auto; now apply Rinv_0_lt_compat).
  set (t1 := (b - d) / a) in *. set (t2 := (b + d) / a) in *. clearbody t1 t2.
  assert ((s - t1) * (s - t2) < 0) by nra.
  assert (0 < t2) by nra. nra.
Qed.
(** Uniqueness of the first contact. *)
Lemma first_root_unique a b c d tau : 0 < a -> 0 < d -> d * d = b * b - a * c -> 0 < (b - d) / a ->
  0 < tau -> quad a b c tau = 0 -> (forall s, 0 <= s < tau -> 0 < quad a b c s) -> tau = (b - d) / a.
Proof.
  intros Ha Hd E Ht Htau Hq Hs.
  assert (Hlt : (b - d) / a < (b + d) / a) by (apply Rmult_lt_compat_r; [now apply Rinv_0_lt_compat|lra]).
  destruct (Rtotal_order tau ((b - d) / a)) as [H|[H|H]]; auto; exfalso.
  - destruct (roots_course a b c d) as (_ & _ & _ & K); auto. specialize (K tau). lra.
  - specialize (Hs ((b - d) / a)). rewrite (quad_factor a b c d) in Hs by (auto; lra). lra.
Qed.

(** ** C24 *)
Lemma coeff_b_zero x v : coeff_a v = 0 -> coeff_b x v = 0.
Proof. intros H. apply coeff_a_zero in H. subst. unfold coeff_b, dot. cbn. ring. Qed.
Definition qdisc (x v : vec) (r : R) : R := coeff_b x v * coeff_b x v - coeff_a v * coeff_c x r.
Lemma course_iff_roots x v r : 0 <= r ->
  (on_collision_course x v r <->
   0 < coeff_a v /\ 0 < qdisc x v r /\ 0 < (coeff_b x v - sqrt (qdisc x v r)) / coeff_a v).
Proof.
  intros Hr. rewrite course_quad by auto. split.
  - intros [Hc Hs]. apply course_roots; auto; [apply coeff_a_nonneg|apply coeff_b_zero].
  - intros (Ha & Hd & Ht).
    destruct (roots_course (coeff_a v) (coeff_b x v) (coeff_c x r) (sqrt (qdisc x v r))) as (A & B & _); auto.
    + now apply sqrt_lt_R0.
    + apply sqrt_sqrt. now apply Rlt_le.
Qed.
Lemma ttc_cases x v r : 0 <= r ->
  (on_collision_course x v r /\
   time_to_collision_circle_circle x v r =
     (Some ((coeff_b x v - sqrt (qdisc x v r)) / coeff_a v),
      gradient_circle_circle x v (coeff_a v) (coeff_b x v) (sqrt (qdisc x v r)))) \/
  (~ on_collision_course x v r /\ time_to_collision_circle_circle x v r = (None, vzero)).
Proof.
  intros Hr. unfold time_to_collision_circle_circle, coeff_d, np_sqrt. fold (qdisc x v r).
  rewrite course_iff_roots by auto. pose proof (coeff_a_nonneg v) as Ha.
  destruct (Rltb_spec (qdisc x v r) 0) as [H|H]. { right. split; [lra|reflexivity]. }
  destruct (Reqb_spec (sqrt (qdisc x v r)) 0) as [H1|H1].
  { right. split; [|reflexivity]. intros (_ & K & _). apply sqrt_lt_R0 in K. lra. }
  destruct (Reqb_spec (coeff_a v) 0) as [H2|H2]. { right. split; [lra|reflexivity]. }
  cbn [orb].
  assert (0 < qdisc x v r). { destruct (Req_dec (qdisc x v r) 0) as [E|]; [|lra]. rewrite E, sqrt_0 in H1. lra. }
  destruct (Rleb_spec ((coeff_b x v - sqrt (qdisc x v r)) / coeff_a v) 0) as [H3|H3].
  - right. split; [lra|reflexivity].
  - left. split; [lra|reflexivity].
Qed.
Lemma course_contact x v r tau : 0 <= r -> on_collision_course x v r ->
  (first_contact x v r tau <-> tau = (coeff_b x v - sqrt (qdisc x v r)) / coeff_a v).
Proof.
  intros Hr Hc. apply course_iff_roots in Hc as (Ha & Hd & Ht); auto.
  assert (D : 0 < sqrt (qdisc x v r)) by now apply sqrt_lt_R0.
  assert (DD : sqrt (qdisc x v r) * sqrt (qdisc x v r) = qdisc x v r) by (apply sqrt_sqrt; lra).
  rewrite first_contact_quad by auto. split.
  - intros (H1 & H2 & H3). eapply first_root_unique; eauto.
  - intros ->. destruct (roots_course (coeff_a v) (coeff_b x v) (coeff_c x r) (sqrt (qdisc x v r))) as (_ & _ & C & E); auto.
Qed.
Lemma ttc_some x v r tau : 0 <= r ->
  (fst (time_to_collision_circle_circle x v r) = Some tau <->
   on_collision_course x v r /\ first_contact x v r tau).
Proof.
  intros Hr. destruct (ttc_cases x v r Hr) as [[Hc E]|[Hc E]]; rewrite E; cbn [fst].
  - rewrite (course_contact x v r tau) by auto. split; [intros [= ->]; auto|now intros [_ ->]].
  - split; [discriminate|tauto].
Qed.
Lemma ttc_none x v r : 0 <= r ->
  (fst (time_to_collision_circle_circle x v r) = None <-> ~ on_collision_course x v r).
Proof.
  intros Hr. destruct (ttc_cases x v r Hr) as [[Hc E]|[Hc E]]; rewrite E; cbn [fst].
  - split; [discriminate|tauto].
  - tauto.
Qed.

(** ** The gradient *)
Lemma derivable_pt_lim_local f g x l eps : 0 < eps -> (forall h, Rabs h < eps -> f (x + h) = g (x + h)) ->
  derivable_pt_lim g x l -> derivable_pt_lim f x l.
Proof.
  intros He H D e Hpos. destruct (D e Hpos) as [delta K].
  assert (Hm : 0 < Rmin eps delta) by (apply Rmin_pos; auto; apply cond_pos).
  exists (mkposreal _ Hm). intros h Hh0 Hh. cbn in Hh.
  pose proof (Rmin_l eps delta). pose proof (Rmin_r eps delta).
  rewrite (H h) by lra. replace (f x) with (g x).
  - apply K; auto. lra.
  - specialize (H 0). rewrite Rplus_0_r in H. symmetry. apply H. rewrite Rabs_R0. lra.
Qed.

Lemma moved_coeff_b x u v s : coeff_b (moved x u s) v = coeff_b x v - s * dot u v.
Proof. unfold coeff_b, moved, dot. cbn [vx vy]. ring. Qed.
Lemma moved_disc x u v r s : qdisc (moved x u s) v r =
  (coeff_b x v - s * dot u v) * (coeff_b x v - s * dot u v) -
  coeff_a v * (coeff_c x r + 2 * s * dot x u + s * s * dot u u).
Proof. unfold qdisc. rewrite moved_coeff_b. f_equal. f_equal. unfold coeff_c, moved, dot. cbn [vx vy]. ring. Qed.

(** Derivative of the explicit contact time. *)
Lemma tau_derivative x u v r : 0 < coeff_a v -> 0 < qdisc x v r ->
  derivable_pt_lim (fun s => (coeff_b (moved x u s) v - sqrt (qdisc (moved x u s) v r)) / coeff_a v) 0
    (- dot (gradient_circle_circle x v (coeff_a v) (coeff_b x v) (sqrt (qdisc x v r))) u).
Proof.
  intros Ha Hd.
  apply is_derive_Reals.
  apply (is_derive_ext (fun s => (coeff_b x v - s * dot u v - sqrt ((coeff_b x v - s * dot u v) * (coeff_b x v - s * dot u v) -
    coeff_a v * (coeff_c x r + 2 * s * dot x u + s * s * dot u u))) / coeff_a v)).
  { intros s. rewrite moved_coeff_b, moved_disc. reflexivity. }
  set (a := coeff_a v) in *. set (b := coeff_b x v) in *. set (c := coeff_c x r) in *.
  assert (Hd' : 0 < b * b - a * c) by exact Hd.
  unfold qdisc. fold a b c. set (d := sqrt (b * b - a * c)).
  assert (D : 0 < d) by now apply sqrt_lt_R0.
  auto_derive.
  - match goal with |- 0 < ?e => replace e with (b * b - a * c) by ring end. auto.
  - match goal with |- context [sqrt ?e] => replace e with (b * b - a * c) by ring end.
    fold d. unfold gradient_circle_circle, vdiv, vsub, vadd, vscale, dot. cbn [vx vy].
    field. lra.
Qed.

(** First contact is the smaller root, without assuming its sign. *)
Lemma first_root_smaller a b c d tau : 0 < a -> 0 < d -> d * d = b * b - a * c ->
  0 < tau -> quad a b c tau = 0 -> (forall s, 0 <= s < tau -> 0 < quad a b c s) -> tau = (b - d) / a.
Proof.
  intros Ha Hd E Htau Hq Hs.
  assert (Hlt : (b - d) / a < (b + d) / a) by (apply Rmult_lt_compat_r; [now apply Rinv_0_lt_compat|lra]).
  pose proof (Hs 0) as H0. rewrite (quad_factor a b c d) in Hq by (auto; lra).
  rewrite (quad_factor a b c d) in H0 by (auto; lra).
  pose proof (Hs ((b - d) / a)) as H1. rewrite (quad_factor a b c d) in H1 by (auto; lra).
  set (t1 := (b - d) / a) in *. set (t2 := (b + d) / a) in *. clearbody t1 t2.
  apply Rmult_integral in Hq as [Hq|Hq]; [lra|]. apply Rmult_integral in Hq as [Hq|Hq]; [lra|].
  exfalso. assert (tau = t2) by lra. subst tau. specialize (H0 ltac:(lra)).
  destruct (Rlt_dec t1 0).
  - assert (a * ((0 - t1) * (0 - t2)) < 0); [|lra].
    assert (0 < a * ((0 - t1) * t2)) by (apply Rmult_lt_0_compat; auto; apply Rmult_lt_0_compat; lra). lra.
  - specialize (H1 ltac:(lra)). lra.
Qed.

Lemma disc_near x u v r : 0 < qdisc x v r -> exists eps, 0 < eps /\ forall s, Rabs s < eps -> 0 < qdisc (moved x u s) v r.
Proof.
  intros H. set (D0 := qdisc x v r) in *.
  set (p := - 2 * coeff_b x v * dot u v - 2 * coeff_a v * dot x u).
  set (q := dot u v * dot u v - coeff_a v * dot u u).
  assert (E : forall s, qdisc (moved x u s) v r = D0 + s * p + s * s * q).
  { intros s. rewrite moved_disc. unfold D0, qdisc, p, q. ring. }
  exists (Rmin 1 (D0 / (Rabs p + Rabs q + 1))).
  pose proof (Rabs_pos p) as Pp. pose proof (Rabs_pos q) as Pq.
  assert (Hm : 0 < D0 / (Rabs p + Rabs q + 1)) by (apply Rdiv_lt_0_compat; lra).
  split; [apply Rmin_pos; lra|]. intros s Hs.
  pose proof (Rmin_l 1 (D0 / (Rabs p + Rabs q + 1))). pose proof (Rmin_r 1 (D0 / (Rabs p + Rabs q + 1))).
  rewrite E. pose proof (Rabs_pos s) as Ps.
  assert (B : Rabs s * (Rabs p + Rabs q + 1) < D0).
  { apply Rlt_le_trans with (D0 / (Rabs p + Rabs q + 1) * (Rabs p + Rabs q + 1)).
    - apply Rmult_lt_compat_r; lra.
    - right. field. lra. }
  assert (S1 : - (Rabs s * Rabs p) <= s * p).
  { rewrite <- Rabs_mult. pose proof (Rle_abs (- (s * p))) as K. rewrite Rabs_Ropp in K. lra. }
  assert (S2 : - (Rabs s * Rabs q) <= s * s * q).
  { assert (Rabs (s * s * q) <= Rabs s * Rabs q).
    { rewrite !Rabs_mult. apply Rmult_le_compat_r; auto. assert (Rabs s <= 1) by lra. nra. }
    pose proof (Rle_abs (- (s * s * q))) as K. rewrite Rabs_Ropp in K. lra. }
  nra.
Qed.

Lemma contact_time_local x u v r T : 0 <= r -> on_collision_course x v r -> contact_time_along x u v r T ->
  exists eps, 0 < eps /\ forall s, Rabs s < eps ->
    T s = (coeff_b (moved x u s) v - sqrt (qdisc (moved x u s) v r)) / coeff_a v.
Proof.
  intros Hr Hc (e1 & He1 & HT). apply course_iff_roots in Hc as (Ha & Hd & _); auto.
  destruct (disc_near x u v r Hd) as (e2 & He2 & HD).
  exists (Rmin e1 e2). split; [now apply Rmin_pos|]. intros s Hs.
  pose proof (Rmin_l e1 e2). pose proof (Rmin_r e1 e2).
  specialize (HT s ltac:(lra)). specialize (HD s ltac:(lra)).
  apply first_contact_quad in HT as (T1 & T2 & T3); auto.
  eapply first_root_smaller; eauto.
  - now apply sqrt_lt_R0.
  - apply sqrt_sqrt. now apply Rlt_le.
Qed.
Lemma contact_time_derivative x u v r T : 0 <= r -> on_collision_course x v r -> contact_time_along x u v r T ->
  derivable_pt_lim T 0 (- inner (snd (time_to_collision_circle_circle x v r)) u).
Proof.
  intros Hr Hc HT. destruct (contact_time_local x u v r T) as (eps & He & H); auto.
  destruct (ttc_cases x v r Hr) as [[_ E]|[K _]]; [|contradiction]. rewrite E. cbn [snd].
  apply course_iff_roots in Hc as (Ha & Hd & _); auto.
  eapply derivable_pt_lim_local; [exact He| |apply tau_derivative; auto].
  intros h Hh. rewrite Rplus_0_l. now apply H.
Qed.
Lemma contact_time_at_0 x u v r T : 0 <= r -> on_collision_course x v r -> contact_time_along x u v r T ->
  fst (time_to_collision_circle_circle x v r) = Some (T 0).
Proof.
  intros Hr Hc (eps & He & H). apply ttc_some; auto. split; auto.
  specialize (H 0). rewrite Rabs_R0, moved_0 in H. auto.
Qed.

(** Derivative of the energy. *)
Lemma energy_derivative m k tau_0 tau mag : 0 < tau -> magnitude tau tau_0 = Ok mag ->
  derivable_pt_lim (interaction_energy m k tau_0) tau (- m * k * mag).
Proof.
  intros Ht Hm. unfold magnitude in Hm. destruct (Reqb_spec tau_0 0) as [|Hn]; [discriminate|].
  injection Hm as <-. apply is_derive_Reals. unfold interaction_energy. auto_derive.
  - nra.
  - unfold Rdiv. field. lra.
Qed.
Lemma energy_along m k tau_0 x u v r T mag : 0 <= r -> on_collision_course x v r -> contact_time_along x u v r T ->
  magnitude (T 0) tau_0 = Ok mag ->
  derivable_pt_lim (fun s => interaction_energy m k tau_0 (T s)) 0
    (- inner (vscale mag (vscale (- m * k) (snd (time_to_collision_circle_circle x v r)))) u).
Proof.
  intros Hr Hc HT Hm.
  pose proof (contact_time_derivative x u v r T Hr Hc HT) as D1.
  assert (Ht : 0 < T 0).
  { destruct HT as (eps & He & H). specialize (H 0). rewrite Rabs_R0 in H. destruct (H He); auto. }
  pose proof (energy_derivative m k tau_0 (T 0) mag Ht Hm) as D2.
  pose proof (derivable_pt_lim_comp T (interaction_energy m k tau_0) 0 _ _ D1 D2) as D.
  unfold comp in D. replace (- inner _ _) with (- m * k * mag * - inner (snd (time_to_collision_circle_circle x v r)) u); auto.
  unfold inner, vscale. cbn [vx vy]. ring.
Qed.

(** ** C25 *)
Definition rel_x (ai aj : agent) : vec := vsub (a_position ai) (a_position aj).
Definition rel_v (ai aj : agent) : vec := vsub (a_velocity ai) (a_velocity aj).
Definition rel_r (ai aj : agent) : R := a_radius ai + a_radius aj.
Lemma fsc_cases ai aj : 0 <= rel_r ai aj ->
  let x := rel_x ai aj in let v := rel_v ai aj in let r := rel_r ai aj in
  (on_collision_course x v r /\ exists tau grad,
     time_to_collision_circle_circle x v r = (Some tau, grad) /\
     force_social_circular ai aj = if Rltb 30 tau then Ok (vzero, vzero) else social_forces ai aj grad tau) \/
  (~ on_collision_course x v r /\ force_social_circular ai aj = Ok (vzero, vzero)).
Proof.
  intros Hr x v r. unfold force_social_circular. fold (rel_x ai aj) (rel_v ai aj) (rel_r ai aj). fold x v r.
  change (Reqb (coeff_a v) 0) with (Reqb (coeff_a v) 0).
  destruct (ttc_cases x v r Hr) as [[Hc E]|[Hc E]].
  - left. split; auto. do 2 eexists. split; [exact E|].
    apply course_iff_roots in Hc as (Ha & Hd & Ht); auto.
    unfold coeff_d, np_sqrt. fold (qdisc x v r). rdec.
    pose proof (sqrt_lt_R0 _ Hd). rdec. cbn [orb]. rdec. cbn [orb]. reflexivity.
  - right. split; auto. unfold time_to_collision_circle_circle in E.
    destruct (coeff_d x v r) as [d|]; auto.
    destruct (Reqb d 0 || Reqb (coeff_a v) 0); auto.
    destruct (Rleb _ 0); [auto|discriminate].
Qed.
Lemma social_cap ai aj grad tau fi fj : social_forces ai aj grad tau = Ok (fi, fj) ->
  elen fi <= 2000 /\ elen fj <= 2000.
Proof.
  unfold social_forces. destruct (magnitude tau (a_tau_0 ai)) as [mi|]; [|discriminate].
  destruct (magnitude tau (a_tau_0 aj)) as [mj|]; [|discriminate]. cbn [rbind].
  intros [= <- <-]. rewrite !elen_vlength. unfold F_SOC_MAX. split; apply truncate_bound; lra.
Qed.
Lemma zero_cap : elen vzero <= 2000.
Proof. rewrite elen_vlength. rewrite (proj2 (vlength_zero vzero)); lra || auto. Qed.
Lemma fsc_cap ai aj fi fj : 0 <= a_radius ai -> 0 <= a_radius aj -> force_social_circular ai aj = Ok (fi, fj) ->
  elen fi <= 2000 /\ elen fj <= 2000.
Proof.
  intros H1 H2. destruct (fsc_cases ai aj) as [(_ & tau & grad & _ & E)|(_ & E)]; [unfold rel_r; lra| |]; rewrite E.
  - destruct (Rltb 30 tau).
    + intros [= <- <-]. split; apply zero_cap.
    + apply social_cap.
  - intros [= <- <-]. split; apply zero_cap.
Qed.
Lemma vlength_opp v w : v = vneg w -> vlength v = vlength w.
Proof. intros ->. apply vlength_neg. Qed.
Lemma truncate_neg v l : truncate (vneg v) l = vneg (truncate v l).
Proof. unfold truncate. rewrite vlength_neg. destruct (Rltb l (vlength v)); auto. veq; ring. Qed.
Lemma social_opposite ai aj grad tau fi fj :
  a_mass ai = a_mass aj -> a_k_soc ai = a_k_soc aj -> a_tau_0 ai = a_tau_0 aj ->
  social_forces ai aj grad tau = Ok (fi, fj) -> fj = vneg fi.
Proof.
  intros H1 H2 H3. unfold social_forces. rewrite H1, H2, H3.
  destruct (magnitude tau (a_tau_0 aj)) as [mj|]; [|discriminate]. cbn [rbind].
  intros [= <- <-]. rewrite <- truncate_neg. f_equal. veq; ring.
Qed.
Lemma vneg_zero : vneg vzero = vzero. Proof. veq; ring. Qed.
Lemma fsc_opposite ai aj fi fj : 0 <= a_radius ai -> 0 <= a_radius aj ->
  a_mass ai = a_mass aj -> a_k_soc ai = a_k_soc aj -> a_tau_0 ai = a_tau_0 aj ->
  force_social_circular ai aj = Ok (fi, fj) -> fj = vneg fi.
Proof.
  intros R1 R2 H1 H2 H3. destruct (fsc_cases ai aj) as [(_ & tau & grad & _ & E)|(_ & E)]; [unfold rel_r; lra| |]; rewrite E.
  - destruct (Rltb 30 tau).
    + intros [= <- <-]. now rewrite vneg_zero.
    + now apply social_opposite.
  - intros [= <- <-]. now rewrite vneg_zero.
Qed.
Lemma fsc_zero ai aj : 0 <= a_radius ai -> 0 <= a_radius aj ->
  (forall tau, first_contact (rel_x ai aj) (rel_v ai aj) (rel_r ai aj) tau -> 30 < tau) ->
  force_social_circular ai aj = Ok (vzero, vzero).
Proof.
  intros R1 R2 H. destruct (fsc_cases ai aj) as [(Hc & tau & grad & Et & E)|(_ & E)]; [unfold rel_r; lra| |]; rewrite E; auto.
  assert (K : 30 < tau).
  { apply H. apply (ttc_some _ _ _ tau); [unfold rel_r; lra|]. now rewrite Et. }
  rdec. reflexivity.
Qed.
(** When the function returns at all. *)
Lemma fsc_defined ai aj : a_tau_0 ai <> 0 -> a_tau_0 aj <> 0 -> 0 <= rel_r ai aj -> exists f, force_social_circular ai aj = Ok f.
Proof.
  intros H1 H2 Hr. destruct (fsc_cases ai aj Hr) as [(Hc & tau & grad & Et & E)|(_ & E)]; rewrite E; eauto.
  destruct (Rltb 30 tau); eauto. unfold social_forces, magnitude.
  rewrite (proj2 (Reqb_false _ _) H1), (proj2 (Reqb_false _ _) H2). cbn [rbind]. eauto.
Qed.
Lemma truncate_below v l : elen (truncate v l) < l -> truncate v l = v.
Proof.
  rewrite elen_vlength. intros H. destruct (Rle_dec (vlength v) l) as [K|K].
  - now apply truncate_le.
  - pose proof (vlength_nonneg (truncate v l)). rewrite truncate_gt in H; lra.
Qed.
Lemma fsc_gradient ai aj fi fj u T : 0 <= a_radius ai -> 0 <= a_radius aj ->
  let x := rel_x ai aj in let v := rel_v ai aj in let r := rel_r ai aj in
  force_social_circular ai aj = Ok (fi, fj) ->
  on_collision_course x v r -> contact_time_along x u v r T -> T 0 <= 30 ->
  (elen fi < 2000 ->
   derivable_pt_lim (fun s => interaction_energy (a_mass ai) (a_k_soc ai) (a_tau_0 ai) (T s)) 0 (- inner fi u)) /\
  (elen fj < 2000 ->
   derivable_pt_lim (fun s => interaction_energy (a_mass aj) (a_k_soc aj) (a_tau_0 aj) (T s)) 0 (inner fj u)).
Proof.
  intros R1 R2 x v r E Hc HT H30.
  assert (Hr : 0 <= rel_r ai aj) by (unfold rel_r; lra).
  destruct (fsc_cases ai aj Hr) as [(_ & tau & grad & Et & E')|(K & _)]; [|contradiction].
  assert (tau = T 0).
  { pose proof (contact_time_at_0 x u v r T Hr Hc HT) as K. fold x v r in Et. rewrite Et in K. cbn in K. congruence. }
  subst tau. rewrite E in E'. revert E'. rdec. intros E'. unfold social_forces in E'.
  destruct (magnitude (T 0) (a_tau_0 ai)) as [mi|] eqn:Mi; [|discriminate].
  destruct (magnitude (T 0) (a_tau_0 aj)) as [mj|] eqn:Mj; [|discriminate]. cbn [rbind] in E'.
  injection E' as -> ->. unfold F_SOC_MAX. split; intros Hcap; apply truncate_below in Hcap; rewrite Hcap.
  - pose proof (energy_along (a_mass ai) (a_k_soc ai) (a_tau_0 ai) x u v r T mi Hr Hc HT Mi) as D.
    fold x v r in Et. rewrite Et in D. cbn [snd] in D.
    replace (- inner _ u) with (- inner (vscale mi (vscale (- a_mass ai * a_k_soc ai) grad)) u); auto.
    unfold inner; vunfold; ring.
  - pose proof (energy_along (a_mass aj) (a_k_soc aj) (a_tau_0 aj) x u v r T mj Hr Hc HT Mj) as D.
    fold x v r in Et. rewrite Et in D. cbn [snd] in D.
    replace (inner _ u) with (- inner (vscale mj (vscale (- a_mass aj * a_k_soc aj) grad)) u); auto.
    unfold inner; vunfold; ring.
Qed.

(** Swapping the agents swaps the forces. *)
Lemma magnitude_neg_grad m k mag g : vscale mag (vscale (- m * k) (vneg g)) = vneg (vscale mag (vscale (- m * k) g)).
Proof. veq; ring. Qed.
Lemma social_swap ai aj grad tau :
  social_forces aj ai (vneg grad) tau =
  match magnitude tau (a_tau_0 ai), magnitude tau (a_tau_0 aj) with
  | Ok _, Ok _ => do p <- social_forces ai aj grad tau; Ok (snd p, fst p)
  | _, _ => Err ZeroDivisionError
  end.
Proof.
  unfold social_forces, magnitude. destruct (Reqb (a_tau_0 ai) 0), (Reqb (a_tau_0 aj) 0); cbn [rbind]; auto.
  cbn [fst snd]. f_equal. f_equal; f_equal; veq; ring.
Qed.
Lemma social_err ai aj grad tau e : social_forces ai aj grad tau = Err e -> e = ZeroDivisionError.
Proof.
  unfold social_forces, magnitude. destruct (Reqb (a_tau_0 ai) 0), (Reqb (a_tau_0 aj) 0); cbn [rbind]; congruence.
Qed.
Definition swap_res (x : res (vec * vec)) : res (vec * vec) := do p <- x; Ok (snd p, fst p).
Lemma social_swap' ai aj grad tau : social_forces aj ai (vneg grad) tau = swap_res (social_forces ai aj grad tau).
Proof.
  rewrite social_swap. unfold swap_res, social_forces, magnitude.
  destruct (Reqb (a_tau_0 ai) 0), (Reqb (a_tau_0 aj) 0); cbn [rbind]; auto.
Qed.
Lemma grad_neg x v a b d : gradient_circle_circle (vneg x) (vneg v) a b d = vneg (gradient_circle_circle x v a b d).
Proof. unfold gradient_circle_circle. veq; unfold Rdiv; ring. Qed.
Lemma coeff_swap x v r : coeff_a (vneg v) = coeff_a v /\ coeff_b (vneg x) (vneg v) = coeff_b x v /\
  coeff_d (vneg x) (vneg v) r = coeff_d x v r.
Proof.
  assert (A : coeff_a (vneg v) = coeff_a v) by (unfold coeff_a, dot; cbn [vneg vx vy]; ring).
  assert (B : coeff_b (vneg x) (vneg v) = coeff_b x v) by (unfold coeff_b, dot; cbn [vneg vx vy]; ring).
  split; auto. split; auto. unfold coeff_d. rewrite A, B. f_equal. f_equal. f_equal.
  unfold coeff_c, dot; cbn [vneg vx vy]; ring.
Qed.
Lemma fsc_swap ai aj : force_social_circular aj ai = swap_res (force_social_circular ai aj).
Proof.
  unfold force_social_circular. fold (rel_x ai aj) (rel_v ai aj) (rel_r ai aj).
  replace (vsub (a_position aj) (a_position ai)) with (vneg (rel_x ai aj)) by (unfold rel_x; veq; ring).
  replace (vsub (a_velocity aj) (a_velocity ai)) with (vneg (rel_v ai aj)) by (unfold rel_v; veq; ring).
  replace (a_radius aj + a_radius ai) with (rel_r ai aj) by (unfold rel_r; ring).
  destruct (coeff_swap (rel_x ai aj) (rel_v ai aj) (rel_r ai aj)) as (A & B & C). rewrite A, B. rewrite C.
  destruct (coeff_d (rel_x ai aj) (rel_v ai aj) (rel_r ai aj)) as [d|]; [|reflexivity].
  destruct (Reqb d 0 || _); [reflexivity|]. destruct (Rleb _ 0 || _); [reflexivity|].
  rewrite grad_neg. apply social_swap'.
Qed.
