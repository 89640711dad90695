(** Social force of three-circle agents. *)
From Coq Require Import Lra Lia Psatz.
From Verif Require Export Proofs.PowerLawProofs Proofs.OverlapProofs.
Open Scope R_scope.

(** Relative position and total radius of a pair of circles. *)
Definition pair_x (p : circle * circle) : vec := vsub (fst (fst p)) (fst (snd p)).
Definition pair_r (p : circle * circle) : R := snd (fst p) + snd (snd p).
(** All pairs of circles in the order of the loops. *)
Definition circle_pairs (ai aj : agent) : list (circle * circle) :=
  list_prod (body ThreeCircle ai) (body ThreeCircle aj).
Definition pair_at (ai aj : agent) (ij : nat * nat) : circle * circle :=
  ((tget (xs_of ai) (fst ij), tget (rs_of ai) (fst ij)), (tget (xs_of aj) (snd ij), tget (rs_of aj) (snd ij))).
Lemma circle_pairs_at ai aj : circle_pairs ai aj = map (pair_at ai aj) idx33.
Proof. reflexivity. Qed.

Lemma cross_disc x v r : 0 < coeff_a v -> 0 <= r -> (paths_cross x v r <-> 0 < qdisc x v r).
Proof.
  intros Ha Hr. unfold paths_cross, qdisc.
  set (a := coeff_a v) in *. set (b := coeff_b x v). set (c := coeff_c x r).
  assert (E : forall s, elen (moved x v s) < r <-> quad a b c s < 0).
  { intros s. rewrite elen_lt by auto. unfold a, b, c. rewrite <- moved_quad. lra. }
  split.
  - intros (s & Hs). apply E in Hs. unfold quad in Hs.
    pose proof (Rle_0_sqr (a * s - b)) as SQ. unfold Rsqr in SQ. nra.
  - intros H. exists (b / a). apply E. unfold quad.
    replace (a * (b / a * (b / a)) - 2 * b * (b / a) + c) with (- ((b * b - a * c) / a)) by (field; lra).
    assert (0 < (b * b - a * c) / a) by (apply Rdiv_lt_0_compat; auto). lra.
Qed.

Section Scan.
  Variables ai aj : agent.
  Hypothesis radii : forall c, In c (body ThreeCircle ai ++ body ThreeCircle aj) -> 0 <= snd c.
  Let v := rel_v ai aj.
  Hypothesis moving : 0 < coeff_a v.
  Let step := tscan_step (xs_of ai) (rs_of ai) (xs_of aj) (rs_of aj) v.
  Let px ij := pair_x (pair_at ai aj ij).
  Let pr ij := pair_r (pair_at ai aj ij).
  Let tau_of ij := (coeff_b (px ij) v - sqrt (qdisc (px ij) v (pr ij))) / coeff_a v.

  Lemma pr_nonneg ij : 0 <= pr ij.
  Proof.
    assert (forall k, 0 <= tget (rs_of ai) k).
    { intros [|[|k]]; cbn; [apply (radii (a_position ai, a_r_t ai))|apply (radii (a_position_ls ai, a_r_s ai))|
        apply (radii (a_position_rs ai, a_r_s ai))]; apply in_or_app; left; cbn; auto. }
    assert (forall k, 0 <= tget (rs_of aj) k).
    { intros [|[|k]]; cbn; [apply (radii (a_position aj, a_r_t aj))|apply (radii (a_position_ls aj, a_r_s aj))|
        apply (radii (a_position_rs aj, a_r_s aj))]; apply in_or_app; right; cbn; auto. }
    unfold pr, pair_r, pair_at. cbn [fst snd]. pose proof (H (fst ij)). pose proof (H0 (snd ij)). lra.
  Qed.
  Lemma step_no s ij : ~ paths_cross (px ij) v (pr ij) -> step s ij = s.
  Proof.
    intros H. rewrite cross_disc in H by (auto; apply pr_nonneg). unfold step, tscan_step. destruct ij as [i j].
    change (vsub (tget (xs_of ai) i) (tget (xs_of aj) j)) with (px (i, j)).
    change (tget (rs_of ai) i + tget (rs_of aj) j) with (pr (i, j)).
    unfold coeff_d. fold (qdisc (px (i,j)) v (pr (i,j))). unfold np_sqrt.
    destruct (Rltb_spec (qdisc (px (i,j)) v (pr (i,j))) 0); auto.
    replace (qdisc (px (i,j)) v (pr (i,j))) with 0 by lra. rewrite sqrt_0. rdec. reflexivity.
  Qed.
  Lemma step_yes s ij : paths_cross (px ij) v (pr ij) ->
    step s ij =
      if match ts_best s with None => true | Some (tau, _, _) => Rltb 0 (tau_of ij) && Rltb (tau_of ij) tau end
      then TScan (fst ij) (snd ij) (Some (tau_of ij, coeff_b (px ij) v, sqrt (qdisc (px ij) v (pr ij)))) else s.
  Proof.
    intros H. apply cross_disc in H; auto using pr_nonneg. unfold step, tscan_step. destruct ij as [i j].
    change (vsub (tget (xs_of ai) i) (tget (xs_of aj) j)) with (px (i, j)).
    change (tget (rs_of ai) i + tget (rs_of aj) j) with (pr (i, j)).
    unfold coeff_d. fold (qdisc (px (i,j)) v (pr (i,j))). unfold np_sqrt.
    pose proof (sqrt_lt_R0 _ H). rdec. reflexivity.
  Qed.
  Lemma course_tau ij : on_collision_course (px ij) v (pr ij) <-> paths_cross (px ij) v (pr ij) /\ 0 < tau_of ij.
  Proof. rewrite course_iff_roots, cross_disc by (auto; apply pr_nonneg). unfold tau_of. tauto. Qed.
  Lemma contact_tau ij t : on_collision_course (px ij) v (pr ij) -> (first_contact (px ij) v (pr ij) t <-> t = tau_of ij).
  Proof. intros H. apply course_contact; auto. apply pr_nonneg. Qed.

  Lemma scan_none l s : Forall (fun ij => ~ paths_cross (px ij) v (pr ij)) l -> fold_left step l s = s.
  Proof. induction 1 in s |- *; cbn; auto. now rewrite step_no. Qed.

  (** Best so far, once it is positive. *)
  Definition best_in (l : list (nat * nat)) (s : tscan) : Prop :=
    exists ij, In ij l /\ on_collision_course (px ij) v (pr ij) /\
      s = TScan (fst ij) (snd ij) (Some (tau_of ij, coeff_b (px ij) v, sqrt (qdisc (px ij) v (pr ij)))) /\
      forall kl, In kl l -> on_collision_course (px kl) v (pr kl) -> tau_of ij <= tau_of kl.
  Lemma scan_best l : forall l0 s, best_in l0 s -> best_in (l0 ++ l) (fold_left step l s).
  Proof.
    induction l as [|kl l IH]; intros l0 s (ij & Hin & Hc & -> & Hmin); cbn [fold_left].
    - rewrite app_nil_r. exists ij. auto.
    - replace (l0 ++ kl :: l) with ((l0 ++ [kl]) ++ l) by now rewrite <- app_assoc. apply IH.
      destruct (Classical_Prop.classic (paths_cross (px kl) v (pr kl))) as [K|K].
      + rewrite step_yes by auto. cbn [ts_best].
        destruct (Rltb_spec 0 (tau_of kl)); cbn [andb]; [destruct (Rltb_spec (tau_of kl) (tau_of ij))|].
        * exists kl. split; [apply in_or_app; right; now left|]. split; [now apply course_tau|]. split; [reflexivity|].
          intros mn Hm Hcm. apply in_app_or in Hm as [Hm|[<-|[]]]; [|lra]. specialize (Hmin mn Hm Hcm). lra.
        * exists ij. split; [apply in_or_app; now left|]. split; auto. split; auto.
          intros mn Hm Hcm. apply in_app_or in Hm as [Hm|[<-|[]]]; auto.
        * exists ij. split; [apply in_or_app; now left|]. split; auto. split; auto.
          intros mn Hm Hcm. apply in_app_or in Hm as [Hm|[<-|[]]]; auto. apply course_tau in Hcm. lra.
      + rewrite step_no by auto. exists ij. split; [apply in_or_app; now left|]. split; auto. split; auto.
        intros mn Hm Hcm. apply in_app_or in Hm as [Hm|[<-|[]]]; auto. apply course_tau in Hcm. tauto.
  Qed.
  Lemma scan_blocked l s tau b d : ts_best s = Some (tau, b, d) -> tau <= 0 -> fold_left step l s = s.
  Proof.
    intros E Ht. induction l as [|kl l IH]; cbn [fold_left]; auto.
    destruct (Classical_Prop.classic (paths_cross (px kl) v (pr kl))) as [K|K].
    - rewrite step_yes by auto. rewrite E.
      replace (Rltb 0 (tau_of kl) && Rltb (tau_of kl) tau) with false; auto.
      destruct (Rltb_spec 0 (tau_of kl)); auto. symmetry. apply Rltb_false. lra.
    - rewrite step_no by auto. auto.
  Qed.
  Lemma course_cross x r : on_collision_course x v r -> paths_cross x v r.
  Proof. intros (_ & s & _ & H). now exists s. Qed.

  Lemma three_scan_good l1 p l2 : idx33 = l1 ++ p :: l2 ->
    Forall (fun ij => ~ paths_cross (px ij) v (pr ij)) l1 -> on_collision_course (px p) v (pr p) ->
    best_in idx33 (three_circle_scan ai aj).
  Proof.
    intros E H1 Hp. unfold three_circle_scan. fold (rel_v ai aj). fold v step. rewrite E, fold_left_app. cbn [fold_left].
    rewrite (scan_none l1) by auto. rewrite step_yes by now apply course_cross. cbn [ts_best].
    replace (l1 ++ p :: l2) with ((l1 ++ [p]) ++ l2) by now rewrite <- app_assoc. apply scan_best.
    exists p. split; [apply in_or_app; right; now left|]. split; auto. split; auto.
    intros mn Hm Hcm. apply in_app_or in Hm as [Hm|[<-|[]]]; [|lra].
    rewrite Forall_forall in H1. apply H1 in Hm. apply course_cross in Hcm. tauto.
  Qed.
  Lemma three_scan_blocked l1 p l2 : idx33 = l1 ++ p :: l2 ->
    Forall (fun ij => ~ paths_cross (px ij) v (pr ij)) l1 ->
    paths_cross (px p) v (pr p) -> ~ on_collision_course (px p) v (pr p) ->
    exists tau b d, ts_best (three_circle_scan ai aj) = Some (tau, b, d) /\ tau <= 0.
  Proof.
    intros E H1 Hp Hn. unfold three_circle_scan. fold (rel_v ai aj). fold v step. rewrite E, fold_left_app. cbn [fold_left].
    rewrite (scan_none l1) by auto. rewrite step_yes by auto. cbn [ts_best].
    assert (tau_of p <= 0). { rewrite course_tau in Hn. destruct (Rle_dec (tau_of p) 0); auto. exfalso. apply Hn. split; auto. lra. }
    erewrite scan_blocked; [|reflexivity|auto]. cbn [ts_best]. eauto.
  Qed.
End Scan.

Lemma map_split {A B} (f : A -> B) l : forall l1 p l2, map f l = l1 ++ p :: l2 ->
  exists k1 q k2, l = k1 ++ q :: k2 /\ l1 = map f k1 /\ p = f q /\ l2 = map f k2.
Proof.
  intros l1 p l2 E. apply map_eq_app in E as (k1 & k' & -> & E1 & E2).
  destruct k' as [|q k2]; [discriminate|]. injection E2 as E2 E3. now exists k1, q, k2.
Qed.
Lemma moving_pos ai aj : rel_v ai aj <> vzero -> 0 < coeff_a (rel_v ai aj).
Proof.
  intros H. pose proof (coeff_a_nonneg (rel_v ai aj)) as [K|K]; auto. symmetry in K. now apply coeff_a_zero in K.
Qed.

Definition agent_radii_ok (a : agent) : Prop := 0 <= a_r_t a /\ 0 <= a_r_s a.
Lemma radii_ok_in ai aj : agent_radii_ok ai -> agent_radii_ok aj ->
  forall c, In c (body ThreeCircle ai ++ body ThreeCircle aj) -> 0 <= snd c.
Proof.
  unfold agent_radii_ok. intros H1 H2 c H. cbn in H. destruct H as [<-|[<-|[<-|[<-|[<-|[<-|[]]]]]]]; cbn; lra.
Qed.

(** The direction of the force: the gradient for the pair in contact plus a term
    for the displacement of the contact from the torsos. *)
Definition three_gradient (ai aj : agent) (q : circle * circle) (tau : R) : vec :=
  vadd (snd (time_to_collision_circle_circle (pair_x q) (rel_v ai aj) (pair_r q)))
       (vscale (3 / - inner (moved (pair_x q) (rel_v ai aj) tau) (rel_v ai aj)) (vsub (pair_x q) (rel_x ai aj))).
Lemma part_offset_eq a i : shoulders_in_place a -> part_offset i a = vsub (a_position a) (tget (xs_of a) i) \/ (2 < i)%nat.
Proof.
  intros (H1 & H2). apply vec_eq_inv in H1, H2. destruct H1 as [H1 H1'], H2 as [H2 H2']. cbn in H1, H1', H2, H2'.
  destruct i as [|[|[|i]]]; [left|left|left|right; lia]; unfold part_offset; cbn [tget xs_of]; veq; cbn; lra.
Qed.
Lemma three_grad_eq ai aj mn : (forall c, In c (body ThreeCircle ai ++ body ThreeCircle aj) -> 0 <= snd c) ->
  0 < coeff_a (rel_v ai aj) -> In mn idx33 -> shoulders_in_place ai -> shoulders_in_place aj ->
  let q := pair_at ai aj mn in
  on_collision_course (pair_x q) (rel_v ai aj) (pair_r q) ->
  gradient_three_circle (vsub (a_position ai) (a_position aj)) (rel_v ai aj)
    (vsub (part_offset (fst mn) ai) (part_offset (snd mn) aj)) (coeff_a (rel_v ai aj)) (coeff_b (pair_x q) (rel_v ai aj))
    (sqrt (qdisc (pair_x q) (rel_v ai aj) (pair_r q))) =
  three_gradient ai aj q ((coeff_b (pair_x q) (rel_v ai aj) - sqrt (qdisc (pair_x q) (rel_v ai aj) (pair_r q))) / coeff_a (rel_v ai aj)).
Proof.
  intros HR Ha Hin P1 P2 q Hc. unfold three_gradient.
  assert (Hr : 0 <= pair_r q) by apply (pr_nonneg ai aj HR mn).
  destruct (ttc_cases (pair_x q) (rel_v ai aj) (pair_r q) Hr) as [[_ ->]|[K _]]; [|contradiction]. cbn [snd].
  apply course_iff_roots in Hc as (_ & Hd & _); auto.
  assert (D : 0 < sqrt (qdisc (pair_x q) (rel_v ai aj) (pair_r q))) by now apply sqrt_lt_R0.
  assert (B : (fst mn <= 2)%nat /\ (snd mn <= 2)%nat).
  { apply Forall_forall with (x := mn) (l := idx33); auto. clear. unfold idx33, idx3. cbn. repeat constructor. }
  destruct (part_offset_eq ai (fst mn) P1) as [E1|?]; [|lia]. destruct (part_offset_eq aj (snd mn) P2) as [E2|?]; [|lia].
  rewrite E1, E2. set (d := sqrt _) in *. set (a := coeff_a (rel_v ai aj)) in *. set (b := coeff_b (pair_x q) (rel_v ai aj)) in *.
  assert (I : - inner (moved (pair_x q) (rel_v ai aj) ((b - d) / a)) (rel_v ai aj) = d).
  { transitivity (b - (b - d) / a * a); [|field; lra].
    unfold a, b, coeff_a, coeff_b, dot, inner, moved. cbn [vx vy]. ring. }
  rewrite I. unfold gradient_three_circle, gradient_circle_circle, q, pair_x, pair_at, rel_x. cbn [fst snd].
  veq; field; lra.
Qed.

(** Reaction to the earliest collision when the first crossing pair is on course. *)
Lemma three_circle_earliest ai aj l1 p l2 :
  agent_radii_ok ai -> agent_radii_ok aj -> a_tau_0 ai <> 0 -> a_tau_0 aj <> 0 ->
  circle_pairs ai aj = l1 ++ p :: l2 ->
  (forall q, In q l1 -> ~ paths_cross (pair_x q) (rel_v ai aj) (pair_r q)) ->
  on_collision_course (pair_x p) (rel_v ai aj) (pair_r p) ->
  exists q tau grad mi mj,
    In q (circle_pairs ai aj) /\ on_collision_course (pair_x q) (rel_v ai aj) (pair_r q) /\
    first_contact (pair_x q) (rel_v ai aj) (pair_r q) tau /\
    (forall q' tau', In q' (circle_pairs ai aj) -> on_collision_course (pair_x q') (rel_v ai aj) (pair_r q') ->
       first_contact (pair_x q') (rel_v ai aj) (pair_r q') tau' -> tau <= tau') /\
    magnitude tau (a_tau_0 ai) = Ok mi /\ magnitude tau (a_tau_0 aj) = Ok mj /\
    (shoulders_in_place ai -> shoulders_in_place aj -> grad = three_gradient ai aj q tau) /\
    force_social_three_circle ai aj =
      Ok (truncate (vscale mi (vscale (- a_mass ai * a_k_soc ai) grad)) 2000,
          truncate (vscale mj (vscale (a_mass aj * a_k_soc aj) grad)) 2000).
Proof.
  intros Ri Rj Ti Tj E Hl1 Hp.
  assert (Hmov : rel_v ai aj <> vzero).
  { intros Hz. destruct Hp as (Ha & s & _ & Hs). rewrite Hz in Hs.
    replace (moved (pair_x p) vzero s) with (pair_x p) in Hs by (unfold moved; veq; ring). lra. }
  pose proof (moving_pos _ _ Hmov) as Ha. pose proof (radii_ok_in _ _ Ri Rj) as HR.
  rewrite circle_pairs_at in E. apply map_split in E as (k1 & ij & k2 & E & -> & -> & ->).
  assert (F1 : Forall (fun ij => ~ paths_cross (pair_x (pair_at ai aj ij)) (rel_v ai aj) (pair_r (pair_at ai aj ij))) k1).
  { apply Forall_forall. intros kl Hk. apply Hl1. now apply in_map. }
  destruct (three_scan_good ai aj HR Ha k1 ij k2 E F1 Hp) as (mn & Hin & Hc & Es & Hmin).
  pose proof (contact_tau ai aj HR mn) as CT.
  set (tau := (coeff_b (pair_x (pair_at ai aj mn)) (rel_v ai aj) -
     sqrt (qdisc (pair_x (pair_at ai aj mn)) (rel_v ai aj) (pair_r (pair_at ai aj mn)))) / coeff_a (rel_v ai aj)) in *.
  assert (Htau : 0 < tau). { apply (proj1 (course_tau ai aj HR Ha mn)) in Hc. tauto. }
  unfold force_social_three_circle. fold (rel_v ai aj). rdec. rewrite Es. cbn [ts_best ts_i ts_j]. fold tau. rdec.
  set (grad := gradient_three_circle _ _ _ _ _ _).
  unfold social_forces. pose (mg := fun t0 => (2 / tau + 1 / t0) * exp (- tau / t0) / (tau * tau)).
  assert (Mi : magnitude tau (a_tau_0 ai) = Ok (mg (a_tau_0 ai))).
  { unfold magnitude. now rewrite (proj2 (Reqb_false _ _) Ti). }
  assert (Mj : magnitude tau (a_tau_0 aj) = Ok (mg (a_tau_0 aj))).
  { unfold magnitude. now rewrite (proj2 (Reqb_false _ _) Tj). }
  rewrite Mi, Mj. cbn [rbind].
  exists (pair_at ai aj mn), tau, grad, (mg (a_tau_0 ai)), (mg (a_tau_0 aj)).
  split; [rewrite circle_pairs_at; now apply in_map|]. split; auto.
  split; [now apply CT|]. split.
  { intros q' tau' Hq Hc' Hf. rewrite circle_pairs_at in Hq. apply in_map_iff in Hq as (kl & <- & Hkl).
    pose proof (proj1 (contact_tau ai aj HR kl tau' Hc') Hf) as K. rewrite K. now apply Hmin. }
  split; [exact Mi|]. split; [exact Mj|].
  split. { intros P1 P2. unfold grad. now apply three_grad_eq. }
  unfold F_SOC_MAX. f_equal. f_equal; f_equal; veq; ring.
Qed.
(** No reaction at all when the first crossing pair is not on a collision course. *)
Lemma three_circle_blocked ai aj l1 p l2 :
  agent_radii_ok ai -> agent_radii_ok aj ->
  circle_pairs ai aj = l1 ++ p :: l2 ->
  (forall q, In q l1 -> ~ paths_cross (pair_x q) (rel_v ai aj) (pair_r q)) ->
  paths_cross (pair_x p) (rel_v ai aj) (pair_r p) -> ~ on_collision_course (pair_x p) (rel_v ai aj) (pair_r p) ->
  force_social_three_circle ai aj = Ok (vzero, vzero).
Proof.
  intros Ri Rj E Hl1 Hp Hn. unfold force_social_three_circle. fold (rel_v ai aj).
  destruct (Reqb_spec (coeff_a (rel_v ai aj)) 0) as [|Hne]; auto.
  pose proof (coeff_a_nonneg (rel_v ai aj)). assert (Ha : 0 < coeff_a (rel_v ai aj)) by lra.
  pose proof (radii_ok_in _ _ Ri Rj) as HR.
  rewrite circle_pairs_at in E. apply map_split in E as (k1 & ij & k2 & E & -> & -> & ->).
  assert (F1 : Forall (fun ij => ~ paths_cross (pair_x (pair_at ai aj ij)) (rel_v ai aj) (pair_r (pair_at ai aj ij))) k1).
  { apply Forall_forall. intros kl Hk. apply Hl1. now apply in_map. }
  destruct (three_scan_blocked ai aj HR Ha k1 ij k2 E F1 Hp Hn) as (tau & b & d & Eb & Ht). rewrite Eb. rdec. reflexivity.
Qed.
(** No crossing pair: no force. *)
Lemma three_circle_none ai aj : agent_radii_ok ai -> agent_radii_ok aj ->
  (forall q, In q (circle_pairs ai aj) -> ~ paths_cross (pair_x q) (rel_v ai aj) (pair_r q)) ->
  force_social_three_circle ai aj = Ok (vzero, vzero).
Proof.
  intros Ri Rj H. unfold force_social_three_circle. fold (rel_v ai aj).
  destruct (Reqb_spec (coeff_a (rel_v ai aj)) 0) as [|Hne]; auto.
  pose proof (coeff_a_nonneg (rel_v ai aj)). assert (Ha : 0 < coeff_a (rel_v ai aj)) by lra.
  unfold three_circle_scan. fold (rel_v ai aj). rewrite scan_none; [reflexivity|now apply radii_ok_in|auto|].
  apply Forall_forall. intros ij Hij. apply H. rewrite circle_pairs_at. now apply in_map.
Qed.
Lemma three_circle_cap ai aj fi fj : force_social_three_circle ai aj = Ok (fi, fj) -> elen fi <= 2000 /\ elen fj <= 2000.
Proof.
  unfold force_social_three_circle. destruct (Reqb _ 0); [intros [= <- <-]; split; apply zero_cap|].
  destruct (ts_best _) as [[[tau b] d]|]; [|intros [= <- <-]; split; apply zero_cap].
  destruct (Rleb tau 0); [intros [= <- <-]; split; apply zero_cap|]. apply social_cap.
Qed.
Lemma three_circle_opposite ai aj fi fj :
  a_mass ai = a_mass aj -> a_k_soc ai = a_k_soc aj -> a_tau_0 ai = a_tau_0 aj ->
  force_social_three_circle ai aj = Ok (fi, fj) -> fj = vneg fi.
Proof.
  intros H1 H2 H3. unfold force_social_three_circle. destruct (Reqb _ 0); [intros [= <- <-]; now rewrite vneg_zero|].
  destruct (ts_best _) as [[[tau b] d]|]; [|intros [= <- <-]; now rewrite vneg_zero].
  destruct (Rleb tau 0); [intros [= <- <-]; now rewrite vneg_zero|]. now apply social_opposite.
Qed.

(** ** Witness: the second agent's torso has passed, its left shoulder is about
    to be hit, and no force acts. *)
Definition w3_i : agent :=
  set_velocity (V 1 0) (set_r_t (1/10) (set_r_s (1/10) (set_r_ts 1 (set_tau_0 3 (set_mass 80 (set_k_soc 1
  (set_position_ls (V 0 1) (set_position_rs (V 0 (-1)) zero_row)))))))).
Definition w3_j : agent :=
  set_position (V (-1/2) 0) (set_r_t (1/10) (set_r_s (1/10) (set_r_ts 1 (set_tau_0 3 (set_mass 80 (set_k_soc 1
  (set_orientation (-(PI/2)) (set_position_ls (V (1/2) 0) (set_position_rs (V (-3/2) 0) zero_row))))))))).
Lemma w3_places : shoulders_in_place w3_i /\ shoulders_in_place w3_j.
Proof.
  unfold shoulders_in_place. cbn. rewrite cos_0, sin_0, cos_neg, sin_neg, cos_PI2, sin_PI2.
  repeat split; veq; lra.
Qed.
Lemma w3_apart : ~ bodies_overlap (body ThreeCircle w3_i) (body ThreeCircle w3_j).
Proof.
  intros (c & d & Hc & Hd & H). unfold gap in H. cbn in Hc, Hd.
  assert (K : forall q : R, edist (fst c) (fst d) < 1/5 ->
     (vx (fst c) - vx (fst d)) * (vx (fst c) - vx (fst d)) + (vy (fst c) - vy (fst d)) * (vy (fst c) - vy (fst d)) < 1/5 * (1/5)).
  { intros _ Hlt. rewrite edist_vlength in Hlt. pose proof (vlength_sq (vsub (fst c) (fst d))) as S.
    pose proof (vlength_nonneg (vsub (fst c) (fst d))). cbn in S. nra. }
  destruct Hc as [<-|[<-|[<-|[]]]], Hd as [<-|[<-|[<-|[]]]]; cbn in H, K; specialize (K 0 ltac:(lra)); lra.
Qed.
Lemma w3_course : on_collision_course (pair_x ((a_position w3_i, a_r_t w3_i), (a_position_ls w3_j, a_r_s w3_j)))
    (rel_v w3_i w3_j) (pair_r ((a_position w3_i, a_r_t w3_i), (a_position_ls w3_j, a_r_s w3_j))).
Proof.
  unfold pair_x, pair_r, rel_v. cbn. split.
  - apply elen_gt; [lra|]. unfold inner; cbn. lra.
  - exists (1/2). split; [lra|]. apply elen_lt; [lra|]. unfold inner, moved; cbn. lra.
Qed.
Lemma w3_no_force : force_social_three_circle w3_i w3_j = Ok (vzero, vzero).
Proof.
  eapply (three_circle_blocked w3_i w3_j []).
  - unfold agent_radii_ok; cbn; lra.
  - unfold agent_radii_ok; cbn; lra.
  - reflexivity.
  - intros q [].
  - unfold pair_x, pair_r, rel_v. cbn. exists (-1/2). apply elen_lt; [lra|]. unfold inner, moved; cbn. lra.
  - unfold pair_x, pair_r, rel_v. cbn. intros (_ & s & Hs & H). apply elen_lt in H; [|lra]. unfold inner, moved in H; cbn in H. nra.
Qed.

(** ** Contact times exist near a collision course *)
Lemma poly_near c p q : 0 < c -> exists eps, 0 < eps /\ forall s, Rabs s < eps -> 0 < c + s * p + s * s * q.
Proof.
  intros H. exists (Rmin 1 (c / (Rabs p + Rabs q + 1))).
  pose proof (Rabs_pos p) as Pp. pose proof (Rabs_pos q) as Pq.
  assert (Hm : 0 < c / (Rabs p + Rabs q + 1)) by (apply Rdiv_lt_0_compat; lra).
  split; [apply Rmin_pos; lra|]. intros s Hs.
  pose proof (Rmin_l 1 (c / (Rabs p + Rabs q + 1))). pose proof (Rmin_r 1 (c / (Rabs p + Rabs q + 1))).
  pose proof (Rabs_pos s) as Ps.
  assert (B : Rabs s * (Rabs p + Rabs q + 1) < c).
  { apply Rlt_le_trans with (c / (Rabs p + Rabs q + 1) * (Rabs p + Rabs q + 1)).
    - apply Rmult_lt_compat_r; lra.
    - right. field. lra. }
  assert (S1 : - (Rabs s * Rabs p) <= s * p).
  { rewrite <- Rabs_mult. pose proof (Rle_abs (- (s * p))) as K. rewrite Rabs_Ropp in K. lra. }
  assert (S2 : - (Rabs s * Rabs q) <= s * s * q).
  { assert (Rabs (s * s * q) <= Rabs s * Rabs q).
    { rewrite !Rabs_mult. apply Rmult_le_compat_r; auto. assert (Rabs s <= 1) by lra. nra. }
    pose proof (Rle_abs (- (s * s * q))) as K. rewrite Rabs_Ropp in K. lra. }
  nra.
Qed.
Lemma course_open x u v r : 0 <= r -> on_collision_course x v r ->
  exists eps, 0 < eps /\ forall s, Rabs s < eps -> on_collision_course (moved x u s) v r.
Proof.
  intros Hr (H1 & t & Ht & H2). apply elen_gt in H1; auto. apply elen_lt in H2; auto.
  destruct (poly_near (inner x x - r * r) (2 * inner x u) (inner u u)) as (e1 & He1 & P1); [lra|].
  destruct (poly_near (r * r - inner (moved x v t) (moved x v t)) (- 2 * inner (moved x v t) u) (- inner u u)) as (e2 & He2 & P2); [lra|].
  exists (Rmin e1 e2). split; [now apply Rmin_pos|]. intros s Hs.
  pose proof (Rmin_l e1 e2). pose proof (Rmin_r e1 e2).
  specialize (P1 s ltac:(lra)). specialize (P2 s ltac:(lra)). split.
  - apply elen_gt; auto. unfold inner, moved in *. cbn [vx vy] in *. lra.
  - exists t. split; auto. apply elen_lt; auto. unfold inner, moved in *. cbn [vx vy] in *. lra.
Qed.
Lemma contact_time_exists x u v r : 0 <= r -> on_collision_course x v r -> exists T, contact_time_along x u v r T.
Proof.
  intros Hr Hc. destruct (course_open x u v r Hr Hc) as (eps & He & H).
  exists (fun s => (coeff_b (moved x u s) v - sqrt (qdisc (moved x u s) v r)) / coeff_a v).
  exists eps. split; auto. intros s Hs. apply course_contact; auto.
Qed.

(** ** The force as a gradient *)
(** Correct when the circles in contact have the same displacement from their torsos. *)
Lemma three_circle_gradient ai aj l1 p l2 fi fj :
  agent_radii_ok ai -> agent_radii_ok aj -> a_tau_0 ai <> 0 -> a_tau_0 aj <> 0 ->
  shoulders_in_place ai -> shoulders_in_place aj ->
  circle_pairs ai aj = l1 ++ p :: l2 ->
  (forall q, In q l1 -> ~ paths_cross (pair_x q) (rel_v ai aj) (pair_r q)) ->
  on_collision_course (pair_x p) (rel_v ai aj) (pair_r p) ->
  force_social_three_circle ai aj = Ok (fi, fj) ->
  exists q, In q (circle_pairs ai aj) /\ on_collision_course (pair_x q) (rel_v ai aj) (pair_r q) /\
    (pair_x q = rel_x ai aj -> forall u T, contact_time_along (pair_x q) u (rel_v ai aj) (pair_r q) T ->
      (elen fi < 2000 -> derivable_pt_lim (fun s => interaction_energy (a_mass ai) (a_k_soc ai) (a_tau_0 ai) (T s)) 0 (- inner fi u)) /\
      (elen fj < 2000 -> derivable_pt_lim (fun s => interaction_energy (a_mass aj) (a_k_soc aj) (a_tau_0 aj) (T s)) 0 (inner fj u))).
Proof.
  intros Ri Rj Ti Tj Pi Pj E Hl1 Hp F.
  destruct (three_circle_earliest ai aj l1 p l2 Ri Rj Ti Tj E Hl1 Hp) as (q & tau & grad & mi & mj & Hq & Hc & Hf & _ & Mi & Mj & Hg & Ef).
  specialize (Hg Pi Pj). exists q. split; auto. split; auto. intros HX u T HT.
  assert (Hr : 0 <= pair_r q).
  { rewrite circle_pairs_at in Hq. apply in_map_iff in Hq as (ij & <- & _). apply (pr_nonneg ai aj (radii_ok_in _ _ Ri Rj)). }
  assert (T 0 = tau).
  { pose proof (contact_time_at_0 _ _ _ _ _ Hr Hc HT) as K1. pose proof (proj2 (ttc_some _ _ _ tau Hr) (conj Hc Hf)) as K2. congruence. }
  subst tau.
  assert (G : grad = snd (time_to_collision_circle_circle (pair_x q) (rel_v ai aj) (pair_r q))).
  { rewrite Hg. unfold three_gradient. rewrite HX. veq; ring. }
  rewrite F in Ef. injection Ef as -> ->. split; intros Hcap; apply truncate_below in Hcap; rewrite Hcap, G.
  - now apply energy_along.
  - pose proof (energy_along (a_mass aj) (a_k_soc aj) (a_tau_0 aj) _ u _ _ T mj Hr Hc HT Mj) as D.
    replace (inner _ u) with (- inner (vscale mj (vscale (- a_mass aj * a_k_soc aj)
      (snd (time_to_collision_circle_circle (pair_x q) (rel_v ai aj) (pair_r q))))) u); auto.
    unfold inner, vscale. cbn [vx vy]. ring.
Qed.

(** Right shoulder of [i] against left shoulder of [j], head on. *)
Definition w4_i : agent :=
  set_position (V (-3) 2) (set_velocity (V 1 0) (set_r_t (1/10) (set_r_s (1/10) (set_r_ts 1 (set_tau_0 3 (set_mass 1 (set_k_soc 1
  (set_position_ls (V (-3) 3) (set_position_rs (V (-3) 1) zero_row))))))))).
Definition w4_j : agent :=
  set_r_t (1/10) (set_r_s (1/10) (set_r_ts 1 (set_tau_0 3 (set_mass 1 (set_k_soc 1
  (set_position_ls (V 0 1) (set_position_rs (V 0 (-1)) zero_row))))))).
Definition w4_pair : circle * circle := ((V (-3) 1, 1/10), (V 0 1, 1/10)).
Lemma w4_places : shoulders_in_place w4_i /\ shoulders_in_place w4_j.
Proof. unfold shoulders_in_place. cbn. rewrite cos_0, sin_0. repeat split; veq; lra. Qed.
Lemma w4_course : on_collision_course (pair_x w4_pair) (rel_v w4_i w4_j) (pair_r w4_pair).
Proof.
  unfold pair_x, pair_r, rel_v. cbn. split.
  - apply elen_gt; [lra|]. unfold inner; cbn. lra.
  - exists 3. split; [lra|]. apply elen_lt; [lra|]. unfold inner, moved; cbn. lra.
Qed.
Lemma w4_others q : In q (circle_pairs w4_i w4_j) -> q <> w4_pair -> ~ paths_cross (pair_x q) (rel_v w4_i w4_j) (pair_r q).
Proof.
  intros H Hn (s & K). apply elen_lt in K; [|cbn in H; repeat destruct H as [<-|H]; try (unfold pair_r; cbn; lra); destruct H].
  cbn in H. unfold rel_v in K. cbn in K. pose proof (Rle_0_sqr (vx (moved (pair_x q) (vsub (V 1 0) vzero) s))) as SQ. unfold Rsqr in SQ.
  repeat destruct H as [<-|H]; try (unfold pair_x, pair_r, inner, moved in K, SQ; cbn in K, SQ; lra); try destruct H.
  now apply Hn.
Qed.
Lemma w4_not_gradient : exists fi fj T, force_social_three_circle w4_i w4_j = Ok (fi, fj) /\ elen fi < 2000 /\
  contact_time_along (pair_x w4_pair) (V 0 1) (rel_v w4_i w4_j) (pair_r w4_pair) T /\
  ~ derivable_pt_lim (fun s => interaction_energy (a_mass w4_i) (a_k_soc w4_i) (a_tau_0 w4_i) (T s)) 0 (- inner fi (V 0 1)).
Proof.
  assert (Ri : agent_radii_ok w4_i) by (unfold agent_radii_ok; cbn; lra).
  assert (Rj : agent_radii_ok w4_j) by (unfold agent_radii_ok; cbn; lra).
  set (all := circle_pairs w4_i w4_j).
  assert (Eall : all = firstn 7 all ++ w4_pair :: skipn 8 all) by reflexivity.
  assert (Hpre : forall q, In q (firstn 7 all) -> ~ paths_cross (pair_x q) (rel_v w4_i w4_j) (pair_r q)).
  { intros q Hq. apply w4_others.
    - fold all. rewrite Eall. apply in_or_app. now left.
    - intros ->. cbn in Hq. repeat (destruct Hq as [Hq|Hq]; [injection Hq; intros; lra|]). exact Hq. }
  destruct (three_circle_earliest w4_i w4_j (firstn 7 all) w4_pair (skipn 8 all) Ri Rj) as (q & tau & grad & mi & mj & Hq & Hc & Hf & _ & Mi & Mj & Hg & Ef);
    [cbn; lra|cbn; lra|exact Eall|exact Hpre|exact w4_course|].
  destruct (Classical_Prop.classic (q = w4_pair)) as [->|Hne].
  2:{ exfalso. apply (w4_others q); auto. destruct Hc as (_ & s & _ & K). now exists s. }
  specialize (Hg (proj1 w4_places) (proj2 w4_places)).
  assert (Hr : 0 <= pair_r w4_pair) by (unfold pair_r; cbn; lra).
  destruct (contact_time_exists (pair_x w4_pair) (V 0 1) (rel_v w4_i w4_j) (pair_r w4_pair) Hr Hc) as (T & HT).
  assert (T 0 = tau).
  { pose proof (contact_time_at_0 _ _ _ _ _ Hr Hc HT) as K1. pose proof (proj2 (ttc_some _ _ _ tau Hr) (conj Hc Hf)) as K2. congruence. }
  assert (Q : qdisc (pair_x w4_pair) (rel_v w4_i w4_j) (pair_r w4_pair) = (1/5) * (1/5))
    by (unfold qdisc, coeff_a, coeff_b, coeff_c, pair_x, pair_r, rel_v, dot; cbn; lra).
  assert (Ht : tau = 14 / 5).
  { apply (proj1 (course_contact _ _ _ tau Hr Hc)) in Hf. rewrite Hf, Q, sqrt_square by lra.
    unfold coeff_a, coeff_b, pair_x, rel_v, dot; cbn; lra. }
  assert (G0 : snd (time_to_collision_circle_circle (pair_x w4_pair) (rel_v w4_i w4_j) (pair_r w4_pair)) = V 1 0).
  { destruct (ttc_cases (pair_x w4_pair) (rel_v w4_i w4_j) (pair_r w4_pair) Hr) as [[_ ->]|[K _]]; [|contradiction].
    cbn [snd]. rewrite Q, sqrt_square by lra.
    unfold gradient_circle_circle, coeff_a, coeff_b, pair_x, rel_v, dot. veq; cbn; lra. }
  assert (G : grad = V 1 (-30)).
  { rewrite Hg. unfold three_gradient. rewrite G0, Ht.
    replace (inner _ _) with (-1/5) by (unfold rel_v, pair_x, inner, moved; cbn; lra).
    replace (3 / - (-1/5)) with 15 by field. unfold rel_x, pair_x. veq; cbn; lra. }
  assert (Mpos : 0 < mi <= 1).
  { unfold magnitude in Mi. cbn [a_tau_0 w4_i] in Mi. revert Mi. cbn. rdec. intros [= <-]. rewrite Ht.
    pose proof (exp_pos (- (14/5) / 3)). assert (exp (- (14/5) / 3) < 1). { rewrite <- exp_0. apply exp_increasing. lra. }
    split; nra. }
  set (w := vscale mi (vscale (- a_mass w4_i * a_k_soc w4_i) grad)).
  assert (W : w = V (- mi) (30 * mi)) by (unfold w; rewrite G; veq; cbn; ring).
  assert (Lw : elen w < 2000). { apply elen_lt; [lra|]. rewrite W. unfold inner; cbn. nra. }
  assert (Tw : truncate w 2000 = w). { apply truncate_le. rewrite elen_vlength in Lw. lra. }
  rewrite Ef. fold w. rewrite Tw.
  exists w, (truncate (vscale mj (vscale (a_mass w4_j * a_k_soc w4_j) grad)) 2000), T.
  split; [reflexivity|]. split; [exact Lw|]. split; [exact HT|]. intros D.
  rewrite <- H in Mi. pose proof (energy_along (a_mass w4_i) (a_k_soc w4_i) (a_tau_0 w4_i) _ (V 0 1) _ _ T mi Hr Hc HT Mi) as D'.
  pose proof (uniqueness_limite _ 0 _ _ D D') as E. rewrite G0, W in E. unfold inner, vscale in E. cbn in E. lra.
Qed.
