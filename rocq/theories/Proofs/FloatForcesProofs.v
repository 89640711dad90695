(** * Forces between circular agents in float64: the pair forces and their sums *)
From Coq Require Import Reals ZArith List Lra Lia.
From Flocq Require Import Core.
From Verif Require Import Model.Floats Model.FloatSteps Proofs.VecLemmas Proofs.FloatProofs Proofs.FloatSums Proofs.FloatGeomProofs Proofs.FloatOverlap Proofs.InteractionProofs.
From Verif Require Export Model.FloatForces Spec.FloatPush.
Import ListNotations.
Open Scope R_scope.

Definition vneg (v : vec) : vec := V (- vx v) (- vy v).
Lemma vneg_vneg v : vneg (vneg v) = v. Proof. destruct v. unfold vneg. cbn. now rewrite !Ropp_involutive. Qed.
Lemma f_vsub_neg a b : f_vsub b a = vneg (f_vsub a b). Proof. exact (f_vsub_opp a b). Qed.
Lemma f_vadd_neg a b : f_vadd (vneg a) (vneg b) = vneg (f_vadd a b).
Proof. unfold f_vadd, vneg; cbn [vx vy]. rewrite <- !rnd_opp. f_equal; f_equal; ring. Qed.
Lemma f_vsub_negs a b : f_vsub (vneg a) (vneg b) = vneg (f_vsub a b).
Proof. unfold f_vsub, vneg; cbn [vx vy]. rewrite <- !rnd_opp. f_equal; f_equal; ring. Qed.
Lemma f_vsub_vadd a b : f_vsub a b = f_vadd a (vneg b).
Proof. reflexivity. Qed.
Lemma f_scale_neg s a : f_scale s (vneg a) = vneg (f_scale s a).
Proof. unfold f_scale, vneg; cbn [vx vy]. rewrite <- !rnd_opp. f_equal; f_equal; ring. Qed.
Lemma f_scale_negl s a : f_scale (- s) a = vneg (f_scale s a).
Proof. unfold f_scale, vneg; cbn [vx vy]. rewrite <- !rnd_opp. f_equal; f_equal; ring. Qed.
Lemma f_vdiv_neg a s : f_vdiv (vneg a) s = vneg (f_vdiv a s).
Proof. unfold f_vdiv, vneg; cbn [vx vy]. rewrite <- !rnd_opp. f_equal; f_equal; unfold Rdiv; ring. Qed.
Lemma f_dot_negs a b : f_dot (vneg a) (vneg b) = f_dot a b.
Proof. unfold f_dot, vneg; cbn [vx vy]. now rewrite !Rmult_opp_opp. Qed.
Lemma f_dot_negl a b : f_dot (vneg a) b = - f_dot a b.
Proof. unfold f_dot, vneg; cbn [vx vy]. rewrite <- rnd_opp. f_equal. rewrite !Ropp_mult_distr_l_reverse, !rnd_opp. ring. Qed.
Lemma vneg_zero : vneg vzero = vzero. Proof. unfold vneg, vzero; cbn. f_equal; ring. Qed.
Lemma rotate270_neg n : rotate270 (vneg n) = vneg (rotate270 n). Proof. destruct n. unfold rotate270, vneg; cbn. f_equal; ring. Qed.
Lemma f_vadd_zero a : f_vadd vzero a = V (rnd (vx a)) (rnd (vy a)). Proof. unfold f_vadd; cbn. now rewrite !Rplus_0_l. Qed.

Section Hypot.
  Variables (hypot : R -> R -> R) (exp : R -> R).
  Hypothesis even : forall a b, hypot (- a) (- b) = hypot a b.
  Lemma f_cut_neg v l : f_cut hypot (vneg v) l = vneg (f_cut hypot v l).
  Proof using even.
    unfold f_cut, f_truncate, vneg. cbn [fst snd vx vy]. rewrite even. destruct (Rlt_bool l (hypot (vx v) (vy v))); cbn [vx vy]; auto. rewrite !Ropp_mult_distr_l_reverse, !rnd_opp. reflexivity.
  Qed.
  Lemma f_gradient_neg x v a b d : f_gradient (vneg x) (vneg v) a b d = vneg (f_gradient x v a b d).
  Proof using. unfold f_gradient. now rewrite !f_scale_neg, f_vadd_neg, f_vdiv_neg, f_vsub_negs, f_vdiv_neg. Qed.
  (** The two social forces, of the agents and of their relative place and motion. *)
  Lemma f_social_swap ai aj : f_force_social_circular hypot exp aj ai = let '(fi, fj) := f_force_social_circular hypot exp ai aj in (fj, fi).
  Proof using even.
    unfold f_force_social_circular. cbv zeta. rewrite (f_vsub_neg (a_position ai)), (f_vsub_neg (a_velocity ai)), (Rplus_comm (a_radius aj)), !f_dot_negs.
    do 2 (match goal with |- (if ?t then _ else _) = _ => destruct t; [reflexivity|] end).
    rewrite f_gradient_neg, !f_scale_neg, !f_vsub_vadd, !vneg_vneg. reflexivity.
  Qed.
  Lemma f_contact_neg h n v t mu kappa damping : f_force_contact h (vneg n) (vneg v) (vneg t) mu kappa damping = vneg (f_force_contact h n v t mu kappa damping).
  Proof using. unfold f_force_contact. now rewrite !f_dot_negs, !f_scale_neg, f_vsub_negs, f_scale_neg, f_vadd_neg. Qed.
  Lemma f_pair_swap ai aj : f_pair_forces hypot exp aj ai = option_map (fun p => (snd p, fst p)) (f_pair_forces hypot exp ai aj).
  Proof using even.
    unfold f_pair_forces. pose proof (distance_swapped hypot (vx (a_position ai), vy (a_position ai)) (a_radius ai) (vx (a_position aj), vy (a_position aj)) (a_radius aj) even) as D. cbv zeta in D.
    destruct (f_distance_circles hypot (vx (a_position ai), vy (a_position ai)) _ _ _) as [h [nx ny]], (f_distance_circles hypot (vx (a_position aj), vy (a_position aj)) _ _ _) as [h' [nx' ny']].
    cbn [fst snd] in D. destruct D as (-> & -> & ->). rewrite (f_social_swap ai aj). destruct (f_force_social_circular hypot exp ai aj) as [fi fj]. destruct (Rlt_bool h 3); auto. destruct (Rlt_bool h 0); auto. cbn [option_map fst snd].
    change (V (- nx) (- ny)) with (vneg (V nx ny)). rewrite rotate270_neg, (f_vsub_neg (a_velocity ai)), !f_contact_neg, !f_vsub_vadd, !vneg_vneg. reflexivity.
  Qed.
  Lemma f_pair_opposite ai aj fi fj : same_constants ai aj -> f_pair_forces hypot exp ai aj = Some (fi, fj) -> fj = vneg fi.
  Proof using even.
    intros (E1 & E2 & E3 & E4 & E5 & E6) H. unfold f_pair_forces in H. destruct (f_distance_circles hypot _ _ _ _) as [h [nx ny]]. destruct (Rlt_bool h 3); [|discriminate].
    assert (S : snd (f_force_social_circular hypot exp ai aj) = vneg (fst (f_force_social_circular hypot exp ai aj))).
    { unfold f_force_social_circular. cbv zeta. rewrite E1, E2, E3. do 2 (match goal with |- context [if ?t then (vzero, vzero) else _] => destruct t; cbn [fst snd]; [now rewrite vneg_zero|] end).
      rewrite <- f_cut_neg, <- f_vadd_neg, vneg_zero. reflexivity. }
    destruct (f_force_social_circular hypot exp ai aj) as [gi gj]. cbn [fst snd] in S. subst gj. rewrite E4, E5, E6 in H. destruct (Rlt_bool h 0); injection H as <- <-; auto. now rewrite f_vsub_vadd, f_vadd_neg.
  Qed.
  Definition vfm (v : vec) : Prop := fmt (vx v) /\ fmt (vy v).
  Lemma vzero_fm : vfm vzero. Proof using. split; apply generic_format_0. Qed.
  Lemma f_cut_fm v l : vfm v -> vfm (f_cut hypot v l).
  Proof using. intros H. unfold f_cut, f_truncate. cbn [fst snd]. destruct (Rlt_bool _ _); [split; apply rnd_fmt|exact H]. Qed.
  Lemma f_pair_fm ai aj fi fj : f_pair_forces hypot exp ai aj = Some (fi, fj) -> vfm fi /\ vfm fj.
  Proof using.
    intros H. unfold f_pair_forces in H. destruct (f_distance_circles hypot _ _ _ _) as [h [nx ny]]. destruct (Rlt_bool h 3); [|discriminate].
    assert (S : vfm (fst (f_force_social_circular hypot exp ai aj)) /\ vfm (snd (f_force_social_circular hypot exp ai aj))).
    { unfold f_force_social_circular. cbv zeta. do 2 (match goal with |- context [if ?t then (vzero, vzero) else _] => destruct t; [split; apply vzero_fm|] end). cbn [fst snd]. split; apply f_cut_fm; split; apply rnd_fmt. }
    destruct (f_force_social_circular hypot exp ai aj) as [gi gj]. destruct (Rlt_bool h 0); injection H as <- <-; auto. split; split; apply rnd_fmt.
  Qed.
End Hypot.

(** ** Sums *)
Definition fsum (l : list R) (x : R) : R := fold_left (fun s f => rnd (s + f)) l x.
Definition U : R := powerRZ 2 (-53).
Lemma U_val : U = / 9007199254740992. Proof. unfold U. rewrite <- pow2. reflexivity. Qed.
Lemma plus_off x y : fmt x -> fmt y -> Rabs (rnd (x + y) - (x + y)) <= U * Rabs (x + y).
Proof.
  intros X Y. destruct (rnd_plus x y X Y) as (e & E & ->). replace ((x + y) * (1 + e) - (x + y)) with (e * (x + y)) by ring. rewrite Rabs_mult.
  apply Rmult_le_compat_r; [apply Rabs_pos|]. rewrite U_val, <- u_val. exact E.
Qed.
Lemma U_small k : (k <= 2 ^ 51)%Z -> U * IZR k <= / 4.
Proof. intros H. apply IZR_le in H. rewrite U_val. change (2 ^ 51)%Z with 2251799813685248%Z in H. lra. Qed.
Lemma fsum_fmt l : forall x, fmt x -> fmt (fsum l x).
Proof. induction l as [|f l IH]; intros x X; cbn; auto. apply IH, rnd_fmt. Qed.
Lemma fsum_app l f x : fsum (l ++ [f]) x = rnd (fsum l x + f). Proof. unfold fsum. now rewrite fold_left_app. Qed.
Lemma fsum_off M x l : 0 <= M -> fmt x -> Rabs x <= M -> (forall f, In f l -> fmt f /\ Rabs f <= M) -> (Z.of_nat (length l) < 2 ^ 51)%Z ->
  let k := INR (length l) in Rabs (fsum l x) <= (2 * k + 1) * M /\ Rabs (fsum l x - (x + total_of l)) <= U * (k * (k + 1)) * M.
Proof.
  intros PM X BX. induction l as [|f l IH] using rev_ind; intros HF L; cbv zeta.
  { cbn. replace (x - (x + 0)) with 0 by ring. rewrite Rabs_R0. split; lra. }
  rewrite app_length in *. cbn [length] in *. rewrite plus_INR. change (INR 1) with 1. destruct (HF f) as [F1 F2]; [apply in_app_iff; right; now left|].
  destruct IH as [A B]; [intros g G; apply HF, in_app_iff; now left|lia|]. rewrite fsum_app. set (k := INR (length l)) in *. set (s := fsum l x) in *.
  assert (K : 0 <= k) by apply pos_INR. pose proof (plus_off s f (fsum_fmt l x X) F1) as P. assert (T : Rabs (s + f) <= (2 * k + 2) * M) by (eapply Rle_trans; [apply Rabs_triang|]; lra).
  assert (UP : 0 < U) by (rewrite U_val; lra).
  assert (UK : U * (2 * k + 2) <= 1). { assert (E : k + 1 = IZR (Z.of_nat (length l) + 1)) by (unfold k; now rewrite INR_IZR_INZ, plus_IZR). pose proof (U_small (Z.of_nat (length l) + 1) ltac:(lia)) as Q. rewrite <- E in Q. lra. }
  assert (P' : Rabs (rnd (s + f) - (s + f)) <= U * ((2 * k + 2) * M)) by (eapply Rle_trans; [exact P|]; apply Rmult_le_compat_l; lra).
  split.
  - replace (rnd (s + f)) with ((rnd (s + f) - (s + f)) + (s + f)) by ring. eapply Rle_trans; [apply Rabs_triang|]. assert (U * ((2 * k + 2) * M) <= M) by (rewrite <- Rmult_assoc; rewrite <- (Rmult_1_l M) at 2; apply Rmult_le_compat_r; auto). lra.
  - assert (TO : total_of (l ++ [f]) = total_of l + f) by (clear; unfold total_of; induction l as [|g l IH]; cbn; [ring|rewrite IH; ring]). rewrite TO.
    replace (rnd (s + f) - (x + (total_of l + f))) with ((rnd (s + f) - (s + f)) + (s - (x + total_of l))) by ring. eapply Rle_trans; [apply Rabs_triang|]. lra.
Qed.
