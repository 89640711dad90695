(** * Forces between circular agents in float64: everybody's forces *)
From Coq Require Import Reals ZArith List Lra Lia.
From Flocq Require Import Core.
From Verif Require Import Model.Floats Proofs.VecLemmas Proofs.FloatProofs Proofs.InteractionProofs Proofs.SimulationProofs.
From Verif Require Export Proofs.FloatForcesProofs.
Import ListNotations.
Open Scope R_scope.

Section Run.
  Variables (hypot : R -> R -> R) (exp : R -> R).
  Notation forces := (f_pair_forces hypot exp).
  (** What one pair gives to agent [i]. *)
  Definition push (agents : list agent) (i : nat) (p : nat * nat) : list vec :=
    match nth_error agents (fst p), nth_error agents (snd p) with
    | Some a, Some b => match forces a b with
        | Some (fi, fj) => (if Nat.eqb (fst p) i then [fi] else []) ++ (if Nat.eqb (snd p) i then [fj] else [])
        | None => [] end
    | _, _ => []
    end.
  Definition pushes agents i pairs := flat_map (push agents i) pairs.
  Definition based (l0 l : list agent) : Prop := forall m, match nth_error l0 m, nth_error l m with Some a, Some b => exists f, b = set_force f a | None, None => True | _, _ => False end.
  Lemma based_refl l : based l l.
  Proof using. intros m. destruct (nth_error l m) as [a|]; auto. exists (a_force a). now destruct a. Qed.
  Lemma based_modify l0 l i f : based l0 l -> based l0 (modify i (f_add_force f) l).
  Proof using.
    intros H m. rewrite modify_nth. specialize (H m). destruct (nth_error l0 m) as [a|], (nth_error l m) as [b|]; cbn; auto. destruct H as (g & ->).
    destruct (Nat.eqb m i); [eexists; reflexivity|eauto].
  Qed.
  Lemma based_push l0 l i p : based l0 l -> push l i p = push l0 i p.
  Proof using.
    intros H. unfold push. pose proof (H (fst p)) as A. pose proof (H (snd p)) as B. destruct (nth_error l0 (fst p)) as [a|], (nth_error l (fst p)) as [a'|]; try contradiction; auto.
    destruct (nth_error l0 (snd p)) as [b|], (nth_error l (snd p)) as [b'|]; try contradiction; auto. destruct A as (f & ->), B as (g & ->). reflexivity.
  Qed.
  Lemma based_step l0 l p : based l0 l -> based l0 (f_interaction hypot exp p l).
  Proof using. intros H. unfold f_interaction. destruct (nth_error l (fst p)); auto. destruct (nth_error l (snd p)); auto. destruct (forces _ _) as [[fi fj]|]; auto. now do 2 apply based_modify. Qed.
  Definition after (v : list vec) (a : agent) : agent := set_force (fold_left f_vadd v (a_force a)) a.
  Lemma step_push l i p : nth_error (f_interaction hypot exp p l) i = option_map (after (push l i p)) (nth_error l i).
  Proof using.
    assert (E0 : forall a, after [] a = a) by (intros a; now destruct a). assert (N : nth_error l i = option_map (after []) (nth_error l i)) by (destruct (nth_error l i); cbn; [now rewrite E0|auto]).
    unfold f_interaction, push. destruct (nth_error l (fst p)) as [a|]; [|exact N]. destruct (nth_error l (snd p)) as [b|]; [|exact N]. destruct (forces a b) as [[fi fj]|]; [|exact N].
    rewrite !modify_nth, (Nat.eqb_sym (fst p)), (Nat.eqb_sym (snd p)). destruct (nth_error l i) as [c|]; cbn; auto. f_equal. destruct (Nat.eqb i (fst p)), (Nat.eqb i (snd p)); cbn; rewrite ?E0; reflexivity.
  Qed.
  Lemma run_push l0 pairs : forall l i, based l0 l -> nth_error (f_agent_agent_circular hypot exp pairs l) i = option_map (after (pushes l0 i pairs)) (nth_error l i).
  Proof using.
    induction pairs as [|p pairs IH]; intros l i H; cbn; [destruct (nth_error l i) as [a|]; cbn; auto; f_equal; now destruct a|].
    change (nth_error (f_agent_agent_circular hypot exp pairs (f_interaction hypot exp p l)) i = option_map (after (push l0 i p ++ pushes l0 i pairs)) (nth_error l i)).
    rewrite (IH _ i (based_step _ _ p H)), step_push, (based_push l0 l i p H). destruct (nth_error l i) as [a|]; cbn; auto. f_equal. unfold after. cbn. now rewrite fold_left_app.
  Qed.
  Lemma run_length pairs l : length (f_agent_agent_circular hypot exp pairs l) = length l.
  Proof using.
    revert l. induction pairs as [|p pairs IH]; intros l; cbn; auto. unfold f_agent_agent_circular in IH. rewrite IH. unfold f_interaction. destruct (nth_error l _); auto. destruct (nth_error l _); auto. destruct (forces _ _) as [[fi fj]|]; auto. now rewrite !modify_length.
  Qed.
  Lemma push_in l i p f : In f (push l i p) -> exists a b fi fj, In a l /\ In b l /\ forces a b = Some (fi, fj) /\ (f = fi \/ f = fj).
  Proof using.
    unfold push. intros H. destruct (nth_error l (fst p)) as [a|] eqn:A; [|destruct H]. destruct (nth_error l (snd p)) as [b|] eqn:B; [|destruct H]. destruct (forces a b) as [[fi fj]|] eqn:F; [|destruct H].
    exists a, b, fi, fj. split; [eapply nth_error_In; eauto|]. split; [eapply nth_error_In; eauto|]. split; auto. apply in_app_iff in H as [H|H]; [destruct (Nat.eqb (fst p) i)|destruct (Nat.eqb (snd p) i)]; try destruct H as [<-|[]]; try destruct H; auto.
  Qed.
  Lemma push_count n l i pairs : proper_pairs n pairs -> (length (pushes l i pairs) <= meetings i pairs)%nat.
  Proof using.
    induction pairs as [|[p q] pairs IH]; intros H; cbn; auto. rewrite app_length. assert (IH' := IH (fun a b I => H a b (or_intror I))). destruct (H p q ltac:(now left)) as (_ & _ & N).
    assert (length (push l i (p, q)) <= if (Nat.eqb p i || Nat.eqb q i)%bool then 1 else 0)%nat; [|unfold pushes in IH'; lia].
    unfold push. cbn [fst snd]. destruct (nth_error l p); [|cbn; lia]. destruct (nth_error l q); [|cbn; lia]. destruct (forces _ _) as [[fi fj]|]; [|cbn; lia].
    destruct (Nat.eqb_spec p i), (Nat.eqb_spec q i); cbn; lia.
  Qed.
End Run.

(** One coordinate. *)
Definition axis (c : vec -> R) : Prop := c = vx \/ c = vy.
Lemma axis_sum c l v : axis c -> c (fold_left f_vadd l v) = fsum (map c l) (c v).
Proof. intros H. revert v. induction l as [|f l IH]; intros v; cbn; auto. rewrite IH. destruct H as [-> | ->]; reflexivity. Qed.
Lemma total_of_perm l l' : Permutation l l' -> total_of l = total_of l'.
Proof. unfold total_of. induction 1; cbn; lra. Qed.
Lemma total_of_app l l' : total_of (l ++ l') = total_of l + total_of l'.
Proof. unfold total_of. induction l as [|a l IH]; cbn; [ring|rewrite IH; ring]. Qed.

Section Bounds.
  Variables (hypot : R -> R -> R) (exp : R -> R).
  Hypothesis even : forall a b, hypot (- a) (- b) = hypot a b.
  Notation forces := (f_pair_forces hypot exp).
  Variables (agents : list agent) (M : R).
  Hypothesis start : forall a, In a agents -> vdouble (a_force a) /\ within M (a_force a).
  Hypothesis bounded : forall a b fi fj, In a agents -> In b agents -> forces a b = Some (fi, fj) -> within M fi /\ within M fj.

  Lemma push_ok c i pairs f : axis c -> In f (map c (pushes hypot exp agents i pairs)) -> fmt f /\ Rabs f <= M.
  Proof using bounded.
    intros C H. apply in_map_iff in H as (v & <- & H). apply in_flat_map in H as (p & _ & H). destruct (push_in _ _ _ _ _ _ H) as (a & b & fi & fj & A & B & F & E).
    destruct (bounded a b fi fj A B F) as [B1 B2]. destruct (f_pair_fm hypot exp a b fi fj F) as [F1 F2]. destruct C as [-> | ->], E as [-> | ->]; destruct B1, B2, F1, F2; auto.
  Qed.
  Lemma one_off c i a a' pairs k : axis c -> nth_error agents i = Some a -> nth_error (f_agent_agent_circular hypot exp pairs agents) i = Some a' ->
    (length (pushes hypot exp agents i pairs) <= k)%nat -> (Z.of_nat k < 2 ^ 51)%Z ->
    Rabs (c (a_force a') - (c (a_force a) + total_of (map c (pushes hypot exp agents i pairs)))) <= U * (INR k * (INR k + 1)) * M.
  Proof using start bounded.
    intros C A A' L K. rewrite (run_push hypot exp agents pairs agents i (based_refl agents)), A in A'. cbn in A'. injection A' as <-. unfold after. cbn [a_force set_force].
    rewrite axis_sum by exact C. destruct (start a (nth_error_In _ _ A)) as [[D1 D2] [W1 W2]]. set (l := map c (pushes hypot exp agents i pairs)).
    assert (PM : 0 <= M) by (eapply Rle_trans; [apply Rabs_pos|exact W1]). assert (LL : length l = length (pushes hypot exp agents i pairs)) by apply map_length.
    assert (S : fmt (c (a_force a)) /\ Rabs (c (a_force a)) <= M) by (destruct C as [-> | ->]; split; auto; now apply double_fmt).
    destruct (fsum_off M (c (a_force a)) l PM (proj1 S) (proj2 S) (fun f H => push_ok c i pairs f C H) ltac:(lia)) as [_ B].
    eapply Rle_trans; [exact B|]. apply Rmult_le_compat_r; auto. apply Rmult_le_compat_l; [rewrite U_val; lra|]. assert (INR (length l) <= INR k) by (apply le_INR; lia). pose proof (pos_INR (length l)). nra.
  Qed.
  Lemma push_swap i p : Permutation (push hypot exp agents i p) (push hypot exp agents i (snd p, fst p)).
  Proof using even.
    unfold push. cbn [fst snd]. destruct (nth_error agents (fst p)) as [a|], (nth_error agents (snd p)) as [b|]; auto. rewrite (f_pair_swap hypot exp even a b). destruct (forces a b) as [[fi fj]|]; cbn [option_map fst snd]; auto.
    apply Permutation_app_comm.
  Qed.
  Lemma pushes_reordered i pairs pairs' : reordered pairs pairs' -> Permutation (pushes hypot exp agents i pairs) (pushes hypot exp agents i pairs').
  Proof using even.
    intros (m & P & F). transitivity (pushes hypot exp agents i m); [now apply Permutation_flat_map|]. clear P. induction F as [|p q m l H F IH]; cbn; auto. apply Permutation_app; auto. destruct H as [-> | ->]; auto. apply push_swap.
  Qed.
  Lemma order_off i a a1 a2 pairs pairs' n k : reordered pairs pairs' -> proper_pairs n pairs -> (meetings i pairs <= k)%nat -> (Z.of_nat k < 2 ^ 51)%Z -> nth_error agents i = Some a ->
    nth_error (f_agent_agent_circular hypot exp pairs agents) i = Some a1 -> nth_error (f_agent_agent_circular hypot exp pairs' agents) i = Some a2 ->
    forall c, axis c -> Rabs (c (a_force a2) - c (a_force a1)) <= 2 * (U * (INR k * (INR k + 1)) * M).
  Proof using even start bounded.
    intros O P K KZ A A1 A2 c C. pose proof (pushes_reordered i pairs pairs' O) as PP. pose proof (push_count hypot exp n agents i pairs P) as L1.
    pose proof (one_off c i a a1 pairs k C A A1 ltac:(lia) KZ) as B1. assert (L2 : (length (pushes hypot exp agents i pairs') <= k)%nat) by (rewrite <- (Permutation_length PP); lia).
    pose proof (one_off c i a a2 pairs' k C A A2 L2 KZ) as B2. rewrite <- (total_of_perm _ _ (Permutation_map c PP)) in B2. apply Rabs_le_inv in B1, B2. apply Rabs_le. lra.
  Qed.

  (** Sums over all agents. *)
  Definition over (n : nat) (f : nat -> R) : R := total_of (map f (seq 0 n)).
  Lemma over_plus n f g : over n (fun i => f i + g i) = over n f + over n g.
  Proof using. unfold over, total_of. induction (seq 0 n) as [|i l IH]; cbn; [ring|rewrite IH; ring]. Qed.
  Lemma over_ext n f g : (forall i, (i < n)%nat -> f i = g i) -> over n f = over n g.
  Proof using. intros H. unfold over. f_equal. apply map_ext_in. intros i I. apply H. apply in_seq in I. lia. Qed.
  Lemma over_zero n : over n (fun _ => 0) = 0.
  Proof using. unfold over, total_of. induction (seq 0 n); cbn; lra. Qed.
  Lemma over_single n p x : (p < n)%nat -> over n (fun i => if Nat.eqb p i then x else 0) = x.
  Proof using.
    unfold over. assert (G : forall m s, total_of (map (fun i => if Nat.eqb p i then x else 0) (seq s m)) = if (s <=? p)%nat && (p <? s + m)%nat then x else 0).
    { induction m as [|m IH]; intros s; cbn [seq map total_of fold_right]. { destruct (Nat.leb_spec s p), (Nat.ltb_spec p (s + 0)); cbn; auto; lia. }
      change (fold_right Rplus 0 ?l) with (total_of l). rewrite IH. destruct (Nat.eqb_spec p s), (Nat.leb_spec (S s) p), (Nat.ltb_spec p (S s + m)), (Nat.leb_spec s p), (Nat.ltb_spec p (s + S m)); cbn; try lia; lra. }
    intros H. rewrite G. rewrite (proj2 (Nat.leb_le 0 p)), (proj2 (Nat.ltb_lt p (0 + n))) by lia. reflexivity.
  Qed.
  Lemma over_le n f g B : (forall i, (i < n)%nat -> Rabs (f i - g i) <= B) -> Rabs (over n f - over n g) <= INR n * B.
  Proof using.
    unfold over. intros H. assert (G : forall l, (forall i, In i l -> Rabs (f i - g i) <= B) -> Rabs (total_of (map f l) - total_of (map g l)) <= INR (length l) * B).
    { induction l as [|i l IH]; intros Hl. { cbn. rewrite Rminus_0_r, Rabs_R0. lra. }
      cbn [map total_of fold_right]. change (fold_right Rplus 0 ?l) with (total_of l). cbn [length]. rewrite S_INR. pose proof (Hl i ltac:(now left)) as A. pose proof (IH (fun j J => Hl j (or_intror J))) as B1. apply Rabs_le_inv in A, B1. apply Rabs_le. lra. }
    pose proof (G (seq 0 n)) as Q. rewrite seq_length in Q. apply Q. intros i I. apply H. apply in_seq in I. lia.
  Qed.
  Lemma total_over c l : total c l = over (length l) (fun i => match nth_error l i with Some a => c a | None => 0 end).
  Proof using.
    unfold over. assert (G : forall l' s, (forall i, nth_error l' i = nth_error l (s + i)) -> total c l' = total_of (map (fun i => match nth_error l i with Some a => c a | None => 0 end) (seq s (length l')))).
    { induction l' as [|a l' IH]; intros s H; [reflexivity|]. cbn [total length seq map total_of fold_right]. pose proof (H 0%nat) as A. rewrite Nat.add_0_r in A. cbn in A. rewrite <- A. f_equal. apply IH. intros i. rewrite Nat.add_succ_comm. exact (H (S i)). }
    apply (G l 0%nat). reflexivity.
  Qed.
  Hypothesis alike : forall a b, In a agents -> In b agents -> same_constants a b.
  Lemma pushes_cancel c pairs : axis c -> proper_pairs (length agents) pairs -> over (length agents) (fun i => total_of (map c (pushes hypot exp agents i pairs))) = 0.
  Proof using even alike.
    intros C. induction pairs as [|[p q] pairs IH]; intros P. { apply over_zero. }
    rewrite (over_ext _ _ (fun i => total_of (map c (push hypot exp agents i (p, q))) + total_of (map c (pushes hypot exp agents i pairs)))) by (intros i _; cbn; now rewrite map_app, total_of_app).
    rewrite over_plus, IH by (intros a b I; apply P; now right). rewrite Rplus_0_r. destruct (P p q ltac:(now left)) as (Hp & Hq & N). unfold push. cbn [fst snd].
    destruct (nth_error agents p) as [a|] eqn:A; [|apply over_zero]. destruct (nth_error agents q) as [b|] eqn:B; [|apply over_zero]. destruct (forces a b) as [[fi fj]|] eqn:F; [|apply over_zero].
    rewrite (over_ext _ _ (fun i => (if Nat.eqb p i then c fi else 0) + (if Nat.eqb q i then c fj else 0))).
    - rewrite over_plus, !over_single by auto. rewrite (f_pair_opposite hypot exp even a b fi fj (alike a b (nth_error_In _ _ A) (nth_error_In _ _ B)) F). destruct C as [-> | ->]; cbn; ring.
    - intros i _. rewrite map_app, total_of_app. destruct (Nat.eqb p i), (Nat.eqb q i); cbn; ring.
  Qed.
  Lemma momentum_off c pairs k : axis c -> proper_pairs (length agents) pairs -> (forall i, (meetings i pairs <= k)%nat) -> (Z.of_nat k < 2 ^ 51)%Z ->
    Rabs (total (fun a => c (a_force a)) (f_agent_agent_circular hypot exp pairs agents) - total (fun a => c (a_force a)) agents) <= INR (length agents) * (U * (INR k * (INR k + 1)) * M).
  Proof using even alike start bounded.
    intros C P K KZ. rewrite !total_over, run_length. 
    match goal with |- Rabs (?x - over ?n ?g) <= _ => replace (over n g) with (over n (fun i => g i + total_of (map c (pushes hypot exp agents i pairs)))) by (rewrite over_plus, (pushes_cancel c pairs C P); ring) end. apply over_le.
    intros i Hi. destruct (nth_error agents i) as [a|] eqn:A; [|apply nth_error_None in A; lia]. destruct (nth_error (f_agent_agent_circular hypot exp pairs agents) i) as [a'|] eqn:A'; [|apply nth_error_None in A'; rewrite run_length in A'; lia].
    apply (one_off c i a a' pairs k C A A'); auto. eapply Nat.le_trans; [apply (push_count hypot exp (length agents)); auto|apply K].
  Qed.
End Bounds.

Lemma meetings_none i pairs : (meetings i pairs <= 0)%nat -> forall p q, In (p, q) pairs -> p <> i /\ q <> i.
Proof.
  induction pairs as [|[a b] pairs IH]; intros H p q I; [destruct I|]. cbn in H. destruct (Nat.eqb_spec a i), (Nat.eqb_spec b i); cbn in H; try lia. destruct I as [[= <- <-]|I]; [auto|]. apply IH; auto; lia.
Qed.
Lemma push_none hypot exp l i pairs : (meetings i pairs <= 0)%nat -> pushes hypot exp l i pairs = [].
Proof.
  intros H. induction pairs as [|[p q] pairs IH]; [reflexivity|]. change (push hypot exp l i (p, q) ++ pushes hypot exp l i pairs = []). rewrite IH by (cbn in H; lia). rewrite app_nil_r. destruct (meetings_none i _ H p q ltac:(now left)) as [A B]. unfold push. cbn [fst snd].
  destruct (nth_error l p); auto. destruct (nth_error l q); auto. destruct (f_pair_forces _ _ _ _) as [[]|]; auto. destruct (Nat.eqb_spec p i), (Nat.eqb_spec q i); try contradiction; reflexivity.
Qed.
(** Somebody in one pair only. *)
Lemma push_one hypot exp l i p pairs : (meetings i pairs <= 1)%nat -> In p pairs -> (fst p = i \/ snd p = i) -> pushes hypot exp l i pairs = push hypot exp l i p.
Proof.
  induction pairs as [|[a b] pairs IH]; intros H I E; [destruct I|]. destruct I as [<-|I].
  - change (push hypot exp l i (a, b) ++ pushes hypot exp l i pairs = push hypot exp l i (a, b)). rewrite push_none, app_nil_r; auto. cbn in H, E. destruct (Nat.eqb_spec a i), (Nat.eqb_spec b i); cbn in H; lia.
  - change (push hypot exp l i (a, b) ++ pushes hypot exp l i pairs = push hypot exp l i p). cbn in H. assert (N : (meetings i pairs >= 1)%nat). { destruct (meetings i pairs) eqn:Z; [|lia]. destruct p as [p q]. destruct (meetings_none i pairs ltac:(lia) p q I). cbn in E. tauto. }
    destruct (Nat.eqb_spec a i), (Nat.eqb_spec b i); cbn in H; try lia. rewrite IH by (auto; lia). unfold push at 1. cbn [fst snd]. destruct (nth_error l a); auto. destruct (nth_error l b); auto. destruct (f_pair_forces _ _ _ _) as [[]|]; auto.
    destruct (Nat.eqb_spec a i), (Nat.eqb_spec b i); try contradiction; reflexivity.
Qed.
