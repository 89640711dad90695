(** An argsort, and concrete agents that follow. *)
From Coq Require Import Lra Lia Permutation Sorted.
From Verif Require Export Proofs.CollectiveProofs.
Open Scope R_scope.

(** ** Insertion sort of the indices by value *)
Section Sort.
  Context {A : Type} (leb : A -> A -> bool) (le_ : A -> A -> Prop) (dflt : A).
  Hypothesis (leb_le : forall a b, leb a b = true -> le_ a b) (leb_ge : forall a b, leb a b = false -> le_ b a).
  Hypothesis (trans : forall a b c, le_ a b -> le_ b c -> le_ a c).
  Fixpoint ins (key : nat -> A) (i : nat) (l : list nat) : list nat :=
    match l with [] => [i] | j :: l' => if leb (key i) (key j) then i :: l else j :: ins key i l' end.
  Definition sort_by (key : nat -> A) (l : list nat) : list nat := fold_right (ins key) [] l.
  Definition argsort_by (l : list A) : list nat := sort_by (fun i => nth i l dflt) (seq 0 (length l)).
  Lemma ins_perm key i l : Permutation (ins key i l) (i :: l).
  Proof. induction l as [|j l IH]; cbn; auto. destruct (leb (key i) (key j)); auto. rewrite IH. apply perm_swap. Qed.
  Lemma sort_perm key l : Permutation (sort_by key l) l.
  Proof. induction l as [|i l IH]; cbn; auto. rewrite ins_perm. now constructor. Qed.
  Lemma ins_sorted key i l : StronglySorted (fun a b => le_ (key a) (key b)) l -> StronglySorted (fun a b => le_ (key a) (key b)) (ins key i l).
  Proof.
    induction l as [|j l IH]; intros H; cbn; [repeat constructor|]. inversion H as [|? ? H1 H2]; subst. destruct (leb (key i) (key j)) eqn:E.
    - constructor; auto. constructor; auto. rewrite Forall_forall in *. intros x Hx. eauto.
    - constructor; auto. rewrite Forall_forall in *. intros x Hx. apply (Permutation_in _ (ins_perm key i l)) in Hx as [<-|Hx]; auto.
  Qed.
  Lemma sort_sorted key l : StronglySorted (fun a b => le_ (key a) (key b)) (sort_by key l).
  Proof. induction l; cbn; [constructor|now apply ins_sorted]. Qed.
  Lemma sorted_nth (Rl : nat -> nat -> Prop) l : StronglySorted Rl l -> forall i j u v, (i < j)%nat -> nth_error l i = Some u -> nth_error l j = Some v -> Rl u v.
  Proof.
    induction 1 as [|a l H IH F]; intros i j u v L Hi Hj; [destruct i; discriminate|]. destruct i as [|i], j as [|j]; try lia; cbn in *.
    - injection Hi as <-. rewrite Forall_forall in F. apply F. eapply nth_error_In; eauto.
    - apply (IH i j); auto. lia.
  Qed.
  Lemma argsort_by_ok l : is_argsort le_ l (argsort_by l).
  Proof.
    split; [apply sort_perm|]. intros i j u v a b L Hi Hj Ha Hb.
    pose proof (sorted_nth _ _ (sort_sorted (fun i => nth i l dflt) (seq 0 (length l))) i j u v L Hi Hj) as K. cbn in K.
    now rewrite (nth_error_nth _ _ dflt Ha), (nth_error_nth _ _ dflt Hb) in K.
  Qed.
End Sort.
Definition argsort_R : list R -> list nat := argsort_by (fun a b => negb (Rltb b a)) 0.
Definition argsort_N : list nat -> list nat := argsort_by Nat.leb 0%nat.
Lemma argsort_R_ok l : is_argsort Rle l (argsort_R l).
Proof.
  apply argsort_by_ok.
  - intros a b H. apply negb_true_iff, Rltb_false in H. lra.
  - intros a b H. apply negb_false_iff, Rltb_true in H. lra.
  - intros a b c. lra.
Qed.
Lemma argsort_N_ok l : is_argsort le l (argsort_N l).
Proof.
  apply argsort_by_ok.
  - intros a b. apply Nat.leb_le.
  - intros a b H. apply Nat.leb_gt in H. lia.
  - intros a b c. lia.
Qed.

(** ** A leader at (3, 0) walking to the right, a follower at (0, 0) *)
Definition lead1 : agent := set_target 2 (set_is_leader true (set_position (V 3 0) (set_velocity (V 1 0) default_row))).
Definition foll1 : agent := set_is_follower true (set_index_leader (-1) (set_familiar_exit 1 (set_position (V 0 0) (set_velocity (V 1 0) default_row)))).
Lemma ready1 : follow_ready [foll1; lead1].
Proof. intros a [<-|[<-|[]]] F; [|discriminate]. split; [reflexivity|]. left. reflexivity. Qed.
Lemma dist_3 : edist (V 0 0) (V 3 0) = 3.
Proof. unfold edist. cbn. replace (_ + _) with (3 * 3) by ring. apply sqrt_square. lra. Qed.
Lemma leads1 : leads [] 20 (45/100 * PI) (leader_in [foll1; lead1]) (pos_of [foll1; lead1]) (vel_of [foll1; lead1]) 0 1.
Proof.
  change (pos_of [foll1; lead1] 0) with (V 0 0).
  split; [reflexivity|]. change (pos_of [foll1; lead1] 1) with (V 3 0). change (pos_of [foll1; lead1] 0) with (V 0 0).
  rewrite dist_3. split; [lra|]. split; [intros o []|].
  change (vel_of [foll1; lead1] 0) with (V 1 0). change (vel_of [foll1; lead1] 1) with (V 1 0).
  assert (N : V 1 0 <> vzero) by (intros [= H]; lra). split; [auto|]. split; [auto|]. intros [A _].
  unfold dot, vsub in A. cbn in A. rewrite dist_3 in A. pose proof cos_phi_default as C.
  assert (E : 0 <= elen (V 1 0)) by (rewrite elen_vlength; apply vlength_nonneg).
  assert (0 <= cos (45/100*PI) * (elen (V 1 0) * 3)) by (apply Rmult_le_pos; [auto|apply Rmult_le_pos; lra]). lra.
Qed.
Lemma only1 : forall j, decisive [] 20 (45/100 * PI) (leader_in [foll1; lead1]) (pos_of [foll1; lead1]) (vel_of [foll1; lead1]) 0 (remembers foll1) j -> j = 1%nat.
Proof.
  intros j [(H & _)|(H & _)]; unfold leader_in in H; destruct j as [|[|[|]]]; cbn in H; auto; discriminate.
Qed.
(** The node makes the follower remember and follow the leader. *)
Lemma follows1 : exists a', leader_follower_node argsort_R [] 20 [foll1; lead1] = Ok [a'; lead1] /\
  a_index_leader a' = 1%Z /\ a_target a' = (-1)%Z /\
  a_target_direction a' = normalize (vadd (vscale (40/100) (normalize (vsub (V 3 0) (V 0 0)))) (vscale (1 - 40/100) (normalize (V 1 0)))).
Proof.
  destruct (leader_follower_node_spec argsort_R [] 20 [foll1; lead1] argsort_R_ok ready1) as (ag & E & L & K).
  pose proof (K 0%nat foll1 eq_refl) as K0. pose proof (K 1%nat lead1 eq_refl) as K1. cbn in K1.
  change (a_is_follower foll1) with true in K0. cbv iota in K0. destruct K0 as (t & o & d & K0 & _ & O).
  destruct ag as [|a' [|b' [|]]]; try (cbn in L; lia). cbn in K0. injection K0 as K0. injection K1 as ->.
  exists a'. split; [exact E|].
  destruct O as [(j & N & Lj & -> & -> & ->)|[(j & _ & (_ & _ & _ & R) & _)|(N & _)]].
  - assert (j = 1%nat) by (apply only1; apply N). subst j a'. repeat split.
  - discriminate R.
  - exfalso. apply (N 1%nat). left. apply leads1.
Qed.

(** ** Head-on neighbours *)
Lemma head_on_followed : fst (herding_relationship (V 0 0) (V 1 0) (V 1 0) (V (-1) 0) (45/100 * PI)) = true.
Proof.
  apply herding_spec; [right; apply cos_phi_default|]. split; [intros [= H]; lra|]. split; [intros [= H]; lra|]. intros [_ H].
  unfold dot, vsub, elen, edist in H. cbn in H.
  replace ((-1 - 0) * (-1 - 0) + (0 - 0) * (0 - 0)) with 1 in H by ring.
  replace ((0 - 1) * (0 - 1) + (0 - 0) * (0 - 0)) with 1 in H by ring. rewrite sqrt_1 in H. lra.
Qed.
(** ** Neighbours *)
Lemma enum_line : good_enumeration [V 0 0; V 1 0; V 3 0] 10 [(0, 1); (2, 0); (1, 2)]%nat.
Proof.
  split; [|split].
  - intros i j [[= <- <-]|[[= <- <-]|[[= <- <-]|[]]]]; cbn; lia.
  - cbn. repeat constructor; cbn; intuition congruence.
  - intros i j x y Hij Hi Hj _.
    assert (j < 3)%nat by (change 3%nat with (length [V 0 0; V 1 0; V 3 0]); apply nth_error_Some; congruence).
    destruct i as [|[|i]], j as [|[|[|j]]]; cbn; try lia; auto.
Qed.
Lemma mid_point a b : vmean [a; b] = V ((vx a + vx b) / 2) ((vy a + vy b) / 2).
Proof. destruct a, b. unfold vmean, vsum, vdiv. cbn. apply vec_eq; cbn; field. Qed.

(** ** Statements for the property file *)
Lemma neighbors_zero_refuted : exists position sight pairs, good_enumeration position sight pairs /\
  find_nearest_neighbors position sight 0 pairs [] = Err ValueError.
Proof.
  exists [V 0 0; V 1 0], 10, [(0, 1)]%nat. split; [|exact neighbors_none_raises]. split; [|split].
  - intros i j [[= <- <-]|[]]. cbn. lia.
  - cbn. constructor; [tauto|constructor].
  - intros i j x y Hij Hi Hj _. left. left.
    assert (j < 2)%nat by (change 2%nat with (length [V 0 0; V 1 0]); apply nth_error_Some; congruence). f_equal; lia.
Qed.
Lemma enum1 : good_enumeration (map a_position [foll1; lead1]) 10 [(0, 1)]%nat.
Proof.
  split; [|split].
  - intros i j [[= <- <-]|[]]. cbn. lia.
  - cbn. constructor; [tauto|constructor].
  - intros i j x y Hij Hi Hj _. left. left.
    assert (j < 2)%nat by (change 2%nat with (length (map a_position [foll1; lead1])); apply nth_error_Some; congruence). f_equal; lia.
Qed.
Lemma herding_both x1 x2 v1 v2 phi : x1 <> x2 \/ 0 <= cos phi ->
  (fst (herding_relationship x1 x2 v1 v2 phi) = true <-> may_follow phi x1 x2 v1 v2) /\
  (snd (herding_relationship x1 x2 v1 v2 phi) = true <-> may_follow phi x2 x1 v2 v1).
Proof.
  intros H. split; [now apply herding_spec|]. rewrite <- herding_spec by (destruct H; auto). now rewrite herding_swap.
Qed.
Lemma head_on_refuted : exists x1 x2 v1 v2 n, v2 = vscale n (vsub x1 x2) /\ 0 < n /\
  fst (herding_relationship x1 x2 v1 v2 (45/100 * PI)) = true.
Proof.
  exists (V 0 0), (V 1 0), (V 1 0), (V (-1) 0), 1. split; [veq; ring|]. split; [lra|]. exact head_on_followed.
Qed.
Lemma cos_phi_small : cos (45/100 * PI) < 1 / 2.
Proof.
  rewrite <- cos_PI3. pose proof PI_RGT_0. apply cos_decreasing_1; lra.
Qed.
Lemma herding_cases : exists x1 x2 v1 v2, x1 <> x2 /\ may_follow (45/100 * PI) x1 x2 v1 v2 /\
  exists x3 v3, x1 <> x3 /\ v3 <> vzero /\ comes_towards (45/100 * PI) x1 x3 v3.
Proof.
  exists (V 0 0), (V 3 0), (V 1 0), (V 1 0). split; [intros [= H]; lra|]. split; [apply leads1|].
  exists (V 3 0), (V (-4) 3). split; [intros [= H]; lra|]. split; [intros [= H]; lra|].
  unfold comes_towards. rewrite dist_3. replace (elen (V (-4) 3)) with 5.
  2:{ unfold elen, edist. cbn. replace (_ + _) with (5 * 5) by ring. symmetry. apply sqrt_square. lra. }
  unfold dot, vsub. cbn. pose proof cos_phi_small. lra.
Qed.
Lemma forall2_nth {A B} (P : A -> B -> Prop) l l' : length l' = length l ->
  (forall i a, nth_error l i = Some a -> exists b, nth_error l' i = Some b /\ P a b) -> Forall2 P l l'.
Proof.
  revert l'. induction l as [|a l IH]; intros [|b l'] L H; cbn in L; try lia; constructor.
  - destruct (H 0%nat a eq_refl) as (b' & E & K). cbn in E. congruence.
  - apply IH; [lia|]. intros i x Hx. apply (H (Datatypes.S i) x Hx).
Qed.
Lemma only_followers argsort_f8 enum obs sight k agents agents' : (forall l, is_argsort Rle l (argsort_f8 l)) ->
  follow_ready agents -> (1 <= k)%nat -> good_enumeration (map a_position agents) sight (enum (map a_position agents) sight) ->
  leader_follower_node argsort_f8 obs sight agents = Ok agents' \/
  leader_follower_with_herding_node argsort_f8 enum obs sight k agents = Ok agents' ->
  Forall2 (fun a b => (a_is_follower a = false -> b = a) /\
    (a_is_follower a = true -> exists d t l, b = set_target_direction d (set_target t (set_index_leader l a)) /\ (d = vzero \/ vlength d = 1)))
    agents agents'.
Proof.
  intros HS HR Hk HE [E|E].
  - destruct (leader_follower_node_spec argsort_f8 obs sight agents HS HR) as (ag & E' & L & K). rewrite E in E'. injection E' as <-.
    apply forall2_nth; auto. intros i a Ha. specialize (K i a Ha). destruct (a_is_follower a).
    + destruct K as (t & o & d & K1 & K2 & _). eexists. split; [exact K1|]. split; [discriminate|]. intros _. eauto.
    + exists a. split; auto. split; auto. discriminate.
  - destruct (herding_node_spec argsort_f8 enum obs sight k agents HS Hk HE HR) as (ag & E' & L & K). rewrite E in E'. injection E' as <-.
    apply forall2_nth; auto. intros i a Ha. specialize (K i a Ha). destruct (a_is_follower a).
    + destruct K as (ns & h & dh & t & o & dl & d & _ & _ & _ & _ & K1 & K2). eexists. split; [exact K2|]. split; [discriminate|]. intros _. eauto.
    + exists a. split; auto. split; auto. discriminate.
Qed.
Lemma leader_follower_ready argsort_f8 obs sight agents agents' : (forall l, is_argsort Rle l (argsort_f8 l)) -> follow_ready agents ->
  leader_follower_node argsort_f8 obs sight agents = Ok agents' -> follow_ready agents'.
Proof.
  intros HS HR E. destruct (leader_follower_node_spec argsort_f8 obs sight agents HS HR) as (ag & E' & L & K). rewrite E in E'. injection E' as <-.
  assert (LI : forall j, leader_in agents j -> leader_in agents' j).
  { intros j Hj. unfold leader_in in *. rewrite nth_error_map in *. destruct (nth_error agents j) as [b|] eqn:Hb; [|discriminate]. injection Hj as Hj.
    specialize (K j b Hb). destruct (a_is_follower b).
    - destruct K as (t & o & d & K1 & _). rewrite K1. cbn. congruence.
    - rewrite K. cbn. congruence. }
  intros b Hb Fb. apply In_nth_error in Hb as [i Hi]. destruct (nth_error agents i) as [a|] eqn:Ha.
  2:{ apply nth_error_None in Ha. assert (i < length agents')%nat by (apply nth_error_Some; congruence). lia. }
  specialize (K i a Ha). destruct (a_is_follower a) eqn:Fa.
  - destruct K as (t & o & d & K1 & _ & O). rewrite Hi in K1. injection K1 as ->. destruct (HR a (nth_error_In _ _ Ha) Fa) as [R1 R2].
    split; [exact R1|]. change (a_index_leader (set_target_direction d (set_target t (set_index_leader (leader_code o) a)))) with (leader_code o).
    destruct o as [j|]; [right; exists j; split; [reflexivity|]|now left]. apply LI.
    destruct O as [(j' & _ & (L' & _) & _ & E1 & _)|[(j' & _ & (L' & _) & _ & E1 & _)|(_ & E1 & _)]].
    + injection E1 as ->. exact L'.
    + injection E1 as ->. exact L'.
    + unfold remembers in E1. destruct R2 as [R2|(j' & R2 & R3)]; rewrite R2 in E1; [discriminate|].
      destruct (Z.ltb_spec (Z.of_nat j') 0); [lia|]. rewrite Nat2Z.id in E1. injection E1 as ->. auto.
  - rewrite Hi in K. injection K as ->. congruence.
Qed.
Lemma exit_case : nearest_seen [Obs (V 1 (-1)) (V 1 1)] 20 [V 2 0; V 0 3; V 0 4] (V 0 0) 1.
Proof.
  exists (V 0 3). split; [reflexivity|].
  assert (D3 : edist (V 0 0) (V 0 3) = 3) by (unfold edist; cbn; replace (_ + _) with (3 * 3) by ring; apply sqrt_square; lra).
  assert (D4 : edist (V 0 0) (V 0 4) = 4) by (unfold edist; cbn; replace (_ + _) with (4 * 4) by ring; apply sqrt_square; lra).
  split; [|split; [lra|]].
  - intros o [<-|[]] [H _]. apply H. exists 2, 3. unfold vsub. cbn. repeat split; lra.
  - intros c' p' Hc Hs. destruct c' as [|[|[|c']]]; cbn in Hc; try (destruct c'; discriminate); injection Hc as <-; rewrite ?D3, ?D4; try (split; [lra|lia]).
    exfalso. apply (Hs (Obs (V 1 (-1)) (V 1 1))); [now left|]. split.
    + intros (u & v & N & A & B). unfold vsub in *. cbn in *. lra.
    + exists (V 1 0). split.
      * exists (1/2). split; [lra|]. unfold along, vadd, vscale, vsub. apply vec_eq; cbn; lra.
      * exists (1/2). split; [lra|]. unfold along, vadd, vscale, vsub. apply vec_eq; cbn; lra.
Qed.
