(** Herding relation, leaders and followers. *)
From Coq Require Import Lra Lia Permutation Sorted.
From Verif Require Export Spec.Follow Model.Collective Proofs.Vector2DProofs Proofs.EvacuationProofs Proofs.NeighborProofs.
Open Scope R_scope.

(** ** Herding relation *)
Lemma vzero_dec a : a = vzero \/ a <> vzero.
Proof. destruct (Req_dec (vlength a) 0) as [E|N]; [left; now apply vlength_zero|right; intros ->; apply N; now apply vlength_zero]. Qed.
Lemma dot_normalize a b : dot (normalize a) (normalize b) * (vlength a * vlength b) = dot a b.
Proof.
  destruct (vzero_dec a) as [->|Na]; [rewrite normalize_zero; unfold dot; cbn; ring|].
  destruct (vzero_dec b) as [->|Nb]; [rewrite normalize_zero; unfold dot; cbn; ring|].
  rewrite !normalize_nonzero by auto. pose proof (vlength_pos a Na). pose proof (vlength_pos b Nb).
  unfold dot, vscale. cbn. field. lra.
Qed.
Lemma normalize_vneg a : normalize (vneg a) = vneg (normalize a).
Proof.
  destruct (vzero_dec a) as [->|Na].
  - replace (vneg vzero) with vzero by (veq; ring). rewrite normalize_zero. veq; ring.
  - assert (Nn : vneg a <> vzero) by (intros E; apply Na; destruct a; unfold vneg, vzero in *; injection E as E1 E2; apply vec_eq; cbn; lra).
    rewrite !normalize_nonzero by auto. replace (vlength (vneg a)) with (vlength a); [veq; ring|].
    unfold vlength. f_equal. unfold vneg. cbn. ring.
Qed.
Lemma comes_iff phi x1 x2 v2 : x1 <> x2 -> v2 <> vzero ->
  (Rltb (cos phi) (- dot (normalize (vsub x2 x1)) (normalize v2)) && Rltb (- dot (normalize (vsub x2 x1)) (normalize v2)) 1 = true
   <-> comes_towards phi x1 x2 v2).
Proof.
  intros Nx Nv. set (c := - dot (normalize (vsub x2 x1)) (normalize v2)).
  assert (N : vsub x2 x1 <> vzero). { intros E. apply Nx. destruct x1, x2. unfold vsub, vzero in E. cbn in E. injection E as E1 E2. apply vec_eq; cbn; lra. }
  pose proof (vlength_pos _ N) as Pd. pose proof (vlength_pos _ Nv) as Pv.
  assert (Ed : edist x1 x2 = vlength (vsub x2 x1)). { rewrite edist_sym. apply edist_vlength. }
  assert (Ev : elen v2 = vlength v2) by apply elen_vlength.
  assert (Ec : c * (elen v2 * edist x1 x2) = dot v2 (vsub x1 x2)).
  { rewrite Ed, Ev. unfold c. rewrite (Rmult_comm (vlength v2)). rewrite Ropp_mult_distr_l_reverse, dot_normalize. unfold dot, vsub. cbn. ring. }
  unfold comes_towards. rewrite <- Ec. assert (P : 0 < elen v2 * edist x1 x2) by (rewrite Ed, Ev; now apply Rmult_lt_0_compat).
  set (q := elen v2 * edist x1 x2) in *. rewrite andb_true_iff, !Rltb_true. split.
  - intros [A B]. split; [now apply Rmult_lt_compat_r|]. rewrite <- (Rmult_1_l q) at 2. now apply Rmult_lt_compat_r.
  - intros [A B]. split; [now apply Rmult_lt_reg_r in A|]. rewrite <- (Rmult_1_l q) in B at 2. now apply Rmult_lt_reg_r in B.
Qed.
Lemma heading_fst x1 x2 v1 v2 phi :
  fst (herding_relationship x1 x2 v1 v2 phi) =
  negb (Reqb (vlength v1) 0 || Reqb (vlength v2) 0) &&
  negb (Rltb (cos phi) (- dot (normalize (vsub x2 x1)) (normalize v2)) && Rltb (- dot (normalize (vsub x2 x1)) (normalize v2)) 1).
Proof.
  unfold herding_relationship. cbv zeta. destruct (Reqb (vlength v1) 0 || Reqb (vlength v2) 0); auto.
  destruct (Rltb (cos phi) (dot _ _) && Rltb _ 1), (Rltb (cos phi) (- _) && Rltb (- _) 1); reflexivity.
Qed.
Lemma zero_test v : Reqb (vlength v) 0 = true <-> v = vzero.
Proof. rewrite Reqb_true. apply vlength_zero. Qed.
Lemma herding_spec x1 x2 v1 v2 phi : x1 <> x2 \/ 0 <= cos phi ->
  (fst (herding_relationship x1 x2 v1 v2 phi) = true <-> may_follow phi x1 x2 v1 v2).
Proof.
  intros Nx. rewrite heading_fst, andb_true_iff, !negb_true_iff. unfold may_follow.
  destruct (vzero_dec v1) as [->|N1].
  { rewrite (proj2 (zero_test vzero) eq_refl). cbn. intuition congruence. }
  destruct (vzero_dec v2) as [->|N2].
  { rewrite (proj2 (zero_test vzero) eq_refl), orb_true_r. intuition congruence. }
  destruct (Reqb (vlength v1) 0) eqn:E1; [apply zero_test in E1; contradiction|].
  destruct (Reqb (vlength v2) 0) eqn:E2; [apply zero_test in E2; contradiction|]. cbn [orb].
  destruct (vzero_dec (vsub x2 x1)) as [Z|Z].
  - assert (x1 = x2) by (destruct x1, x2; unfold vsub, vzero in Z; cbn in Z; injection Z as Z1 Z2; apply vec_eq; cbn; lra). subst x2.
    assert (Hc : 0 <= cos phi) by (destruct Nx; [congruence|auto]).
    replace (- dot (normalize (vsub x1 x1)) (normalize v2)) with 0 by (rewrite Z, normalize_zero; unfold dot; cbn; ring).
    destruct (Rltb_spec (cos phi) 0); [lra|]. cbn [andb]. unfold comes_towards.
    replace (dot v2 (vsub x1 x1)) with 0 by (unfold dot, vsub; cbn; ring).
    replace (edist x1 x1) with 0. 2:{ rewrite edist_vlength. symmetry. now apply vlength_zero. }
    rewrite !Rmult_0_r. intuition lra.
  - assert (Nx' : x1 <> x2). { intros ->. apply Z. veq; ring. }
    pose proof (comes_iff phi x1 x2 v2 Nx' N2) as K.
    destruct (Rltb _ _ && Rltb _ 1); intuition congruence.
Qed.
Lemma herding_swap x1 x2 v1 v2 phi :
  herding_relationship x2 x1 v2 v1 phi =
  (snd (herding_relationship x1 x2 v1 v2 phi), fst (herding_relationship x1 x2 v1 v2 phi)).
Proof.
  unfold herding_relationship. rewrite orb_comm. destruct (Reqb (vlength v1) 0 || Reqb (vlength v2) 0); auto. cbv zeta.
  replace (vsub x1 x2) with (vneg (vsub x2 x1)) by (veq; ring). rewrite normalize_vneg.
  assert (A : forall a b, dot (vneg a) b = - dot a b) by (intros; unfold dot, vneg; cbn; ring). rewrite !A, Ropp_involutive.
  destruct (Rltb (cos phi) (dot _ (normalize v1)) && Rltb _ 1), (Rltb (cos phi) (- dot _ (normalize v2)) && Rltb _ 1); reflexivity.
Qed.

(** ** Masks *)
Lemma where_from mask : forall n i, In i (map fst (filter snd (combine (seq n (length mask)) mask))) <->
  (n <= i)%nat /\ nth_error mask (i - n) = Some true.
Proof.
  induction mask as [|b mask IH]; intros n i; cbn.
  { split; [tauto|]. intros [_ H]. destruct (i - n)%nat; discriminate. }
  destruct (Nat.eq_dec i n) as [->|N].
  - rewrite Nat.sub_diag. destruct b; cbn.
    + split; auto.
    + rewrite IH. split; [lia|]. intros [_ [=]].
  - destruct b; cbn; rewrite IH; (destruct (Nat.leb_spec n i) as [L|L];
      [replace (i - n)%nat with (Datatypes.S (i - Datatypes.S n)) by lia; cbn|]);
      (split; [intros H; try (destruct H as [->|H]; [lia|])|intros [H1 H2]]); auto; try lia; intuition lia.
Qed.
Lemma where_iff mask i : In i (where_true mask) <-> nth_error mask i = Some true.
Proof. unfold where_true. rewrite where_from, Nat.sub_0_r. intuition lia. Qed.
Lemma where_nodup_from mask : forall n, NoDup (map fst (filter snd (combine (seq n (length mask)) mask))).
Proof.
  induction mask as [|b mask IH]; intros n; cbn; [constructor|]. destruct b; cbn; auto. constructor; auto.
  rewrite where_from. lia.
Qed.
Lemma where_nodup mask : NoDup (where_true mask).
Proof. apply where_nodup_from. Qed.

(** ** Leaders in order of distance *)
Lemma sorted_of {A} (Rl : A -> A -> Prop) p :
  (forall i j u v, (i < j)%nat -> nth_error p i = Some u -> nth_error p j = Some v -> Rl u v) -> StronglySorted Rl p.
Proof.
  induction p as [|a p IH]; intros H; constructor.
  - apply IH. intros i j u v L Hi Hj. apply (H (Datatypes.S i) (Datatypes.S j)); auto. lia.
  - apply Forall_forall. intros y Hy. apply In_nth_error in Hy as [n Hn]. apply (H 0%nat (Datatypes.S n)); auto. lia.
Qed.
Section Choose.
  Variables (position velocity : list vec) (phi : R) (obs : list obstacle) (sight : R) (i : nat) (r : Z) (leaders : list nat) (d : nat -> R).
  Definition see_k (j : nat) : bool := negb (is_obstacle_between_points (nth i position vzero) (nth j position vzero) obs).
  Definition lead_k (k j : nat) : Prop := nth_error leaders k = Some j /\ d k <= sight /\ see_k j = true /\
    fst (herding_relationship (nth i position vzero) (nth j position vzero) (nth i velocity vzero) (nth j velocity vzero) phi) = true.
  Definition lost_k (k j : nat) : Prop := nth_error leaders k = Some j /\ d k <= sight /\ see_k j = false /\ r = Z.of_nat j.
  Lemma choose_spec order : StronglySorted (fun a b => d a <= d b) order ->
    match choose_leader position velocity phi obs sight i r leaders d order with
    | FollowLeader j => exists k, In k order /\ lead_k k j /\ forall k' j', In k' order -> lead_k k' j' \/ lost_k k' j' -> d k <= d k'
    | LeaderHidden => exists k j, In k order /\ lost_k k j /\ forall k' j', In k' order -> lead_k k' j' \/ lost_k k' j' -> d k <= d k'
    | NoChoice => forall k' j', In k' order -> ~ (lead_k k' j' \/ lost_k k' j')
    end.
  Proof.
    induction order as [|k order IH]; intros HS; cbn [choose_leader]; [now intros k' j' []|].
    inversion HS as [|? ? HS' HF]; subst. specialize (IH HS'). rewrite Forall_forall in HF.
    assert (Min : forall k', In k' (k :: order) -> d k <= d k') by (intros k' [<-|H]; [lra|auto]).
    assert (Skip : (forall j', ~ (lead_k k j' \/ lost_k k j')) ->
      match choose_leader position velocity phi obs sight i r leaders d order with
      | FollowLeader j => exists k0, In k0 (k :: order) /\ lead_k k0 j /\ forall k' j', In k' (k :: order) -> lead_k k' j' \/ lost_k k' j' -> d k0 <= d k'
      | LeaderHidden => exists k0 j, In k0 (k :: order) /\ lost_k k0 j /\ forall k' j', In k' (k :: order) -> lead_k k' j' \/ lost_k k' j' -> d k0 <= d k'
      | NoChoice => forall k' j', In k' (k :: order) -> ~ (lead_k k' j' \/ lost_k k' j')
      end).
    { intros HN. destruct (choose_leader position velocity phi obs sight i r leaders d order).
      - destruct IH as (k0 & A & B & C). exists k0. split; [now right|]. split; auto. intros k' j' [<-|H] K; [now apply HN in K|eauto].
      - destruct IH as (k0 & j & A & B & C). exists k0, j. split; [now right|]. split; auto. intros k' j' [<-|H] K; [now apply HN in K|eauto].
      - intros k' j' [<-|H]; auto. }
    destruct (Rltb_spec sight (d k)) as [L|L].
    { apply Skip. intros j' [(_ & A & _)|(_ & A & _)]; lra. }
    destruct (nth_error leaders k) as [j|] eqn:El.
    2:{ apply Skip. intros j' [(A & _)|(A & _)]; congruence. }
    destruct (is_obstacle_between_points (nth i position vzero) (nth j position vzero) obs) eqn:B.
    - destruct (negb (r =? NO_LEADER)%Z && (r =? Z.of_nat j)%Z) eqn:Er.
      + apply andb_true_iff in Er as [_ Er]. apply Z.eqb_eq in Er. exists k, j. split; [now left|]. split; eauto.
        repeat split; auto. unfold see_k. now rewrite B.
      + apply Skip. intros j' [(A & _ & C & _)|(A & _ & _ & C)].
        * assert (j' = j) by congruence. subst. unfold see_k in C. rewrite B in C. discriminate.
        * assert (j' = j) by congruence. subst j'. rewrite C, Z.eqb_refl, andb_true_r in Er. unfold NO_LEADER in Er.
          rewrite (proj2 (Z.eqb_neq _ _)) in Er; [discriminate|lia].
    - destruct (fst (herding_relationship _ _ _ _ phi)) eqn:H.
      + exists k. split; [now left|]. split; eauto. repeat split; auto. unfold see_k. now rewrite B.
      + apply Skip. intros j' [(A & _ & _ & C)|(A & _ & C & _)].
        * assert (j' = j) by congruence. subst. congruence.
        * assert (j' = j) by congruence. subst. unfold see_k in C. rewrite B in C. discriminate.
  Qed.
End Choose.

(** ** One follower *)
Definition at_ (s : lf_state) (m : nat) : option Z * option Z * option vec * option bool :=
  (nth_error (lf_target s) m, nth_error (lf_leader s) m, nth_error (lf_direction s) m, nth_error (lf_strategy s) m).
Section FollowOne.
  Variables (argsort_f8 : list R -> list nat) (Hsort : forall l, is_argsort Rle l (argsort_f8 l)).
  Variables (is_leader : list bool) (position velocity : list vec) (w phi : R) (T0 : list Z) (obs : list obstacle) (sight : R).
  Hypothesis (Hphi : 0 <= cos phi).
  Definition xs (m : nat) := nth m position vzero.
  Definition vs (m : nat) := nth m velocity vzero.
  Definition leader_ (m : nat) := nth_error is_leader m = Some true.
  Definition raw_outcome (i : nat) (o : option nat) (t l : Z) (dv : vec) (st : bool) : Prop :=
    exists o', l = leader_code o' /\
      if st then forall fam, follower_outcome obs sight phi w leader_ xs vs i o (fun m => nth m T0 0%Z) fam t o' dv
      else t = nth i T0 0%Z /\ forall fam, follower_outcome obs sight phi w leader_ xs vs i o (fun m => nth m T0 0%Z) fam fam o' dv.

  Lemma follow_one_spec i o s : nth_error (lf_leader s) i = Some (leader_code o) -> (forall j, o = Some j -> leader_ j) ->
    (forall j, leader_ j -> exists t, nth_error T0 j = Some t /\ nth_error (lf_target s) j = Some t) ->
    nth_error (lf_target s) i = nth_error T0 i ->
    (i < length (lf_target s))%nat -> (i < length (lf_direction s))%nat -> (i < length (lf_strategy s))%nat ->
    nth_error (lf_direction s) i = Some vzero -> nth_error (lf_strategy s) i = Some false ->
    exists s' t l dv st, follow_one argsort_f8 position velocity w phi obs sight (where_true is_leader) i s = Ok s' /\
      at_ s' i = (Some t, Some l, Some dv, Some st) /\ raw_outcome i o t l dv st /\ forall m, m <> i -> at_ s' m = at_ s m.
  Proof.
    intros HL Ho HT HTi Li1 Li2 Li3 HD HSt. unfold follow_one. cbv zeta.
    rewrite (nth_error_nth _ _ NO_LEADER HL).
    set (leaders := where_true is_leader). set (dists := map (fun j => vlength (vsub (nth i position vzero) (nth j position vzero))) leaders).
    set (d := fun k => nth k dists 0).
    assert (Dk : forall k j, nth_error leaders k = Some j -> d k = edist (xs i) (xs j)).
    { intros k j E. unfold d. apply nth_error_nth. unfold dists. rewrite nth_error_map, E. reflexivity. }
    destruct (Hsort dists) as [HP HS]. fold d.
    assert (SS : StronglySorted (fun a b => d a <= d b) (argsort_f8 dists)).
    { apply sorted_of. intros a b u v Lab Ha Hb.
      assert (Hr : forall n q, nth_error (argsort_f8 dists) n = Some q -> exists y, nth_error dists q = Some y).
      { intros n q Hq. apply nth_error_In, (Permutation_in _ HP), in_seq in Hq. destruct (nth_error dists q) eqn:E; eauto. apply nth_error_None in E. lia. }
      destruct (Hr _ _ Ha) as [y1 E1], (Hr _ _ Hb) as [y2 E2]. unfold d. rewrite (nth_error_nth _ _ 0 E1), (nth_error_nth _ _ 0 E2). eapply HS; eauto. }
    assert (All : forall j, leader_ j -> exists k, In k (argsort_f8 dists) /\ nth_error leaders k = Some j).
    { intros j Hj. apply where_iff in Hj. apply In_nth_error in Hj as [k Hk]. exists k. split; auto.
      apply (Permutation_in _ (Permutation_sym HP)). apply in_seq. unfold dists. rewrite map_length. split; [lia|].
      cbn. apply nth_error_Some. fold leaders in Hk. congruence. }
    assert (Back : forall k j, nth_error leaders k = Some j -> leader_ j).
    { intros k j Hk. apply where_iff. eapply nth_error_In; eauto. }
    assert (Sees : forall j, see_k position obs i j = true <-> sees obs (xs i) (xs j)).
    { intros j. unfold see_k. rewrite negb_true_iff. symmetry. apply sees_iff. }
    assert (Code : forall j, leader_code o = Z.of_nat j <-> o = Some j).
    { intros j. destruct o as [m|]; cbn; split; intros H; try lia; try congruence; try (f_equal; lia). }
    assert (Lead : forall k j, lead_k position velocity phi obs sight i leaders d k j -> leads obs sight phi leader_ xs vs i j).
    { intros k j (A & B & C & D). unfold leads. rewrite (Dk _ _ A) in B. repeat split; eauto; [now apply Sees|..];
        apply herding_spec in D; try (now right); apply D. }
    assert (Lost : forall k j, lost_k position obs sight i (leader_code o) leaders d k j -> lost_leader obs sight leader_ xs i o j).
    { intros k j (A & B & C & D). unfold lost_leader. rewrite (Dk _ _ A) in B. repeat split; eauto; [|now apply Code].
      rewrite <- Sees. congruence. }
    assert (Dec : forall j, decisive obs sight phi leader_ xs vs i o j -> exists k, In k (argsort_f8 dists) /\ d k = edist (xs i) (xs j) /\
      (lead_k position velocity phi obs sight i leaders d k j \/ lost_k position obs sight i (leader_code o) leaders d k j)).
    { intros j [(A & B & C & D)|(A & B & C & D)]; destruct (All j A) as (k & Hk & Ek); exists k; split; auto; split; auto.
      - left. split; auto. rewrite (Dk _ _ Ek). repeat split; auto; [now apply Sees|]. apply herding_spec; auto.
      - right. split; auto. rewrite (Dk _ _ Ek). repeat split; auto; [|now apply Code].
        rewrite <- Sees in C. now apply not_true_iff_false in C. }
    pose proof (choose_spec position velocity phi obs sight i (leader_code o) leaders d (argsort_f8 dists) SS) as K.
    assert (Copy : forall j, o = Some j -> exists t, nth_error T0 j = Some t /\ copy_target s i (leader_code o) =
       Ok (LF (upd (lf_target s) i t) (lf_leader s) (lf_direction s) (upd (lf_strategy s) i true))).
    { intros j ->. destruct (HT j (Ho j eq_refl)) as (t & E1 & E2). exists t. split; auto. unfold copy_target. cbn [leader_code].
      rewrite (proj2 (Z.ltb_ge _ _)) by lia. now rewrite Nat2Z.id, E2. }
    assert (AtCopy : forall t, at_ (LF (upd (lf_target s) i t) (lf_leader s) (lf_direction s) (upd (lf_strategy s) i true)) i =
       (Some t, Some (leader_code o), Some vzero, Some true)).
    { intros t. unfold at_. cbn. rewrite !upd_nth_eq by auto. now rewrite HL, HD. }
    assert (AtOther : forall t m, m <> i -> at_ (LF (upd (lf_target s) i t) (lf_leader s) (lf_direction s) (upd (lf_strategy s) i true)) m = at_ s m).
    { intros t m N. unfold at_. cbn. now rewrite !upd_nth_neq by auto. }
    destruct (choose_leader position velocity phi obs sight i (leader_code o) leaders d (argsort_f8 dists)) as [j| |] eqn:EC.
    - destruct K as (k & Hk & HLk & Hmin). eexists _, _, _, _, _. split; [reflexivity|].
      assert (Ll : (i < length (lf_leader s))%nat) by (apply nth_error_Some; congruence).
      split. { unfold at_. cbn [lf_target lf_leader lf_direction lf_strategy]. rewrite !upd_nth_eq by auto. reflexivity. }
      split. 2:{ intros m N. unfold at_. cbn [lf_target lf_leader lf_direction lf_strategy]. now rewrite !upd_nth_neq by auto. }
      exists (Some j). split; [reflexivity|]. intros fam. left. exists j. split; [|split; [eauto|split; [reflexivity|split; [reflexivity|]]]].
      + split; [left; eauto|]. intros j' Hj'. destruct (Dec j' Hj') as (k' & Hk' & Ed & Hd). rewrite <- Ed.
        destruct HLk as (A & _). rewrite <- (Dk _ _ A). eauto.
      + reflexivity.
    - destruct K as (k & j & Hk & HLk & Hmin). pose proof (Lost k j HLk) as HLL. assert (Eo : o = Some j) by apply HLL.
      destruct (Copy j Eo) as (t & Et & Ec). rewrite Ec. eexists _, t, _, _, _. split; [reflexivity|]. split; [apply AtCopy|]. split; [|apply AtOther].
      exists o. split; auto. intros fam. right; left. exists j. split; [|split; [auto|split; [|auto]]].
      + split; [right; auto|]. intros j' Hj'. destruct (Dec j' Hj') as (k' & Hk' & Ed & Hd). rewrite <- Ed.
        destruct HLk as (A & _). rewrite <- (Dk _ _ A). eauto.
      + symmetry. now apply nth_error_nth.
    - assert (ND : forall j, ~ decisive obs sight phi leader_ xs vs i o j).
      { intros j Hj. destruct (Dec j Hj) as (k' & Hk' & _ & Hd). exact (K k' j Hk' Hd). }
      destruct o as [j|].
      + destruct (Copy j eq_refl) as (t & Et & Ec). unfold NO_LEADER at 1. cbn [leader_code] in *.
        rewrite (proj2 (Z.eqb_neq (Z.of_nat j) (-1))) by lia. cbn [negb]. rewrite Ec.
        eexists _, t, _, _, _. split; [reflexivity|]. split; [apply AtCopy|]. split; [|apply AtOther].
        exists (Some j). split; auto. intros fam. right; right. repeat split; auto. symmetry. now apply nth_error_nth.
      + cbn. destruct (nth_error (lf_target s) i) as [t|] eqn:Et; [|apply nth_error_None in Et; lia].
        exists s, t, (-1)%Z, vzero, false. split; [reflexivity|]. split. { unfold at_. now rewrite HL, HD, HSt, Et. }
        split; auto. exists None. split; auto. split; [symmetry; apply nth_error_nth; congruence|].
        intros fam. right; right. repeat split; auto.
  Qed.
End FollowOne.

(** ** All followers *)
Lemma at_length s s' : (forall m, at_ s' m = at_ s m) -> s' = s.
Proof.
  destruct s, s'. unfold at_. cbn. intros H. f_equal; apply nth_error_ext; intros m; specialize (H m); congruence.
Qed.
Section FollowAll.
  Variables (argsort_f8 : list R -> list nat) (Hsort : forall l, is_argsort Rle l (argsort_f8 l)).
  Variables (is_follower is_leader : list bool) (position velocity : list vec) (w phi : R) (T0 L0 : list Z) (obs : list obstacle) (sight : R).
  Variable (rem : nat -> option nat).
  Hypothesis (Hphi : 0 <= cos phi).
  Hypothesis (HlF : length is_follower = length position) (HlL : length is_leader = length position)
    (HlT : length T0 = length position) (HlI : length L0 = length position).
  Hypothesis (Hsep : forall m, nth_error is_follower m = Some true -> nth_error is_leader m <> Some true).
  Hypothesis (Hrem : forall m, nth_error is_follower m = Some true -> nth_error L0 m = Some (leader_code (rem m)) /\
    forall j, rem m = Some j -> nth_error is_leader j = Some true).
  Let out := raw_outcome is_leader position velocity w phi T0 obs sight.
  Let start (m : nat) : option Z * option Z * option vec * option bool :=
    (nth_error T0 m, nth_error L0 m, if (m <? length position)%nat then Some vzero else None, if (m <? length position)%nat then Some false else None).
  Lemma follow_all_spec todo : forall done s, NoDup (done ++ todo) -> (forall m, In m (done ++ todo) -> nth_error is_follower m = Some true) ->
    (forall m, ~ In m done -> at_ s m = start m) ->
    (forall m, In m done -> exists t l dv st, at_ s m = (Some t, Some l, Some dv, Some st) /\ out m (rem m) t l dv st) ->
    exists s', follow_all (follow_one argsort_f8 position velocity w phi obs sight (where_true is_leader)) todo s = Ok s' /\
      (forall m, ~ In m (done ++ todo) -> at_ s' m = start m) /\
      (forall m, In m (done ++ todo) -> exists t l dv st, at_ s' m = (Some t, Some l, Some dv, Some st) /\ out m (rem m) t l dv st).
  Proof.
    induction todo as [|i todo IH]; intros done s ND HF HN HD; cbn [follow_all].
    { rewrite app_nil_r. eauto. }
    assert (Hi : nth_error is_follower i = Some true) by (apply HF, in_app_iff; right; now left).
    assert (Li : (i < length position)%nat) by (rewrite <- HlF; apply nth_error_Some; congruence).
    assert (Ni : ~ In i done). { intros H. apply NoDup_remove_2 in ND. apply ND, in_app_iff. now left. }
    destruct (Hrem i Hi) as [R1 R2]. pose proof (HN i Ni) as Ai. unfold at_, start in Ai.
    apply Nat.ltb_lt in Li as Li'. rewrite Li' in Ai. injection Ai as A1 A2 A3 A4.
    assert (HT : forall j, leader_ is_leader j -> exists t, nth_error T0 j = Some t /\ nth_error (lf_target s) j = Some t).
    { intros j Hj. unfold leader_ in Hj. assert (Lj : (j < length position)%nat) by (rewrite <- HlL; apply nth_error_Some; congruence).
      destruct (nth_error T0 j) as [t|] eqn:Et; [|apply nth_error_None in Et; lia]. exists t. split; auto.
      assert (Nj : ~ In j done). { intros H. apply (Hsep j); auto. apply HF, in_app_iff. now left. }
      pose proof (HN j Nj) as Aj. unfold at_, start in Aj. congruence. }
    destruct (follow_one_spec argsort_f8 Hsort is_leader position velocity w phi T0 obs sight Hphi i (rem i) s) as (s' & t & l & dv & st & E & At & Out & Oth); auto.
    { now rewrite A2. }
    { apply nth_error_Some. rewrite A1. apply nth_error_Some. lia. }
    { apply nth_error_Some. congruence. } { apply nth_error_Some. congruence. }
    rewrite E. cbn [rbind]. destruct (IH (done ++ [i]) s') as (s2 & E2 & F1 & F2).
    - now rewrite <- app_assoc.
    - intros m Hm. rewrite <- app_assoc in Hm. auto.
    - intros m Hm. rewrite in_app_iff in Hm. rewrite Oth; [apply HN; tauto|]. intros ->. apply Hm. right. now left.
    - intros m Hm. apply in_app_iff in Hm as [Hm|[<-|[]]].
      + rewrite Oth; auto. intros ->. contradiction.
      + exists t, l, dv, st. auto.
    - exists s2. rewrite <- app_assoc in F1, F2. auto.
  Qed.
  Lemma brute_spec :
    exists s', leader_follower_interaction_brute argsort_f8 is_follower is_leader position velocity w phi T0 L0 obs sight = Ok s' /\
      (forall m, nth_error is_follower m <> Some true -> at_ s' m = start m) /\
      (forall m, nth_error is_follower m = Some true -> exists t l dv st, at_ s' m = (Some t, Some l, Some dv, Some st) /\ out m (rem m) t l dv st).
  Proof.
    unfold leader_follower_interaction_brute.
    destruct (follow_all_spec (where_true is_follower) [] (LF T0 L0 (map (fun _ => vzero) position) (map (fun _ => false) position)))
      as (s' & E & A & B).
    - apply where_nodup.
    - intros m Hm. now apply where_iff.
    - intros m _. unfold at_, start. cbn [lf_target lf_leader lf_direction lf_strategy]. rewrite !nth_error_map. destruct (Nat.ltb_spec m (length position)) as [L|L].
      + destruct (nth_error position m) eqn:Em; [reflexivity|apply nth_error_None in Em; lia].
      + apply nth_error_None in L. now rewrite L.
    - intros m [].
    - exists s'. split; auto. cbn [app] in *. split; intros m Hm; [apply A|apply B]; rewrite where_iff; auto.
  Qed.
End FollowAll.

(** ** The nodes *)
Lemma nth_error_combine {A B} (l1 : list A) (l2 : list B) n :
  nth_error (combine l1 l2) n = match nth_error l1 n, nth_error l2 n with Some a, Some b => Some (a, b) | _, _ => None end.
Proof.
  revert l2 n; induction l1 as [|a l1 IH]; destruct l2 as [|b l2], n; cbn; auto; now destruct (nth_error l1 n).
Qed.
Lemma cos_phi_default : 0 <= cos (45/100 * PI).
Proof. pose proof PI_RGT_0. apply cos_ge_0; lra. Qed.
Lemma unit_or_zero v : normalize v = vzero \/ vlength (normalize v) = 1.
Proof. destruct (vzero_dec v) as [->|N]; [left; apply normalize_zero|right; now apply normalize_unit]. Qed.


Lemma put_same a : set_index_leader (a_index_leader a) (set_target (a_target a) a) = a.
Proof. destruct a; reflexivity. Qed.
Lemma remembers_code a : a_index_leader a = (-1)%Z \/ (exists j, a_index_leader a = Z.of_nat j) -> a_index_leader a = leader_code (remembers a).
Proof.
  unfold remembers. intros [E|[j E]]; rewrite E; cbn; auto. destruct (Z.ltb_spec (Z.of_nat j) 0); [lia|]. cbn. now rewrite Nat2Z.id.
Qed.
(** Ready state, in terms of the arrays. *)
Lemma ready_arrays agents : follow_ready agents ->
  (forall m, nth_error (map a_is_follower agents) m = Some true -> nth_error (map a_is_leader agents) m <> Some true) /\
  (forall m, nth_error (map a_is_follower agents) m = Some true ->
     nth_error (map a_index_leader agents) m = Some (leader_code (match nth_error agents m with Some a => remembers a | None => None end)) /\
     forall j, match nth_error agents m with Some a => remembers a | None => None end = Some j -> nth_error (map a_is_leader agents) j = Some true).
Proof.
  intros HR. split; intros m Hm; rewrite nth_error_map in Hm; destruct (nth_error agents m) as [a|] eqn:Ea; try discriminate; injection Hm as Hm;
    destruct (HR a (nth_error_In _ _ Ea) Hm) as [H1 H2].
  - rewrite nth_error_map, Ea. cbn. congruence.
  - rewrite nth_error_map, Ea. cbn. split.
    + f_equal. apply remembers_code. destruct H2 as [H2|(j & H2 & _)]; eauto.
    + intros j Hj. unfold remembers in Hj. destruct H2 as [H2|(j' & H2 & H3)]; rewrite H2 in Hj.
      * discriminate.
      * destruct (Z.ltb_spec (Z.of_nat j') 0); [lia|]. rewrite Nat2Z.id in Hj. injection Hj as <-. exact H3.
Qed.
Lemma brute_agents argsort_f8 agents obs sight phi w : (forall l, is_argsort Rle l (argsort_f8 l)) -> 0 <= cos phi -> follow_ready agents ->
  exists s, leader_follower_interaction_brute argsort_f8 (map a_is_follower agents) (map a_is_leader agents)
            (map a_position agents) (map a_velocity agents) w phi (map a_target agents) (map a_index_leader agents) obs sight = Ok s /\
    (length (lf_target s) = length agents /\ length (lf_leader s) = length agents /\ length (lf_direction s) = length agents /\ length (lf_strategy s) = length agents) /\
    forall i a, nth_error agents i = Some a ->
      if a_is_follower a then exists t o d st, at_ s i = (Some t, Some (leader_code o), Some d, Some st) /\
        if st then forall fam, follower_outcome obs sight phi w (leader_in agents) (pos_of agents) (vel_of agents) i (remembers a) (target_of agents) fam t o d
        else t = a_target a /\ forall fam, follower_outcome obs sight phi w (leader_in agents) (pos_of agents) (vel_of agents) i (remembers a) (target_of agents) fam fam o d
      else at_ s i = (Some (a_target a), Some (a_index_leader a), Some vzero, Some false).
Proof.
  intros HS Hp HR. destruct (ready_arrays agents HR) as [RA RB].
  destruct (brute_spec argsort_f8 HS (map a_is_follower agents) (map a_is_leader agents) (map a_position agents) (map a_velocity agents) w phi
    (map a_target agents) (map a_index_leader agents) obs sight (fun m => match nth_error agents m with Some a => remembers a | None => None end))
    as (s & E & A & B); rewrite ?map_length; auto.
  exists s. split; [exact E|].
  assert (Len : forall m, (m < length agents)%nat <-> exists t l d st, at_ s m = (Some t, Some l, Some d, Some st)).
  { intros m. split.
    - intros L. destruct (nth_error (map a_is_follower agents) m) as [[|]|] eqn:Ef.
      + destruct (B m Ef) as (t & l & d & st & E1 & _). eauto 6.
      + rewrite (A m) by congruence. rewrite !map_length. rewrite (proj2 (Nat.ltb_lt _ _) L), !nth_error_map.
        destruct (nth_error agents m) eqn:Em; [do 4 eexists; reflexivity|apply nth_error_None in Em; lia].
      + apply nth_error_None in Ef. rewrite map_length in Ef. lia.
    - intros (t & l & d & st & Eq). destruct (nth_error (map a_is_follower agents) m) eqn:Ef.
      + rewrite <- (map_length a_is_follower). apply nth_error_Some. congruence.
      + rewrite (A m) in Eq by congruence. apply nth_error_None in Ef. rewrite map_length in *.
        rewrite (proj2 (Nat.ltb_ge _ _) Ef) in Eq. discriminate. }
  assert (LenOf : forall X (f : lf_state -> list X), (forall m, (exists y, nth_error (f s) m = Some y) <-> exists t l d st, at_ s m = (Some t, Some l, Some d, Some st)) -> length (f s) = length agents).
  { intros X f H. destruct (Nat.lt_trichotomy (length (f s)) (length agents)) as [L|[L|L]]; auto; exfalso.
    - apply Len in L. apply H in L as [y Hy]. apply Nat.lt_irrefl with (length (f s)). apply nth_error_Some. congruence.
    - assert (K : exists y, nth_error (f s) (length agents) = Some y). { destruct (nth_error (f s) (length agents)) eqn:K; eauto. apply nth_error_None in K. lia. }
      apply H, Len in K. lia. }
  assert (Some4 : forall m, at_ s m = (nth_error (lf_target s) m, nth_error (lf_leader s) m, nth_error (lf_direction s) m, nth_error (lf_strategy s) m)) by reflexivity.
  assert (Full : forall m, (exists t l d st, at_ s m = (Some t, Some l, Some d, Some st)) \/ at_ s m = (None, None, None, None)).
  { intros m. destruct (Nat.lt_ge_cases m (length agents)) as [L|L]; [left; now apply Len|right].
    rewrite (A m). 2:{ rewrite nth_error_map. apply nth_error_None in L. rewrite L. discriminate. }
    rewrite map_length, (proj2 (Nat.ltb_ge _ _) L), !nth_error_map. apply nth_error_None in L. now rewrite L. }
  assert (L1 : length (lf_target s) = length agents).
  { apply LenOf. intros m. destruct (Full m) as [(t & l & d & st & Q)|Q]; rewrite Some4 in Q.
    - split; [intros _; rewrite Some4; eauto 6|]. intros _. exists t. congruence.
    - split; [intros [y Hy]; congruence|]. intros (t & l & d & st & Q'). rewrite Some4 in Q'. congruence. }
  assert (L2 : length (lf_leader s) = length agents).
  { apply LenOf. intros m. destruct (Full m) as [(t & l & d & st & Q)|Q]; rewrite Some4 in Q.
    - split; [intros _; rewrite Some4; eauto 6|]. intros _. exists l. congruence.
    - split; [intros [y Hy]; congruence|]. intros (t & l & d & st & Q'). rewrite Some4 in Q'. congruence. }
  assert (L3 : length (lf_direction s) = length agents).
  { apply LenOf. intros m. destruct (Full m) as [(t & l & d & st & Q)|Q]; rewrite Some4 in Q.
    - split; [intros _; rewrite Some4; eauto 6|]. intros _. exists d. congruence.
    - split; [intros [y Hy]; congruence|]. intros (t & l & d & st & Q'). rewrite Some4 in Q'. congruence. }
  assert (L4 : length (lf_strategy s) = length agents).
  { apply LenOf. intros m. destruct (Full m) as [(t & l & d & st & Q)|Q]; rewrite Some4 in Q.
    - split; [intros _; rewrite Some4; eauto 6|]. intros _. exists st. congruence.
    - split; [intros [y Hy]; congruence|]. intros (t & l & d & st & Q'). rewrite Some4 in Q'. congruence. }
  split; auto. intros i a Ha.
  destruct (a_is_follower a) eqn:Fa.
  - assert (Fi : nth_error (map a_is_follower agents) i = Some true) by (rewrite nth_error_map, Ha; cbn; congruence).
    destruct (B i Fi) as (t & l & d & st & At & Out). rewrite Ha in Out. destruct Out as (o & -> & Out).
    exists t, o, d, st. split; auto. destruct st; [exact Out|]. destruct Out as [-> Out]. split; auto.
    apply nth_error_nth. now rewrite nth_error_map, Ha.
  - assert (Fi : nth_error (map a_is_follower agents) i <> Some true) by (rewrite nth_error_map, Ha; cbn; congruence).
    rewrite (A i Fi), map_length. assert (Li : (i < length agents)%nat) by (apply nth_error_Some; congruence).
    rewrite (proj2 (Nat.ltb_lt _ _) Li), !nth_error_map, Ha. reflexivity.
Qed.
Lemma interaction_spec argsort_f8 agents obs sight phi w : (forall l, is_argsort Rle l (argsort_f8 l)) -> 0 <= cos phi -> follow_ready agents ->
  exists agents' dirs, leader_follower_interaction argsort_f8 agents obs sight phi w = Ok (agents', dirs) /\
    length agents' = length agents /\ length dirs = length agents /\
    forall i a, nth_error agents i = Some a ->
      if a_is_follower a then exists t o d, nth_error agents' i = Some (set_target t (set_index_leader (leader_code o) a)) /\ nth_error dirs i = Some d /\
        follower_outcome obs sight phi w (leader_in agents) (pos_of agents) (vel_of agents) i (remembers a) (target_of agents) (a_familiar_exit a) t o d
      else nth_error agents' i = Some a /\ nth_error dirs i = Some vzero.
Proof.
  intros HS Hp HR. destruct (brute_agents argsort_f8 agents obs sight phi w HS Hp HR) as (s & E & (L1 & L2 & L3 & L4) & K).
  unfold leader_follower_interaction. rewrite E. cbn [rbind]. eexists _, _. split; [reflexivity|].
  split. { unfold use_familiar, put_lf. repeat (rewrite ?map_length, ?combine_length). lia. }
  split; auto. intros i a Ha. specialize (K i a Ha).
  destruct (a_is_follower a) eqn:Fa.
  - destruct K as (t & o & d & st & At & Out).
    unfold at_ in At. injection At as A1 A2 A3 A4. destruct st.
    + exists t, o, d. split; [|split; [auto|apply Out]].
      unfold use_familiar, put_lf. rewrite nth_error_map, nth_error_combine, nth_error_map, !nth_error_combine, Ha, A1, A2, A4. cbn. reflexivity.
    + destruct Out as [-> Out]. exists (a_familiar_exit a), o, d. split; [|split; [auto|apply Out]].
      unfold use_familiar, put_lf. rewrite nth_error_map, nth_error_combine, nth_error_map, !nth_error_combine, Ha, A1, A2, A4. cbn.
      rewrite Fa. reflexivity.
  - unfold at_ in K. injection K as A1 A2 A3 A4. split; auto.
    unfold use_familiar, put_lf. rewrite nth_error_map, nth_error_combine, nth_error_map, !nth_error_combine, Ha, A1, A2, A4. cbn.
    rewrite Fa. cbn. now rewrite put_same.
Qed.
Lemma outcome_direction obs sight phi w leader x v i o T fam t o' d :
  follower_outcome obs sight phi w leader x v i o T fam t o' d -> d = vzero \/ vlength d = 1.
Proof.
  intros [(j & _ & _ & _ & _ & ->)|[(j & _ & _ & _ & _ & ->)|(_ & _ & -> & _)]]; auto. apply unit_or_zero.
Qed.
Lemma leader_follower_node_spec argsort_f8 obs sight agents : (forall l, is_argsort Rle l (argsort_f8 l)) -> follow_ready agents ->
  exists agents', leader_follower_node argsort_f8 obs sight agents = Ok agents' /\ length agents' = length agents /\
    forall i a, nth_error agents i = Some a ->
      if a_is_follower a then exists t o d,
        nth_error agents' i = Some (set_target_direction d (set_target t (set_index_leader (leader_code o) a))) /\ (d = vzero \/ vlength d = 1) /\
        follower_outcome obs sight (45/100 * PI) (40/100) (leader_in agents) (pos_of agents) (vel_of agents) i (remembers a)
          (target_of agents) (a_familiar_exit a) t o d
      else nth_error agents' i = Some a.
Proof.
  intros HS HR. destruct (interaction_spec argsort_f8 agents obs sight (45/100*PI) (40/100) HS cos_phi_default HR) as (ag & ds & E & L1 & L2 & K).
  unfold leader_follower_node. rewrite E. cbn [rbind fst snd]. eexists. split; [reflexivity|].
  split. { unfold set_follower_directions. rewrite map_length, combine_length. lia. }
  intros i a Ha. specialize (K i a Ha). unfold set_follower_directions. rewrite nth_error_map, nth_error_combine. destruct (a_is_follower a) eqn:Fa.
  - destruct K as (t & o & d & K1 & K2 & K3). rewrite K1, K2. exists t, o, d. split; [|split; [eapply outcome_direction; eauto|auto]].
    cbn. rewrite Fa. reflexivity.
  - destruct K as [K1 K2]. rewrite K1, K2. cbn. now rewrite Fa.
Qed.

(** ** Herding *)
Definition followed_js (position velocity : list vec) (phi : R) (i : nat) (neigh : list (option nat)) : list nat :=
  flat_map (fun o => match o with
    | None => []
    | Some j => if fst (herding_relationship (nth i position vzero) (nth j position vzero) (nth i velocity vzero) (nth j velocity vzero) phi) then [j] else []
    end) neigh.
Lemma followed_eq position velocity phi i neigh : length velocity = length position -> (i < length position)%nat ->
  (forall j, In (Some j) neigh -> (j < length position)%nat) ->
  followed_neighbors position velocity phi i neigh =
  map (fun j => (nth j position vzero, nth j velocity vzero)) (followed_js position velocity phi i neigh).
Proof.
  intros HL Hi. unfold followed_neighbors, followed_js. induction neigh as [|[j|] neigh IH]; intros Hj; cbn; auto.
  2:{ apply IH. intros; apply Hj; now right. }
  assert (Lj : (j < length position)%nat) by (apply Hj; now left).
  rewrite IH by (intros; apply Hj; now right).
  rewrite (nth_error_nth' position vzero (n := i)) by auto. rewrite (nth_error_nth' position vzero (n := j)) by auto.
  rewrite (nth_error_nth' velocity vzero (n := i)) by lia. rewrite (nth_error_nth' velocity vzero (n := j)) by lia.
  destruct (fst _); reflexivity.
Qed.
Lemma followed_in position velocity phi i neigh j : In j (followed_js position velocity phi i neigh) <-> In (Some j) neigh /\
  fst (herding_relationship (nth i position vzero) (nth j position vzero) (nth i velocity vzero) (nth j velocity vzero) phi) = true.
Proof.
  unfold followed_js. rewrite in_flat_map. split.
  - intros ([j'|] & H1 & H2); [|destruct H2]. destruct (fst _) eqn:E; [|destruct H2]. destruct H2 as [<-|[]]. auto.
  - intros [H1 H2]. exists (Some j). split; auto. rewrite H2. now left.
Qed.
Lemma followed_nodup position velocity phi i neigh :
  (forall a b j, nth_error neigh a = Some (Some j) -> nth_error neigh b = Some (Some j) -> a = b) ->
  NoDup (followed_js position velocity phi i neigh).
Proof.
  unfold followed_js. induction neigh as [|o neigh IH]; intros H; cbn; [constructor|].
  assert (H' : NoDup (followed_js position velocity phi i neigh)).
  { apply IH. intros a b j Ha Hb. assert (Datatypes.S a = Datatypes.S b) by (apply (H _ _ j); auto). lia. }
  destruct o as [j|]; [|exact H']. destruct (fst _); [|exact H']. cbn. constructor; auto.
  intros K. apply followed_in in K as [K _]. apply In_nth_error in K as [n Hn].
  assert (0%nat = Datatypes.S n) by (apply (H _ _ j); auto). discriminate.
Qed.
Lemma herding_direction_spec position velocity w phi i neigh obs sight k xi : 0 <= cos phi -> length velocity = length position ->
  nth_error position i = Some xi -> nearest_others obs sight position i xi k neigh ->
  exists h d, herding_direction true position velocity w phi i neigh = (d, h) /\
    herd_outcome w phi (fun m => nth m position vzero) (fun m => nth m velocity vzero) i neigh h d.
Proof.
  intros Hp HL Hi (N1 & N2 & N3 & _). unfold herding_direction. cbv zeta.
  assert (Li : (i < length position)%nat) by (apply nth_error_Some; congruence).
  rewrite followed_eq; auto. 2:{ intros j Hj. destruct (N2 j Hj) as (y & Hy & _). apply nth_error_Some. congruence. }
  set (js := followed_js position velocity phi i neigh).
  assert (J : NoDup js /\ forall j, In j js <-> In (Some j) neigh /\
     may_follow phi (nth i position vzero) (nth j position vzero) (nth i velocity vzero) (nth j velocity vzero)).
  { split; [now apply followed_nodup|]. intros j. unfold js. rewrite followed_in. rewrite herding_spec by auto. tauto. }
  destruct J as [J1 J2]. unfold herd_outcome. destruct js as [|j0 js'] eqn:Ejs.
  - cbn [map]. exists false, vzero. split; auto. exists []. split; [auto|]. split; [auto|]. split; auto. split; [discriminate|congruence].
  - rewrite <- Ejs in *. assert (Ne : map (fun j => (nth j position vzero, nth j velocity vzero)) js <> []) by (rewrite Ejs; discriminate).
    eexists true, _. split.
    + destruct (map (fun j => (nth j position vzero, nth j velocity vzero)) js) as [|p l] eqn:Em; [congruence|]. rewrite <- Em. reflexivity.
    + exists js. split; auto. split; auto. split; [split; auto; intros _; rewrite Ejs; discriminate|].
      rewrite map_length, !map_map. cbn [fst snd]. unfold weighted_average. f_equal. f_equal.
      f_equal. f_equal. f_equal. unfold vdiv, vscale. apply vec_eq; cbn; unfold Rdiv; ring.
Qed.
Lemma map_combine_same {A B C} (g : A -> C) (f : A * B -> A) (l : list A) (h : list B) :
  (forall a b, g (f (a, b)) = g a) -> length h = length l -> map g (map f (combine l h)) = map g l.
Proof. intros H. revert h. induction l as [|a l IH]; destruct h as [|b h]; cbn; intros L; try lia; auto. rewrite H, IH; auto. Qed.
Lemma outcome_ext obs sight phi w (leader : nat -> Prop) x v i o T T' fam t o' d :
  (forall j, leader j -> T j = T' j) -> (forall j, o = Some j -> leader j) ->
  follower_outcome obs sight phi w leader x v i o T fam t o' d -> follower_outcome obs sight phi w leader x v i o T' fam t o' d.
Proof.
  intros HT Ho [(j & K)|[(j & K1 & K2 & -> & K4 & K5)|(K1 & K2 & K3 & K4)]].
  - left. eauto.
  - right; left. exists j. split; [exact K1|]. split; [exact K2|]. split; auto. apply HT. apply K2.
  - right; right. repeat split; auto. rewrite K4. destruct o as [r|]; auto.
Qed.
Lemma herding_interaction_length f p v n w phi : length f = length p -> length n = length p -> length (herding_interaction f p v n w phi) = length p.
Proof. intros. unfold herding_interaction. rewrite map_length, !combine_length, seq_length. lia. Qed.
Lemma herding_interaction_nth f p v n w phi i : length f = length p -> length n = length p -> (i < length p)%nat ->
  exists fi ni, nth_error f i = Some fi /\ nth_error n i = Some ni /\
    nth_error (herding_interaction f p v n w phi) i = Some (herding_direction fi p v w phi i ni).
Proof.
  intros H1 H2 L. destruct (nth_error f i) as [fi|] eqn:E1; [|apply nth_error_None in E1; lia].
  destruct (nth_error n i) as [ni|] eqn:E2; [|apply nth_error_None in E2; lia]. exists fi, ni. repeat split; auto.
  unfold herding_interaction. rewrite nth_error_map, !nth_error_combine, E1, E2.
  rewrite (nth_error_nth' _ 0%nat) by (rewrite seq_length; auto). rewrite seq_nth by auto. reflexivity.
Qed.
Lemma herding_node_spec argsort_f8 enum obs sight k agents : (forall l, is_argsort Rle l (argsort_f8 l)) -> (1 <= k)%nat ->
  good_enumeration (map a_position agents) sight (enum (map a_position agents) sight) -> follow_ready agents ->
  exists agents', leader_follower_with_herding_node argsort_f8 enum obs sight k agents = Ok agents' /\ length agents' = length agents /\
    forall i a, nth_error agents i = Some a ->
      if a_is_follower a then exists ns h dh t o dl d,
        nearest_others obs sight (map a_position agents) i (a_position a) k ns /\
        herd_outcome (15/100) (45/100 * PI) (pos_of agents) (vel_of agents) i ns h dh /\
        follower_outcome obs 20 (45/100 * PI) (40/100) (leader_in agents) (pos_of agents) (vel_of agents) i (remembers a)
          (target_of agents) (if h then (-1)%Z else a_familiar_exit a) t o dl /\
        d = normalize (vadd (vscale (65/100) dl) (vscale (1 - 65/100) dh)) /\ (d = vzero \/ vlength d = 1) /\
        nth_error agents' i = Some (set_target_direction d (set_target t (set_index_leader (leader_code o) a)))
      else nth_error agents' i = Some a.
Proof.
  intros HS Hk HE HR. unfold leader_follower_with_herding_node, leader_follower_with_herding_interaction. cbv zeta.
  destruct (neighbors_spec (map a_position agents) sight k (enum (map a_position agents) sight) obs Hk HE) as (nss & -> & LN & HN). cbn [rbind].
  set (herd := herding_interaction _ _ _ _ _ _).
  assert (LH : length herd = length agents). { unfold herd. rewrite herding_interaction_length; rewrite ?map_length in *; auto. }
  set (ag1 := map (fun '(a, (_, h)) => if (h : bool) then set_target NO_TARGET a else a) (combine agents herd)).
  assert (Same : forall C (g : agent -> C), (forall t a, g (set_target t a) = g a) -> map g ag1 = map g agents).
  { intros C g Hg. unfold ag1. apply map_combine_same; auto. intros a [d [|]]; auto. }
  assert (NTH : forall i a, nth_error agents i = Some a -> exists d h, nth_error herd i = Some (d, h) /\
     nth_error ag1 i = Some (if (h : bool) then set_target NO_TARGET a else a) /\
     (a_is_follower a = false -> d = vzero /\ h = false) /\
     (a_is_follower a = true -> exists ns, nearest_others obs sight (map a_position agents) i (a_position a) k ns /\
        herd_outcome (15/100) (45/100 * PI) (pos_of agents) (vel_of agents) i ns h d)).
  { intros i a Ha. assert (Li : (i < length agents)%nat) by (apply nth_error_Some; congruence).
    destruct (herding_interaction_nth (map a_is_follower agents) (map a_position agents) (map a_velocity agents) nss (15/100) (45/100*PI) i)
      as (fi & ni & F1 & F2 & F3); rewrite ?map_length in *; auto. rewrite nth_error_map, Ha in F1. injection F1 as <-.
    assert (Pi_ : nth_error (map a_position agents) i = Some (a_position a)) by (rewrite nth_error_map, Ha; reflexivity).
    destruct (herding_direction (a_is_follower a) (map a_position agents) (map a_velocity agents) (15/100) (45/100*PI) i ni) as [d h] eqn:Ed.
    exists d, h. split; [exact F3|]. split.
    { unfold ag1. rewrite nth_error_map, nth_error_combine, Ha. unfold herd. rewrite F3. reflexivity. }
    split.
    - intros Fa. rewrite Fa in Ed. cbn in Ed. injection Ed as <- <-. auto.
    - intros Fa. rewrite Fa in Ed.
      destruct (herding_direction_spec (map a_position agents) (map a_velocity agents) (15/100) (45/100*PI) i ni obs sight k (a_position a) cos_phi_default)
        as (h' & d' & E' & O'); auto. { now rewrite !map_length. }
      rewrite Ed in E'. injection E' as <- <-. exists ni. split; [now apply HN|exact O']. }
  assert (P1 : map a_position ag1 = map a_position agents) by (apply Same; reflexivity).
  assert (P2 : map a_velocity ag1 = map a_velocity agents) by (apply Same; reflexivity).
  assert (P3 : map a_is_follower ag1 = map a_is_follower agents) by (apply Same; reflexivity).
  assert (P4 : map a_is_leader ag1 = map a_is_leader agents) by (apply Same; reflexivity).
  assert (P5 : map a_index_leader ag1 = map a_index_leader agents) by (apply Same; reflexivity).
  assert (L1 : length ag1 = length agents). { rewrite <- (map_length a_position), P1. apply map_length. }
  assert (HR1 : follow_ready ag1).
  { intros a1 H1 F1. apply In_nth_error in H1 as [i Hi]. destruct (nth_error agents i) as [a|] eqn:Ha.
    2:{ apply nth_error_None in Ha. assert (i < length ag1)%nat by (apply nth_error_Some; congruence). lia. }
    destruct (NTH i a Ha) as (d & h & _ & E & _). rewrite Hi in E. injection E as ->.
    unfold leader_in. rewrite P4. destruct h; apply (HR a (nth_error_In _ _ Ha)); exact F1. }
  destruct (brute_agents argsort_f8 ag1 obs 20 (45/100*PI) (40/100) HS cos_phi_default HR1) as (s & E & (Q1 & Q2 & Q3 & Q4) & K).
  rewrite P1, P2, P3 in E. rewrite E. cbn [rbind fst snd]. eexists. split; [reflexivity|].
  split. { unfold set_follower_directions, use_familiar, put_lf, normalize_nx2. repeat (rewrite ?map_length, ?combine_length). lia. }
  intros i a Ha. destruct (NTH i a Ha) as (dh & h & E1 & E2 & E3 & E4). specialize (K i _ E2).
  assert (Read : forall t l dl st, at_ s i = (Some t, Some l, Some dl, Some st) ->
    nth_error (set_follower_directions (use_familiar (put_lf ag1 s) (map (fun '((_, h), st) => (h || st)%bool) (combine herd (lf_strategy s))))
      (normalize_nx2 (map (fun '(dl, (dh, _)) => weighted_average dl dh (65/100)) (combine (lf_direction s) herd)))) i =
    Some (let a1 := if (h : bool) then set_target NO_TARGET a else a in
          let a2 := set_index_leader l (set_target t a1) in
          let a3 := if negb (h || st) && a_is_follower a then set_target (a_familiar_exit a) a2 else a2 in
          if a_is_follower a then set_target_direction (normalize (weighted_average dl dh (65/100))) a3 else a3)).
  { intros t l dl st At. unfold at_ in At. injection At as A1 A2 A3 A4.
    unfold set_follower_directions, use_familiar, put_lf, normalize_nx2.
    repeat (rewrite ?nth_error_map, ?nth_error_combine). rewrite E1, E2, A1, A2, A3, A4. cbn [option_map]. destruct h, st, (a_is_follower a) eqn:Fa; cbn; rewrite ?Fa; cbn; rewrite ?Fa; reflexivity. }
  destruct (a_is_follower a) eqn:Fa.
  - assert (Fa1 : a_is_follower (if h then set_target NO_TARGET a else a) = true) by (destruct h; exact Fa). rewrite Fa1 in K.
    destruct K as (t & o & dl & st & At & Out). rewrite (Read _ _ _ _ At). cbv zeta.
    destruct (E4 eq_refl) as (ns & N1 & N2). 
    assert (Rem : remembers (if h then set_target NO_TARGET a else a) = remembers a) by (destruct h; reflexivity). rewrite Rem in Out.
    assert (X1 : pos_of ag1 = pos_of agents) by (unfold pos_of; now rewrite P1).
    assert (X2 : vel_of ag1 = vel_of agents) by (unfold vel_of; now rewrite P2).
    assert (X3 : leader_in ag1 = leader_in agents) by (unfold leader_in; now rewrite P4).
    rewrite X1, X2, X3 in Out.
    assert (X4 : forall j, leader_in agents j -> target_of ag1 j = target_of agents j).
    { intros j Hj. unfold leader_in in Hj. rewrite nth_error_map in Hj. destruct (nth_error agents j) as [b|] eqn:Hb; [|discriminate]. injection Hj as Hj.
      destruct (NTH j b Hb) as (db & hb & _ & Eb & Fb & _). unfold target_of.
      rewrite (nth_error_nth (map a_target agents) j 0%Z (x := a_target b)) by (rewrite nth_error_map, Hb; reflexivity).
      apply nth_error_nth. rewrite nth_error_map, Eb. destruct (a_is_follower b) eqn:Fo.
      - destruct (HR b (nth_error_In _ _ Hb) Fo). congruence.
      - destruct (Fb eq_refl) as [_ ->]. reflexivity. }
    assert (X5 : forall j, remembers a = Some j -> leader_in agents j).
    { intros j Hj. destruct (HR a (nth_error_In _ _ Ha) Fa) as [_ [H|(j' & H & H')]]; unfold remembers in Hj; rewrite H in Hj; [discriminate|].
      destruct (Z.ltb_spec (Z.of_nat j') 0); [lia|]. rewrite Nat2Z.id in Hj. injection Hj as <-. auto. }
    destruct st.
    + exists ns, h, dh, t, o, dl, (normalize (vadd (vscale (65/100) dl) (vscale (1 - 65/100) dh))).
      split; [auto|]. split; [auto|]. split; [eapply outcome_ext; [exact X4|exact X5|apply Out]|]. split; [auto|]. split; [apply unit_or_zero|].
      rewrite orb_true_r. destruct h; reflexivity.
    + destruct Out as [-> Out]. exists ns, h, dh, (if h then (-1)%Z else a_familiar_exit a), o, dl, (normalize (vadd (vscale (65/100) dl) (vscale (1 - 65/100) dh))).
      split; [auto|]. split; [auto|]. split; [eapply outcome_ext; [exact X4|exact X5|apply Out]|]. split; [auto|]. split; [apply unit_or_zero|].
      destruct h; cbn; reflexivity.
  - destruct (E3 eq_refl) as [-> ->]. rewrite Fa in K. rewrite (Read _ _ _ _ K). cbn. now rewrite put_same.
Qed.
