(** Nearest neighbours. *)
From Coq Require Import Lra Lia Permutation.
From Verif Require Export Spec.Sight Spec.Pairs Model.Collective Proofs.EvacuationProofs.
Open Scope R_scope.

(** ** argmax and max *)
Lemma argmax_from_spec l : forall pre best m i, length pre = i -> nth_error pre best = Some m -> (forall x, In x pre -> x <= m) ->
  exists y, nth_error (pre ++ l) (argmax_from i best m l) = Some y /\ forall x, In x (pre ++ l) -> x <= y.
Proof.
  induction l as [|z l IH]; intros pre best m i Hi Hb Hm; cbn [argmax_from].
  - exists m. rewrite app_nil_r. auto.
  - replace (pre ++ z :: l) with ((pre ++ [z]) ++ l) by now rewrite <- app_assoc.
    destruct (Rltb_spec m z) as [L|L]; apply IH; rewrite ?app_length; cbn; try lia.
    + rewrite nth_error_app2 by lia. now replace (i - length pre)%nat with 0%nat by lia.
    + intros x Hx. apply in_app_iff in Hx as [Hx|[<-|[]]]; [specialize (Hm x Hx)|]; lra.
    + rewrite nth_error_app1; auto. apply nth_error_Some. congruence.
    + intros x Hx. apply in_app_iff in Hx as [Hx|[<-|[]]]; auto.
Qed.
Lemma argmax_spec l m : argmax l = Some m -> exists y, nth_error l m = Some y /\ forall x, In x l -> x <= y.
Proof.
  destruct l as [|z l]; [discriminate|]. cbn. intros [= <-].
  apply (argmax_from_spec l [z] 0%nat z 1%nat); auto. intros x [<-|[]]; lra.
Qed.
Lemma max_ge l : forall x, x <= fold_left Rmax l x /\ forall y, In y l -> y <= fold_left Rmax l x.
Proof.
  induction l as [|z l IH]; intros x; cbn; [split; [lra|tauto]|]. destruct (IH (Rmax x z)) as [A B].
  pose proof (Rmax_l x z). pose proof (Rmax_r x z). split; [lra|]. intros y [->|H1]; auto. lra.
Qed.
Lemma max_in l : forall x, fold_left Rmax l x = x \/ In (fold_left Rmax l x) l.
Proof.
  induction l as [|z l IH]; intros x; cbn; auto. destruct (IH (Rmax x z)) as [E|H]; [|auto].
  rewrite E. unfold Rmax. destruct (Rle_dec x z); auto.
Qed.
Lemma max_of_spec l m : max_of l = Some m -> In m l /\ forall x, In x l -> x <= m.
Proof.
  destruct l as [|x l]; [discriminate|]. cbn. intros [= <-]. split.
  - destruct (max_in l x) as [E|H]; [left; now rewrite E|now right].
  - destruct (max_ge l x) as [A B]. intros y [<-|H]; auto.
Qed.

(** ** One row *)
Definition put (r : row) (o : nat * R) : row :=
  if Rltb (snd o) (snd r) then match set_neighbor (fst o) (snd o) r with Ok r' => r' | Err _ => r end else r.
Definition good_row (sight : R) (k : nat) (done : list (nat * R)) (r : row) : Prop :=
  length (fst r) = k /\ In (snd r) (map snd (fst r)) /\ (forall s, In s (fst r) -> snd s <= snd r) /\
  (forall s, In s (fst r) -> match fst s with None => snd s = sight | Some j => In (j, snd s) done /\ snd s < sight end) /\
  (forall a b j d d', nth_error (fst r) a = Some (Some j, d) -> nth_error (fst r) b = Some (Some j, d') -> a = b) /\
  (forall j l, In (j, l) done -> l < sight -> In (Some j, l) (fst r) \/ forall s, In s (fst r) -> snd s <= l).
Lemma upd_in {A} (l : list A) i x y : In y (upd l i x) -> y = x \/ In y l.
Proof. revert i; induction l as [|z l IH]; destruct i; cbn; auto; intros [->|H]; auto. destruct (IH _ H); auto. Qed.
Lemma upd_in_other {A} (l : list A) i x y a : nth_error l i = Some a -> In y l -> y = a \/ In y (upd l i x).
Proof.
  revert i; induction l as [|z l IH]; destruct i; cbn; try discriminate.
  - intros [= ->] [->|H]; auto.
  - intros E [->|H]; auto. destruct (IH _ E H); auto.
Qed.
Lemma row_init sight k : (1 <= k)%nat -> good_row sight k [] (repeat (None, sight) k, sight).
Proof.
  intros Hk. unfold good_row. cbn [fst snd].
  assert (Hin : forall s, In s (repeat (@None nat, sight) k) -> s = (None, sight)) by (intros s; apply repeat_spec).
  split; [apply repeat_length|]. split.
  { destruct k; [lia|]. left. reflexivity. }
  split. { intros s Hs. rewrite (Hin s Hs). cbn. lra. }
  split. { intros s Hs. now rewrite (Hin s Hs). }
  split. { intros a b j d d' Ha. apply nth_error_In, Hin in Ha. discriminate. }
  intros j l [].
Qed.
Lemma row_set sight k done r j l : (1 <= k)%nat -> good_row sight k done r -> ~ In j (map fst done) -> l < snd r -> l < sight ->
  exists r', set_neighbor j l r = Ok r' /\ good_row sight k (done ++ [(j, l)]) r'.
Proof.
  intros Hk (L & M1 & M2 & S & U & X) Hj Hl Hs. destruct r as [slots d]. unfold row, slot in *. cbn [fst snd] in *. unfold set_neighbor. cbn [fst]. unfold row, slot in *.
  destruct (argmax (map snd slots)) as [m|] eqn:Em; [|destruct slots; cbn in *; [lia|discriminate]].
  destruct (argmax_spec _ _ Em) as (y & Ey & Hy). rewrite nth_error_map in Ey. destruct (nth_error slots m) as [e|] eqn:Ee; [|discriminate].
  cbn in Ey. injection Ey as Ey.
  assert (Yd : y = d). { apply Rle_antisym; [|now apply Hy]. subst y. apply M2. eapply nth_error_In; eauto. } subst y.
  set (slots' := upd slots m (Some j, l)). assert (L' : length slots' = k) by (unfold slots'; now rewrite upd_length).
  destruct (max_of (map snd slots')) as [d'|] eqn:Ed; [|destruct slots'; cbn in *; [lia|discriminate]].
  destruct (max_of_spec _ _ Ed) as [D1 D2]. exists (slots', d'). split; [reflexivity|]. unfold good_row. cbn [fst snd].
  assert (In' : forall s, In s slots' -> s = (Some j, l) \/ In s slots) by (intros s; apply upd_in).
  assert (Le' : forall s, In s slots' -> snd s <= d). { intros s H. destruct (In' s H) as [->|H']; [cbn; lra|auto]. }
  assert (Hm : (m < length slots)%nat) by (apply nth_error_Some; congruence).
  assert (Nm : forall a s, nth_error slots' a = Some s -> (a = m /\ s = (Some j, l)) \/ (a <> m /\ nth_error slots a = Some s)).
  { intros a s Ha. destruct (Nat.eq_dec a m) as [->|N].
    - left. unfold slots' in Ha. rewrite upd_nth_eq in Ha by auto. split; congruence.
    - right. unfold slots' in Ha. rewrite upd_nth_neq in Ha; auto. }
  assert (Fresh : forall a dd, nth_error slots a <> Some (Some j, dd)).
  { intros a dd Ha. apply nth_error_In in Ha. pose proof (S _ Ha) as K. cbn in K. destruct K as [K _].
    apply Hj. apply in_map_iff. exists (j, dd). auto. }
  split; [auto|]. split; [auto|]. split.
  { intros s H. apply D2. now apply in_map. }
  split.
  { intros s H. destruct (In' s H) as [->|H']; cbn [fst snd].
    - split; auto. apply in_app_iff. right. now left.
    - pose proof (S s H') as K. destruct (fst s); auto. destruct K as [K1 K2]. split; auto. apply in_app_iff. now left. }
  split.
  { intros a b j0 d0 d0' Ha Hb. destruct (Nm _ _ Ha) as [[-> Ea]|[Na Ea]], (Nm _ _ Hb) as [[-> Eb]|[Nb Eb]]; auto.
    - injection Ea as -> _. now apply Fresh in Eb.
    - injection Eb as -> _. now apply Fresh in Ea.
    - now apply (U a b j0 d0 d0'). }
  intros j0 l0 H0 Hs0. apply in_app_iff in H0 as [H0|[[= <- <-]|[]]].
  - destruct (X j0 l0 H0 Hs0) as [K|K].
    + destruct (upd_in_other slots m (Some j, l) _ _ Ee K) as [K'|K']; [|now left].
      right. intros s H. apply (f_equal snd) in K'. cbn in K'. specialize (Le' s H). lra.
    + right. intros s H. specialize (Le' s H). apply nth_error_In in Ee. specialize (K e Ee). lra.
  - left. apply nth_error_In with (n := m). unfold slots'. now apply upd_nth_eq.
Qed.
Lemma row_max_sight sight k done r : good_row sight k done r -> snd r <= sight.
Proof.
  intros (_ & M1 & _ & S & _). apply in_map_iff in M1 as (s & <- & Hs). specialize (S s Hs). destruct (fst s); lra.
Qed.
Lemma row_put sight k done r o : (1 <= k)%nat -> good_row sight k done r -> ~ In (fst o) (map fst done) ->
  good_row sight k (done ++ [o]) (put r o) /\ (Rltb (snd o) (snd r) = true -> exists r', set_neighbor (fst o) (snd o) r = Ok r').
Proof.
  intros Hk G Hj. destruct o as [j l]. unfold put. cbn [fst snd] in *. pose proof (row_max_sight _ _ _ _ G) as Ms.
  destruct (Rltb_spec l (snd r)) as [L|L].
  - destruct (row_set sight k done r j l Hk G Hj L ltac:(lra)) as (r' & E & G'). rewrite E. split; eauto.
  - split; [|discriminate]. destruct G as (A & M1 & M2 & S & U & X). unfold good_row. repeat (split; auto).
    + intros s Hs. specialize (S s Hs). destruct (fst s); auto. destruct S. split; auto. apply in_app_iff. now left.
    + intros j0 l0 H0 Hs0. apply in_app_iff in H0 as [H0|[[= <- <-]|[]]]; auto. right. intros s Hs. specialize (M2 s Hs). lra.
Qed.

(** ** All rows *)
(** What is offered to agent [m], in order. *)
Definition offers (position : list vec) (obs : list obstacle) (m : nat) (p : nat * nat) : list (nat * R) :=
  match nth_error position (fst p), nth_error position (snd p) with
  | Some xi, Some xj =>
      if is_obstacle_between_points xi xj obs then []
      else (if Nat.eqb m (fst p) then [(snd p, vlength (vsub xi xj))] else [])
        ++ (if Nat.eqb m (snd p) then [(fst p, vlength (vsub xi xj))] else [])
  | _, _ => []
  end.
Definition all_offers position obs pairs m := flat_map (offers position obs m) pairs.

Lemma offer_put sight k i j l rows r done : (1 <= k)%nat -> nth_error rows i = Some r -> good_row sight k done r -> ~ In j (map fst done) ->
  offer i j l rows = Ok (upd rows i (put r (j, l))).
Proof.
  intros Hk E G Hj. unfold offer. rewrite E. destruct (row_put sight k done r (j, l) Hk G Hj) as [_ K]. unfold put. cbn [fst snd] in *.
  destruct (Rltb l (snd r)).
  - destruct (K eq_refl) as (r' & ->). reflexivity.
  - cbn. f_equal. apply nth_error_ext. intros m. destruct (Nat.eq_dec i m) as [<-|N].
    + rewrite upd_nth_eq; auto. apply nth_error_Some. congruence.
    + now rewrite upd_nth_neq.
Qed.
Definition rows_good sight k position obs pairs (rows : list row) : Prop :=
  length rows = length position /\
  forall m r, nth_error rows m = Some r -> good_row sight k (all_offers position obs pairs m) r.
Lemma offers_fst position obs m pairs j : In j (map fst (all_offers position obs pairs m)) -> In (orient (m, j)) (map orient pairs).
Proof.
  intros H. apply in_map_iff in H as ([j' l] & <- & H). unfold all_offers in H. apply in_flat_map in H as ([a b] & Hp & H).
  unfold offers in H. cbn [fst snd] in *. destruct (nth_error position a); [|contradiction]. destruct (nth_error position b); [|contradiction].
  destruct (is_obstacle_between_points _ _ _); [contradiction|]. apply in_map_iff. exists (a, b). split; auto.
  apply in_app_iff in H as [H|H].
  - destruct (Nat.eqb_spec m a); [|contradiction]. destruct H as [[= <- <-]|[]]. now subst.
  - destruct (Nat.eqb_spec m b); [|contradiction]. destruct H as [[= <- <-]|[]]. subst. unfold orient. cbn [fst snd].
    destruct (Nat.ltb_spec a b), (Nat.ltb_spec b a); auto; try lia. assert (a = b) by lia. now subst.
Qed.
Lemma loop_good sight k position obs : (1 <= k)%nat -> forall rest done rows,
  (forall i j, In (i, j) rest -> (i < length position)%nat /\ (j < length position)%nat /\ i <> j) ->
  NoDup (map orient (done ++ rest)) -> rows_good sight k position obs done rows ->
  exists rows', neighbor_loop position obs rest rows = Ok rows' /\ rows_good sight k position obs (done ++ rest) rows'.
Proof.
  intros Hk. induction rest as [|[i j] rest IH]; intros done rows HR ND G; cbn [neighbor_loop].
  { rewrite app_nil_r. eauto. }
  destruct (HR i j) as (Hi & Hj & Hij); [now left|].
  destruct (nth_error position i) as [xi|] eqn:Ei; [|apply nth_error_None in Ei; lia].
  destruct (nth_error position j) as [xj|] eqn:Ej; [|apply nth_error_None in Ej; lia].
  replace (done ++ (i, j) :: rest) with ((done ++ [(i, j)]) ++ rest) in * by now rewrite <- app_assoc.
  assert (ND' : ~ In (orient (i, j)) (map orient done)).
  { rewrite <- app_assoc in ND. rewrite map_app in ND. cbn in ND. apply NoDup_remove_2 in ND. rewrite in_app_iff in ND. tauto. }
  assert (Off : forall m, all_offers position obs (done ++ [(i, j)]) m = all_offers position obs done m ++ offers position obs m (i, j)).
  { intros m. unfold all_offers. rewrite flat_map_app. cbn. now rewrite app_nil_r. }
  destruct G as [GL G].
  destruct (is_obstacle_between_points xi xj obs) eqn:B.
  - apply IH; auto. { intros; apply HR; now right. }
    split; auto. intros m r Hr. rewrite Off. unfold offers. cbn [fst snd]. rewrite Ei, Ej, B, app_nil_r. auto.
  - cbv zeta. set (l := vlength (vsub xi xj)).
    destruct (nth_error rows i) as [ri|] eqn:Ri; [|apply nth_error_None in Ri; lia].
    destruct (nth_error rows j) as [rj|] eqn:Rj; [|apply nth_error_None in Rj; lia].
    assert (Fi : ~ In j (map fst (all_offers position obs done i))). { intros K. apply offers_fst in K. contradiction. }
    assert (Fj : ~ In i (map fst (all_offers position obs done j))).
    { intros K. apply offers_fst in K. apply ND'. replace (orient (i, j)) with (orient (j, i)); auto.
      unfold orient. cbn [fst snd]. destruct (Nat.ltb_spec j i), (Nat.ltb_spec i j); auto; lia. }
    rewrite (offer_put sight k i j l rows ri _ Hk Ri (G i ri Ri) Fi). cbn [rbind].
    assert (Rj' : nth_error (upd rows i (put ri (j, l))) j = Some rj) by (rewrite upd_nth_neq; auto).
    rewrite (offer_put sight k j i l _ rj _ Hk Rj' (G j rj Rj) Fj). cbn [rbind].
    apply IH; auto. { intros; apply HR; now right. }
    split. { now rewrite !upd_length. }
    intros m r Hr. rewrite Off. unfold offers. cbn [fst snd]. rewrite Ei, Ej, B. fold l.
    destruct (Nat.eq_dec m j) as [->|Nj].
    + rewrite upd_nth_eq in Hr by (rewrite upd_length; lia). injection Hr as <-.
      rewrite (proj2 (Nat.eqb_neq j i)) by auto. rewrite Nat.eqb_refl. cbn [app]. now apply row_put; auto.
    + rewrite upd_nth_neq in Hr by auto. rewrite (proj2 (Nat.eqb_neq m j)) by auto. rewrite app_nil_r.
      destruct (Nat.eq_dec m i) as [->|Ni].
      * rewrite upd_nth_eq in Hr by lia. injection Hr as <-. rewrite Nat.eqb_refl. now apply row_put; auto.
      * rewrite upd_nth_neq in Hr by auto. rewrite (proj2 (Nat.eqb_neq m i)) by auto. rewrite app_nil_r. auto.
Qed.
Lemma offers_in position obs pairs m j l xm : nth_error position m = Some xm ->
  (forall i j, In (i, j) pairs -> (i < length position)%nat /\ (j < length position)%nat /\ i <> j) ->
  In (j, l) (all_offers position obs pairs m) ->
  exists y, nth_error position j = Some y /\ j <> m /\ sees obs xm y /\ l = edist xm y.
Proof.
  intros Em HR H. unfold all_offers in H. apply in_flat_map in H as ([a b] & Hp & H). destruct (HR a b Hp) as (_ & _ & Hab).
  unfold offers in H. cbn [fst snd] in *. destruct (nth_error position a) as [xa|] eqn:Ea; [|contradiction].
  destruct (nth_error position b) as [xb|] eqn:Eb; [|contradiction].
  destruct (is_obstacle_between_points xa xb obs) eqn:B; [contradiction|]. apply in_app_iff in H as [H|H].
  - destruct (Nat.eqb_spec m a); [|contradiction]. destruct H as [[= <- <-]|[]]. subst. exists xb. assert (xm = xa) by congruence. subst.
    repeat split; auto. now apply sees_iff.
  - destruct (Nat.eqb_spec m b); [|contradiction]. destruct H as [[= <- <-]|[]]. subst. exists xa. assert (xm = xb) by congruence. subst.
    repeat split; auto; [|apply edist_sym]. apply sees_iff. now rewrite between_sym.
Qed.
Lemma offers_complete position obs pairs m j xm y sight : good_enumeration position sight pairs ->
  nth_error position m = Some xm -> nth_error position j = Some y -> j <> m -> sees obs xm y -> edist xm y < sight ->
  In (j, edist xm y) (all_offers position obs pairs m).
Proof.
  intros (G1 & G2 & G3) Em Ej N S L. apply in_flat_map.
  assert (K : In (m, j) pairs \/ In (j, m) pairs).
  { destruct (Nat.lt_trichotomy m j) as [H|[H|H]]; [|lia|].
    - now apply (G3 m j xm y).
    - apply or_comm. apply (G3 j m y xm); auto. now rewrite edist_sym. }
  apply sees_iff in S. destruct K as [K|K].
  - exists (m, j). split; auto. unfold offers. cbn [fst snd]. rewrite Em, Ej, S, Nat.eqb_refl. left. reflexivity.
  - exists (j, m). split; auto. unfold offers. cbn [fst snd]. rewrite Em, Ej, between_sym, S, Nat.eqb_refl. apply in_app_iff. right. left.
    f_equal. apply edist_sym.
Qed.
Lemma neighbors_spec position sight k pairs obs : (1 <= k)%nat -> good_enumeration position sight pairs ->
  exists ns, find_nearest_neighbors position sight k pairs obs = Ok ns /\ length ns = length position /\
    forall i x row, nth_error position i = Some x -> nth_error ns i = Some row -> nearest_others obs sight position i x k row.
Proof.
  intros Hk G. pose proof G as (G1 & G2 & G3). unfold find_nearest_neighbors.
  destruct (loop_good sight k position obs Hk pairs [] (map (fun _ => (repeat (None, sight) k, sight)) position)) as (rows & E & RL & RG); auto.
  { split; [apply map_length|]. intros m r Hr. rewrite nth_error_map in Hr. destruct (nth_error position m); [|discriminate]. injection Hr as <-.
    now apply row_init. }
  rewrite E. cbn [rbind app] in *. eexists. split; [reflexivity|]. split; [now rewrite map_length|].
  intros i x rw Ex Er. unfold Collective.row, slot in *. rewrite nth_error_map in Er. destruct (nth_error rows i) as [r|] eqn:Rr; [|discriminate]. injection Er as <-.
  destruct (RG i r Rr) as (L & M1 & M2 & S & U & X). unfold nearest_others. split; [now rewrite map_length|]. split; [|split].
  - intros j Hj. apply in_map_iff in Hj as ([o l] & Eo & Hs). cbn in Eo. subst o. pose proof (S _ Hs) as K. cbn in K. destruct K as [K1 K2].
    destruct (offers_in _ _ _ _ _ _ x Ex G1 K1) as (y & Ey & Ny & Sy & ->). exists y. auto.
  - intros a b j Ha Hb. rewrite nth_error_map in Ha, Hb. destruct (nth_error (fst r) a) as [[o d]|] eqn:Ea; [|discriminate].
    destruct (nth_error (fst r) b) as [[o' d']|] eqn:Eb; [|discriminate]. cbn in Ha, Hb. injection Ha as ->. injection Hb as ->.
    now apply (U a b j d d').
  - intros j y (Ey & Ny & Sy & Ly) Hn.
    pose proof (offers_complete _ _ _ _ _ _ _ _ G Ex Ey Ny Sy Ly) as Hin. destruct (X _ _ Hin Ly) as [K|K].
    { exfalso. apply Hn. apply in_map_iff. exists (Some j, edist x y). auto. }
    split.
    + intros Hnone. apply in_map_iff in Hnone as ([o d] & Eo & Hs). cbn in Eo. subst o. pose proof (S _ Hs) as K1. cbn in K1.
      specialize (K _ Hs). cbn in K. lra.
    + intros j' y' Hj' Ey'. apply in_map_iff in Hj' as ([o d] & Eo & Hs). cbn in Eo. subst o. pose proof (S _ Hs) as K1. cbn in K1. destruct K1 as [K1 _].
      destruct (offers_in _ _ _ _ _ _ x Ex G1 K1) as (y2 & Ey2 & _ & _ & ->). assert (y2 = y') by congruence. subst.
      specialize (K _ Hs). cbn in K. exact K.
Qed.
(** Without room for any neighbour, the first pair in sight raises. *)
Lemma neighbors_none_raises : find_nearest_neighbors [V 0 0; V 1 0] 10 0 [(0, 1)]%nat [] = Err ValueError.
Proof.
  unfold find_nearest_neighbors. cbn [map neighbor_loop nth_error is_obstacle_between_points]. cbv zeta.
  unfold offer. cbn [nth_error repeat snd]. assert (E : vlength (vsub (V 0 0) (V 1 0)) = 1).
  { unfold vlength. vunfold. replace (_ + _) with (1 * 1) by ring. apply sqrt_square. lra. }
  rewrite E. rdec. reflexivity.
Qed.
