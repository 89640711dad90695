From Coq Require Import Lra Lia.
From Verif Require Export Proofs.DistanceProofs Proofs.Witness1 Spec.Overlap.
Open Scope R_scope.

Lemma existsb_iff {A} (f : A -> bool) (P : A -> Prop) l :
  (forall a, In a l -> (f a = true <-> P a)) -> (existsb f l = true <-> exists a, In a l /\ P a).
Proof.
  intros H. rewrite existsb_exists. split; intros (a & I & K); exists a; split; auto; now apply H.
Qed.

Lemma overlapping_circles_iff agents x r :
  overlapping_circles agents x r = true <->
  exists a, In a agents /\ bodies_overlap (body Circular a) [(x, r)].
Proof.
  apply existsb_iff. intros a _. rewrite Rltb_true, distance_circles_fst. split.
  - intros H. exists (a_position a, a_radius a), (x, r). cbn; auto.
  - intros (c & d & [<-|[]] & [<-|[]] & H). exact H.
Qed.
Lemma tget_body (a : agent) i : (i < 3)%nat -> In (tget (xs_of a) i, tget (rs_of a) i) (body ThreeCircle a).
Proof. intros H. destruct i as [|[|[|]]]; cbn; auto; lia. Qed.
Lemma body_tget (a : agent) c : In c (body ThreeCircle a) ->
  exists i, (i < 3)%nat /\ c = (tget (xs_of a) i, tget (rs_of a) i).
Proof. intros [<-|[<-|[<-|[]]]]; [exists 0%nat|exists 1%nat|exists 2%nat]; auto. Qed.
Definition circles3 (x : tri vec) (r : tri R) : list circle :=
  [(t_0 x, t_0 r); (t_1 x, t_1 r); (t_2 x, t_2 r)].
Lemma circles3_tget x r c : In c (circles3 x r) <-> exists i, (i < 3)%nat /\ c = (tget x i, tget r i).
Proof.
  split.
  - intros [<-|[<-|[<-|[]]]]; [exists 0%nat|exists 1%nat|exists 2%nat]; auto.
  - intros (i & H & ->). destruct i as [|[|[|]]]; cbn; auto; lia.
Qed.
Lemma body_circles3 a : body ThreeCircle a = circles3 (xs_of a) (rs_of a).
Proof. reflexivity. Qed.
Lemma three_overlap_iff x0 r0 x1 r1 :
  (let '(h, _, _, _) := distance_three_circles x0 r0 x1 r1 in neg_opt h) = true <->
  bodies_overlap (circles3 x0 r0) (circles3 x1 r1).
Proof.
  destruct (distance_three_circles_spec x0 r0 x1 r1) as (h & n & m0 & m1 & i & j & Hi & Hj & E & Eh & Hmin & _).
  rewrite E. cbn. rewrite Rltb_true. split.
  - intros H. exists (tget x0 i, tget r0 i), (tget x1 j, tget r1 j).
    split; [apply circles3_tget; eauto|]. split; [apply circles3_tget; eauto|]. rewrite Eh in H. exact H.
  - intros (c & d & Hc & Hd & H). apply circles3_tget in Hc as (i' & Hi' & ->).
    apply circles3_tget in Hd as (j' & Hj' & ->). specialize (Hmin i' j' Hi' Hj'). unfold circ in Hmin. lra.
Qed.
Lemma overlapping_three_circles_iff agents x r :
  overlapping_three_circles agents x r = true <->
  exists a, In a agents /\ bodies_overlap (body ThreeCircle a) (circles3 x r).
Proof. apply existsb_iff. intros a _. apply three_overlap_iff. Qed.

Lemma circle_line_neg x r a b : a <> b ->
  (neg_opt (option_map fst (distance_circle_line x r a b)) = true <->
   exists q, on_segment a b q /\ edist x q < r).
Proof.
  intros H. destruct (distance_circle_line_spec x r a b H) as (e & q & n & E & Hq & He & [_ Hmin] & _).
  rewrite E. cbn. rewrite Rltb_true. split.
  - intros K. exists q. split; auto. lra.
  - intros (q' & Hq' & K). specialize (Hmin (edist x q')). assert (e <= edist x q') by (apply Hmin; eauto). lra.
Qed.
Definition positive_length (o : obstacle) : Prop := p0 o <> p1 o.
Lemma overlapping_circle_line_iff agents obs : Forall positive_length obs ->
  (overlapping_circle_line agents obs = true <->
   exists a, In a agents /\ exists o, In o obs /\ body_hits_wall (body Circular a) (p0 o) (p1 o)).
Proof.
  intros F. apply existsb_iff. intros a _. apply existsb_iff. intros o Ho.
  rewrite Forall_forall in F. rewrite circle_line_neg by (apply F; auto). split.
  - intros (q & Hq & K). exists (a_position a, a_radius a), q. cbn; auto.
  - intros (c & q & [<-|[]] & Hq & K). exists q; auto.
Qed.
Lemma three_line_neg x r a b : a <> b ->
  (neg_opt (option_map (fun p => fst (fst p)) (distance_three_circle_line x r a b)) = true <->
   body_hits_wall (circles3 x r) a b).
Proof.
  intros H. destruct (three_circle_line_all x r a b H) as (h & n & m & i & S).
  destruct S as (Hi & E & Hx & Hmin & _). rewrite E. cbn. rewrite Rltb_true. split.
  - intros K. destruct Hx as (e & q & -> & _ & Hq & He & _).
    exists (tget x i, tget r i), q. split; [apply circles3_tget; eauto|]. split; auto. cbn [fst snd]. lra.
  - intros (c & q & Hc & Hq & K). apply circles3_tget in Hc as (i' & Hi' & ->). cbn in K.
    destruct (distance_circle_line_spec (tget x i') 0 a b H) as (e' & _ & _ & _ & _ & _ & Hs & _).
    specialize (Hmin i' e' Hi' Hs). destruct Hs as [_ Hs].
    assert (e' <= edist (tget x i') q) by (apply Hs; eauto). lra.
Qed.
Lemma overlapping_three_circle_line_iff agents obs : Forall positive_length obs ->
  (overlapping_three_circle_line agents obs = true <->
   exists a, In a agents /\ exists o, In o obs /\ body_hits_wall (body ThreeCircle a) (p0 o) (p1 o)).
Proof.
  intros F. apply existsb_iff. intros a _. apply existsb_iff. intros o Ho.
  rewrite Forall_forall in F. apply three_line_neg. apply F; auto.
Qed.
(** Walls of length zero are never reported. *)
Lemma zero_length_unreported agents obs : Forall (fun o => p0 o = p1 o) obs ->
  overlapping_circle_line agents obs = false /\ overlapping_three_circle_line agents obs = false.
Proof.
  intros F. rewrite Forall_forall in F. split.
  - apply not_true_iff_false. unfold overlapping_circle_line. rewrite existsb_exists.
    intros (a & _ & K). rewrite existsb_exists in K. destruct K as (o & Ho & K).
    rewrite (F o Ho), distance_circle_line_degenerate in K. discriminate.
  - apply not_true_iff_false. unfold overlapping_three_circle_line. rewrite existsb_exists.
    intros (a & _ & K). rewrite existsb_exists in K. destruct K as (o & Ho & K).
    rewrite (F o Ho), distance_three_circle_line_degenerate in K. discriminate.
Qed.
