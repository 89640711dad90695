(** * Simulations of some of the agents *)
From Coq Require Import Lra Lia Permutation.
From Verif Require Import Proofs.VecLemmas Proofs.SteeringProofs Proofs.SimulationProofs Proofs.WrittenProofs Proofs.InteractionProofs Proofs.FrameImages.
From Verif Require Export Spec.Parts.
Open Scope R_scope.

(** ** Rows of a list *)
Definition pick {A} (sel : list nat) (all part : list A) : Prop := Forall2 (fun i a => nth_error all i = Some a) sel part.
Section Pick.
  Context {A B : Type}.
  Lemma pick_map (f : A -> B) sel all part : pick sel all part -> pick sel (map f all) (map f part).
  Proof. unfold pick. induction 1; cbn; constructor; auto. rewrite nth_error_map, H. reflexivity. Qed.
  Lemma pick_rel (P : A -> B -> Prop) sel all all' part : Forall2 P all all' -> pick sel all part -> exists part', Forall2 P part part' /\ pick sel all' part'.
  Proof.
    intros H. unfold pick. induction 1 as [|i a sel part E G IH]; [exists []; split; constructor|]. destruct IH as (p & P1 & P2). pose proof (Forall2_nth2 P _ _ i H) as N. rewrite E in N.
    destruct (nth_error all' i) as [b|] eqn:Eb; [|contradiction]. exists (b :: p). split; constructor; auto.
  Qed.
  Lemma pick_nth (sel : list nat) (all part : list A) m i : pick sel all part -> nth_error sel m = Some i -> exists a, nth_error part m = Some a /\ nth_error all i = Some a.
  Proof.
    intros H E. pose proof (Forall2_nth2 _ _ _ m H) as N. rewrite E in N. destruct (nth_error part m) as [a|]; [|contradiction]. eauto.
  Qed.
  Lemma pick_length (sel : list nat) (all part : list A) : pick sel all part -> length part = length sel.
  Proof. apply Forall2_length2. Qed.
  Lemma pick_intro (sel : list nat) (all part : list A) : length part = length sel ->
    (forall m i, nth_error sel m = Some i -> nth_error part m = nth_error all i /\ nth_error all i <> None) -> pick sel all part.
  Proof.
    revert part. induction sel as [|i sel IH]; intros [|a part] L H; cbn in L; try discriminate; constructor.
    - destruct (H 0%nat i eq_refl) as [E _]. cbn in E. auto.
    - apply IH; [lia|]. intros m j. apply (H (S m)).
  Qed.
  Lemma pick_empty (sel : list nat) (part : list A) : pick sel [] part -> part = [].
  Proof. intros H. destruct H as [|i a sel part E]; auto. destruct i; discriminate. Qed.
  Lemma pick_bound (sel : list nat) (all part : list A) i : pick sel all part -> In i sel -> (i < length all)%nat.
  Proof. intros H I. apply In_nth_error in I as (m & Hm). destruct (pick_nth _ _ _ _ _ H Hm) as (a & _ & E). apply nth_error_Some. congruence. Qed.
  Lemma pick_in (sel : list nat) (all part : list A) a : pick sel all part -> In a part -> In a all.
  Proof. intros H. induction H as [|i b sel part E G IH]; intros []; subst; auto. eapply nth_error_In; eauto. Qed.
  Lemma map_seq_nth (l : list A) d : map (fun i => nth i l d) (seq 0 (length l)) = l.
  Proof. induction l as [|a l IH]; cbn; auto. f_equal. rewrite <- seq_shift, map_map. exact IH. Qed.
  (** All rows: a permutation. *)
  Lemma pick_perm (sel : list nat) (all part : list A) : NoDup sel -> pick sel all part -> length part = length all -> Permutation part all.
  Proof.
    intros N H L. assert (P : Permutation sel (seq 0 (length all))).
    { apply NoDup_Permutation_bis; auto; [rewrite seq_length; rewrite <- L, (pick_length _ _ _ H); lia|]. intros i I. apply in_seq. pose proof (pick_bound _ _ _ _ H I). lia. }
    destruct all as [|d all]; [apply pick_empty in H; subst; constructor|]. set (l := d :: all) in *. clearbody l.
    assert (E : part = map (fun i => nth i l d) sel).
    { clear - H. induction H as [|i a sel part E G IH]; cbn [map]; auto. f_equal; auto. symmetry. now apply nth_error_nth. }
    rewrite E. pose proof (Permutation_map (fun i => nth i l d) P) as Q. now rewrite map_seq_nth in Q.
  Qed.
End Pick.
Lemma looped_rows f l : forall l', looped (loop_rows f l) = Ok l' <-> Forall2 (fun a b => f a = Ok b) l l'.
Proof.
  induction l as [|a l IH]; intros l'; cbn [loop_rows].
  - cbn. split; [intros [= <-]; constructor|]. now inversion 1.
  - destruct (f a) as [b|x] eqn:E.
    + destruct (loop_rows f l) as [[x|] r]; cbn [looped] in IH |- *.
      * split; [discriminate|]. inversion 1 as [|? ? ? l1 H1 H2]; subst. apply IH in H2. discriminate.
      * split; [intros [= <-]; constructor; auto; now apply IH|]. inversion 1 as [|? ? ? l1 H1 H2]; subst. apply IH in H2. injection H2 as ->. congruence.
    + cbn. split; [discriminate|]. inversion 1. congruence.
Qed.
Lemma finite_rows r : forall l, all_finite r = Ok l <-> r = map Some l.
Proof.
  induction r as [|[a|] r IH]; intros l; cbn [all_finite].
  - split; [intros [= <-]; reflexivity|]. destruct l; [auto|discriminate].
  - destruct (all_finite r) as [m|x]; cbn [rbind].
    + split; [intros [= <-]; cbn; f_equal; now apply IH|]. destruct l as [|b l]; [discriminate|]. cbn. intros [= <- E]. apply IH in E. congruence.
    + split; [discriminate|]. destruct l as [|b l]; [discriminate|]. cbn. intros [= <- E]. apply IH in E. discriminate.
  - split; [discriminate|]. destruct l; discriminate.
Qed.
Lemma pick_loop f sel all part all' : looped (loop_rows f all) = Ok all' -> pick sel all part -> exists part', looped (loop_rows f part) = Ok part' /\ pick sel all' part'.
Proof. intros H P. apply looped_rows in H. destruct (pick_rel _ _ _ _ _ H P) as (p & P1 & P2). exists p. split; auto. now apply looped_rows. Qed.
(** Rows computed one by one, none of them NaN. *)
Lemma pick_finite (f : agent -> option agent) sel all part all' : all_finite (map f all) = Ok all' -> pick sel all part ->
  exists part', all_finite (map f part) = Ok part' /\ pick sel all' part'.
Proof.
  intros H P. apply finite_rows in H. assert (G : Forall2 (fun a b => f a = Some b) all all').
  { revert all' H. clear. induction all as [|a all IH]; intros [|b all'] H; cbn in H; try discriminate; constructor; injection H as H1 H2; auto. }
  destruct (pick_rel _ _ _ _ _ G P) as (p & P1 & P2). exists p. split; auto. apply finite_rows. clear - P1. induction P1; cbn; auto. now f_equal.
Qed.

(** ** Nodes that treat the agents one by one *)
Lemma fluctuate_nth k d l : forall i m, nth_error (fluctuate k d i l) m = option_map (fun a => let '(phi, z, zt) := d (i + m)%nat in fluctuate_row k a phi z zt) (nth_error l m).
Proof.
  induction l as [|a l IH]; intros i [|m]; cbn [fluctuate nth_error option_map]; try reflexivity; destruct (d i) as [[phi z] zt] eqn:E; cbn [nth_error].
  - now rewrite Nat.add_0_r, E.
  - rewrite IH. now replace (S i + m)%nat with (i + S m)%nat by lia.
Qed.
Lemma pick_fluctuate k d d' sel all part : (forall m i, nth_error sel m = Some i -> d m = d' i) -> pick sel all part ->
  pick sel (fluctuate k d' 0 all) (fluctuate k d 0 part).
Proof.
  intros D P. assert (L : forall dd l i, length (fluctuate k dd i l) = length l).
  { induction l as [|a l IH]; intros i; cbn; auto. destruct (dd i) as [[? ?] ?]. cbn. now rewrite IH. }
  apply pick_intro; [rewrite L; now apply (pick_length sel all)|]. intros m i E. destruct (pick_nth _ _ _ _ _ P E) as (a & E1 & E2). rewrite !fluctuate_nth, E1, E2.
  cbn [option_map Nat.add]. rewrite (D m i E). split; auto. discriminate.
Qed.
Lemma pick_adjust k sel all part all' : adjust k all = Ok all' -> pick sel all part -> exists part', adjust k part = Ok part' /\ pick sel all' part'.
Proof.
  unfold adjust, force_adjust_agents. destruct (looped (loop_rows force_adjust_row all)) as [m|x] eqn:E; [|discriminate]. cbn [rbind]. intros H P.
  destruct (pick_loop _ _ _ _ _ E P) as (p & E1 & P1). rewrite E1. cbn [rbind]. destruct (is_model k ThreeCircle); [apply (pick_loop _ _ m); auto|]. injection H as <-. eauto.
Qed.
Lemma pick_exits ts obs range sel all part all' : exit_detection_node ts obs range all = Ok all' -> pick sel all part ->
  exists part', exit_detection_node ts obs range part = Ok part' /\ pick sel all' part'.
Proof.
  unfold exit_detection_node. destruct ts as [|t ts]; [discriminate|]. intros [= <-] P. eexists. split; [reflexivity|].
  unfold exit_detection. set (f := fun x : vec => match _ with Some c => _ | None => _ end). set (g := fun '(a, (t0, has)) => _).
  assert (E : forall l, map g (combine l (map f (map a_position l))) = map (fun a => g (a, f (a_position a))) l) by (clearbody f g; induction l as [|a l IH]; cbn [map combine]; [reflexivity|now rewrite IH]).
  change (pick sel (map g (combine all (map f (map a_position all)))) (map g (combine part (map f (map a_position part))))). rewrite !E. now apply pick_map.
Qed.
Lemma navigate_all_maps nav ts : forall r r', r <> [] -> navigate_all nav ts r = Ok r' -> forall t, In t ts -> exists m, nav t = Ok m.
Proof.
  induction ts as [|t ts IH]; intros r r' N E u []; cbn [navigate_all] in E; subst.
  - unfold navigate_target in E. destruct r; [contradiction|]. destruct (nav u) as [m|]; [eauto|discriminate].
  - destruct (navigate_target nav t r) as [r1|] eqn:E1; [|discriminate]. cbn [rbind] in E. apply (IH r1 r'); auto.
    destruct (nav t) as [[m dm]|] eqn:En; [|unfold navigate_target in E1; destruct r; [contradiction|]; rewrite En in E1; discriminate].
    rewrite (navigate_target_ok nav t r m dm En) in E1. injection E1 as <-. destruct r; [contradiction|discriminate].
Qed.
Lemma pick_navigation nav nav' n sel all part all' : (forall t, nav t = nav' t) -> (do r <- navigation_node nav' n all; all_finite r) = Ok all' -> pick sel all part ->
  exists part', (do r <- navigation_node nav n part; all_finite r) = Ok part' /\ pick sel all' part'.
Proof.
  intros EN H P. destruct all as [|a0 all0].
  { assert (part = []) by now apply pick_empty in P. subst. assert (sel = []) by now inversion P. subst. exists []. rewrite navigation_node_empty. split; [reflexivity|constructor]. }
  set (all := a0 :: all0) in *. unfold navigation_node in H. destruct (navigate_all nav' _ (map Some all)) as [r|] eqn:E; [|discriminate]. cbn [rbind] in H.
  assert (Q : forall t, In t (map Z.of_nat (seq 0 n)) -> exists m, nav' t = Ok m) by (apply (navigate_all_maps nav' _ (map Some all) r); [discriminate|exact E]).
  set (maps := fun t => match nav' t with Ok m => m | Err _ => (Mesh 0 0 0 0 0, Grid 0 0 (fun _ _ => None)) end).
  assert (M : forall t, In t (map Z.of_nat (seq 0 n)) -> nav' t = Ok (maps t)) by (intros t Ht; unfold maps; destruct (Q t Ht) as (m & ->); reflexivity).
  rewrite (navigate_all_ok nav' maps _ M), fold_rows, map_map in E. injection E as <-. unfold navigation_node.
  rewrite (navigate_all_ok nav maps) by (intros t Ht; rewrite EN; auto). rewrite fold_rows, map_map. cbn [rbind]. now apply (pick_finite _ _ all).
Qed.
(** ** The integrator *)
Lemma v_max_perm l l' : Permutation l l' -> v_max l = v_max l'.
Proof.
  intros P. unfold v_max. generalize 0. induction P as [|a l l' P IH|a b l|l l1 l2 P1 IH1 P2 IH2]; intros m; cbn [fold_left]; auto; [|now rewrite IH1].
  f_equal. assert (M : forall u v, (if Rltb u v then v else u) = Rmax u v).
  { intros u v. unfold Rmax. destruct (Rltb u v) eqn:E; [apply Rltb_true in E|apply Rltb_false in E]; destruct (Rle_dec u v); lra. }
  rewrite !M, <- !Rmax_assoc. f_equal. apply Rmax_comm.
Qed.
Lemma np_max_perm l l' : Permutation l l' -> np_max l = np_max l'.
Proof.
  assert (G : forall l l', Permutation l l' -> forall m, fold_left Rmax l m = fold_left Rmax l' m).
  { intros u v P. induction P as [|a u v P IH|a b u|u u1 u2 P1 IH1 P2 IH2]; intros m; cbn [fold_left]; auto; [|now rewrite IH1].
    f_equal. rewrite <- !Rmax_assoc. f_equal. apply Rmax_comm. }
  intros P. induction P as [|a l l' P IH|a b l|l l1 l2 P1 IH1 P2 IH2]; cbn [np_max]; auto; [|cbn [fold_left]; now rewrite Rmax_comm|congruence].
  now rewrite (G _ _ P).
Qed.
Lemma timestep_same sel all part a b dt : NoDup sel -> pick sel all part -> a = b \/ length part = length all ->
  adaptive_timestep all a b = Ok dt -> adaptive_timestep part a b = Ok dt.
Proof.
  intros N P [<-|L] E.
  - assert (C : forall l r, adaptive_timestep l a a = Ok r -> r = a).
    { intros l r. unfold adaptive_timestep. cbv zeta. destruct (Reqb _ _); [congruence|]. destruct (np_max _); [|discriminate].
      destruct (Rltb a _) eqn:E1; [congruence|]. destruct (Rltb _ a) eqn:E2; [congruence|]. apply Rltb_false in E1. apply Rltb_false in E2. intros [= <-]. lra. }
    rewrite (C _ _ E). assert (Q : exists r, adaptive_timestep part a a = Ok r).
    { unfold adaptive_timestep. cbv zeta. destruct (Reqb (v_max part) 0) eqn:Z; [eauto|]. destruct (np_max (map a_target_velocity part)) eqn:Em.
      - destruct (Rltb a _); [eauto|]. destruct (Rltb _ a); eauto.
      - destruct part; [|discriminate]. cbn in Z. apply Reqb_false in Z. contradiction. }
    destruct Q as (r & Q). rewrite Q. f_equal. now apply C in Q.
  - rewrite <- E. pose proof (pick_perm _ _ _ N P L) as Q. unfold adaptive_timestep. rewrite (v_max_perm _ _ Q), (np_max_perm _ _ (Permutation_map a_target_velocity Q)). reflexivity.
Qed.
Lemma pick_verlet k sel all part a b dt r all' : NoDup sel -> pick sel all part -> a = b \/ length part = length all ->
  velocity_verlet_integrator k all a b = Ok (dt, r) -> all_finite r = Ok all' ->
  exists q part', velocity_verlet_integrator k part a b = Ok (dt, q) /\ all_finite q = Ok part' /\ pick sel all' part'.
Proof.
  intros N P T E FI. unfold velocity_verlet_integrator in *. destruct (adaptive_timestep all a b) as [d|] eqn:D; [|discriminate]. cbn [rbind] in E.
  rewrite (timestep_same _ _ _ _ _ _ N P T D). cbn [rbind]. destruct k.
  - injection E as <- <-. destruct (pick_finite _ _ _ _ _ FI P) as (p & P1 & P2). eauto.
  - destruct (needs_inertia all) eqn:I; [discriminate|]. injection E as <- <-. assert (I' : needs_inertia part = false).
    { unfold needs_inertia in *. apply not_true_is_false. intros K. apply existsb_exists in K as (x & X1 & X2). apply (pick_in _ _ _ _ P) in X1.
      assert (Z : existsb (fun a0 => Reqb (a_inertia_rot a0) 0) all = true) by (apply existsb_exists; eauto). congruence. }
    rewrite I'. rewrite map_map in FI |- *. destruct (pick_finite _ _ _ _ _ FI P) as (p & P1 & P2). eauto.
Qed.
