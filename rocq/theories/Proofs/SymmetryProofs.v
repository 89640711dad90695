(** * Symmetric crowds stay symmetric *)
From Coq Require Import Lra Lia.
From Verif Require Import Proofs.VecLemmas Proofs.Vector2DProofs Proofs.TurnProofs Proofs.FrameImages Proofs.FrameRuns Proofs.SimulationProofs Proofs.WallProofs Props.P24_Frames Props.P25_Parts.
From Verif Require Export Spec.Symmetry.
Open Scope R_scope.

(** ** Two surroundings that act alike *)
Section Same.
  Variables (e e' : env) (x : expr node) (ok : sim -> Prop).
  Hypothesis kept : forall n s s1, In n (written_order x) -> ok s -> run_node e n s = Ok s1 -> ok s1.
  Hypothesis nodes : forall n s, In n (written_order x) -> ok s -> run_node e' n s = run_node e n s.
  Lemma same_nodes ns is : forall l s, map (nth_error ns) is = map Some l -> incl l (written_order x) -> ok s ->
    update_nodes (node_effect e' ns) is s = update_nodes (node_effect e ns) is s /\ ok (fst (update_nodes (node_effect e ns) is s)).
  Proof using kept nodes.
    induction is as [|i is IH]; intros [|n l] s M I O; cbn in M; try discriminate; [cbn; auto|]. injection M as M1 M2. cbn [update_nodes].
    assert (E1 : forall e0 s0, node_effect e0 ns i s0 = match run_node e0 n s0 with Ok s2 => (s2, None) | Err y => (s0, Some y) end) by (intros; unfold node_effect; now rewrite M1).
    rewrite !E1. assert (In n (written_order x)) as N by (apply I; now left). rewrite (nodes n s N O).
    destruct (run_node e n s) as [s1|x1] eqn:R0; cbn; auto. apply (IH l); eauto. intros m Hm. apply I. now right.
  Qed.
  Lemma same_update s i : ok s -> simulation_update e' x (s, i) = simulation_update e x (s, i) /\ ok (fst (fst (simulation_update e x (s, i)))).
  Proof using kept nodes.
    intros O. unfold simulation_update, logic_of. destruct (construct_postorder class_name x no_nodes [] reach_start eq_refl) as (r & f & ns & -> & R0 & Hr & Er & M).
    unfold update. rewrite Er. cbn [fst snd]. destruct (same_nodes ns _ _ s M (fun n Hn => Hn) O) as [-> B]. split; auto.
    destruct (update_nodes (node_effect e ns) _ s) as [s1 [x1|]]; exact B.
  Qed.
  Lemma same_updates s i dts r : updates e x (s, i) dts r -> ok s -> updates e' x (s, i) dts r.
  Proof using kept nodes.
    intros U. remember (s, i) as si eqn:E. revert s i E. induction U as [si|si [s1 i1] dts r U1 U IH]; intros s i -> O; [constructor|].
    destruct (same_update s i O) as [A B]. rewrite U1 in A, B. econstructor; [exact A|]. now apply (IH s1 i1).
  Qed.
End Same.

(** ** Draws, walls and targets *)
Definition alike (d d' : R * R * R) : Prop := cos (fst (fst d')) = cos (fst (fst d)) /\ sin (fst (fst d')) = sin (fst (fst d)) /\ snd (fst d') = snd (fst d) /\ snd d' = snd d.
Lemma fluctuate_row_same k a phi z zt phi' z' zt' : alike (phi, z, zt) (phi', z', zt') -> fluctuate_row k a phi' z' zt' = fluctuate_row k a phi z zt.
Proof. intros (A & B & C & D). cbn in *. subst. unfold fluctuate_row, force_fluctuation1. now rewrite A, B. Qed.
Lemma fluctuate_same k d d' l : forall i, (forall m, (i <= m < i + length l)%nat -> alike (d m) (d' m)) -> fluctuate k d' i l = fluctuate k d i l.
Proof.
  induction l as [|a l IH]; intros i H; [reflexivity|]. cbn [fluctuate]. pose proof (H i ltac:(cbn; lia)) as A. destruct (d i) as [[p z] zt], (d' i) as [[p' z'] zt'].
  f_equal; [now apply fluctuate_row_same|]. apply IH. intros m Hm. apply H. cbn. lia.
Qed.
Lemma fluctuate_row_quiet a phi z zt : a_std_rand_force a = 0 -> fluctuate_row Circular a phi z zt = set_force (a_force a) a.
Proof. intros H. unfold fluctuate_row, force_fluctuation1. rewrite H. f_equal. unfold vadd, vscale. cbn [vx vy]. destruct (a_force a). cbn. f_equal; ring. Qed.
Lemma fluctuate_quiet d d' l : forall i, no_noise l -> fluctuate Circular d' i l = fluctuate Circular d i l.
Proof.
  induction l as [|a l IH]; intros i H; [reflexivity|]. cbn [fluctuate]. destruct (d i) as [[p z] zt], (d' i) as [[p' z'] zt'].
  rewrite !fluctuate_row_quiet by (apply H; now left). f_equal. apply IH. intros b B. apply H. now right.
Qed.
Lemma quiet_kept e n s s1 : no_noise (s_agents s) -> run_node e n s = Ok s1 -> no_noise (s_agents s1).
Proof.
  intros H R0. assert (E : map a_std_rand_force (s_agents s1) = map a_std_rand_force (s_agents s)).
  { apply (SimulationProofs.node_keeps a_std_rand_force e n); auto. intros f _. destruct f; now intros ? ?. }
  intros a Ha. assert (I : In (a_std_rand_force a) (map a_std_rand_force (s_agents s))) by (rewrite <- E; now apply in_map). apply in_map_iff in I as (b & <- & B). now apply H.
Qed.
Lemma length_kept e n s s1 : run_node e n s = Ok s1 -> length (s_agents s1) = length (s_agents s).
Proof. intros E. pose proof (SimulationProofs.node_keeps (fun _ => tt) e n s s1 (fun f _ => ltac:(destruct f; now intros ? ?)) E) as H. apply (f_equal (@length unit)) in H. now rewrite !map_length in H. Qed.
Lemma vsum_perm l l' : Permutation l l' -> vsum l = vsum l'.
Proof.
  unfold vsum. induction 1; cbn [fold_right]; auto; try congruence. generalize (fold_right vadd vzero l). intros v. unfold vadd. cbn [vx vy]. f_equal; ring.
Qed.
Lemma vmean_perm l l' : Permutation l l' -> vmean l = vmean l'.
Proof. intros P. unfold vmean. now rewrite (vsum_perm _ _ P), (Permutation_length P). Qed.
Definition with_targets (ts : list (list vec)) (e : env) : env :=
  Env (e_kind e) (e_obstacles e) ts (e_nav e) (e_enum e) (e_argsort e) (e_inside e) (e_draws e).
Definition with_draws (d : nat -> nat -> R * R * R) (e : env) : env :=
  Env (e_kind e) (e_obstacles e) (e_targets e) (e_nav e) (e_enum e) (e_argsort e) (e_inside e) d.
Lemma targets_node e ts n s : Forall2 (@Permutation vec) (e_targets e) ts -> run_node (with_targets ts e) n s = run_node e n s.
Proof.
  intros H. destruct n; try reflexivity.
  - cbn [run_node with_targets e_kind e_nav e_targets]. replace (length ts) with (length (e_targets e)); [reflexivity|]. clear - H. induction H; cbn; auto.
  - cbn [run_node with_targets e_targets e_obstacles]. unfold exit_detection_node.
    assert (E : map vmean ts = map vmean (e_targets e)) by (clear - H; induction H; cbn; auto; f_equal; auto; symmetry; now apply vmean_perm).
    destruct H; [reflexivity|]. now rewrite E.
Qed.
Lemma draws_node e d n s : (match n with Fluctuation => fluctuate (e_kind e) (d (s_draws s)) 0 (s_agents s) = fluctuate (e_kind e) (e_draws e (s_draws s)) 0 (s_agents s) | _ => True end) ->
  run_node (with_draws d e) n s = run_node e n s.
Proof. intros H. destruct n; try reflexivity. cbn [run_node with_draws e_kind e_draws]. cbv zeta. now rewrite H. Qed.

Lemma env_eta e : Env (e_kind e) (e_obstacles e) (e_targets e) (e_nav e) (e_enum e) (e_argsort e) (e_inside e) (e_draws e) = e.
Proof. now destruct e. Qed.

(** ** Partners *)
Lemma partner_list sel n : Permutation sel (seq 0 n) -> exists l, Forall2 (fun i m => nth_error sel m = Some i) (seq 0 n) l.
Proof.
  intros P. assert (G : forall is, incl is sel -> exists l, Forall2 (fun i m => nth_error sel m = Some i) is l).
  { induction is as [|i is IH]; intros I; [exists []; constructor|]. destruct IH as (l & L); [intros j J; apply I; now right|].
    destruct (In_nth_error sel i (I i ltac:(now left))) as (m & M). exists (m :: l). constructor; auto. }
  apply G. intros i I. now apply (Permutation_in _ (Permutation_sym P)).
Qed.
Lemma Forall2_size {A B} (P : A -> B -> Prop) l l' : Forall2 P l l' -> length l = length l'.
Proof. induction 1; cbn; auto. Qed.
Lemma Forall2_at {A B} (P : A -> B -> Prop) l l' i a b : Forall2 P l l' -> nth_error l i = Some a -> nth_error l' i = Some b -> P a b.
Proof. intros H. revert i. induction H; intros [|i] X Y; try discriminate; cbn in *; [congruence|eauto]. Qed.
Lemma Forall2_from {A B} (P : A -> B -> Prop) l l' : length l = length l' -> (forall i a b, nth_error l i = Some a -> nth_error l' i = Some b -> P a b) -> Forall2 P l l'.
Proof.
  revert l'. induction l as [|a l IH]; intros [|b l'] L H; try discriminate; constructor; [apply (H 0%nat); reflexivity|]. apply IH; [now injection L|]. intros i. apply (H (S i)).
Qed.

Section Symmetric.
  Variables (F : frame) (sel : list nat) (e : env) (x : expr node) (rmax : R).
  Hypothesis HF : proper F.
  Hypothesis world : symmetric_world F e.
  Hypothesis circular : e_kind e = Circular.
  Hypothesis cells : forall ps c, good_enumeration ps c (e_enum e ps c).
  Hypothesis fit : forall n, In n (written_order x) -> cells_fit rmax n.
  Hypothesis alone : forall n, In n (written_order x) -> Spec.Parts.independent True n.

  Definition turned_draw (d : R * R * R) : R * R * R := let '(phi, z, zt) := d in (angle (vect F (V (cos phi) (sin phi))), z, zt).
  Lemma turned_draw_seen phi : let o := angle (vect F (V (cos phi) (sin phi))) in V (cos o) (sin o) = vect F (V (cos phi) (sin phi)).
  Proof using HF.
    cbv zeta. destruct (unit_image F phi HF) as (o & O). rewrite <- O. pose proof (unit_vector_angle (V (cos o) (sin o))) as U.
    assert (L : vlength (V (cos o) (sin o)) = 1) by (unfold vlength; cbn [vx vy]; pose proof (sin2_cos2 o) as S; unfold Rsqr in S; replace (_ + _) with 1 by lra; apply sqrt_1).
    rewrite L in U. rewrite <- U at 3.
    - unfold vscale, unit_vector. cbn [vx vy]. f_equal; ring.
    - intros Z. injection Z as Z1 Z2. pose proof (sin2_cos2 o) as S. rewrite Z1, Z2 in S. unfold Rsqr in S. lra.
  Qed.
  Definition image_world (d : nat -> nat -> R * R * R) : env :=
    Env (e_kind e) (map (fun o => Obs (point F (p0 o)) (point F (p1 o))) (e_obstacles e)) (map (map (point F)) (e_targets e)) (e_nav e) (e_enum e) (e_argsort e) (e_inside e) d.
  Definition e1 : env := image_world (fun n i => turned_draw (e_draws e n i)).
  Definition e2 : env := image_world (fun n m => turned_draw (e_draws e n (nth m sel 0%nat))).
  Lemma e1_seen : env_seen F e e1.
  Proof using HF world.
    constructor; try reflexivity.
    - exact (sy_targets_ok _ _ world).
    - intros step radius strength t. cbn. destruct (e_nav e step radius strength t) as [md|] eqn:E; cbn; auto. exact (sy_nav _ _ world _ _ _ _ _ E).
    - exact (sy_inside _ _ world).
    - intros n i. cbn. destruct (e_draws e n i) as [[phi z] zt]. cbn. split; auto. apply turned_draw_seen.
  Qed.
  Lemma e2_same : same_world sel e1 e2.
  Proof using. constructor; try reflexivity. intros n m i H. cbn. now rewrite (nth_error_nth _ _ _ H). Qed.
  (** The image has the walls and targets of the scene itself. *)
  Lemma e2_node n s : (match n with Fluctuation => fluctuate Circular (e_draws e (s_draws s)) 0 (s_agents s) = fluctuate Circular (e_draws e2 (s_draws s)) 0 (s_agents s) | _ => True end) ->
    run_node e n s = run_node e2 n s.
  Proof using world circular.
    intros H. set (a := with_draws (e_draws e) e2). assert (A : run_node a n s = run_node e2 n s).
    { apply draws_node. destruct n; auto. cbn [e_kind e2 image_world]. now rewrite circular. }
    rewrite <- A. set (b := with_targets (e_targets e) a). assert (B : run_node b n s = run_node a n s).
    { apply targets_node. cbn. pose proof (sy_targets _ _ world) as T. clear - T. revert T. generalize (e_targets e) at 1 3. intros l T. remember (e_targets e) as m eqn:E. clear E. induction T; cbn; constructor; auto. }
    rewrite <- B. assert (C : run_node (with_walls (e_obstacles e) b) n s = run_node b n s) by (apply same_walls_node; exact (sy_walls _ _ world)).
    rewrite <- C. subst a b. unfold with_walls, with_targets, with_draws, e2, image_world. cbn. now rewrite env_eta.
  Qed.

  Lemma symmetric_updates s i dts t n : (symmetric_draws F sel e \/ no_noise (s_agents s)) -> radii_below rmax (s_agents s) -> symmetric_crowd F sel (s_agents s) ->
    updates e x (s, i) dts (t, n) -> symmetric_crowd F sel (s_agents t).
  Proof using HF world circular cells fit alone.
    intros HD HR (P & HS) U. set (N := length (s_agents s)) in *. destruct (partner_list sel N P) as (sel' & Q).
    assert (LS : length sel = N) by (rewrite (Permutation_length P); apply seq_length). assert (LS' : length sel' = N) by (rewrite <- (Forall2_size _ _ _ Q); apply seq_length).
    assert (ND : NoDup sel) by (apply (Permutation_NoDup (Permutation_sym P)), seq_NoDup).
    assert (Q1 : forall j m, nth_error sel' j = Some m -> nth_error sel m = Some j).
    { intros j m E. assert (J : (j < N)%nat) by (rewrite <- LS'; apply nth_error_Some; congruence). apply (Forall2_at _ _ _ j j m Q); auto.
      rewrite (nth_error_nth' (seq 0 N) 0%nat) by (rewrite seq_length; exact J). f_equal. now apply seq_nth. }
    assert (Q2 : forall j m, nth_error sel m = Some j -> nth_error sel' j = Some m).
    { intros j m E. assert (J : (j < N)%nat). { assert (I : In j sel) by (eapply nth_error_In; eauto). apply (Permutation_in _ P), in_seq in I. lia. }
      destruct (nth_error sel' j) as [m'|] eqn:E'; [|apply nth_error_None in E'; lia]. f_equal. apply Q1 in E'. apply (proj1 (NoDup_nth_error sel) ND); [apply nth_error_Some; congruence|congruence]. }
    set (l1 := map (fun m => nth m (s_agents s) zero_row) sel').
    assert (L1 : forall j m b, nth_error sel' j = Some m -> nth_error (s_agents s) m = Some b -> nth_error l1 j = Some b).
    { intros j m b E B. unfold l1. rewrite nth_error_map, E. cbn. f_equal. now apply nth_error_nth. }
    set (s1 := Sim l1 (s_dt s) (s_time s) (s_inactive s) (s_draws s)).
    assert (G1 : sim_seen (e_kind e) F s s1).
    { rewrite circular. split; [|repeat split]. cbn. apply Forall2_from; [unfold l1; rewrite map_length; lia|]. intros j a b A B.
      destruct (nth_error sel' j) as [m|] eqn:E. 2:{ apply nth_error_None in E. assert (j < N)%nat by (apply nth_error_Some; congruence). lia. }
      assert (M : (m < N)%nat) by (rewrite <- LS; apply nth_error_Some; rewrite (Q1 _ _ E); discriminate). destruct (nth_error (s_agents s) m) as [c|] eqn:C; [|apply nth_error_None in C; unfold N in M; lia].
      rewrite (L1 _ _ _ E C) in B. injection B as <-. apply (HS m j); auto. }
    assert (G2 : part_of sel s1 s).
    { split; [|repeat split; auto]. split; [exact ND|]. apply Forall2_from; [exact LS|]. intros m j b E B. cbn. apply (L1 j m); auto. }
    assert (K1 : radii_below rmax (s_agents s1)).
    { intros a Ha. apply HR. cbn in Ha. unfold l1 in Ha. apply in_map_iff in Ha as (m & <- & M). apply nth_In. apply In_nth_error in M as (j & J). apply Q1 in J. fold N. rewrite <- LS. apply nth_error_Some. congruence. }
    destruct (C110_cells F e e1 x s s1 i dts rmax HF e1_seen G1 circular cells cells fit HR) as (_ & S1 & _). destruct (S1 t n U) as (t1 & U1 & V1).
    destruct (C112_circular sel e1 e2 x s1 s i dts rmax e2_same circular cells cells fit K1 alone G2) as [S2 _]; [cbn; unfold l1; rewrite map_length; lia|].
    destruct (S2 t1 n U1) as (t2 & U2 & V2).
    assert (U3 : updates e x (s, i) dts (t2, n)).
    { apply (same_updates e2 e x (fun u => length (s_agents u) = N /\ (symmetric_draws F sel e \/ no_noise (s_agents u)))); auto.
      { intros nd u u1 _ [O1 O2] R0. split; [rewrite (length_kept _ _ _ _ R0); exact O1|]. destruct O2 as [O2|O2]; [now left|right]. exact (quiet_kept e2 nd u u1 O2 R0). }
      intros nd u _ [LU O]. apply e2_node. destruct nd; auto. destruct O as [O|O]; [|now apply fluctuate_quiet].
      apply fluctuate_same. intros m Hm. cbn in Hm. cbn. destruct (nth_error sel m) as [j|] eqn:E; [|apply nth_error_None in E; lia].
      rewrite (nth_error_nth _ _ _ E). specialize (O (s_draws u) m j E). destruct (e_draws e (s_draws u) j) as [[phi z] zt], (e_draws e (s_draws u) m) as [[phi' z'] zt'].
      destruct O as (O1 & -> & ->). unfold alike; cbn. rewrite <- (turned_draw_seen phi) in O1. injection O1 as O1 O2. auto. }
    destruct (updates_deterministic _ _ _ _ _ U _ _ U3 eq_refl) as [_ E]. injection E as <-.
    destruct V2 as ((_ & V2) & _). destruct V1 as [V1 _]. assert (LT : length (s_agents t) = N) by (rewrite <- LS; symmetry; exact (Forall2_size _ _ _ V2)).
    split; [rewrite LT; exact P|]. intros m j a b E A B. pose proof (Forall2_at _ _ _ _ _ _ V2 E B) as C. rewrite circular in V1. exact (Forall2_at _ _ _ _ _ _ V1 A C).
  Qed.
End Symmetric.

(** ** The centre *)
Lemma vsum_point F l : vsum (map (point F) l) = vadd (vscale (INR (length l)) (f_shift F)) (vect F (vsum l)).
Proof.
  unfold vsum. induction l as [|a l IH]; [cbn; unfold vadd, vscale, vect, vzero; cbn; f_equal; ring|].
  cbn [map fold_right]. rewrite IH. cbn [length]. rewrite S_INR. generalize (fold_right vadd vzero l). intros v. unfold vadd, vscale, vect, point, vect. cbn [vx vy]. f_equal; ring.
Qed.
Lemma crowd_positions F sel agents : symmetric_crowd F sel agents -> Permutation (map (point F) (map a_position agents)) (map a_position agents).
Proof.
  intros (P & H). set (f := fun i => point F (a_position (nth i agents zero_row))). assert (E : map a_position agents = map f sel).
  { apply nth_error_ext. intros m. rewrite !nth_error_map. assert (L : length sel = length agents) by (rewrite (Permutation_length P); apply seq_length).
    destruct (nth_error sel m) as [i|] eqn:M.
    - destruct (nth_error agents m) as [b|] eqn:B. 2:{ apply nth_error_None in B. assert (m < length sel)%nat by (apply nth_error_Some; congruence). lia. }
      assert (I : (i < length agents)%nat) by (apply nth_error_In in M; apply (Permutation_in _ P), in_seq in M; lia).
      cbn. f_equal. rewrite (sn_position _ _ _ _ (H m i (nth i agents zero_row) b M (nth_error_nth' _ _ I) B)). reflexivity.
    - apply nth_error_None in M. assert (B : nth_error agents m = None) by (apply nth_error_None; lia). now rewrite B. }
  rewrite E at 2. replace (map (point F) (map a_position agents)) with (map f (seq 0 (length agents))); [apply Permutation_map, Permutation_sym, P|].
  apply nth_error_ext. intros m. rewrite !nth_error_map. destruct (nth_error agents m) as [b|] eqn:B.
  - assert (I : (m < length agents)%nat) by (apply nth_error_Some; congruence). rewrite (nth_error_nth' (seq 0 (length agents)) 0%nat) by (rewrite seq_length; exact I). rewrite seq_nth by exact I.
    cbn. unfold f. now rewrite (nth_error_nth _ _ _ B).
  - apply nth_error_None in B. rewrite (proj2 (nth_error_None _ _)); [reflexivity|]. rewrite seq_length. exact B.
Qed.
Lemma symmetric_centre F sel agents : symmetric_crowd F sel agents -> agents <> [] -> point F (vmean (map a_position agents)) = vmean (map a_position agents).
Proof.
  intros H N. rewrite <- (vmean_perm _ _ (crowd_positions F sel agents H)) at 2. unfold vmean. rewrite vsum_point, !map_length. generalize (vsum (map a_position agents)). intros v.
  assert (L : INR (length agents) <> 0) by (apply not_0_INR; destruct agents; [now elim N|discriminate]). unfold point, vect, vdiv, vadd, vscale. cbn [vx vy]. f_equal; now field.
Qed.
(** ** Noise *)
Lemma noise_breaks : exists e a t n, symmetric_world mirror e /\ e_kind e = Circular /\ symmetric_crowd mirror [0%nat] [a] /\
  updates e (leaf Fluctuation) (Sim [a] 0 0 0 0, 0%nat) [0] (t, n) /\ ~ symmetric_crowd mirror [0%nat] (s_agents t).
Proof.
  set (e := Env Circular [] [] (fun _ _ _ _ => Err ValueError) (fun ps _ => all_pairs (length ps)) (fun _ => []) (fun _ => true) (fun _ _ => (PI / 2, 1, 0))).
  set (a := set_std_rand_force 1 (set_mass 1 zero_row)).
  exists e, a, (Sim [fluctuate_row Circular a (PI / 2) 1 0] 0 0 0 1), 1%nat. split; [|split; [reflexivity|split; [|split]]].
  - constructor; cbn; try tauto; try discriminate; [exists []; split; constructor|constructor].
  - split; [cbn; constructor; constructor|]. intros [|[|]] i b c M A B; cbn in M, A, B; try discriminate. injection M as <-. cbn in A. injection A as <-. injection B as <-.
    constructor; try reflexivity; try discriminate; unfold point, vect; cbn; unfold vzero; cbn; f_equal; ring.
  - match goal with |- updates _ _ _ _ ?r => change [0] with [s_dt (fst r)] end. econstructor; [reflexivity|constructor].
  - intros [_ H]. pose proof (H 0%nat 0%nat _ _ eq_refl eq_refl eq_refl) as Q. pose proof (f_equal vy (sn_force _ _ _ _ Q)) as E. cbn in E. rewrite sin_PI2 in E. lra.
Qed.
