(** * Going on from a stored state *)
From Coq Require Import Lra Lia.
From Verif Require Import Spec.Resume Proofs.SimulationProofs Proofs.SimulationMore Proofs.WrittenProofs.
Open Scope R_scope.

Section Ahead.
  Variables (e : env) (time : R) (count draws : nat).
  Lemma ahead_node n s t : ahead time count draws s t ->
    match run_node e n s, run_node (later draws e) n t with
    | Ok s', Ok t' => ahead time count draws s' t' /\ (s_dt s = s_dt t -> s_dt s' = s_dt t')
    | Err x, Err y => x = y
    | _, _ => False
    end.
  Proof.
    intros (A & T & C & D). destruct s as [sl sd st si sn], t as [tl td tt ti tn]. cbn [s_agents s_time s_inactive s_draws] in *. subst tl.
    assert (W : forall r : res (list agent), match (do l <- r; Ok (with_agents (Sim sl sd st si sn) l)), (do l <- r; Ok (with_agents (Sim sl td tt ti tn) l)) with
      | Ok s', Ok t' => ahead time count draws s' t' /\ (sd = td -> s_dt s' = s_dt t') | Err x, Err y => x = y | _, _ => False end).
    { intros [l|x]; cbn [rbind]; [|reflexivity]. repeat split; auto. }
    destruct n; cbn [run_node s_agents s_dt s_time s_inactive s_draws e_kind later e_obstacles e_targets e_nav e_enum e_argsort e_inside e_draws]; try apply W.
    - repeat split; auto.
    - destruct (velocity_verlet_integrator _ sl _ _) as [r|x]; cbn [rbind]; [|reflexivity]. destruct (all_finite (snd r)) as [l|x]; cbn [rbind]; [|reflexivity].
      repeat split; auto. cbn. rewrite T. ring.
    - subst sn. repeat split; auto; cbn; lia.
    - repeat split; auto.
    - destruct (navigation_node _ _ sl) as [r|x]; cbn [rbind]; [|reflexivity]. apply W.
    - repeat split; auto.
    - repeat split; auto; cbn; lia.
  Qed.
  Lemma ahead_nodes ns is : forall l s t, map (nth_error ns) is = map Some l -> ahead time count draws s t ->
    let r := update_nodes (node_effect e ns) is s in let r' := update_nodes (node_effect (later draws e) ns) is t in
    ahead time count draws (fst r) (fst r') /\ snd r = snd r'.
  Proof.
    induction is as [|i is IH]; intros [|n l] s t E A; cbn in E; try discriminate; [now split|]. injection E as E1 E2. cbn [update_nodes]. assert (NE : forall w u, node_effect w ns i u = match run_node w n u with Ok u' => (u', None) | Err x => (u, Some x) end) by (intros w u; unfold node_effect; now rewrite E1). rewrite !NE.
    pose proof (ahead_node n s t A) as N. destruct (run_node e n s) as [s1|x], (run_node (later draws e) n t) as [t1|y]; try contradiction.
    - cbv zeta. destruct N as [N _]. exact (IH l s1 t1 E2 N).
    - subst y. now split.
  Qed.
  Lemma ahead_update x s k t j : ahead time count draws s t ->
    let r := simulation_update e x (s, k) in let r' := simulation_update (later draws e) x (t, j) in
    ahead time count draws (fst (fst r)) (fst (fst r')) /\ snd r = snd r' /\ (snd (fst r) + j = snd (fst r') + k)%nat.
  Proof.
    intros A. unfold simulation_update, logic_of. destruct (construct_postorder class_name x no_nodes [] reach_start eq_refl) as (r & f & ns & -> & R & Hr & Er & M).
    unfold update. rewrite Er. cbn [fst snd]. destruct (ahead_nodes ns _ _ s t M A) as [B C].
    destruct (update_nodes (node_effect e ns) _ s) as [s1 [x1|]], (update_nodes (node_effect (later draws e) ns) _ t) as [t1 [y1|]]; cbn in *; try discriminate; repeat split; auto; try apply B; lia.
  Qed.
  Lemma ahead_steps x n k0 s k s' k' : steps (fun _ _ => false) (simulation_update e x) k0 n (s, k) (s', k') -> forall t j, ahead time count draws s t ->
    exists t', steps (fun _ _ => false) (simulation_update (later draws e) x) k0 n (t, j) (t', (j + n)%nat) /\ ahead time count draws s' t'.
  Proof.
    intros H. remember (s, k) as a eqn:Ea. remember (s', k') as b eqn:Eb. revert s k Ea. induction H as [k0 a|k0 n a a1 b Ex U H IH]; intros s k Ea t j A; subst a.
    - injection Ea as -> ->. exists t. split; auto. rewrite Nat.add_0_r. constructor.
    - destruct a1 as [s1 k1]. destruct (ahead_update x s k t j A) as (B & C & D). rewrite U in B, C, D. cbn [fst snd] in *.
      destruct (simulation_update (later draws e) x (t, j)) as [[t1 j1] o] eqn:V. cbn [fst snd] in *. subst o.
      assert (J : j1 = S j). { revert V. clear. intros V. apply update_runs in V as [V _]. exact V. }
      destruct (IH Eb s1 k1 eq_refl t1 j1 B) as (t' & S' & A'). exists t'. split; auto. subst j1. replace (j + S n)%nat with (S j + n)%nat by lia. econstructor; eauto.
  Qed.
  Lemma ahead_back x n k0 t j t' j' : steps (fun _ _ => false) (simulation_update (later draws e) x) k0 n (t, j) (t', j') -> forall s k, ahead time count draws s t ->
    exists s', steps (fun _ _ => false) (simulation_update e x) k0 n (s, k) (s', (k + n)%nat) /\ ahead time count draws s' t'.
  Proof.
    intros H. remember (t, j) as a eqn:Ea. remember (t', j') as b eqn:Eb. revert t j Ea. induction H as [k0 a|k0 n a a1 b Ex U H IH]; intros t j Ea s k A; subst a.
    - injection Ea as -> ->. exists s. split; auto. rewrite Nat.add_0_r. constructor.
    - destruct a1 as [t1 j1]. destruct (ahead_update x s k t j A) as (B & C & D). rewrite U in B, C, D. cbn [fst snd] in *.
      destruct (simulation_update e x (s, k)) as [[s1 k1] o] eqn:V. cbn [fst snd] in *. subst o.
      assert (J : k1 = S k). { revert V. clear. intros V. apply update_runs in V as [V _]. exact V. }
      destruct (IH Eb t1 j1 eq_refl s1 k1 B) as (s' & S' & A'). exists s'. split; auto. subst k1. replace (k + S n)%nat with (S k + n)%nat by lia. econstructor; eauto.
  Qed.
End Ahead.
Lemma after_app e x n m a b c : after e x n a b -> after e x m b c -> after e x (n + m) a c.
Proof.
  unfold after. generalize 0%nat at 1 3 as k0. intros k0 H. revert c. induction H as [k0 a|k0 n a a1 b Ex U H IH]; intros c S; [|cbn [Nat.add]; econstructor; eauto].
  cbn [Nat.add]. revert S. generalize 0%nat. intros k1 S. revert k0. induction S as [k1 a|k1 m a a1 b Ex U S IH]; intros k0; [constructor|econstructor; eauto].
Qed.
Lemma updates_after e x s dts s' : updates e x s dts s' -> after e x (length dts) s s'.
Proof. unfold after. intros U. generalize 0%nat. induction U as [s|s s1 dts s' H U IH]; intros k0; [constructor|cbn [length]; econstructor; eauto]. Qed.
Lemma updates_split e x n s dts s' : updates e x s dts s' -> (n <= length dts)%nat -> exists t, after e x n s t /\ after e x (length dts - n) t s'.
Proof.
  intros U. revert n. induction U as [s|s s1 dts s' H U IH]; intros n L.
  - exists s. cbn in L. replace n with 0%nat by lia. split; constructor.
  - destruct n as [|n]; [exists s; split; [constructor|rewrite Nat.sub_0_r; apply updates_after; now constructor]|]. cbn in L. destruct (IH n ltac:(lia)) as (t & A & B). exists t. split; auto.
    apply (after_app e x 1 n s s1 t); auto. unfold after. econstructor; [reflexivity|exact H|constructor].
Qed.
