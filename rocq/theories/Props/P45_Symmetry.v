(** * Property C144: symmetric crowds stay symmetric *)
From Coq Require Import Lra Lia.
From Verif Require Import Proofs.VecLemmas Proofs.TurnProofs Proofs.FrameImages.
From Verif Require Import Proofs.SymmetryProofs.
Open Scope R_scope.

(** Circular agents, any nodes but leader and follower: if the surroundings, the agents and
    the random forces are symmetric, the agents are so after any number of updates. *)
Theorem C144_symmetric : forall F sel e x rmax s i dts t n, proper F -> symmetric_world F e -> e_kind e = Circular ->
  (forall ps c, good_enumeration ps c (e_enum e ps c)) -> (forall n, In n (written_order x) -> cells_fit rmax n) ->
  (forall n, In n (written_order x) -> independent True n) -> radii_below rmax (s_agents s) ->
  symmetric_draws F sel e -> symmetric_crowd F sel (s_agents s) -> updates e x (s, i) dts (t, n) -> symmetric_crowd F sel (s_agents t).
Proof. intros F sel e x rmax s i dts t n HF W K G C I R D S U. apply (symmetric_updates F sel e x rmax HF W K G C I s i dts t n); auto. Qed.
Print Assumptions C144_symmetric.
(** Without random forces, whatever is drawn. *)
Theorem C144_without_noise : forall F sel e x rmax s i dts t n, proper F -> symmetric_world F e -> e_kind e = Circular ->
  (forall ps c, good_enumeration ps c (e_enum e ps c)) -> (forall n, In n (written_order x) -> cells_fit rmax n) ->
  (forall n, In n (written_order x) -> independent True n) -> radii_below rmax (s_agents s) ->
  no_noise (s_agents s) -> symmetric_crowd F sel (s_agents s) -> updates e x (s, i) dts (t, n) -> symmetric_crowd F sel (s_agents t).
Proof. intros F sel e x rmax s i dts t n HF W K G C I R D S U. apply (symmetric_updates F sel e x rmax HF W K G C I s i dts t n); auto. Qed.
Print Assumptions C144_without_noise.
(** Whoever is their own mirror image keeps to the middle of the way. *)
Theorem C144_middle : forall sel e x rmax s i dts t n m a, symmetric_world mirror e -> e_kind e = Circular ->
  (forall ps c, good_enumeration ps c (e_enum e ps c)) -> (forall n, In n (written_order x) -> cells_fit rmax n) ->
  (forall n, In n (written_order x) -> independent True n) -> radii_below rmax (s_agents s) ->
  no_noise (s_agents s) -> symmetric_crowd mirror sel (s_agents s) -> updates e x (s, i) dts (t, n) ->
  nth_error sel m = Some m -> nth_error (s_agents t) m = Some a -> vy (a_position a) = 0 /\ vy (a_velocity a) = 0.
Proof.
  intros sel e x rmax s i dts t n m a W K G C I R D S U M A. assert (HF : proper mirror) by (split; cbn; [ring|auto]).
  destruct (C144_without_noise mirror sel e x rmax s i dts t n HF W K G C I R D S U) as [_ H]. pose proof (H m m a a M A A) as Q.
  split; [pose proof (f_equal vy (sn_position _ _ _ _ Q)) as E|pose proof (f_equal vy (sn_velocity _ _ _ _ Q)) as E]; cbn in E; lra.
Qed.
Print Assumptions C144_middle.
(** The mean position of a symmetric crowd lies on the axis, or at the centre of rotation. *)
Theorem C144_centre : forall F sel agents, symmetric_crowd F sel agents -> agents <> [] ->
  point F (vmean (map a_position agents)) = vmean (map a_position agents).
Proof. exact symmetric_centre. Qed.
Print Assumptions C144_centre.
(** The random forces have to be symmetric: an agent in the middle is pushed aside. *)
Theorem C144_noise : exists e a t n, symmetric_world mirror e /\ e_kind e = Circular /\ symmetric_crowd mirror [0%nat] [a] /\
  updates e (leaf Fluctuation) (Sim [a] 0 0 0 0, 0%nat) [0] (t, n) /\ ~ symmetric_crowd mirror [0%nat] (s_agents t).
Proof. exact noise_breaks. Qed.
Print Assumptions C144_noise.

(** ** Cases *)
(** Two agents face to face across the middle of a corridor, a third between them. *)
Definition corridor : env := Env Circular [Obs (V 0 1) (V 10 1); Obs (V 0 (-1)) (V 10 (-1))] [[V 10 1; V 10 (-1)]] (fun _ _ _ _ => Err ValueError)
  (fun ps _ => all_pairs (length ps)) (fun _ => []) (fun p => Rltb (Rabs (vy p)) 1) (fun _ i => (INR i, 1, 0)).
Definition in_corridor (p v : vec) : agent := set_velocity v (set_position p zero_row).
Example C144_case : let crowd := [in_corridor (V 1 (1/2)) (V 1 (-1)); in_corridor (V 1 (-1/2)) (V 1 1); in_corridor (V 0 0) (V 1 0)] in
  proper mirror /\ symmetric_world mirror corridor /\ (forall ps c, good_enumeration ps c (e_enum corridor ps c)) /\
  (forall n, In n (written_order logic_hallway) -> cells_fit (3/10) n) /\ (forall n, In n (written_order logic_hallway) -> independent True n) /\
  radii_below (3/10) crowd /\ no_noise crowd /\ symmetric_crowd mirror [1; 0; 2]%nat crowd.
Proof.
  cbv zeta. split; [split; cbn; [ring|auto]|]. split; [|split; [intros; apply all_pairs_good|split; [|split; [|split; [|split]]]]].
  - constructor.
    + assert (E : map (fun o => Obs (point mirror (p0 o)) (point mirror (p1 o))) (e_obstacles corridor) = [Obs (V 0 (-1)) (V 10 (-1)); Obs (V 0 1) (V 10 1)]) by (cbn; unfold point, vect; cbn; repeat f_equal; ring).
      rewrite E. exists (e_obstacles corridor). split; [apply perm_swap|repeat constructor].
    + assert (E : map (point mirror) [V 10 1; V 10 (-1)] = [V 10 (-1); V 10 1]) by (cbn; unfold point, vect; cbn; repeat f_equal; ring).
      constructor; [|constructor]. rewrite E. apply perm_swap.
    + cbn. intuition discriminate.
    + discriminate.
    + intros [px py]. cbn. f_equal. replace (0 + (0 * px + 1 * (-1 * py))) with (- py) by ring. now rewrite Rabs_Ropp.
  - intros n H; cbn in H; repeat (destruct H as [<-|H]; [cbn; unfold node_cell_size; cbn; lra|]); destruct H.
  - intros n H; cbn in H; repeat (destruct H as [<-|H]; [cbn; auto|]); destruct H.
  - intros a H. cbn in H. repeat (destruct H as [<-|H]; [cbn; lra|]); destruct H.
  - intros a H. cbn in H. repeat (destruct H as [<-|H]; [reflexivity|]); destruct H.
  - split; [cbn; apply perm_swap|]. intros m i a b M A B. destruct m as [|[|[|m]]]; cbn in M; [..|destruct m; discriminate]; injection M as <-; cbn in A, B; injection A as <-; injection B as <-;
      constructor; try reflexivity; try discriminate; unfold point, vect; cbn; unfold vzero; cbn; f_equal; lra.
Qed.
