(** * Properties C47-C52: the logic tree, its order, the run loop *)
From Coq Require Import Lia.
From Coq Require String.
From Verif Require Import Proofs.RunProofs.
Open Scope nat_scope.

(** C47: whatever calls are made, on whatever existing nodes, failing or not. *)
Theorem C47_stays_a_forest : forall f, reachable f -> is_forest f.
Proof. exact reachable_forest. Qed.
Print Assumptions C47_stays_a_forest.
Theorem C47_failures_raise : forall f c, reachable f -> call_ok f c -> snd (call f c) = None \/ snd (call f c) = Some LoopError.
Proof. exact call_raises. Qed.
Print Assumptions C47_failures_raise.
(** Attaching a node: refused exactly when it would close a loop, else it becomes the
    last child of its new parent and leaves the old one. *)
Theorem C47_attach : forall f i v, reachable f -> call_ok f (SetParent i v) ->
  let g := fst (call f (SetParent i v)) in
  match snd (call f (SetParent i v)) with
  | Some _ => g = f /\ exists p n, v = Some p /\ ancestor f n p = Some i
  | None => par g i = v /\ (forall j, j <> i -> par g j = par f j) /\
      (par f i <> v -> forall p, v = Some p -> exists l, kids g p = l ++ [i] /\ ~ In i l) /\
      (forall p, Some p <> v -> forall j, In j (kids g p) <-> In j (kids f p) /\ j <> i)
  end.
Proof. exact set_parent_effect. Qed.
Print Assumptions C47_attach.
(** [self << (o1, ..., ok)] with branches not yet attached appends them in order. *)
Theorem C47_lshift : forall f s os, reachable f -> s < size f -> NoDup os ->
  (forall o, In o os -> o < size f /\ par f o = None /\ forall n, ancestor f n s <> Some o) ->
  exists g, call f (LShift s os) = (g, None) /\ kids g s = kids f s ++ os /\ (forall q, q <> s -> kids g q = kids f q) /\
    (forall o, In o os -> par g o = Some s) /\ (forall j, ~ In j os -> par g j = par f j).
Proof.
  intros f s os H Hs ND K. apply lshift_fresh; auto using reachable_wf. intros o Ho. destruct (K o Ho) as (A & B & C). repeat split; auto.
  intros P. apply path_ancestor in P as [n Hn]; auto using reachable_wf. now apply (C n).
Qed.
Print Assumptions C47_lshift.
Definition nm (k : nat) : String.string := String.String (Ascii.ascii_of_nat (65 + k)) String.EmptyString.
(** A (B C), and D alone. *)
Definition tree4 : tree_state :=
  fst (call (fst (call (fst (call (fst (call (fst (call no_nodes (NewNode (nm 0)))) (NewNode (nm 1)))) (NewNode (nm 2)))) (NewNode (nm 3)))) (LShift 0 [1; 2])).
Lemma tree4_reachable : reachable tree4.
Proof.
  unfold tree4. apply reach_call; [|split; [cbn; lia|cbn; intros o [<-|[<-|[]]]; lia]].
  do 4 (apply reach_call; [|exact I]). apply reach_start.
Qed.
Example C47_case : reachable tree4 /\ kids tree4 0 = [1; 2] /\ par tree4 2 = Some 0 /\
  call tree4 (SetParent 0 (Some 2)) = (tree4, Some LoopError) /\
  snd (call tree4 (AddChildren 3 0)) = None /\ kids (fst (call tree4 (AddChildren 3 0))) 3 = [0].
Proof. split; [exact tree4_reachable|]. repeat split. Qed.

(** C48: whichever node [i] of the tree is stored as logic. *)
Theorem C48_update_order : forall St (eff : nat -> St -> St * option exn) f i s k, reachable f -> i < size f ->
  exists t, top_of f i (oroot t) /\ shape f t /\ NoDup (opost t) /\ (forall j, In j (opost t) <-> j < size f /\ top_of f j (oroot t)) /\
    match update eff f i (s, k) with
    | ((s', k'), None) => k' = S k /\ executes eff (opost t) s s'
    | ((s', k'), Some e) => k' = k /\ exists l1 j l2 s1, opost t = l1 ++ j :: l2 /\ executes eff l1 s s1 /\ eff j s1 = (s', Some e)
    end.
Proof. intros St eff f i s k H. apply update_order. now apply reachable_wf. Qed.
Print Assumptions C48_update_order.
Theorem C48_any_node : forall St (eff : nat -> St -> St * option exn) f i j s, reachable f -> i < size f -> j < size f ->
  (exists r, top_of f i r /\ top_of f j r) -> update eff f i s = update eff f j s.
Proof. intros St eff f i j s H. apply update_any_node. now apply reachable_wf. Qed.
Print Assumptions C48_any_node.
(** Logging nodes: B, C, A, then one iteration, from any node of the tree. *)
Example C48_case : update (fun i s => (s ++ [i], None)) tree4 2 ([], 7) = (([1; 2; 0], 8), None) /\
  update (fun i s => (s ++ [i], if Nat.eqb i 2 then Some ValueError else None)) tree4 0 ([], 7) = (([1; 2], 7), Some ValueError).
Proof. split; reflexivity. Qed.

(** C49: [m] is a new node. *)
Theorem C49_inject_after : forall f s m, reachable f -> s < size f -> m < size f -> m <> s -> par f m = None -> kids f m = [] ->
  exists g X K Z, call f (InjectAfter s m) = (g, None) /\ subtree_order f s (K ++ [s]) /\
    whole_order f s (X ++ K ++ [s] ++ Z) /\ whole_order g s (X ++ K ++ [m; s] ++ Z).
Proof. intros f s m H. apply inject_after_order. now apply reachable_wf. Qed.
Print Assumptions C49_inject_after.
Theorem C49_inject_before_root : forall f s m, reachable f -> s < size f -> m < size f -> m <> s -> par f m = None -> kids f m = [] ->
  par f s = None ->
  exists g L, call f (InjectBefore s m) = (g, None) /\ subtree_order f s L /\ whole_order f s L /\ whole_order g s (L ++ [m]).
Proof. intros f s m H. apply inject_before_root_order. now apply reachable_wf. Qed.
Print Assumptions C49_inject_before_root.
(** Below a parent the branch moves behind its younger siblings [B]. *)
Theorem C49_inject_before_child_partial : forall f s m p, reachable f -> s < size f -> m < size f -> m <> s -> par f m = None -> kids f m = [] ->
  par f s = Some p ->
  exists g X L B Z older younger, call f (InjectBefore s m) = (g, None) /\ subtree_order f s L /\
    kids f p = older ++ s :: younger /\ siblings_order f younger B /\
    whole_order f s (X ++ L ++ B ++ p :: Z) /\ whole_order g s (X ++ B ++ L ++ m :: p :: Z).
Proof. intros f s m p H. apply inject_before_order. now apply reachable_wf. Qed.
Print Assumptions C49_inject_before_child_partial.
(** So the order of the other nodes can change. *)
Theorem C49_order_kept_refuted : exists f s m g, reachable f /\ s < size f /\ m < size f /\ m <> s /\ par f m = None /\ kids f m = [] /\
  call f (InjectBefore s m) = (g, None) /\ whole_order f s [1; 2; 0] /\ whole_order g s [2; 1; 3; 0].
Proof.
  exists tree4, 1, 3, (fst (call tree4 (InjectBefore 1 3))). split; [exact tree4_reachable|]. repeat (split; [cbn; try lia; reflexivity|]). split.
  - exists (Node 0 [Node 1 []; Node 2 []]). repeat split. now exists 1.
  - exists (Node 0 [Node 2 []; Node 3 [Node 1 []]]). repeat split. now exists 2.
Qed.
Print Assumptions C49_order_kept_refuted.
Example C49_case : exists g, call tree4 (InjectAfter 0 3) = (g, None) /\ postorder tree4 0 = [1; 2; 0] /\ postorder g 0 = [1; 2; 3; 0].
Proof. eexists. repeat split. Qed.

(** C50 *)
Theorem C50_lookup : forall f i item, reachable f -> i < size f ->
  exists t, top_of f i (oroot t) /\ shape f t /\ (forall j, In j (opre t) <-> j < size f /\ top_of f j (oroot t)) /\
    match getitem f i item with
    | Ok j => exists l1 l2, opre t = l1 ++ j :: l2 /\ name f j = item /\ forall h, In h l1 -> name f h <> item
    | Err e => e = KeyError /\ forall j, j < size f -> top_of f j (oroot t) -> name f j <> item
    end.
Proof. intros f i item H. apply getitem_ok. now apply reachable_wf. Qed.
Print Assumptions C50_lookup.
Example C50_case : getitem tree4 1 (nm 2) = Ok 2 /\ getitem tree4 1 (nm 3) = Err KeyError /\ getitem tree4 3 (nm 3) = Ok 3.
Proof. repeat split. Qed.

(** C51 *)
Theorem C51_run_loop : forall St (exit : nat -> St -> bool) (upd : St -> St * option exn) s,
  (forall r, (exists fuel, run exit upd fuel s = Some r) <-> (exists k, loop_end exit upd k s r)) /\
  ((forall fuel, run exit upd fuel s = None) <->
   (forall k, exists s', steps exit upd 0 k s s' /\ exit k s' = false /\ snd (upd s') = None)).
Proof. intros. split; [intros; apply run_ends|apply run_forever]. Qed.
Print Assumptions C51_run_loop.
Theorem C51_iterations : forall St (eff : nat -> St -> St * option exn) f i exit k s n r,
  loop_end exit (update eff f i) k (s, n) r -> snd (fst r) = n + k.
Proof. intros. now apply (loop_iterations eff f i exit k (s, n)). Qed.
Print Assumptions C51_iterations.
Example C51_case : exists r, run (fun k s => Nat.leb 3 (snd s)) (update (fun i s => (s + i, None)) tree4 0) 10 (0, 0) = Some r /\ r = ((9, 3), None).
Proof. eexists. split; reflexivity. Qed.

(** C52 *)
Theorem C52_end_marker_partial : forall St (event : nat -> bool) (upd : St -> St * option exn) k s s' e,
  loop_end (fun k _ => event k) upd k s (s', e) -> match e with None => True | Some x => In x package_errors end ->
  exists n, forall fuel, n <= fuel -> process_run event upd fuel s = Some ([EndProcess], None).
Proof.
  intros St event upd k s s' e L X. apply (process_signals event upd k s s' e L).
  destruct e; auto. now apply package_errors_iff.
Qed.
Print Assumptions C52_end_marker_partial.
Theorem C52_at_most_one : forall St (event : nat -> bool) (upd : St -> St * option exn) fuel s ms e,
  process_run event upd fuel s = Some (ms, e) ->
  (e = None /\ ms = [EndProcess]) \/ (exists x, e = Some x /\ ~ In x package_errors /\ ms = []).
Proof.
  intros St event upd fuel s ms e H. apply process_ends in H as [H|(x & A & B & C)]; auto.
  right. exists x. repeat split; auto. rewrite <- package_errors_iff. congruence.
Qed.
Print Assumptions C52_at_most_one.
(** An ordinary exception of a node ends the process without a marker. *)
Theorem C52_no_marker_refuted : exists St (event : nat -> bool) (upd : St -> St * option exn) s s' fuel,
  loop_end (fun k _ => event k) upd 0 s (s', Some ZeroDivisionError) /\ process_run event upd fuel s = Some ([], Some ZeroDivisionError).
Proof.
  exists nat, (fun _ => false), (fun s => (s, Some ZeroDivisionError)), 0, 0, 1. split; [|reflexivity]. econstructor; [constructor|reflexivity|reflexivity].
Qed.
Print Assumptions C52_no_marker_refuted.
Example C52_case : process_run (fun k => Nat.leb 2 k) (fun s => (S s, None)) 5 0 = Some ([EndProcess], None).
Proof. reflexivity. Qed.
