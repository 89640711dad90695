(** * simulation/base.py (LogicNodeBase, SimulationBase.run) and
      simulation/multiagent.py, with the parts of anytree 2.1.4 they use

    A logic node is a number below [size]; its name, parent and children are those
    of the Python object.  A call returns the tree it leaves behind together with
    the exception it raised, if any: the effects before a raise remain. *)
From Coq Require String.
From Verif Require Export Model.Base.
Open Scope nat_scope.

Record tree_state : Type := TS {
  size : nat;
  name : nat -> String.string;
  par : nat -> option nat;
  kids : nat -> list nat }.

Definition put {A} (f : nat -> A) (i : nat) (x : A) : nat -> A := fun j => if Nat.eqb j i then x else f j.

(** No node yet. *)
Definition no_nodes : tree_state := TS 0 (fun _ => String.EmptyString) (fun _ => None) (fun _ => []).
(** Constructing a node (base.py:26, logic.py:50-52): no parent, no children. *)
Definition new_node (nm : String.string) (f : tree_state) : tree_state :=
  TS (S (size f)) (put (name f) (size f) nm) (put (par f) (size f) None) (put (kids f) (size f) []).

(** anytree NodeMixin.path: the nodes from [i] up to the root (anytree lists them
    from the root down; only membership and the root are used).  The Python loop
    follows [parent]; the fuel never runs out on a forest. *)
Fixpoint climb (fuel : nat) (f : tree_state) (i : nat) : list nat :=
  match fuel with
  | O => []
  | S fuel' => i :: match par f i with None => [] | Some p => climb fuel' f p end
  end.
Definition path (f : tree_state) (i : nat) : list nat := climb (size f) f i.
(** anytree NodeMixin.root. *)
Definition root (f : tree_state) (i : nat) : nat := last (path f i) i.

(** list.remove: the first occurrence. *)
Fixpoint remove_first (i : nat) (l : list nat) : list nat :=
  match l with [] => [] | j :: l' => if Nat.eqb i j then l' else j :: remove_first i l' end.
Definition mem (i : nat) (l : list nat) : bool := existsb (Nat.eqb i) l.
Definition same_parent (a b : option nat) : bool :=
  match a, b with Some x, Some y => Nat.eqb x y | None, None => true | _, _ => false end.

(** anytree NodeMixin.parent setter: nothing if the parent is the same object; else
    __check_loop, __detach, __attach. *)
Definition set_parent (f : tree_state) (i : nat) (v : option nat) : tree_state * option exn :=
  if same_parent (par f i) v then (f, None)
  else if match v with Some p => Nat.eqb p i || mem i (path f p) | None => false end then (f, Some LoopError)
  else
    let detached :=
      match par f i with
      | None => Some f
      | Some q => if mem i (kids f q) then Some (TS (size f) (name f) (put (par f) i None) (put (kids f) q (remove_first i (kids f q))))
                  else None
      end in
    match detached with
    | None => (f, Some AssertionError)
    | Some g =>
        match v with
        | None => (g, None)
        | Some p => if mem i (kids g p) then (g, Some AssertionError)
                    else (TS (size g) (name g) (put (par g) i (Some p)) (put (kids g) p (kids g p ++ [i])), None)
        end
    end.
(** Statement by statement; an exception stops the rest. *)
Definition andthen (r : tree_state * option exn) (k : tree_state -> tree_state * option exn) : tree_state * option exn :=
  match r with (f, None) => k f | (f, Some e) => (f, Some e) end.

(** base.py:48-51 [add_children]. *)
Definition add_children (f : tree_state) (self node : nat) : tree_state * option exn := set_parent f node (Some self).
(** base.py:53-75 [__lshift__]: one node is the list of that node. *)
Fixpoint lshift (f : tree_state) (self : nat) (others : list nat) : tree_state * option exn :=
  match others with
  | [] => (f, None)
  | o :: others' => andthen (add_children f self o) (fun f => lshift f self others')
  end.
(** base.py:34-38 [inject_before]. *)
Definition inject_before (f : tree_state) (self node : nat) : tree_state * option exn :=
  let parent := par f self in
  andthen (set_parent f self (Some node)) (fun f => set_parent f node parent).
(** base.py:40-46 [inject_after]; [self.children] is a tuple made before the loop. *)
Fixpoint move_all (f : tree_state) (children : list nat) (node : nat) : tree_state * option exn :=
  match children with
  | [] => (f, None)
  | c :: cs => andthen (set_parent f c (Some node)) (fun f => move_all f cs node)
  end.
Definition inject_after (f : tree_state) (self node : nat) : tree_state * option exn :=
  andthen (move_all f (kids f self) node) (fun f => set_parent f node (Some self)).

(** The calls a program can make on nodes. *)
Inductive tree_call : Type :=
| NewNode (nm : String.string)
| SetParent (i : nat) (v : option nat)
| AddChildren (self node : nat)
| LShift (self : nat) (others : list nat)
| InjectBefore (self node : nat)
| InjectAfter (self node : nat).
Definition call (f : tree_state) (c : tree_call) : tree_state * option exn :=
  match c with
  | NewNode nm => (new_node nm f, None)
  | SetParent i v => set_parent f i v
  | AddChildren s n => add_children f s n
  | LShift s os => lshift f s os
  | InjectBefore s n => inject_before f s n
  | InjectAfter s n => inject_after f s n
  end.

(** anytree PreOrderIter and PostOrderIter. *)
Fixpoint pre_iter (fuel : nat) (f : tree_state) (i : nat) : list nat :=
  match fuel with O => [] | S n => i :: flat_map (pre_iter n f) (kids f i) end.
Fixpoint post_iter (fuel : nat) (f : tree_state) (i : nat) : list nat :=
  match fuel with O => [] | S n => flat_map (post_iter n f) (kids f i) ++ [i] end.
Definition preorder (f : tree_state) (i : nat) : list nat := pre_iter (size f) f i.
Definition postorder (f : tree_state) (i : nat) : list nat := post_iter (size f) f i.

(** base.py:80-86 [__getitem__]. *)
Definition getitem (f : tree_state) (i : nat) (item : String.string) : res nat :=
  match find (fun j => String.eqb (name f j) item) (preorder f (root f i)) with
  | Some j => Ok j
  | None => Err KeyError
  end.

(** multiagent.py:50-54 [MultiAgentSimulation.update]: [eff i] is the effect of
    [update] of node [i] on the state shared by the nodes; the second component of
    the state is [data['iterations']].  The nodes are assumed not to change the
    tree while it is iterated (no node of logic.py does in [update]). *)
Section Update.
  Context {St : Type} (eff : nat -> St -> St * option exn).
  Fixpoint update_nodes (l : list nat) (s : St) : St * option exn :=
    match l with
    | [] => (s, None)
    | i :: l' => match eff i s with (s', None) => update_nodes l' s' | (s', Some e) => (s', Some e) end
    end.
  Definition update (f : tree_state) (logic : nat) (s : St * nat) : (St * nat) * option exn :=
    match update_nodes (postorder f (root f logic)) (fst s) with
    | (s', None) => ((s', S (snd s)), None)
    | (s', Some e) => ((s', snd s), Some e)
    end.
End Update.

(** base.py:124-127 [SimulationBase.run], for at most [fuel] tests of the loop
    condition; [None]: still running.  [exit k s] is the value of the [k]-th call of
    the exit condition; a missing condition is [fun _ _ => false]. *)
Section Run.
  Context {St : Type} (exit : nat -> St -> bool) (upd : St -> St * option exn).
  Fixpoint run_from (k fuel : nat) (s : St) : option (St * option exn) :=
    match fuel with
    | O => None
    | S fuel' =>
        if exit k s then Some (s, None)
        else match upd s with (s', None) => run_from (S k) fuel' s' | (s', Some e) => Some (s', Some e) end
    end.
  Definition run (fuel : nat) (s : St) : option (St * option exn) := run_from 0 fuel s.
End Run.

(** exceptions.py:10-28: which exceptions are instances of CrowdDynamicsException (the
    other subclasses are never raised). *)
Definition is_crowddynamics (e : exn) : bool :=
  match e with CrowdDynamicsException | InvalidType | InvalidValue | ValidationError => true | _ => false end.
(** multiagent.py:85-98 [MultiAgentProcess.run]: what the process itself puts into
    the queue, [event k] being the value of [exit.is_set()] at the [k]-th test, and
    the exception that leaves [run].  [None]: still running. *)
Inductive message : Type := EndProcess.
Definition process_run {St} (event : nat -> bool) (upd : St -> St * option exn) (fuel : nat) (s : St)
    : option (list message * option exn) :=
  match run (fun k _ => event k) upd fuel s with
  | None => None
  | Some (_, None) => Some ([EndProcess], None)
  | Some (_, Some e) => if is_crowddynamics e then Some ([EndProcess], None) else Some ([], Some e)
  end.
