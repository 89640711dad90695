(** * Forests of nodes, and the order in which a tree is processed *)
From Verif Require Export Model.LogicTree.
Open Scope nat_scope.

(** [par] iterated [n] times. *)
Fixpoint ancestor (f : tree_state) (n : nat) (i : nat) : option nat :=
  match n with O => Some i | S n' => match par f i with None => None | Some p => ancestor f n' p end end.

(** Parent and child links agree, every child is listed exactly once, and climbing
    from any node ends. *)
Definition is_forest (f : tree_state) : Prop :=
  (forall i p, par f i = Some p -> i < size f /\ p < size f /\ count_occ Nat.eq_dec (kids f p) i = 1) /\
  (forall p c, In c (kids f p) -> par f c = Some p) /\
  (forall i, exists n, ancestor f n i = None).

(** A call on nodes that exist. *)
Definition call_ok (f : tree_state) (c : tree_call) : Prop :=
  match c with
  | NewNode _ => True
  | SetParent i v => i < size f /\ match v with Some p => p < size f | None => True end
  | AddChildren s n | InjectBefore s n | InjectAfter s n => s < size f /\ n < size f
  | LShift s os => s < size f /\ forall o, In o os -> o < size f
  end.
(** All states a program can reach, whether or not it survives the exceptions. *)
Inductive reachable : tree_state -> Prop :=
| reach_start : reachable no_nodes
| reach_call f c : reachable f -> call_ok f c -> reachable (fst (call f c)).

(** Ordered trees and their traversals. *)
Inductive otree : Type := Node (i : nat) (ts : list otree).
Definition oroot (t : otree) : nat := match t with Node i _ => i end.
Fixpoint opost (t : otree) : list nat := match t with Node i ts => flat_map opost ts ++ [i] end.
Fixpoint opre (t : otree) : list nat := match t with Node i ts => i :: flat_map opre ts end.
(** [t] is the tree below a node of [f]. *)
Fixpoint shape (f : tree_state) (t : otree) : Prop :=
  match t with Node i ts => kids f i = map oroot ts /\ fold_right (fun t P => shape f t /\ P) True ts end.

(** [r] is the top of the tree [i] is in. *)
Definition top_of (f : tree_state) (i r : nat) : Prop := (exists n, ancestor f n i = Some r) /\ par f r = None.

(** The nodes of [l] run one after the other, none raising, from state [s] to [s']. *)
Inductive executes {St} (eff : nat -> St -> St * option exn) : list nat -> St -> St -> Prop :=
| exec_done s : executes eff [] s s
| exec_next i l s s1 s' : eff i s = (s1, None) -> executes eff l s1 s' -> executes eff (i :: l) s s'.

(** The order in which the nodes below [i] (with [i] last), the nodes below the
    siblings [is], and all nodes of the tree of [i] are processed. *)
Definition subtree_order (f : tree_state) (i : nat) (l : list nat) : Prop :=
  exists t, oroot t = i /\ shape f t /\ l = opost t.
Definition siblings_order (f : tree_state) (is l : list nat) : Prop :=
  exists ts, map oroot ts = is /\ (forall t, In t ts -> shape f t) /\ l = flat_map opost ts.
Definition whole_order (f : tree_state) (i : nat) (l : list nat) : Prop :=
  exists t, top_of f i (oroot t) /\ shape f t /\ l = opost t.
