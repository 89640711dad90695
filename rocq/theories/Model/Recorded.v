(** * simulation/logic.py: a simulation with a SaveSimulationData node in its tree *)
From Coq Require Import String.
Import StringSyntax.
From Verif Require Export Model.Simulation Model.Saving.
Open Scope R_scope.
Open Scope list_scope.

(** The values in [simulation.data]: counts are integers, times floats. *)
Inductive datum : Type := Count (n : nat) | Amount (x : R).
(** [simulation.data]: multiagent.py:44-48 put the first three entries in, logic.py:347
    ([InsideDomain.__init__]) the last one, if the tree has such a node. *)
Definition counts_inactive (ns : list node) : bool :=
  existsb (fun n => match n with InsideDomain => true | _ => false end) ns.
Definition simulation_data (ns : list node) (s : sim) (iterations : nat) : dict string datum :=
  [("iterations"%string, Count iterations); ("time_tot"%string, Amount (s_time s)); ("dt"%string, Amount (s_dt s))]
  ++ if counts_inactive ns then [("inactive"%string, Count (s_inactive s))] else [].

(** The coroutines of the node: logic.py:309-316. *)
Definition saver : Type := (@npy_state agent * csv_state string datum)%type.
(** logic.py:330-337 for the node with number [m]; the other nodes do not see the coroutines.
    [save] is the condition the node was made with, a function of the simulation. *)
Definition recorded_effect (e : env) (ns : list node) (m : nat) (save : sim -> nat -> bool) (iterations : nat)
    (i : nat) (w : sim * saver) : (sim * saver) * option exn :=
  let (s, v) := w in
  if Nat.eqb i m then
    match saver_update v (s_agents s, simulation_data ns s iterations, save s iterations) with
    | Ok v' => ((s, v'), None)
    | Err x => ((s, v), Some x)
    end
  else let (s', x) := node_effect e ns i s in ((s', v), x).
(** [node = SaveSimulationData(simulation, ...); node.add_to_simulation_logic()]: base.py:26 and
    logic.py:327-328.  The node is the last one made; [simulation.logic] stays what it was. *)
Definition recorded_logic (x : expr node) : res (nat * tree_state * list node * nat) :=
  do r <- logic_of x;
  let '(l, f, ns) := r in
  match add_to_simulation_logic (new_node "SaveSimulationData"%string f) l (size f) with
  | (g, None) => Ok (l, g, ns, size f)
  | (_, Some ex) => Err ex
  end.
(** multiagent.py:51-55 for such a simulation. *)
Definition recorded_update (e : env) (x : expr node) (save : sim -> nat -> bool) (w : (sim * saver) * nat)
    : ((sim * saver) * nat) * option exn :=
  match recorded_logic x with
  | Ok (l, g, ns, m) => update (recorded_effect e ns m save (snd w)) g l w
  | Err ex => (w, Some ex)
  end.
(** A new simulation with a new node in a new directory. *)
Definition new_recorded (agents : list agent) : (sim * saver) * nat :=
  ((fst (new_simulation agents), saver_start agents), 0%nat).

(** logic.py:278-279, the condition of the documentation. *)
Definition every (frequency : nat) (s : sim) (iterations : nat) : bool :=
  Nat.eqb (Nat.modulo (iterations + 1) frequency) 0.
