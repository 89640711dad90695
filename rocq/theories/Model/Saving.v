(** * simulation/logic.py: SaveSimulationData *)
From Verif Require Export Model.Storage Model.LogicTree.
From Coq Require Import String.
Import StringSyntax.
Open Scope list_scope.

(** logic.py:327-328 [add_to_simulation_logic] of the node [m] when [simulation.logic]
    is the node [logic]. *)
Definition add_to_simulation_logic (f : tree_state) (logic m : nat) : tree_state * option exn :=
  match getitem f logic "Reset"%string with
  | Ok r => inject_before f r m
  | Err e => (f, Some e)
  end.

(** logic.py:330-337 [update], preceded by what the other nodes did in this update:
    they changed the array of the agents, always the same array object, into [x].
    [d] is [simulation.data] and [save] the value of [save_condition]. *)
Definition saver_update {A K D} (s : @npy_state A * csv_state K D) (u : list A * dict K D * bool)
    : res (@npy_state A * csv_state K D) :=
  let '(x, d, save) := u in
  do n <- npy_run (fst s) [Change 0 x; SendData 0; SendDump save];
  do c <- csv_run (snd s) [SendRow d; SendCsvDump save];
  Ok (n, c).
Fixpoint saver_run {A K D} (s : @npy_state A * csv_state K D) (us : list (list A * dict K D * bool))
    : res (@npy_state A * csv_state K D) :=
  match us with
  | [] => Ok s
  | u :: rest => do s <- saver_update s u; saver_run s rest
  end.
(** logic.py:310-316: the coroutines of a new node in a new directory. *)
Definition saver_start {A K D} (x : list A) : @npy_state A * csv_state K D := (npy_start (fun _ => x), csv_start []).
