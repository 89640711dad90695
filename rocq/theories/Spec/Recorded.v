(** * What a recorded run leaves behind *)
From Coq Require Import String.
Import StringSyntax.
From Verif Require Export Spec.Loads Spec.Records Model.Recorded.
Open Scope R_scope.
Open Scope list_scope.

(** [history e x s l]: the states after each of the updates of a simulation that does not record
    anything, beginning in [s]. *)
Inductive history (e : env) (x : expr node) : sim * nat -> list (sim * nat) -> Prop :=
| history_none s : history e x s []
| history_next s s1 l : simulation_update e x s = (s1, None) -> history e x s1 l -> history e x s (s1 :: l).
(** The updates of the simulation that records: [n] of them, none of which raises. *)
Inductive recording (e : env) (x : expr node) (save : sim -> nat -> bool) : nat -> (sim * saver) * nat -> (sim * saver) * nat -> Prop :=
| recording_none w : recording e x save 0 w w
| recording_next n w w1 w' : recorded_update e x save w = (w1, None) -> recording e x save n w1 w' -> recording e x save (S n) w w'.

(** The logic has Reset on top, as in all shipped simulations. *)
Definition reset_on_top (x : expr node) : Prop := exists operands, x = Make Reset operands.
(** A tree that counts those who come and go has a node InsideDomain. *)
Definition counts (x : expr node) : Prop := In InsideDomain (written_order x).

(** The line of the data file for update number [k] (from 0) that ended in the state [s]. *)
Definition data_row (x : expr node) (k : nat) (s : sim) (row : dict string datum) : Prop :=
  exists rest, row = [("iterations"%string, Count k); ("time_tot"%string, Amount (s_time s)); ("dt"%string, Amount (s_dt s))] ++ rest /\
    (counts x -> rest = [("inactive"%string, Count (s_inactive s))]) /\ (~ counts x -> rest = []).

(** Which of the updates saved: update number [k] is the first of the list. *)
Fixpoint flags (save : sim -> nat -> bool) (k : nat) (l : list (sim * nat)) : list bool :=
  match l with [] => [] | s :: l' => save (fst s) k :: flags save (S k) l' end.
(** The agents after each update. *)
Definition agents_after (l : list (sim * nat)) : list (list agent) := map (fun s => s_agents (fst s)) l.
(** A row of an array file shows agents on whom nothing acts at the moment. *)
Definition at_ease (k : kind) (a : agent) : Prop := a_force a = V 0 0 /\ (k = ThreeCircle -> a_torque a = 0).
