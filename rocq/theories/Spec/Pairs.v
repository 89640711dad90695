(** * Pairs of agents *)
From Coq Require Import Arith.
From Verif Require Export Spec.Overlap Model.Motion.
Open Scope R_scope.

(** All pairs [i < j] of [n] agents. *)
Definition all_pairs (n : nat) : list (nat * nat) :=
  filter (fun p => (fst p <? snd p)%nat) (list_prod (seq 0 n) (seq 0 n)).
(** Indices of a list of pairs are in range. *)
Definition in_range (agents : list agent) (pairs : list (nat * nat)) : Prop :=
  forall i j, In (i, j) pairs -> (i < length agents)%nat /\ (j < length agents)%nat.
(** The pair with the smaller index first. *)
Definition orient (p : nat * nat) : nat * nat := if (fst p <? snd p)%nat then p else (snd p, fst p).

(** What the cell lists (package [cell_lists]) are required to enumerate: indices
    in range, no agent with itself, no pair twice in either orientation, and every
    pair of positions closer than the cell size. *)
Definition good_enumeration (positions : list vec) (cell_size : R) (pairs : list (nat * nat)) : Prop :=
  (forall i j, In (i, j) pairs -> (i < length positions)%nat /\ (j < length positions)%nat /\ i <> j) /\
  NoDup (map orient pairs) /\
  (forall i j x y, (i < j)%nat -> nth_error positions i = Some x -> nth_error positions j = Some y ->
     edist x y < cell_size -> In (i, j) pairs \/ In (j, i) pairs).

(** Agents with the same mass and the same social and contact coefficients. *)
Definition same_coefficients (a b : agent) : Prop :=
  a_mass a = a_mass b /\ a_k_soc a = a_k_soc b /\ a_tau_0 a = a_tau_0 b /\
  a_mu a = a_mu b /\ a_kappa a = a_kappa b /\ a_damping a = a_damping b.

(** The contact force (C22, C23) on agent [a] at signed distance [h], normal [n] and
    relative velocity [v]; none when the bodies do not overlap. *)
Definition touching_force (h : R) (n : vec) (v : vec) (a : agent) : vec :=
  if Rlt_dec h 0 then force_contact h n v (rotate270 n) (a_mu a) (a_kappa a) (a_damping a) else vzero.
