(** * Who pushes whom, in double precision *)
From Coq Require Export Permutation.
From Verif Require Export Model.Agent Spec.Doubles.
Import ListNotations.
Open Scope R_scope.

(** The same reaction to others. *)
Definition same_constants (a b : agent) : Prop :=
  a_mass b = a_mass a /\ a_k_soc b = a_k_soc a /\ a_tau_0 b = a_tau_0 a /\ a_mu b = a_mu a /\ a_kappa b = a_kappa a /\ a_damping b = a_damping a.
Definition opposite (u v : vec) : Prop := vx v = - vx u /\ vy v = - vy u.
(** The same pairs in another order, some the other way round. *)
Definition reordered (pairs pairs' : list (nat * nat)) : Prop :=
  exists m, Permutation pairs m /\ Forall2 (fun p q => q = p \/ q = (snd p, fst p)) m pairs'.
(** Pairs of two different agents among [n]. *)
Definition proper_pairs (n : nat) (pairs : list (nat * nat)) : Prop :=
  forall i j, In (i, j) pairs -> (i < n)%nat /\ (j < n)%nat /\ i <> j.
(** The number of pairs somebody is in. *)
Fixpoint meetings (i : nat) (pairs : list (nat * nat)) : nat :=
  match pairs with
  | [] => 0
  | (p, q) :: rest => (if (Nat.eqb p i || Nat.eqb q i)%bool then 1 else 0) + meetings i rest
  end.
Definition vdouble (v : vec) : Prop := Spec.Doubles.double (vx v) /\ Spec.Doubles.double (vy v).
Definition within (M : R) (v : vec) : Prop := Rabs (vx v) <= M /\ Rabs (vy v) <= M.
Fixpoint total (c : agent -> R) (l : list agent) : R := match l with [] => 0 | a :: l => c a + total c l end.
