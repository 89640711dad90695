(** * What a simulation needs in order to go on *)
From Verif Require Export Spec.Loads Spec.Crowds Spec.Written.
Open Scope R_scope.

(** Nothing the equations of motion divide by is zero, and the remembered leader, if there
    is one, is one of the [n] agents. *)
Definition fit (k : kind) (n : nat) (a : agent) : Prop :=
  a_mass a <> 0 /\ a_tau_adj a <> 0 /\ a_tau_0 a <> 0 /\
  (k = ThreeCircle -> a_inertia_rot a <> 0 /\ a_tau_rot a <> 0) /\
  (a_index_leader a = (-1)%Z \/ (0 <= a_index_leader a < Z.of_nat n)%Z).

(** The cell lists yield indices of agents. *)
Definition pairs_of_agents (e : env) : Prop :=
  forall positions cell i j, In (i, j) (e_enum e positions cell) -> (i < length positions)%nat /\ (j < length positions)%nat.

(** What a node asks of the field and of its own settings: navigation needs a map with a
    direction everywhere for each target, the detection of exits a target, herding at
    least one neighbour. *)
Definition provided (e : env) (n : node) : Prop :=
  match n with
  | Navigation step radius strength =>
      forall t, (t < length (e_targets e))%nat -> exists m dir, e_nav e step radius strength (Z.of_nat t) = Ok (m, dir) /\
        forall i j, (i < rows dir)%nat -> (j < cols dir)%nat -> at_ dir i j <> None
  | ExitDetection _ => e_targets e <> []
  | LeaderFollowerWithHerding _ size => (1 <= size)%nat
  | _ => True
  end.
