(** * A loop that tests a condition before every step *)
From Verif Require Export Model.LogicTree.
Open Scope nat_scope.

(** [k] steps, none raising, lead from [s] to [s'], and the condition was false before
    each of them, its tests being numbered from [k0]. *)
Inductive steps {St} (exit : nat -> St -> bool) (upd : St -> St * option exn) : nat -> nat -> St -> St -> Prop :=
| steps_none k0 s : steps exit upd k0 0 s s
| steps_more k0 k s s1 s' : exit k0 s = false -> upd s = (s1, None) -> steps exit upd (S k0) k s1 s' -> steps exit upd k0 (S k) s s'.

(** How a loop can end after [k] completed steps. *)
Inductive loop_end {St} (exit : nat -> St -> bool) (upd : St -> St * option exn) (k : nat) (s : St) : St * option exn -> Prop :=
| end_exit s' : steps exit upd 0 k s s' -> exit k s' = true -> loop_end exit upd k s (s', None)
| end_raise s1 s' e : steps exit upd 0 k s s1 -> exit k s1 = false -> upd s1 = (s', Some e) -> loop_end exit upd k s (s', Some e).

(** The errors of the package itself, as opposed to those of Python and numpy. *)
Definition package_errors : list exn := [CrowdDynamicsException; InvalidType; InvalidValue; ValidationError].
