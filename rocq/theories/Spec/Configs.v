(** * Reading aid for C108, C109 *)
From Verif Require Import Model.Config.
From Coq Require Import String.
Open Scope R_scope.

(** A number is in the range of a check. *)
Definition within (c : check) (x : R) : Prop :=
  (forall m, c_min c = Some m -> m <= x) /\ (forall m, c_max c = Some m -> x <= m).
(** The section gives the key, with a number in range or with "nan". *)
Definition fine (c : check) (v : raw) : Prop := v = NotANumber \/ exists x, v = Number x /\ within c x.
Definition conforms (spec : many) (s : section) : Prop :=
  forall k c, In (k, c) spec -> exists v, In (k, v) s /\ fine c v.
(** No key twice: of every section, and of the specification. *)
Definition well_formed (spec : many) (f : cfg_file) : Prop :=
  NoDup (map fst spec) /\ NoDup (map fst f) /\ forall n s, In (n, s) f -> NoDup (map fst s).
