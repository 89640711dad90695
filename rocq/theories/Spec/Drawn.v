(** * What the drawn test data should be, stated without the model *)
From Coq Require Import String.
From Verif Require Export Spec.Plane Spec.Chance Spec.Polygon.
Import StringSyntax.
Open Scope R_scope.

(** Between the bounds that are given. *)
Definition in_bounds (lo hi : option R) (x : R) : Prop :=
  (forall a, lo = Some a -> a <= x) /\ (forall b, hi = Some b -> x <= b).
(** hypothesis' floats: only numbers between the bounds, when there are some. *)
Definition draws_between (floats : option R -> option R -> nat -> R) : Prop :=
  forall lo hi n, (forall a b, lo = Some a -> hi = Some b -> a <= b) -> in_bounds lo hi (floats lo hi n).
(** Zeros that are to be left out: exactly zero, or as near as 1e-8. *)
Definition left_out (exclude : option string) (x : R) : Prop :=
  (exclude = Some "exact"%string /\ x = 0) \/ (exclude = Some "near"%string /\ Rabs x <= 1 / 100000000).
(** The numbers asked for. *)
Definition asked (lo hi : option R) (exclude : option string) (x : R) : Prop :=
  in_bounds lo hi x /\ ~ left_out exclude x.
Definition asked_point (lo hi : option R) (exclude : option string) (p : vec) : Prop :=
  asked lo hi exclude (vx p) /\ asked lo hi exclude (vy p).
(** No asked bounds contradict each other. *)
Definition ordered (lo hi : option R) : Prop := forall a b, lo = Some a -> hi = Some b -> a < b.

(** A point from which one can walk straight away without meeting the closed line through
    the points: it is outside of the polygon. *)
Definition on_ring (vs : list vec) (q : vec) : Prop :=
  match vs with [] => False | v :: _ => on_path (vs ++ [v]) q end.
Definition outside (vs : list vec) (p : vec) : Prop :=
  exists d, d <> V 0 0 /\ forall t, 0 <= t -> ~ on_ring vs (V (vx p + t * vx d) (vy p + t * vy d)).
