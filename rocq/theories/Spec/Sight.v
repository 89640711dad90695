(** * What an agent sees, and orders by distance *)
From Coq Require Import Permutation Sorted.
From Verif Require Export Spec.Plane Model.Geom2D.
Open Scope R_scope.

(** The wall [o] crosses the line of sight from [a] to [b]: the closed segments
    have a common point and are not parallel. *)
Definition hides (o : obstacle) (a b : vec) : Prop :=
  ~ parallel (vsub b a) (vsub (p1 o) (p0 o)) /\ exists p, on_segment a b p /\ on_segment (p0 o) (p1 o) p.
Definition sees (obs : list obstacle) (a b : vec) : Prop := forall o, In o obs -> ~ hides o a b.

(** [p] is what [np.argsort(l)] may return: the indices of [l] in an order in
    which the values do not decrease. *)
Definition is_argsort {A} (le : A -> A -> Prop) (l : list A) (p : list nat) : Prop :=
  Permutation p (seq 0 (length l)) /\
  forall i j u v a b, (i < j)%nat -> nth_error p i = Some u -> nth_error p j = Some v ->
    nth_error l u = Some a -> nth_error l v = Some b -> le a b.

(** Number of elements of [l] with a property. *)
Definition count {A} (P : A -> bool) (l : list A) : nat := length (filter P l).

(** [c] is the index of the closest point of [points] that is seen from [x] and
    strictly within [range]; the first one if several are equally close. *)
Definition nearest_seen (obs : list obstacle) (range : R) (points : list vec) (x : vec) (c : nat) : Prop :=
  exists p, nth_error points c = Some p /\ sees obs x p /\ edist x p < range /\
    forall c' p', nth_error points c' = Some p' -> sees obs x p' ->
      edist x p <= edist x p' /\ ((c' < c)%nat -> edist x p < edist x p').
Definition none_seen (obs : list obstacle) (range : R) (points : list vec) (x : vec) : Prop :=
  forall p, In p points -> sees obs x p -> range <= edist x p.

(** [ns] lists the (at most [k]) nearest others agent [i] sees strictly within
    [sight]; [None] pads the list. *)
Definition nearest_others (obs : list obstacle) (sight : R) (positions : list vec) (i : nat) (x : vec) (k : nat) (ns : list (option nat)) : Prop :=
  let eligible j y := nth_error positions j = Some y /\ j <> i /\ sees obs x y /\ edist x y < sight in
  length ns = k /\
  (forall j, In (Some j) ns -> exists y, eligible j y) /\
  (forall a b j, nth_error ns a = Some (Some j) -> nth_error ns b = Some (Some j) -> a = b) /\
  (forall j y, eligible j y -> ~ In (Some j) ns ->
     ~ In None ns /\ forall j' y', In (Some j') ns -> nth_error positions j' = Some y' -> edist x y' <= edist x y).
