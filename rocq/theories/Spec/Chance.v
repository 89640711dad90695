(** * Random choices, clocks and hulls, stated without the model *)
From Verif Require Export Spec.Plane Spec.Sight.
From Coq Require Import Sorting.Permutation Sorting.Sorted.
Open Scope R_scope.

(** [choose] applied to a uniform draw from (0, 1) picks [i] with probability [p]:
    the draws that pick [i] are exactly those of a half open interval of length
    [p] inside [0, 1]. *)
Definition chance {A} (choose : R -> A) (i : A) (p : R) : Prop :=
  exists lo hi, 0 <= lo <= hi /\ hi <= 1 /\ hi - lo = p /\
    forall x, 0 < x < 1 -> (choose x = i <-> lo < x <= hi).

(** Points of a path: on one of the segments between consecutive vertices. *)
Definition on_path (vs : list vec) (p : vec) : Prop :=
  exists i a b, nth_error vs i = Some a /\ nth_error vs (S i) = Some b /\ on_segment a b p.

(** Convex hull of a list of points: the least convex set that has them all. *)
Definition convex_set (S : vec -> Prop) : Prop :=
  forall a b p, S a -> S b -> on_segment a b p -> S p.
Definition in_hull (vs : list vec) (p : vec) : Prop :=
  forall S, convex_set S -> (forall v, In v vs -> S v) -> S p.

(** The [n]-th arrival of a process whose waiting times are [w 0], [w 1], ... *)
Fixpoint arrival (w : nat -> R) (n : nat) : R :=
  match n with
  | O => w O
  | S m => arrival w m + w n
  end.

(** The arrivals before time [T], and nothing else: exactly the first [k]
    arrivals are before [T]. *)
Definition arrivals_before (w : nat -> R) (T : R) (k : nat) (ts : list R) : Prop :=
  ts = map (arrival w) (seq 0 k) /\ (forall t, In t ts -> t < T) /\ T <= arrival w k.

(** Every player is given a clock of its own: the waiting times of the player at
    place [p] are [w p], [k p] of its arrivals are before [T], and [events] lists
    all of these with the player they belong to. *)
Fixpoint all_arrivals (w : nat -> nat -> R) (T : R) (k : nat -> nat) (p : nat)
    (players : list Z) (events : list (R * Z)) : Prop :=
  match players with
  | [] => events = []
  | i :: rest => exists ts more, events = map (fun t => (t, i)) ts ++ more /\
      arrivals_before (w p) T (k p) ts /\ all_arrivals w T k (S p) rest more
  end.

(** Waiting times at different places come from different draws of one stream. *)
Definition separate_draws (draw : nat -> R) (w : nat -> nat -> R) (k : nat -> nat) (size : nat) : Prop :=
  exists start : nat -> nat,
    (forall p n, (p < size)%nat -> w p n = draw (start p + n)%nat) /\
    (forall p, (p < size)%nat -> (start p + k p < start (S p))%nat).

(** Order in time of a list of events. *)
Definition in_time_order (events : list (R * Z)) : Prop :=
  Sorted (fun a b => fst a <= fst b) events.

(** [F] stretches areas near [(r, s)] by the factor [d]: the determinant of its
    partial derivatives. A map that is one to one and stretches areas by the same
    factor everywhere turns uniform draws into a uniform point. *)
Definition area_stretch (F : R -> R -> vec) (r s d : R) : Prop :=
  exists xr xs yr ys,
    derivable_pt_lim (fun t => vx (F t s)) r xr /\ derivable_pt_lim (fun t => vx (F r t)) s xs /\
    derivable_pt_lim (fun t => vy (F t s)) r yr /\ derivable_pt_lim (fun t => vy (F r t)) s ys /\
    xr * ys - xs * yr = d.

(** Inside of a triangle: convex combinations with positive weights. *)
Definition inside_triangle (a b c p : vec) : Prop :=
  exists s t u, 0 < s /\ 0 < t /\ 0 < u /\ s + t + u = 1 /\
    p = V (s * vx a + t * vx b + u * vx c) (s * vy a + t * vy b + u * vy c).
