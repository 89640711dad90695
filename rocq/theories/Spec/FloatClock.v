(** * Arrivals up to rounding *)
From Coq Require Import Reals ZArith List Sorting.Sorted.
From Verif Require Export Spec.Chance.
Import ListNotations.
Open Scope R_scope.

(** [ts] are the first [k] arrivals, each before [T], the arrival number [m] up to [m]
    roundings of [2^-53 T]; the next arrival is not before [T], up to the same error. *)
Definition rounded_arrivals (w : nat -> R) (T : R) (k : nat) (ts : list R) : Prop :=
  length ts = k /\ StronglySorted Rle ts /\
  (forall m t, nth_error ts m = Some t -> t < T /\ Rabs (t - arrival w m) <= INR m * powerRZ 2 (-53) * T) /\
  T <= arrival w k + INR k * powerRZ 2 (-53) * T.
(** As [all_arrivals] of Spec/Chance.v: a clock for every player. *)
Fixpoint all_rounded (w : nat -> nat -> R) (T : R) (k : nat -> nat) (p : nat) (players : list Z) (events : list (R * Z)) : Prop :=
  match players with
  | [] => events = []
  | i :: rest => exists ts more, events = map (fun t => (t, i)) ts ++ more /\
      rounded_arrivals (w p) T (k p) ts /\ all_rounded w T k (S p) rest more
  end.
