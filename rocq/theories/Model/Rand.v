(** * Model of crowddynamics/core/rand.py

    Random numbers are explicit: the generator is a stream of draws and a call
    takes the stream and the number of draws already consumed. *)
From Verif Require Import Model.Base.
From Coq Require Import Sorting.Permutation Sorting.Sorted.
Open Scope R_scope.

(** rand.py:8-32 [truncnorm]. [z i] is the [i]-th standard deviate in
    [start, end] that scipy's [truncnorm.rvs] scales and shifts; the result has
    [size] entries. [abs_scale] is [None] or a float; Python's [if abs_scale]
    takes 0 for missing. [abs_scale / 0] raises. *)
Definition truncnorm (start end_ loc scale : R) (abs_scale : option R) (size : nat)
    (z : nat -> R) : res (list R) :=
  do s <- match abs_scale with
          | Some k =>
              if Reqb k 0 then Ok scale
              else if Reqb (Rmax (Rabs start) (Rabs end_)) 0 then Err ZeroDivisionError
              else Ok (k / Rmax (Rabs start) (Rabs end_))
          | None => Ok scale
          end;
  Ok (map (fun i => loc + s * z i) (seq 0 size)).

(** rand.py:35-37 [random_vector]. [u i] is the [i]-th uniform draw from [0, 1):
    [np.random.uniform(lo, hi)] is [lo + (hi - lo) * u]. *)
Definition random_vector (size : nat) (lo hi mag : R) (u : nat -> R) : list vec :=
  map (fun i => let phi := lo + (hi - lo) * u i in V (mag * cos phi) (mag * sin phi)) (seq 0 size).

(** rand.py:40-93 [poisson_clock] from the loop test on: [t_tot] is the current
    time, [n] the number of draws consumed. [draw n] is the [n]-th value of
    [np.random.exponential(scale=interval)]. [None]: the loop has not ended
    within [fuel] rounds. The result is the list of yielded times and the number
    of draws consumed. *)
Fixpoint clock_loop (draw : nat -> R) (dt : R) (fuel : nat) (t_tot : R) (n : nat)
  : option (list R * nat) :=
  match fuel with
  | O => None
  | S fuel =>
      if Rltb t_tot dt then
        match clock_loop draw dt fuel (t_tot + draw n) (S n) with
        | Some (ts, n') => Some (t_tot :: ts, n')
        | None => None
        end
      else Some ([], n)
  end.

(** rand.py:90-93: the first draw, then the loop. *)
Definition poisson_clock (draw : nat -> R) (dt : R) (fuel n : nat) : option (list R * nat) :=
  clock_loop draw dt fuel (draw n) (S n).

(** rand.py:117-120: the double loop that fills [times] and [indices]; the two
    lists grow together and are kept as one list of pairs. *)
Fixpoint collect (draw : nat -> R) (dt : R) (fuel : nat) (players : list Z) (n : nat)
  : option (list (R * Z)) :=
  match players with
  | [] => Some []
  | i :: rest =>
      match poisson_clock draw dt fuel n with
      | None => None
      | Some (ts, n') =>
          match collect draw dt fuel rest n' with
          | None => None
          | Some l => Some (map (fun t => (t, i)) ts ++ l)
          end
      end
  end.

(** rand.py:96-125 [poisson_timings]. [shuffle] is [np.random.shuffle], which
    works in place, so the result has the new contents of [players] besides the
    yielded indices; [argsort] is [np.argsort]. *)
Definition poisson_timings (shuffle : list Z -> list Z) (argsort : list R -> list nat)
    (draw : nat -> R) (dt : R) (fuel : nat) (players : list Z) : option (list Z * list Z) :=
  let players := shuffle players in
  match collect draw dt fuel players 0 with
  | None => None
  | Some l => Some (players, map (fun j => nth j (map snd l) 0%Z) (argsort (map fst l)))
  end.
