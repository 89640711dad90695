(** * The Poisson clock in double precision *)
From Verif Require Export Model.Floats.
From Coq Require Import Reals ZArith List.
From Flocq Require Import Core.
Import ListNotations.
Open Scope R_scope.

(** core/rand.py:90-93, as [clock_loop] of Model/Rand.v but with [t_tot += ...] rounded. The
    draws of [np.random.exponential] are inputs. *)
Fixpoint f_clock_loop (draw : nat -> R) (dt : R) (fuel : nat) (t_tot : R) (n : nat) : option (list R * nat) :=
  match fuel with
  | O => None
  | S fuel =>
      if Rlt_bool t_tot dt then
        match f_clock_loop draw dt fuel (rnd (t_tot + draw n)) (S n) with
        | Some (ts, n') => Some (t_tot :: ts, n')
        | None => None
        end
      else Some ([], n)
  end.
(** core/rand.py:40-93 [poisson_clock]. *)
Definition f_poisson_clock (draw : nat -> R) (dt : R) (fuel n : nat) : option (list R * nat) :=
  f_clock_loop draw dt fuel (draw n) (S n).
(** core/rand.py:117-120, as [collect] of Model/Rand.v. *)
Fixpoint f_collect (draw : nat -> R) (dt : R) (fuel : nat) (players : list Z) (n : nat) : option (list (R * Z)) :=
  match players with
  | [] => Some []
  | i :: rest =>
      match f_poisson_clock draw dt fuel n with
      | None => None
      | Some (ts, n') =>
          match f_collect draw dt fuel rest n' with
          | None => None
          | Some l => Some (map (fun t => (t, i)) ts ++ l)
          end
      end
  end.
(** core/rand.py:96-125 [poisson_timings], with the same inputs as in Model/Rand.v. *)
Definition f_poisson_timings (shuffle : list Z -> list Z) (argsort : list R -> list nat)
    (draw : nat -> R) (dt : R) (fuel : nat) (players : list Z) : option (list Z * list Z) :=
  let players := shuffle players in
  match f_collect draw dt fuel players 0 with
  | None => None
  | Some l => Some (players, map (fun j => nth j (map snd l) 0%Z) (argsort (map fst l)))
  end.
