(** * Shared vocabulary of the model

    This file models no particular module of /repo.  It fixes how Python and
    numpy values are represented:
    - float64 is idealised as [R];
    - a Python comparison is a boolean ([Rltb], [Rleb], [Reqb]);
    - a raised exception is a value [Err e];
    - a NaN result is [None] of an option type, where it can occur;
    - a numpy vector of shape (2,) is a [vec]. *)
From Coq Require Export Reals List ZArith Bool.
Export ListNotations.
Open Scope R_scope.

(** Python comparisons on floats that are not NaN. *)
Definition Rltb (x y : R) : bool := if Rlt_dec x y then true else false.
Definition Rleb (x y : R) : bool := if Rle_dec x y then true else false.
Definition Reqb (x y : R) : bool := if Req_EM_T x y then true else false.

(** Exceptions that occur in the modelled code. *)
Inductive exn : Type :=
| ZeroDivisionError | IndexError | KeyError | ValueError | TypeError
| AttributeError | StopIteration | TraitError | LoopError | AssertionError
| NotImplementedErr | CrowdDynamicsException | InvalidType | InvalidValue | ValidationError
| OtherError (n : nat).

(** Result of a call: a value or a raised exception. *)
Inductive res (A : Type) : Type :=
| Ok (a : A)
| Err (e : exn).
Arguments Ok {A} a.
Arguments Err {A} e.

Definition rbind {A B} (x : res A) (f : A -> res B) : res B :=
  match x with Ok a => f a | Err e => Err e end.
Notation "'do' x <- e ; f" := (rbind e (fun x => f))
  (at level 200, x pattern, e at level 100, f at level 200, right associativity).

Definition is_ok {A} (x : res A) : Prop := exists a, x = Ok a.

(** Plane vectors. *)
Record vec : Type := V { vx : R; vy : R }.

Definition vzero : vec := V 0 0.
Definition vadd (a b : vec) : vec := V (vx a + vx b) (vy a + vy b).
Definition vsub (a b : vec) : vec := V (vx a - vx b) (vy a - vy b).
Definition vneg (a : vec) : vec := V (- vx a) (- vy a).
(** [k * v] *)
Definition vscale (k : R) (v : vec) : vec := V (k * vx v) (k * vy v).
(** [v / k], meaningful for [k <> 0] only; every use in the model is guarded. *)
Definition vdiv (v : vec) (k : R) : vec := V (vx v / k) (vy v / k).

(** Decidable equality of vectors as a boolean. *)
Definition veqb (a b : vec) : bool := Reqb (vx a) (vx b) && Reqb (vy a) (vy b).

(** Python float floor division and modulo by a positive number.
    [x // c] and [x % c]. *)
Definition floordiv (x c : R) : Z := Int_part (x / c).
Definition fmod (x c : R) : R := x - c * IZR (floordiv x c).

(** Sum of a list of reals, [np.sum]. *)
Definition rsum (l : list R) : R := fold_right Rplus 0 l.
(** Sum of a list of vectors, [np.sum(..., axis=0)]. *)
Definition vsum (l : list vec) : vec := fold_right vadd vzero l.

(** In-place write [l[i] = x]; out of range indices leave the list unchanged
    (every use in the model has [i] in range). *)
Fixpoint upd {A} (l : list A) (i : nat) (x : A) : list A :=
  match l, i with
  | [], _ => []
  | _ :: t, O => x :: t
  | h :: t, S j => h :: upd t j x
  end.
