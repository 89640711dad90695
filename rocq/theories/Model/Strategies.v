(** * Model of crowddynamics/testing.py

    The random data of hypothesis are inputs: [floats lo hi n] is the [n]-th number that
    [st.floats(lo, hi, False, False)] draws.  A strategy turns the count of the numbers
    drawn so far into a value and a new count, or raises; [OtherError 1] stands for an
    example that hypothesis discards (too many refused draws) and [OtherError 2] for its
    InvalidArgument. *)
From Coq Require Import String.
From Flocq Require Import Core.
From Verif Require Import Model.Base Model.Vector2D Model.Sampling Model.AgentObject.
Import StringSyntax.
Open Scope R_scope.

Definition gen (A : Type) : Type := nat -> res (A * nat).

(** The dtypes the array strategies are used with. Drawn numbers are doubles, so float64
    and wider types keep them; narrower ones round to the nearest and overflow to
    infinity, written [None]. *)
Inductive ftype : Type := Wide | Narrow (emin prec emax : Z) | NotFloat.
Definition half : ftype := Narrow (-24) 11 16.
Definition single : ftype := Narrow (-149) 24 128.
Definition cast (t : ftype) (x : R) : option R :=
  match t with
  | Narrow emin prec emax =>
      let y := round radix2 (FLT_exp emin prec) ZnearestE x in
      if Rltb (Rabs y) (bpow radix2 emax) then Some y else None
  | _ => Some x
  end.

Section Strategies.
  Variable floats : option R -> option R -> nat -> R.

  (** [st.floats(lo, hi, False, False)] *)
  Definition float (lo hi : option R) : gen R := fun n =>
    match lo, hi with
    | Some a, Some b => if Rltb b a then Err (OtherError 2) else Ok (floats lo hi n, S n)
    | _, _ => Ok (floats lo hi n, S n)
    end.

  (** hypothesis' [filter]: three draws are tried, then the example is discarded. *)
  Fixpoint tries {A} (k : nat) (keep : A -> bool) (g : gen A) (n : nat) : res (A * nat) :=
    match k with
    | O => Err (OtherError 1)
    | S k' => do r <- g n; let '(x, n') := r in if keep x then Ok (x, n') else tries k' keep g n'
    end.
  Definition filtered {A} (g : gen A) (keep : A -> bool) : gen A := tries 3 keep g.

  (** [arrays(dtype, shape, elements)]: the entries in the order of the memory, each
      stored as [put] says; [k] is the number of entries of the shape. *)
  Fixpoint array {A} (put : R -> A) (k : nat) (g : gen R) (n : nat) : res (list A * nat) :=
    match k with
    | O => Ok ([], n)
    | S k' => do r <- g n; let '(x, n') := r in
              do s <- array put k' g n'; let '(l, n'') := s in Ok (put x :: l, n'')
    end.

  (** testing.py:33-43: the assertions, then the filters. *)
  Definition elements (lo hi : option R) (exclude : option string) (t : ftype) : res (gen R) :=
    match t with
    | NotFloat => Err AssertionError
    | _ =>
        if match lo, hi with Some a, Some b => Rleb b a | _, _ => false end then Err AssertionError
        else
          let g := float lo hi in
          match exclude with
          | Some s =>
              if String.eqb s "exact" then Ok (filtered g (fun x => negb (Reqb x 0)))
              else if String.eqb s "near" then Ok (filtered g (fun x => negb (isclose x 0)))
              else Ok g
          | None => Ok g
          end
    end.
  (** testing.py:14-49 [reals] without a shape and with one of [k] entries. *)
  Definition reals (lo hi : option R) (exclude : option string) (t : ftype) : res (gen R) :=
    elements lo hi exclude t.
  Definition reals_array (lo hi : option R) (exclude : option string) (t : ftype) (k : nat) : res (gen (list (option R))) :=
    do g <- elements lo hi exclude t; Ok (array (cast t) k g).
  (** The same for the default dtype, which keeps the numbers. *)
  Definition doubles (lo hi : option R) (exclude : option string) (k : nat) : res (gen (list R)) :=
    do g <- elements lo hi exclude Wide; Ok (array (fun x => x) k g).

  (** testing.py:52-55 [unit_vectors] *)
  Definition unit_vectors (min_angle max_angle : R) : gen vec := fun n =>
    do r <- float (Some min_angle) (Some max_angle) n;
    let '(phi, n') := r in Ok (V (cos phi) (sin phi), n').

  (** Rows of an array of shape (k, 2). *)
  Fixpoint rows (l : list R) : list vec :=
    match l with x :: y :: l' => V x y :: rows l' | _ => [] end.

  (** testing.py:58-62 [points] *)
  Definition points (lo hi : option R) (exclude : option string) : gen vec := fun n =>
    do g <- doubles lo hi exclude 2; do r <- g n;
    let '(l, n') := r in
    match rows l with [p] => Ok (p, n') | _ => Err ValueError end.

  (** testing.py:65-75 [linestrings]: the coordinates of the line. *)
  Definition linestrings (lo hi : option R) (exclude : option string) (num_verts : nat) (closed : bool) : gen (list vec) := fun n =>
    if (2 <=? num_verts)%nat then
      do g <- doubles lo hi exclude (num_verts * 2); do r <- g n;
      let '(l, n') := r in
      let array := rows l in
      if closed then
        match array with p :: _ => Ok (array ++ [p], n') | [] => Err IndexError end
      else Ok (array, n')
    else Err AssertionError.

  (** testing.py:78-95 [polygons]: the points of the shell and of the hole, if there is
      one. [delaunay] is scipy's triangulation ([None] when it raises QhullError), [size]
      is the value of [random.randint(3, 5)] and [us] are the draws of the generator. *)
  Variable delaunay : list vec -> option (list (nat * nat * nat)).
  Fixpoint samples (shell : list vec) (mesh : list (nat * nat * nat)) (us : nat -> R * R * R) (i k : nat) : res (list vec) :=
    match k with
    | O => Ok []
    | S k' => let '(x, r1, r2) := us i in
              do p <- polygon_sample shell mesh x r1 r2;
              do l <- samples shell mesh us (S i) k'; Ok (p :: l)
    end.
  Definition polygons (lo hi : option R) (exclude : option string) (num_verts : nat) (has_holes : bool)
      (size : nat) (us : nat -> R * R * R) : gen (list vec * option (list vec)) := fun n =>
    if (3 <=? num_verts)%nat then
      do g <- doubles lo hi exclude (num_verts * 2); do r <- g n;
      let '(l, n') := r in
      let shell := rows l in
      if has_holes then
        match delaunay shell with
        | Some mesh => do hole <- samples shell mesh us 0 size; Ok ((shell, Some hole), n')
        | None => Ok ((shell, None), n')
        end
      else Ok ((shell, None), n')
    else Err AssertionError.
End Strategies.

(** What is passed as the type of the agents: a class that is no agent type, [AgentType]
    itself, or a subclass. *)
Inductive passed : Type := NoAgentType | TheBaseClass | AgentClass (k : kind).
(** testing.py:102-127 [agents]: [size] is the size drawn, [attrs i] the [i]-th values drawn
    for the attributes, and [make] calls the class (Model/Body.v, Model/ExampleSims.v). *)
Fixpoint filled {A} (make : A -> res aobj) (attrs : nat -> A) (i k : nat) : res (list agent) :=
  match k with
  | O => Ok []
  | S k' => do o <- make (attrs i); do l <- filled make attrs (S i) k'; Ok (obj_row o :: l)
  end.
Definition agents {A} (make : kind -> A -> res aobj) (c : passed) (size : Z) (attrs : nat -> A) : res (list agent) :=
  match c with
  | AgentClass k => if (size <? 0)%Z then Err ValueError else filled (make k) attrs 0 (Z.to_nat size)
  | _ => Err AssertionError
  end.
