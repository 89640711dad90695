(** * simulation/logic.py:360-387 [TargetReached] *)
From Coq Require String.
Import String.StringSyntax.
Delimit Scope string_scope with string.
From Verif Require Export Model.Base Model.Agent.
Open Scope R_scope.

(** Python's [str.format]: a template of literal text and replacement fields; a field
    is a number (positional argument) or a name (keyword argument).  Simplification:
    no conversions and no format specifications. *)
Inductive piece : Type := Text (s : String.string) | Positional (i : nat) | Keyword (name : String.string).
Fixpoint assoc {A} (k : String.string) (l : list (String.string * A)) : option A :=
  match l with [] => None | (k', v) :: l' => if String.eqb k k' then Some v else assoc k l' end.
Fixpoint format (t : list piece) (args : list String.string) (kwargs : list (String.string * String.string)) : res String.string :=
  match t with
  | [] => Ok String.EmptyString
  | p :: t' =>
      do s <- match p with
              | Text s => Ok s
              | Positional i => match nth_error args i with Some s => Ok s | None => Err IndexError end
              | Keyword n => match assoc n kwargs with Some s => Ok s | None => Err KeyError end
              end;
      do rest <- format t' args kwargs;
      Ok (String.append s rest)
  end.
(** logic.py:364 [prefix = 'target_{index}'] *)
Definition counter_prefix : list piece := [Text "target_"%string; Keyword "index"%string].

(** A target is a polygon (given by its exterior ring) or some other geometry. *)
Inductive target : Type := PolygonTarget (exterior : list vec) | OtherTarget.
(** One counter: its name in [data], the ring, and who reached it so far. *)
Record counter : Type := Counter { c_name : String.string; c_ring : list vec; c_reached : list bool }.
(** logic.py:366-381: the counters; [str i] is the text of the number [i]. *)
Fixpoint target_reached_init (str : nat -> String.string) (size i : nat) (targets : list target) : res (list counter) :=
  match targets with
  | [] => Ok []
  | PolygonTarget ring :: rest =>
      do name <- format counter_prefix [str i] [];
      do cs <- target_reached_init str size (S i) rest;
      Ok (Counter name ring (repeat false size) :: cs)
  | OtherTarget :: rest => target_reached_init str size (S i) rest
  end.
(** logic.py:383-387: [contains_points] is given the whole structured array instead of
    the positions, which matplotlib refuses. *)
Definition target_reached_update (cs : list counter) : res (list counter) :=
  match cs with [] => Ok [] | _ :: _ => Err ValueError end.
