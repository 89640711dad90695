(** * Agents made from keyword arguments

    [agent_type( **attributes)]: crowddynamics/simulation/agents.py:63-192, as called from
    agents.py:595-600.  traitlets 4.3.2, [HasTraits.__init__]: every value is checked and stored
    while notifications are held, then the traits whose value changed notify their observers,
    in the order of the arguments. *)
From Verif Require Export Model.Validation.
Open Scope R_scope.

(** An argument that concerns the body: agents.py:63-96 and 98-129.  The traits without
    observers of their own (r_t, r_s, r_ts, inertia_rot, target_angular_velocity) are those
    after the first two. *)
Inductive argument : Type :=
| Given (f : bfield) (v : R)
| OfType (name : string)
| TorsoRadius (v : R)
| ShoulderRadius (v : R)
| TorsoToShoulder (v : R)
| Inertia (v : R)
| TurningSpeed (v : R).
(** What waits to be told: a numeric trait has changed, or the body type. *)
Inductive notice : Type := Changed (f : bfield) | TypeChanged.

(** Storing one argument: agents.py:64-129 for the ranges. *)
Definition store_argument (a : argument) (b : bodyt) : res (list notice * bodyt) :=
  match a with
  | Given f v => if bvalid f v then Ok (if Reqb v (bget f b) then [] else [Changed f], bput f v b) else Err TraitError
  | OfType name => Ok (if String.eqb name (b_body_type b) then [] else [TypeChanged], put_body_type name b)
  | TorsoRadius v => if Rleb 0 v then Ok ([], put_radii v (b_r_s b) (b_r_ts b) b) else Err TraitError
  | ShoulderRadius v => if Rleb 0 v then Ok ([], put_radii (b_r_t b) v (b_r_ts b) b) else Err TraitError
  | TorsoToShoulder v => if Rleb 0 v then Ok ([], put_radii (b_r_t b) (b_r_s b) v b) else Err TraitError
  | Inertia v => if Rleb 0 v then Ok ([], put_inertia v b) else Err TraitError
  | TurningSpeed v => if Rleb 0 v then Ok ([], put_target_angular_velocity v b) else Err TraitError
  end.
Fixpoint store_arguments (args : list argument) (b : bodyt) : res (list notice * bodyt) :=
  match args with
  | [] => Ok ([], b)
  | a :: args' =>
      do r <- store_argument a b;
      do r' <- store_arguments args' (snd r);
      Ok (fst r ++ fst r', snd r')
  end.

(** agents.py:140-192: the observers of what has changed.  The body type was empty before the
    construction, so the test of line 142 holds. *)
Definition deliver (zs : nat -> R) (cfg : config) (n : notice) (b : bodyt) : bres :=
  match n with
  | Changed f => notify_trait zs f b
  | TypeChanged => match cfg (b_body_type b) with
                   | None => (Some KeyError, b)
                   | Some items => assign_items zs items b
                   end
  end.
Fixpoint deliver_all (zs : nat -> R) (cfg : config) (ns : list notice) (b : bodyt) : bres :=
  match ns with
  | [] => (None, b)
  | n :: ns' => bseq (deliver zs cfg n b) (deliver_all zs cfg ns')
  end.
(** The object, or the exception its construction ends with. *)
Definition body_built (zs : nat -> R) (cfg : config) (args : list argument) : res bodyt :=
  do r <- store_arguments args body0;
  match deliver_all zs cfg (fst r) (snd r) with
  | (None, b) => Ok b
  | (Some e, _) => Err e
  end.
