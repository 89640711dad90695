(** * crowddynamics/examples/validation.py

    The two validation simulations: their attributes and the crowds they build. *)
From Verif Require Export Model.ExampleSims.
Open Scope R_scope.

(** ** Construction of a body from explicit trait values

    [agent_type( **attributes)], agents.py:63-192.  traitlets 4.3.2,
    [HasTraits.__init__]: every value is checked and stored while notifications are held,
    then the traits whose value changed notify their observers, in the order of the
    arguments (traitlets keeps the pending changes in a dictionary, ordered by insertion). *)
Fixpoint store_items (items : list (bfield * R)) (b : bodyt) : res (list bfield * bodyt) :=
  match items with
  | [] => Ok ([], b)
  | (f, v) :: items' =>
      if bvalid f v then
        do r <- store_items items' (bput f v b);
        Ok (if Reqb v (bget f b) then fst r else f :: fst r, snd r)
      else Err TraitError
  end.
(** The observers of one trait: agents.py:149-192. *)
Definition notify_trait (zs : nat -> R) (f : bfield) (b : bodyt) : bres :=
  match f with
  | Radius => (None, observe_inertia (observe_radius Radius b))
  | RatioRt | RatioRs | RatioTs => (None, observe_radius f b)
  | RadiusMean | RadiusScale => observe_truncnorm zs Radius RadiusMean RadiusScale b
  | TargetVelocityMean | TargetVelocityScale =>
      observe_truncnorm zs TargetVelocity TargetVelocityMean TargetVelocityScale b
  | MassMean | MassScale => observe_truncnorm zs Mass MassMean MassScale b
  | Mass => (None, observe_inertia b)
  | TargetVelocity => (None, b)
  end.
Fixpoint notify_traits (zs : nat -> R) (fs : list bfield) (b : bodyt) : bres :=
  match fs with
  | [] => (None, b)
  | f :: fs' => bseq (notify_trait zs f b) (notify_traits zs fs')
  end.
Definition body_with (zs : nat -> R) (items : list (bfield * R)) : res bodyt :=
  do r <- store_items items body0;
  match notify_traits zs (fst r) (snd r) with
  | (None, b) => Ok b
  | (Some e, _) => Err e
  end.

(** ** The attributes: validation.py:26-39 and 76-89 (the same text). *)
Definition validation_body : list (bfield * R) :=
  [(RatioRt, 5882/10000); (RatioRs, 3725/10000); (RatioTs, 6275/10000);
   (Radius, 255/1000); (TargetVelocity, 1); (Mass, 735/10)].
Definition validation_attributes (orientation : R) : attributes :=
  Attributes (-1) false false orientation (vscale 1 (unit_vector orientation)) (unit_vector orientation) (-1).
Definition validation_agent (k : kind) (zs : nat -> R) (orientation : R) : res member :=
  do b <- body_with zs validation_body;
  let a := attributed k (validation_attributes orientation) in
  if rest_valid k a then Ok (Member (obj_row (AObj b a)) None None) else Err TraitError.
(** One group of one agent, put at a given place; the callables of lines 61, 116 and 124
    return it every time. *)
Definition add_one (zs : nat -> R) (orientation : R) (p : vec) (st : agents_obj) : res agents_obj :=
  do m <- validation_agent (ag_kind st) zs orientation;
  match add_non_overlapping_group st (Group (ag_kind st) 1 [m]) (fun _ => Some p) None with
  | (Raises e, _, _, _) => Err e
  | (_, st', _, _) => Ok st'
  end.

(** ** The crowds *)
(** validation.py:50-63 [TestMovement._observe_agents]. *)
Definition test_movement_crowd (zs : nat -> R) (k : kind) : res agents_obj :=
  do st <- agents_new k (6/10);
  add_one zs 0 (V 0 0) st.
(** validation.py:105-126 [TestAgentInteraction._observe_agents], with the class
    attributes of lines 67-68. *)
Definition test_interaction_crowd (zs : nat -> R) (k : kind) : res agents_obj :=
  do st <- agents_new k (6/10);
  do st <- add_one zs 0 (V 0 0) st;
  add_one zs PI (V 5 0) st.
