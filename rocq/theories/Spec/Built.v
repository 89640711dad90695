(** * What the arguments of an agent say *)
From Verif Require Export Model.Built Spec.Straight.
Open Scope R_scope.

(** The keyword of a trait, and of an argument, as Python names them. *)
Definition trait_name (f : bfield) : string :=
  match f with
  | Radius => "radius" | RatioRt => "ratio_rt" | RatioRs => "ratio_rs" | RatioTs => "ratio_ts"
  | RadiusMean => "radius_mean" | RadiusScale => "radius_scale"
  | TargetVelocityMean => "target_velocity_mean" | TargetVelocityScale => "target_velocity_scale"
  | MassMean => "mass_mean" | MassScale => "mass_scale"
  | Mass => "mass" | TargetVelocity => "target_velocity"
  end.
Definition keyword (a : argument) : string :=
  match a with
  | Given f _ => trait_name f | OfType _ => "body_type"
  | TorsoRadius _ => "r_t" | ShoulderRadius _ => "r_s" | TorsoToShoulder _ => "r_ts"
  | Inertia _ => "inertia_rot" | TurningSpeed _ => "target_angular_velocity"
  end.
Definition amount (a : argument) : R :=
  match a with
  | Given _ v | TorsoRadius v | ShoulderRadius v | TorsoToShoulder v | Inertia v | TurningSpeed v => v
  | OfType _ => 0
  end.
(** A number within the range of its trait. *)
Definition in_bounds (a : argument) : Prop :=
  match a with
  | Given f v => trait_range f v
  | OfType _ => True
  | TorsoRadius v | ShoulderRadius v | TorsoToShoulder v | Inertia v | TurningSpeed v => 0 <= v
  end.
(** Python passes every keyword at most once. *)
Definition once (args : list argument) : Prop := NoDup (map keyword args).
(** No mean and no scale is among the arguments. *)
Definition no_means (args : list argument) : Prop := forall f v, In (Given f v) args -> explicit f.
(** The number given under a keyword, 0 if none is. *)
Fixpoint given (key : string) (args : list argument) : R :=
  match args with
  | [] => 0
  | a :: args' => if String.eqb key (keyword a) then amount a else given key args'
  end.
(** A section of the configuration one can draw from. *)
Definition sensible (rt rs ts rm rsc tvm tvs mm ms : R) : Prop :=
  0 < rt <= 1 /\ 0 < rs <= 1 /\ 0 < ts <= 1 /\ 0 < rsc < rm /\ 0 < tvs < tvm /\ 0 < ms < mm.
