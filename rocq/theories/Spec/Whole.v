(** * A crowd as a whole *)
From Verif Require Export Spec.Pace Spec.GoesOn.
Open Scope R_scope.

(** Averages over a crowd. *)
Definition mean (l : list vec) : vec := V (rsum (map vx l) / INR (length l)) (rsum (map vy l) / INR (length l)).
Definition average (l : list R) : R := rsum l / INR (length l).
(** People of the same mass, with the same coefficients for the forces between them and the same
    time to adjust; their sizes, speeds and directions may differ. *)
Definition alike (agents : list agent) : Prop :=
  forall a b, In a agents -> In b agents -> same_coefficients a b /\ a_tau_adj a = a_tau_adj b.
(** Somebody who can take part in a crowd. *)
Definition sound (k : kind) (a : agent) : Prop := Straight.fit k a /\ 0 <= a_radius a /\ a_tau_0 a <> 0.
(** How far the velocity of the crowd is from the mean of what its members want. *)
Definition crowd_off_course (agents : list agent) : R :=
  elen (mean (map (fun a => deviation (a_target_velocity a) (a_target_direction a) (a_velocity a)) agents)).
