(** * How well somebody alone keeps to the way they want to go *)
From Verif Require Export Spec.Straight.
Open Scope R_scope.

(** Where somebody who starts like [a] wants to be after the time [t]. *)
Definition wanted_place (a : agent) (t : R) : vec :=
  V (vx (a_position a) + t * (a_target_velocity a * vx (a_target_direction a)))
    (vy (a_position a) + t * (a_target_velocity a * vy (a_target_direction a))).
(** How far one comes off because of the start, whose velocity differs by [start] from the wanted
    one, and of the latest random accelerations, which are at most [b]. *)
Definition astray (tau b start : R) : R :=
  let h := 1/100 / tau in
  let m := start + 2 * (1/100) * b + tau * b * ((1 + h / 2) / (1 - h / 2)) in
  tau * (start + m) + 1/100 / 2 * (tau * b + m).
