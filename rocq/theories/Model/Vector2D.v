(** * crowddynamics/core/vector2D.py *)
From Verif Require Export Model.Base.
Open Scope R_scope.

(** vector2D.py:8-36 [wrap_to_pi]. *)
Definition wrap_to_pi (rad : R) : R :=
  let rad_ := fmod rad (2 * PI) in
  if Rltb rad 0 && Reqb rad_ PI then - PI
  else if Rltb PI rad_ then rad_ - 2 * PI
  else rad_.

(** vector2D.py:39-59 [rotate90]. *)
Definition rotate90 (v : vec) : vec := V (- vy v) (vx v).

(** vector2D.py:62-82 [rotate270]. *)
Definition rotate270 (v : vec) : vec := V (vy v) (- vx v).

(** numpy [arctan2(y, x)] on finite reals (the sign of zero is not modelled:
    arctan2(0, x) is taken with +0). *)
Definition arctan2 (y x : R) : R :=
  if Rltb 0 x then atan (y / x)
  else if Rltb x 0 then
    (if Rleb 0 y then atan (y / x) + PI else atan (y / x) - PI)
  else if Rltb 0 y then PI / 2
  else if Rltb y 0 then - (PI / 2)
  else 0.

(** vector2D.py:85-96 [angle], one vector. *)
Definition angle (v : vec) : R := arctan2 (vy v) (vx v).

(** vector2D.py:99-113 [length], one vector; [np.hypot]. *)
Definition vlength (v : vec) : R := sqrt (vx v * vx v + vy v * vy v).

(** vector2D.py:116-131 [dot]. *)
Definition dot (a b : vec) : R := vx a * vx b + vy a * vy b.

(** vector2D.py:134-149 [cross]. *)
Definition cross (a b : vec) : R := vx a * vy b - vy a * vx b.

(** vector2D.py:152-163 [normalize]. *)
Definition normalize (v : vec) : vec :=
  let l := vlength v in
  if negb (Reqb l 0) then vdiv v l else v.

(** vector2D.py:166-187 [truncate]; the in-place update is returned. *)
Definition truncate (v : vec) (l : R) : vec :=
  let vlen := vlength v in
  if Rltb l vlen then vscale (l / vlen) v else v.

(** vector2D.py:190-200 [unit_vector], scalar argument. *)
Definition unit_vector (orientation : R) : vec :=
  V (cos orientation) (sin orientation).

(** vector2D.py:203-226 [weighted_average], one pair. *)
Definition weighted_average (e0 e1 : vec) (weight : R) : vec :=
  vadd (vscale weight e0) (vscale (1 - weight) e1).
