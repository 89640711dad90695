(** * The arithmetic of float64, for a few functions

    The other files compute with real numbers.  Here every operation rounds to the
    nearest double (ties to even), with gradual underflow; the theorems show that no
    operation overflows, or assume it.  The sign of zero, infinities and NaN are not
    modelled. *)
From Coq Require Import Reals ZArith List.
From Flocq Require Import Core.
Import ListNotations.
Open Scope R_scope.

Definition double_exp : Z -> Z := FLT_exp (-1074) 53.
Definition rnd (x : R) : R := round radix2 double_exp ZnearestE x.

(** [np.pi], the double nearest to pi, and [2 * np.pi], which is exact. *)
Definition f_pi : R := 884279719003555 / 281474976710656.
Definition f_two_pi : R := 884279719003555 / 140737488355328.

(** C [fmod], exact; and the operator [%] on floats in CPython and numba (the sum is
    rounded): for [wx > 0]. *)
Definition c_fmod (vx wx : R) : R := vx - IZR (Ztrunc (vx / wx)) * wx.
Definition f_mod (vx wx : R) : R :=
  let m := c_fmod vx wx in
  if Rlt_bool m 0 then rnd (m + wx) else m.
(** core/vector2D.py:8-36 [wrap_to_pi]. *)
Definition f_wrap_to_pi (rad : R) : R :=
  let rad_ := f_mod rad f_two_pi in
  if (Rlt_bool rad 0 && Req_bool rad_ f_pi)%bool then - f_pi
  else if Rlt_bool f_pi rad_ then rnd (rad_ - f_two_pi)
  else rad_.

(** core/block_list.py:104-105 [elem // cell_size] for floats, [wx > 0]: the algorithm of
    CPython's float_divmod and numpy's npy_divmod. *)
Definition f_floordiv (vx wx : R) : R :=
  let m := c_fmod vx wx in
  let div := rnd (rnd (vx - m) / wx) in
  let div := if Rlt_bool m 0 then rnd (div - 1) else div in
  let fl := IZR (Zfloor div) in
  if Rlt_bool (/ 2) (rnd (div - fl)) then rnd (fl + 1) else fl.

(** core/evacuation.py:15-86 [narrow_exit_capacity] for a positive width of agents and
    layers. *)
Definition f_narrow_exit_capacity (d_door d_agent : R) (d_layer : option R) (coeff : R) : R :=
  if Rlt_bool d_door d_agent then 0
  else
    match d_layer with
    | None => rnd (coeff * f_floordiv d_door d_agent)
    | Some d => rnd (coeff * f_floordiv (rnd (d_door - rnd (d_agent - d))) d)
    end.

(** simulation/logic.py:75 [data['time_tot'] += dt], starting from 0.0
    (simulation/multiagent.py:47). *)
Definition f_clock (dts : list R) : R := fold_left (fun t dt => rnd (t + dt)) dts 0.

(** core/vector2D.py:99-113 [length]: [hypot] of the C library, an input. *)
Section Vectors.
  Variable hypot : R -> R -> R.
  (** core/vector2D.py:152-163 [normalize]. *)
  Definition f_normalize (v : R * R) : R * R :=
    let l := hypot (fst v) (snd v) in
    if negb (Req_bool l 0) then (rnd (fst v / l), rnd (snd v / l)) else v.
  (** core/vector2D.py:166-187 [truncate]: [v *= l / vlen]. *)
  Definition f_truncate (v : R * R) (l : R) : R * R :=
    let vlen := hypot (fst v) (snd v) in
    if Rlt_bool l vlen then let f := rnd (l / vlen) in (rnd (fst v * f), rnd (snd v * f)) else v.
End Vectors.
