(** * crowddynamics/core/motion/power_law.py *)
From Verif Require Export Model.Agent.
Open Scope R_scope.

(** power_law.py:52 *)
Definition F_SOC_MAX : R := 2000.

(** power_law.py:83-102 [magnitude]; called with [tau > 0]; numba raises when
    [tau_0] is zero. *)
Definition magnitude (tau tau_0 : R) : res R :=
  if Reqb tau_0 0 then Err ZeroDivisionError
  else Ok ((2 / tau + 1 / tau_0) * exp (- tau / tau_0) / (tau * tau)).

(** power_law.py:105-126 [gradient_circle_circle]; called with [a, d] not zero. *)
Definition gradient_circle_circle (x_rel v_rel : vec) (a b d : R) : vec :=
  vdiv (vsub v_rel (vdiv (vadd (vscale b v_rel) (vscale a x_rel)) d)) a.

(** power_law.py:129-149 [gradient_three_circle]. *)
Definition gradient_three_circle (x_rel v_rel r_off : vec) (a b d : R) : vec :=
  vdiv (vsub v_rel (vdiv (vadd (vscale a (vadd x_rel (vscale 2 r_off))) (vscale b v_rel)) d)) a.

(** [np.sqrt]: NaN ([None]) for negative arguments. *)
Definition np_sqrt (x : R) : option R := if Rltb x 0 then None else Some (sqrt x).

(** Coefficients of the quadratic equation, power_law.py:195-198. *)
Definition coeff_a (v_rel : vec) : R := dot v_rel v_rel.
Definition coeff_b (x_rel v_rel : vec) : R := - dot x_rel v_rel.
Definition coeff_c (x_rel : vec) (r_tot : R) : R := dot x_rel x_rel - r_tot * r_tot.
Definition coeff_d (x_rel v_rel : vec) (r_tot : R) : option R :=
  let a := coeff_a v_rel in
  let b := coeff_b x_rel v_rel in
  let c := coeff_c x_rel r_tot in
  np_sqrt (b * b - a * c).

(** power_law.py:152-210 [time_to_collision_circle_circle]; [None] is NaN. *)
Definition time_to_collision_circle_circle (x_rel v_rel : vec) (r_tot : R) : option R * vec :=
  let a := coeff_a v_rel in
  let b := coeff_b x_rel v_rel in
  match coeff_d x_rel v_rel r_tot with
  | None => (None, vzero)
  | Some d =>
      if Reqb d 0 || Reqb a 0 then (None, vzero)
      else
        let tau := (b - d) / a in
        if Rleb tau 0 then (None, vzero)
        else (Some tau, gradient_circle_circle x_rel v_rel a b d)
  end.

(** power_law.py:248-259 and 355-363: the forces for a given gradient. *)
Definition social_forces (ai aj : agent) (grad : vec) (tau : R) : res (vec * vec) :=
  do mi <- magnitude tau (a_tau_0 ai);
  do mj <- magnitude tau (a_tau_0 aj);
  let fi := vadd vzero (vscale mi (vscale (- a_mass ai * a_k_soc ai) grad)) in
  let fj := vsub vzero (vscale mj (vscale (- a_mass aj * a_k_soc aj) grad)) in
  Ok (truncate fi F_SOC_MAX, truncate fj F_SOC_MAX).

(** power_law.py:213-259 [force_social_circular] for the rows i and j. *)
Definition force_social_circular (ai aj : agent) : res (vec * vec) :=
  let x_rel := vsub (a_position ai) (a_position aj) in
  let v_rel := vsub (a_velocity ai) (a_velocity aj) in
  let r_tot := a_radius ai + a_radius aj in
  let a := coeff_a v_rel in
  let b := coeff_b x_rel v_rel in
  match coeff_d x_rel v_rel r_tot with
  | None => Ok (vzero, vzero)
  | Some d =>
      if Reqb d 0 || Reqb a 0 then Ok (vzero, vzero)
      else
        let tau := (b - d) / a in
        let tau_max := 30 in
        if Rleb tau 0 || Rltb tau_max tau then Ok (vzero, vzero)
        else social_forces ai aj (gradient_circle_circle x_rel v_rel a b d) tau
  end.

(** State of the scan power_law.py:300-306: the part indices and the best tau
    with its coefficients ([None] while tau is NaN). *)
Record tscan : Type := TScan { ts_i : nat; ts_j : nat; ts_best : option (R * R * R) }.

(** power_law.py:310-328: loop body, line 324 as written. *)
Definition tscan_step (x_i : tri vec) (r_i : tri R) (x_j : tri vec) (r_j : tri R) (v_rel : vec)
    (s : tscan) (ij : nat * nat) : tscan :=
  let '(i, j) := ij in
  let a := coeff_a v_rel in
  let x_rel := vsub (tget x_i i) (tget x_j j) in
  let r_tot := tget r_i i + tget r_j j in
  let b := coeff_b x_rel v_rel in
  match coeff_d x_rel v_rel r_tot with
  | None => s
  | Some d =>
      if Reqb d 0 then s
      else
        let tau_new := (b - d) / a in
        let better := match ts_best s with
                      | None => true
                      | Some (tau, _, _) => Rltb 0 tau_new && Rltb tau_new tau
                      end in
        if better then TScan i j (Some (tau_new, b, d)) else s
  end.

(** power_law.py:337-350: displacement of the part in contact. *)
Definition part_offset (part : nat) (a : agent) : vec :=
  let e := vscale (a_r_ts a) (V (sin (a_orientation a)) (- cos (a_orientation a))) in
  match part with
  | 1%nat => vadd vzero e
  | 2%nat => vsub vzero e
  | _ => vzero
  end.

(** power_law.py:262-363 [force_social_three_circle]. *)
Definition three_circle_scan (ai aj : agent) : tscan :=
  let v_rel := vsub (a_velocity ai) (a_velocity aj) in
  fold_left (tscan_step (xs_of ai) (rs_of ai) (xs_of aj) (rs_of aj) v_rel) idx33 (TScan 0 0 None).
Definition force_social_three_circle (ai aj : agent) : res (vec * vec) :=
  let v_rel := vsub (a_velocity ai) (a_velocity aj) in
  let a := coeff_a v_rel in
  if Reqb a 0 then Ok (vzero, vzero)
  else
    let s := three_circle_scan ai aj in
    match ts_best s with
    | None => Ok (vzero, vzero)
    | Some (tau, b_min, d_min) =>
        if Rleb tau 0 then Ok (vzero, vzero)
        else
          let r_off := vsub (part_offset (ts_i s) ai) (part_offset (ts_j s) aj) in
          let x_rel := vsub (a_position ai) (a_position aj) in
          social_forces ai aj (gradient_three_circle x_rel v_rel r_off a b_min d_min) tau
    end.
