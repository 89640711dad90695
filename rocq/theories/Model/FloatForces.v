(** * Forces between circular agents in float64

    As in [Model/Floats.v] every operation rounds to the nearest double.  An exponent has
    no upper bound here: where a float overflows, the theorems assume that it does not.
    [hypot] and [exp] of the C library are inputs.  The sign of a zero is not modelled, nor
    the ZeroDivisionError of [magnitude] for a [tau] below 1e-162 or a [tau_0] of zero. *)
From Coq Require Import Reals ZArith List.
From Flocq Require Import Core.
From Verif Require Import Model.Floats Model.FloatSteps Model.Interactions.
From Verif Require Export Model.FloatGeom.
Import ListNotations.
Open Scope R_scope.

(** Arrays of two floats: [a + b], [s * a], [a / s]. *)
Definition f_vadd (a b : vec) : vec := V (rnd (vx a + vx b)) (rnd (vy a + vy b)).
Definition f_scale (s : R) (a : vec) : vec := V (rnd (s * vx a)) (rnd (s * vy a)).
Definition f_vdiv (a : vec) (s : R) : vec := V (rnd (vx a / s)) (rnd (vy a / s)).
(** core/vector2D.py:118-133 [dot]. *)
Definition f_dot (a b : vec) : R := rnd (rnd (vx a * vx b) + rnd (vy a * vy b)).

Section Forces.
  Variables (hypot : R -> R -> R) (exp : R -> R).
  (** power_law.py:84-103 [magnitude]. *)
  Definition f_magnitude (tau tau_0 : R) : R :=
    rnd (rnd (rnd (rnd (2 / tau) + rnd (1 / tau_0)) * exp (rnd (- tau / tau_0))) / rnd (tau * tau)).
  (** power_law.py:105-128 [gradient_circle_circle]. *)
  Definition f_gradient (x_rel v_rel : vec) (a b d : R) : vec :=
    f_vdiv (f_vsub v_rel (f_vdiv (f_vadd (f_scale b v_rel) (f_scale a x_rel)) d)) a.
  (** core/vector2D.py:166-187 [truncate], on an array. *)
  Definition f_cut (v : vec) (l : R) : vec := let '(x, y) := f_truncate hypot (vx v, vy v) l in V x y.
  (** power_law.py:213-257 [force_social_circular]. *)
  Definition f_force_social_circular (ai aj : agent) : vec * vec :=
    let x_rel := f_vsub (a_position ai) (a_position aj) in
    let v_rel := f_vsub (a_velocity ai) (a_velocity aj) in
    let r_tot := rnd (a_radius ai + a_radius aj) in
    let a := f_dot v_rel v_rel in
    let b := - f_dot x_rel v_rel in
    let c := rnd (f_dot x_rel x_rel - rnd (r_tot * r_tot)) in
    let d2 := rnd (rnd (b * b) - rnd (a * c)) in
    let d := rnd (sqrt d2) in
    if (Rlt_bool d2 0 || Req_bool d 0 || Req_bool a 0)%bool then (vzero, vzero)
    else
      let tau := rnd (rnd (b - d) / a) in
      if (Rle_bool tau 0 || Rlt_bool 30 tau)%bool then (vzero, vzero)
      else
        let grad := f_gradient x_rel v_rel a b d in
        let one (w : agent) := f_scale (f_magnitude tau (a_tau_0 w)) (f_scale (rnd (- a_mass w * a_k_soc w)) grad) in
        (f_cut (f_vadd vzero (one ai)) F_SOC_MAX, f_cut (f_vsub vzero (one aj)) F_SOC_MAX).
  (** contact.py:7-46 [force_contact]. *)
  Definition f_force_contact (h : R) (n v t : vec) (mu kappa damping : R) : vec :=
    f_vadd (f_scale (- h) (f_vsub (f_scale mu n) (f_scale (rnd (kappa * f_dot v t)) t)))
           (f_scale (rnd (damping * f_dot v n)) n).
  (** interactions.py:53-67: the forces of [interaction_agent_agent_circular];
      [None] when the agents are out of sight. *)
  Definition f_pair_forces (ai aj : agent) : option (vec * vec) :=
    let '(h, (nx, ny)) := f_distance_circles hypot (vx (a_position ai), vy (a_position ai)) (a_radius ai)
                                                   (vx (a_position aj), vy (a_position aj)) (a_radius aj) in
    let n := V nx ny in
    if Rlt_bool h 3 then
      let '(fi, fj) := f_force_social_circular ai aj in
      if Rlt_bool h 0 then
        let t := rotate270 n in
        let v := f_vsub (a_velocity ai) (a_velocity aj) in
        Some (f_vadd fi (f_force_contact h n v t (a_mu ai) (a_kappa ai) (a_damping ai)),
              f_vsub fj (f_force_contact h n v t (a_mu aj) (a_kappa aj) (a_damping aj)))
      else Some (fi, fj)
    else None.
  (** interactions.py:69-70, [agents[i]['force'][:] += f]. *)
  Definition f_add_force (f : vec) (a : agent) : agent := set_force (f_vadd (a_force a) f) a.
  (** interactions.py:53-70 [interaction_agent_agent_circular]; the pairs of a cell list
      are in range. *)
  Definition f_interaction (p : nat * nat) (agents : list agent) : list agent :=
    match nth_error agents (fst p), nth_error agents (snd p) with
    | Some ai, Some aj =>
        match f_pair_forces ai aj with
        | None => agents
        | Some (fi, fj) => modify (snd p) (f_add_force fj) (modify (fst p) (f_add_force fi) agents)
        end
    | _, _ => agents
    end.
  (** interactions.py:147-156 [agent_agent_circular]. *)
  Definition f_agent_agent_circular (pairs : list (nat * nat)) (agents : list agent) : list agent :=
    fold_left (fun agents p => f_interaction p agents) pairs agents.
End Forces.
