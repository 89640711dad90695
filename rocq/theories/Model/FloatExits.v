(** * Ranks at an exit and detection of exits in float64 *)
From Coq Require Import Reals ZArith List.
From Flocq Require Import Core.
From Verif Require Import Model.Floats Model.Vector2D Model.Geom2D.
From Verif Require Export Model.FloatForces Model.FloatGeom.
Import ListNotations.
Open Scope R_scope.

Section Exits.
  Variable hypot : R -> R -> R.
  (** [length(a - b)] (vector2D.py [length], one row). *)
  Definition f_dist (a b : vec) : R := let d := f_vsub a b in hypot (vx d) (vy d).
  (** evacuation.py:88-134 [agent_closer_to_exit]; [np.argsort] as in [Model/Evacuation.v]. *)
  Definition f_agent_closer_to_exit (argsort_f8 : list R -> list nat) (argsort_i8 : list nat -> list nat)
      (c_door : vec) (position : list vec) : list nat :=
    let distances := map (fun x => f_dist c_door x) position in
    let d_sorted := argsort_f8 distances in
    argsort_i8 d_sorted.
  (** evacuation.py:161-172: the loop over the exits for one agent, as in [Model/Evacuation.v]. *)
  Fixpoint f_detect (c : nat) (center_door : list vec) (x : vec) (obstacles : list obstacle) (st : R * option nat) : R * option nat :=
    match center_door with
    | [] => st
    | p :: rest =>
        f_detect (S c) rest x obstacles
          (if f_is_obstacle_between_points x p obstacles then st
           else let d := f_dist p x in if Rlt_bool d (fst st) then (d, Some c) else st)
    end.
  (** evacuation.py:137-174 [exit_detection]; [not_detected = -1]. *)
  Definition f_exit_detection (center_door position : list vec) (obstacles : list obstacle) (detection_range : R) : list (Z * bool) :=
    map (fun x => match snd (f_detect 0 center_door x obstacles (detection_range, None)) with
                  | Some c => (Z.of_nat c, true)
                  | None => ((-1)%Z, false)
                  end) position.
End Exits.
