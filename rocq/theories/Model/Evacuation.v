(** * crowddynamics/core/evacuation.py and the node ExitDetection *)
From Verif Require Export Model.Agent.
Open Scope R_scope.

(** evacuation.py:15-86 [narrow_exit_capacity]; scalar [//] by zero raises. *)
Definition narrow_exit_capacity (d_door d_agent : R) (d_layer : option R) (coeff : R) : res R :=
  if Rltb d_door d_agent then Ok 0
  else
    match d_layer with
    | None => if Reqb d_agent 0 then Err ZeroDivisionError else Ok (coeff * IZR (floordiv d_door d_agent))
    | Some d => if Reqb d 0 then Err ZeroDivisionError
                else Ok (coeff * IZR (floordiv (d_door - (d_agent - d)) d))
    end.

(** evacuation.py:89-134 [agent_closer_to_exit].  The two calls of [np.argsort]
    are parameters: numba's quicksort is not stable and the order of equal
    elements is not specified. *)
Definition agent_closer_to_exit (argsort_f8 : list R -> list nat) (argsort_i8 : list nat -> list nat)
    (c_door : vec) (position : list vec) : list nat :=
  let distances := map (fun x => vlength (vsub c_door x)) position in
  let d_sorted := argsort_f8 distances in
  argsort_i8 d_sorted.

(** evacuation.py:161-172: the loop over the exits for one agent; the state is
    [distance[i]] and [detected_exit[i]] with [has_detected[i]]. *)
Fixpoint detect (c : nat) (center_door : list vec) (x : vec) (obstacles : list obstacle) (st : R * option nat) : R * option nat :=
  match center_door with
  | [] => st
  | p :: rest =>
      detect (S c) rest x obstacles
        (if is_obstacle_between_points x p obstacles then st
         else let d := vlength (vsub p x) in if Rltb d (fst st) then (d, Some c) else st)
  end.
(** evacuation.py:137-174 [exit_detection]; [not_detected = -1]. *)
Definition exit_detection (center_door position : list vec) (obstacles : list obstacle) (detection_range : R) : list (Z * bool) :=
  map (fun x => match snd (detect 0 center_door x obstacles (detection_range, None)) with
                | Some c => (Z.of_nat c, true)
                | None => ((-1)%Z, false)
                end) position.

(** [np.mean(points, axis=0)]; the coordinates of a LineString are never empty. *)
Definition vmean (l : list vec) : vec := vdiv (vsum l) (INR (length l)).
(** simulation/logic.py:237-256 [ExitDetection.update].  A target is given by its
    coordinates: [np.asarray] of a Polygon raises and is not modelled.
    [np.stack] of no target raises ValueError. *)
Definition exit_detection_node (targets : list (list vec)) (obstacles : list obstacle) (detection_range : R) (agents : list agent)
    : res (list agent) :=
  match targets with
  | [] => Err ValueError
  | _ =>
      let center_door := map vmean targets in
      let found := exit_detection center_door (map a_position agents) obstacles detection_range in
      Ok (map (fun '(a, (t, has)) => if a_is_follower a && has then set_is_follower false (set_target t a) else a)
              (combine agents found))
  end.
