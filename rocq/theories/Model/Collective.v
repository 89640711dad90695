(** * crowddynamics/core/steering/collective_motion.py and the nodes LeaderFollower
      and LeaderFollowerWithHerding *)
From Verif Require Export Model.Agent.
Open Scope R_scope.

(** simulation/agents.py:28-29. *)
Definition NO_TARGET : Z := (-1)%Z.
Definition NO_LEADER : Z := (-1)%Z.

(** collective_motion.py:17-22 [normalize_nx2]. *)
Definition normalize_nx2 (v : list vec) : list vec := map normalize v.

(** collective_motion.py:25-60 [herding_relationship]. *)
Definition herding_relationship (x1 x2 v1 v2 : vec) (phi : R) : bool * bool :=
  if Reqb (vlength v1) 0 || Reqb (vlength v2) 0 then (false, false)
  else
    let e_rel := normalize (vsub x2 x1) in
    let c_i := dot e_rel (normalize v1) in
    let c_j := - dot e_rel (normalize v2) in
    let cos_phi := cos phi in
    if Rltb cos_phi c_i && Rltb c_i 1 then
      if Rltb cos_phi c_j && Rltb c_j 1 then (false, false) else (true, false)
    else
      if Rltb cos_phi c_j && Rltb c_j 1 then (false, true) else (true, true).

(** One row of the three arrays of [find_nearest_neighbors]: the slots
    ([neighbors[i, :]], [distances[i, :]]) and [distances_max[i]];
    [None] is [MISSING_NEIGHBOR]. *)
Definition slot : Type := option nat * R.
Definition row : Type := list slot * R.

(** [np.argmax]: index of the first greatest element; [None] for no element. *)
Fixpoint argmax_from (i : nat) (best : nat) (m : R) (l : list R) : nat :=
  match l with
  | [] => best
  | x :: l' => if Rltb m x then argmax_from (S i) i x l' else argmax_from (S i) best m l'
  end.
Definition argmax (l : list R) : option nat :=
  match l with [] => None | x :: l' => Some (argmax_from 1 0 x l') end.
(** [np.max] *)
Definition max_of (l : list R) : option R :=
  match l with [] => None | x :: l' => Some (fold_left Rmax l' x) end.

(** collective_motion.py:63-68 [set_neighbor], the row [i]; the greatest element of
    an empty row raises ValueError. *)
Definition set_neighbor (j : nat) (l : R) (r : row) : res row :=
  match argmax (map snd (fst r)) with
  | None => Err ValueError
  | Some m =>
      let slots := upd (fst r) m (Some j, l) in
      match max_of (map snd slots) with
      | None => Err ValueError
      | Some d => Ok (slots, d)
      end
  end.
(** collective_motion.py:104-108: [if l < distances_max[i]: set_neighbor(i, j, ...)]. *)
Definition offer (i j : nat) (l : R) (rows : list row) : res (list row) :=
  match nth_error rows i with
  | None => Err IndexError
  | Some r => if Rltb l (snd r) then do r' <- set_neighbor j l r; Ok (upd rows i r') else Ok rows
  end.
(** collective_motion.py:94-108: the loop over the enumerated pairs. *)
Fixpoint neighbor_loop (position : list vec) (obstacles : list obstacle) (pairs : list (nat * nat)) (rows : list row)
    : res (list row) :=
  match pairs with
  | [] => Ok rows
  | (i, j) :: pairs' =>
      match nth_error position i, nth_error position j with
      | Some xi, Some xj =>
          if is_obstacle_between_points xi xj obstacles then neighbor_loop position obstacles pairs' rows
          else
            let l := vlength (vsub xi xj) in
            do rows <- offer i j l rows;
            do rows <- offer j i l rows;
            neighbor_loop position obstacles pairs' rows
      | _, _ => Err IndexError
      end
  end.
(** collective_motion.py:71-110 [find_nearest_neighbors]; the pairs of the cell
    lists are a parameter. *)
Definition find_nearest_neighbors (position : list vec) (sight : R) (size_nearest_other : nat)
    (pairs : list (nat * nat)) (obstacles : list obstacle) : res (list (list (option nat))) :=
  do rows <- neighbor_loop position obstacles pairs
               (map (fun _ => (repeat (None, sight) size_nearest_other, sight)) position);
  Ok (map (fun r => map fst (fst r)) rows).

(** collective_motion.py:134-149: the neighbours agent [i] follows, and what is
    accumulated over them. *)
Definition followed_neighbors (position velocity : list vec) (phi : R) (i : nat) (neigh : list (option nat)) : list (vec * vec) :=
  flat_map (fun o =>
    match o with
    | None => []
    | Some j =>
        match nth_error position i, nth_error position j, nth_error velocity i, nth_error velocity j with
        | Some xi, Some xj, Some vi, Some vj =>
            if fst (herding_relationship xi xj vi vj phi) then [(xj, vj)] else []
        | _, _, _, _ => []
        end
    end) neigh.
(** collective_motion.py:113-161 [herding_interaction]: new direction and
    [has_new_direction] of agent [i]. *)
Definition herding_direction (is_herding : bool) (position velocity : list vec) (weight_position phi : R) (i : nat) (neigh : list (option nat))
    : vec * bool :=
  if is_herding then
    let f := followed_neighbors position velocity phi i neigh in
    match f with
    | [] => (vzero, false)
    | _ =>
        let mean_position := vsum (map fst f) in
        let mean_velocity := vsum (map snd f) in
        (normalize (weighted_average
           (normalize (vsub (vdiv mean_position (INR (length f))) (nth i position vzero)))
           (normalize mean_velocity) weight_position), true)
    end
  else (vzero, false).
Definition herding_interaction (is_herding : list bool) (position velocity : list vec) (neighbors : list (list (option nat)))
    (weight_position phi : R) : list (vec * bool) :=
  map (fun '(i, (h, n)) => herding_direction h position velocity weight_position phi i n)
      (combine (seq 0 (length position)) (combine is_herding neighbors)).

(** Outcome of the loop over the leaders for one follower
    (collective_motion.py:182-211). *)
Inductive choice : Type := FollowLeader (j : nat) | LeaderHidden | NoChoice.

(** collective_motion.py:182-211: leaders in the order of [np.argsort(distances)];
    [leaders] holds the indices of the leaders, [d k] their distances. *)
Fixpoint choose_leader (position velocity : list vec) (phi : R) (obstacles : list obstacle) (sight : R)
    (i : nat) (remembered : Z) (leaders : list nat) (d : nat -> R) (order : list nat) : choice :=
  match order with
  | [] => NoChoice
  | k :: order' =>
      let continue_ := choose_leader position velocity phi obstacles sight i remembered leaders d order' in
      if Rltb sight (d k) then continue_
      else
        match nth_error leaders k with
        | None => continue_
        | Some j =>
            let xi := nth i position vzero in let xj := nth j position vzero in
            if is_obstacle_between_points xi xj obstacles then
              if negb (remembered =? NO_LEADER)%Z && (remembered =? Z.of_nat j)%Z then LeaderHidden else continue_
            else if fst (herding_relationship xi xj (nth i velocity vzero) (nth j velocity vzero) phi) then FollowLeader j
            else continue_
        end
  end.

(** State of the loop: [target], [index_leader], [new_direction], [has_strategy]. *)
Record lf_state : Type := LF { lf_target : list Z; lf_leader : list Z; lf_direction : list vec; lf_strategy : list bool }.

(** [target[i] = target[leader]] for a remembered leader (an index in range; numba
    does not check bounds: out of range the model raises IndexError). *)
Definition copy_target (s : lf_state) (i : nat) (leader : Z) : res lf_state :=
  match (if (leader <? 0)%Z then None else nth_error (lf_target s) (Z.to_nat leader)) with
  | None => Err IndexError
  | Some t => Ok (LF (upd (lf_target s) i t) (lf_leader s) (lf_direction s) (upd (lf_strategy s) i true))
  end.
(** collective_motion.py:173-217: body of the loop over the followers. *)
Definition follow_one (argsort_f8 : list R -> list nat) (position velocity : list vec) (weight_position phi : R)
    (obstacles : list obstacle) (sight : R) (leaders : list nat) (i : nat) (s : lf_state) : res lf_state :=
  let xi := nth i position vzero in
  let distances := map (fun j => vlength (vsub xi (nth j position vzero))) leaders in
  let remembered := nth i (lf_leader s) NO_LEADER in
  match choose_leader position velocity phi obstacles sight i remembered leaders (fun k => nth k distances 0) (argsort_f8 distances) with
  | FollowLeader j =>
      let direction := normalize (weighted_average
        (normalize (vsub (nth j position vzero) xi)) (normalize (nth j velocity vzero)) weight_position) in
      Ok (LF (upd (lf_target s) i NO_TARGET) (upd (lf_leader s) i (Z.of_nat j)) (upd (lf_direction s) i direction) (upd (lf_strategy s) i true))
  | LeaderHidden => copy_target s i remembered
  | NoChoice => if negb (remembered =? NO_LEADER)%Z then copy_target s i remembered else Ok s
  end.
Fixpoint follow_all (step : nat -> lf_state -> res lf_state) (followers : list nat) (s : lf_state) : res lf_state :=
  match followers with
  | [] => Ok s
  | i :: followers' => do s <- step i s; follow_all step followers' s
  end.
(** [indices[mask]] *)
Definition where_true (mask : list bool) : list nat :=
  map fst (filter snd (combine (seq 0 (length mask)) mask)).
(** collective_motion.py:164-219 [leader_follower_interaction_brute]. *)
Definition leader_follower_interaction_brute (argsort_f8 : list R -> list nat) (is_follower is_leader : list bool)
    (position velocity : list vec) (weight_position phi : R) (target index_leader : list Z)
    (obstacles : list obstacle) (sight : R) : res lf_state :=
  follow_all (follow_one argsort_f8 position velocity weight_position phi obstacles sight (where_true is_leader))
    (where_true is_follower)
    (LF target index_leader (map (fun _ => vzero) position) (map (fun _ => false) position)).

(** Write the arrays [target] and [index_leader] back into the rows. *)
Definition put_lf (agents : list agent) (s : lf_state) : list agent :=
  map (fun '(a, (t, l)) => set_index_leader l (set_target t a)) (combine agents (combine (lf_target s) (lf_leader s))).
(** collective_motion.py:231-233, 270-272: [agents['target'][is_lost] = agents['familiar_exit'][is_lost]]. *)
Definition use_familiar (agents : list agent) (has : list bool) : list agent :=
  map (fun '(a, h) => if negb h && a_is_follower a then set_target (a_familiar_exit a) a else a) (combine agents has).

(** collective_motion.py:222-235 [leader_follower_interaction]. *)
Definition leader_follower_interaction (argsort_f8 : list R -> list nat) (agents : list agent) (obstacles : list obstacle)
    (sight phi weight_position_leader : R) : res (list agent * list vec) :=
  do s <- leader_follower_interaction_brute argsort_f8 (map a_is_follower agents) (map a_is_leader agents)
            (map a_position agents) (map a_velocity agents) weight_position_leader phi
            (map a_target agents) (map a_index_leader agents) obstacles sight;
  Ok (use_familiar (put_lf agents s) (lf_strategy s), lf_direction s).

(** collective_motion.py:238-279 [leader_follower_with_herding_interaction]; [enum]
    are the pairs of the cell lists for cells of size [sight]. *)
Definition leader_follower_with_herding_interaction (argsort_f8 : list R -> list nat) (enum : list vec -> R -> list (nat * nat))
    (agents : list agent) (obstacles : list obstacle) (sight : R) (size_nearest_other : nat)
    (phi weight_position_herding weight_position_leader weight_direction_leader : R) : res (list agent * list vec) :=
  let position := map a_position agents in
  let velocity := map a_velocity agents in
  let is_follower := map a_is_follower agents in
  do neighbors <- find_nearest_neighbors position sight size_nearest_other (enum position sight) obstacles;
  let herd := herding_interaction is_follower position velocity neighbors weight_position_herding phi in
  let agents := map (fun '(a, (_, h)) => if (h : bool) then set_target NO_TARGET a else a) (combine agents herd) in
  do s <- leader_follower_interaction_brute argsort_f8 is_follower (map a_is_leader agents) position velocity
            weight_position_leader phi (map a_target agents) (map a_index_leader agents) obstacles 20;
  Ok (use_familiar (put_lf agents s) (map (fun '((_, h), st) => (h || st)%bool) (combine herd (lf_strategy s))),
      normalize_nx2 (map (fun '(dl, (dh, _)) => weighted_average dl dh weight_direction_leader) (combine (lf_direction s) herd))).

(** simulation/logic.py:182-183, 214-215: [agents['target_direction'][is_follower] = direction[is_follower]]. *)
Definition set_follower_directions (agents : list agent) (direction : list vec) : list agent :=
  map (fun '(a, d) => if a_is_follower a then set_target_direction d a else a) (combine agents direction).
(** simulation/logic.py:168-183 [LeaderFollower.update], with the default [phi] and
    weight (collective_motion.py:223-224). *)
Definition leader_follower_node (argsort_f8 : list R -> list nat) (obstacles : list obstacle) (sight : R) (agents : list agent) : res (list agent) :=
  do r <- leader_follower_interaction argsort_f8 agents obstacles sight (45/100 * PI) (40/100);
  Ok (set_follower_directions (fst r) (snd r)).
(** simulation/logic.py:185-215 [LeaderFollowerWithHerding.update], defaults of
    collective_motion.py:241-244. *)
Definition leader_follower_with_herding_node (argsort_f8 : list R -> list nat) (enum : list vec -> R -> list (nat * nat))
    (obstacles : list obstacle) (sight_follower : R) (size_nearest_other : nat) (agents : list agent) : res (list agent) :=
  do r <- leader_follower_with_herding_interaction argsort_f8 enum agents obstacles sight_follower size_nearest_other
            (45/100 * PI) (15/100) (40/100) (65/100);
  Ok (set_follower_directions (fst r) (snd r)).
