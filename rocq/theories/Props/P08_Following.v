(** * Properties C38-C43, C72: neighbours, leaders, exits *)
From Coq Require Import Lra Lia Permutation.
From Verif Require Import Proofs.Witness8.
Open Scope R_scope.

(** C38 *)
Theorem C38_nearest_neighbours : forall position sight k pairs obs, (1 <= k)%nat -> good_enumeration position sight pairs ->
  exists ns, find_nearest_neighbors position sight k pairs obs = Ok ns /\ length ns = length position /\
    forall i x row, nth_error position i = Some x -> nth_error ns i = Some row -> nearest_others obs sight position i x k row.
Proof. exact neighbors_spec. Qed.
Print Assumptions C38_nearest_neighbours.
(** The trait [size_nearest_other] may be 0; then the first pair in sight raises. *)
Theorem C38_no_neighbours_wanted_refuted :
  exists position sight pairs, good_enumeration position sight pairs /\
    find_nearest_neighbors position sight 0 pairs [] = Err ValueError.
Proof. exact neighbors_zero_refuted. Qed.
Print Assumptions C38_no_neighbours_wanted_refuted.
Example C38_case : good_enumeration [V 0 0; V 1 0; V 3 0] 10 [(0, 1); (2, 0); (1, 2)]%nat.
Proof. exact enum_line. Qed.

(** C39, C40: the node LeaderFollower. *)
Theorem C40_leader_choice : forall argsort_f8 obs sight agents, (forall l, is_argsort Rle l (argsort_f8 l)) -> follow_ready agents ->
  exists agents', leader_follower_node argsort_f8 obs sight agents = Ok agents' /\ length agents' = length agents /\
    forall i a, nth_error agents i = Some a ->
      if a_is_follower a then exists t o d,
        nth_error agents' i = Some (set_target_direction d (set_target t (set_index_leader (leader_code o) a))) /\ (d = vzero \/ vlength d = 1) /\
        follower_outcome obs sight (45/100 * PI) (40/100) (leader_in agents) (pos_of agents) (vel_of agents) i (remembers a)
          (target_of agents) (a_familiar_exit a) t o d
      else nth_error agents' i = Some a.
Proof. exact leader_follower_node_spec. Qed.
Print Assumptions C40_leader_choice.
(** The node stays ready: it can be applied again in the next iteration. *)
Theorem C40_stays_ready : forall argsort_f8 obs sight agents agents', (forall l, is_argsort Rle l (argsort_f8 l)) -> follow_ready agents ->
  leader_follower_node argsort_f8 obs sight agents = Ok agents' -> follow_ready agents'.
Proof. exact leader_follower_ready. Qed.
Print Assumptions C40_stays_ready.
Example C40_case : follow_ready [foll1; lead1] /\ exists a', leader_follower_node argsort_R [] 20 [foll1; lead1] = Ok [a'; lead1] /\
  a_index_leader a' = 1%Z /\ a_target a' = (-1)%Z /\
  a_target_direction a' = normalize (vadd (vscale (40/100) (normalize (vsub (V 3 0) (V 0 0)))) (vscale (1 - 40/100) (normalize (V 1 0)))).
Proof. split; [exact ready1|exact follows1]. Qed.

(** The node LeaderFollowerWithHerding. *)
Theorem C39_herding_directions : forall argsort_f8 enum obs sight k agents, (forall l, is_argsort Rle l (argsort_f8 l)) -> (1 <= k)%nat ->
  good_enumeration (map a_position agents) sight (enum (map a_position agents) sight) -> follow_ready agents ->
  exists agents', leader_follower_with_herding_node argsort_f8 enum obs sight k agents = Ok agents' /\ length agents' = length agents /\
    forall i a, nth_error agents i = Some a ->
      if a_is_follower a then exists ns h dh t o dl d,
        nearest_others obs sight (map a_position agents) i (a_position a) k ns /\
        herd_outcome (15/100) (45/100 * PI) (pos_of agents) (vel_of agents) i ns h dh /\
        follower_outcome obs 20 (45/100 * PI) (40/100) (leader_in agents) (pos_of agents) (vel_of agents) i (remembers a)
          (target_of agents) (if h then (-1)%Z else a_familiar_exit a) t o dl /\
        d = normalize (vadd (vscale (65/100) dl) (vscale (1 - 65/100) dh)) /\ (d = vzero \/ vlength d = 1) /\
        nth_error agents' i = Some (set_target_direction d (set_target t (set_index_leader (leader_code o) a)))
      else nth_error agents' i = Some a.
Proof. exact herding_node_spec. Qed.
Print Assumptions C39_herding_directions.
(** Both nodes: directions are unit vectors or zero, and nothing but the target, the
    leader and the direction of followers changes. *)
Theorem C39_only_followers : forall argsort_f8 enum obs sight k agents agents', (forall l, is_argsort Rle l (argsort_f8 l)) ->
  follow_ready agents -> (1 <= k)%nat -> good_enumeration (map a_position agents) sight (enum (map a_position agents) sight) ->
  leader_follower_node argsort_f8 obs sight agents = Ok agents' \/
  leader_follower_with_herding_node argsort_f8 enum obs sight k agents = Ok agents' ->
  Forall2 (fun a b => (a_is_follower a = false -> b = a) /\
    (a_is_follower a = true -> exists d t l, b = set_target_direction d (set_target t (set_index_leader l a)) /\ (d = vzero \/ vlength d = 1)))
    agents agents'.
Proof. exact only_followers. Qed.
Print Assumptions C39_only_followers.
Example C39_case : follow_ready [foll1; lead1] /\
  good_enumeration (map a_position [foll1; lead1]) 10 [(0, 1)]%nat.
Proof. split; [exact ready1|exact enum1]. Qed.

(** C72 *)
Theorem C72_herding_relation : forall x1 x2 v1 v2 phi, x1 <> x2 \/ 0 <= cos phi ->
  (fst (herding_relationship x1 x2 v1 v2 phi) = true <-> may_follow phi x1 x2 v1 v2) /\
  (snd (herding_relationship x1 x2 v1 v2 phi) = true <-> may_follow phi x2 x1 v2 v1).
Proof. exact herding_both. Qed.
Print Assumptions C72_herding_relation.
(** Agent 2 walks straight at agent 1, and yet agent 1 follows it. *)
Theorem C72_head_on_refuted : exists x1 x2 v1 v2 n, v2 = vscale n (vsub x1 x2) /\ 0 < n /\
  fst (herding_relationship x1 x2 v1 v2 (45/100 * PI)) = true.
Proof. exact head_on_refuted. Qed.
Print Assumptions C72_head_on_refuted.
Example C72_case : exists x1 x2 v1 v2, x1 <> x2 /\ may_follow (45/100 * PI) x1 x2 v1 v2 /\
  exists x3 v3, x1 <> x3 /\ v3 <> vzero /\ comes_towards (45/100 * PI) x1 x3 v3.
Proof. exact herding_cases. Qed.

(** C41 *)
Theorem C41_zero_exactly_when_too_narrow : forall d_door d_agent d_layer coeff,
  match d_layer with None => 0 < d_agent | Some d => 0 < d end ->
  exists n : Z, (0 <= n)%Z /\ narrow_exit_capacity d_door d_agent d_layer coeff = Ok (coeff * IZR n) /\ (n = 0%Z <-> d_door < d_agent).
Proof. exact capacity_exists. Qed.
Print Assumptions C41_zero_exactly_when_too_narrow.
(** [n] is the floor of the documented formulas. *)
Theorem C41_simple_formula : forall d_door d_agent coeff (n : Z), 0 < d_agent ->
  IZR n * d_agent <= d_door < (IZR n + 1) * d_agent -> (1 <= n)%Z ->
  narrow_exit_capacity d_door d_agent None coeff = Ok (coeff * IZR n).
Proof. exact capacity_simple. Qed.
Print Assumptions C41_simple_formula.
Theorem C41_layer_formula : forall d_door d_agent d_layer coeff (n : Z), 0 < d_layer ->
  d_agent + (IZR n - 1) * d_layer <= d_door < d_agent + IZR n * d_layer -> (1 <= n)%Z ->
  narrow_exit_capacity d_door d_agent (Some d_layer) coeff = Ok (coeff * IZR n).
Proof. exact capacity_layers. Qed.
Print Assumptions C41_layer_formula.
Theorem C41_formulas_agree : forall d_door d_agent coeff, 0 < d_agent ->
  narrow_exit_capacity d_door d_agent (Some d_agent) coeff = narrow_exit_capacity d_door d_agent None coeff.
Proof. exact capacity_relation. Qed.
Print Assumptions C41_formulas_agree.
(** Without a width to divide by there is no number: the call fails. *)
Theorem C41_no_width_refused : forall d_door d_agent coeff,
  (d_agent <= d_door -> narrow_exit_capacity d_door d_agent (Some 0) coeff = Err ZeroDivisionError) /\
  (0 <= d_door -> narrow_exit_capacity d_door 0 None coeff = Err ZeroDivisionError).
Proof.
  intros d a c. unfold narrow_exit_capacity. split; intros L; (replace (Rltb _ _) with false by (symmetry; apply Rltb_false; lra));
    (replace (Reqb 0 0) with true by (symmetry; now apply Reqb_true)); reflexivity.
Qed.
Print Assumptions C41_no_width_refused.
Theorem C41_nonnegative : forall d_door d_agent d_layer coeff c, match d_layer with None => 0 < d_agent | Some d => 0 < d end ->
  0 <= coeff -> narrow_exit_capacity d_door d_agent d_layer coeff = Ok c -> 0 <= c.
Proof. exact capacity_nonneg. Qed.
Print Assumptions C41_nonnegative.
Theorem C41_monotone : forall d_door d_door' d_agent d_layer coeff c c',
  match d_layer with None => 0 < d_agent | Some d => 0 < d end -> 0 <= coeff -> d_door <= d_door' ->
  narrow_exit_capacity d_door d_agent d_layer coeff = Ok c -> narrow_exit_capacity d_door' d_agent d_layer coeff = Ok c' -> c <= c'.
Proof. exact capacity_monotone. Qed.
Print Assumptions C41_monotone.
Example C41_case : narrow_exit_capacity (12/10) (1/2) None 1 = Ok 2 /\ narrow_exit_capacity (12/10) (1/2) (Some (35/100)) 1 = Ok 3 /\
  narrow_exit_capacity (4/10) (1/2) None 1 = Ok 0.
Proof.
  split; [|split].
  - replace 2 with (1 * IZR 2) by lra. apply C41_simple_formula; lra || lia.
  - replace 3 with (1 * IZR 3) by lra. apply C41_layer_formula; lra || lia.
  - apply capacity_narrow. lra.
Qed.

(** C42 *)
Theorem C42_ranks : forall argsort_f8 argsort_i8 c position,
  (forall l, is_argsort Rle l (argsort_f8 l)) -> (forall l, is_argsort le l (argsort_i8 l)) ->
  let ranks := agent_closer_to_exit argsort_f8 argsort_i8 c position in
  Permutation ranks (seq 0 (length position)) /\
  (forall i x, nth_error position i = Some x -> exists r, nth_error ranks i = Some r /\
     (count (fun y => if Rlt_dec (edist y c) (edist x c) then true else false) position <= r)%nat /\
     (r < count (fun y => if Rle_dec (edist y c) (edist x c) then true else false) position)%nat) /\
  (forall i j x y ri rj, nth_error position i = Some x -> nth_error position j = Some y ->
     nth_error ranks i = Some ri -> nth_error ranks j = Some rj -> edist x c < edist y c -> (ri < rj)%nat).
Proof. exact rank_spec. Qed.
Print Assumptions C42_ranks.
Example C42_case : (forall l, is_argsort Rle l (argsort_R l)) /\ (forall l, is_argsort le l (argsort_N l)).
Proof. split; [exact argsort_R_ok|exact argsort_N_ok]. Qed.

(** C43 *)
Theorem C43_closest_visible_exit : forall centers positions obs range,
  Forall2 (fun x r =>
     (snd r = true <-> ~ none_seen obs range centers x) /\
     (forall c, fst r = Z.of_nat c <-> nearest_seen obs range centers x c) /\
     (fst r = (-1)%Z <-> none_seen obs range centers x)) positions (exit_detection centers positions obs range).
Proof. exact exit_detection_spec. Qed.
Print Assumptions C43_closest_visible_exit.
(** The node: a follower that sees an exit stops following and heads for it. *)
Theorem C43_followers_take_the_exit : forall targets obs range agents, targets <> [] ->
  exists agents', exit_detection_node targets obs range agents = Ok agents' /\
  Forall2 (fun a b =>
    (a_is_follower a = false \/ none_seen obs range (map vmean targets) (a_position a) -> b = a) /\
    (forall c, a_is_follower a = true -> nearest_seen obs range (map vmean targets) (a_position a) c ->
       b = set_is_follower false (set_target (Z.of_nat c) a))) agents agents'.
Proof. exact exit_node_spec. Qed.
Print Assumptions C43_followers_take_the_exit.
Theorem C43_exit_is_its_middle : forall a b, vmean [a; b] = V ((vx a + vx b) / 2) ((vy a + vy b) / 2).
Proof. exact mid_point. Qed.
Print Assumptions C43_exit_is_its_middle.
Example C43_case : nearest_seen [Obs (V 1 (-1)) (V 1 1)] 20 [V 2 0; V 0 3; V 0 4] (V 0 0) 1.
Proof. exact exit_case. Qed.
