(** * Whom a follower follows *)
From Verif Require Export Spec.Sight Model.Agent.
Open Scope R_scope.

(** Someone at [x2] moving with [v2] comes towards [x1]: the direction of [v2] is
    strictly within the angle [phi] (between 0 and pi) of the direction from [x2] to
    [x1], but not exactly along it. *)
Definition comes_towards (phi : R) (x1 x2 v2 : vec) : Prop :=
  cos phi * (elen v2 * edist x1 x2) < dot v2 (vsub x1 x2) < elen v2 * edist x1 x2.
(** Agent 1 may follow agent 2: both move, and 2 does not come towards 1. *)
Definition may_follow (phi : R) (x1 x2 v1 v2 : vec) : Prop :=
  v1 <> vzero /\ v2 <> vzero /\ ~ comes_towards phi x1 x2 v2.

(** Below, [x] and [v] are the positions and velocities, [leader] says who leads,
    [i] is the follower and [remembered] the leader it remembers. *)
(** Leader [j] is within sight of [i], visible, and can be followed. *)
Definition leads (obs : list obstacle) (sight phi : R) (leader : nat -> Prop) (x v : nat -> vec) (i j : nat) : Prop :=
  leader j /\ edist (x i) (x j) <= sight /\ sees obs (x i) (x j) /\ may_follow phi (x i) (x j) (v i) (v j).
(** Leader [j] is within sight, behind a wall, and the one [i] remembers. *)
Definition lost_leader (obs : list obstacle) (sight : R) (leader : nat -> Prop) (x : nat -> vec) (i : nat) (remembered : option nat) (j : nat) : Prop :=
  leader j /\ edist (x i) (x j) <= sight /\ ~ sees obs (x i) (x j) /\ remembered = Some j.
Definition decisive obs sight phi leader x v i remembered (j : nat) : Prop :=
  leads obs sight phi leader x v i j \/ lost_leader obs sight leader x i remembered j.
Definition nearest_decisive obs sight phi leader x v i remembered (j : nat) : Prop :=
  decisive obs sight phi leader x v i remembered j /\
  forall j', decisive obs sight phi leader x v i remembered j' -> edist (x i) (x j) <= edist (x i) (x j').

(** New target, leader and direction of the follower [i]: the nearest decisive leader
    decides; [w] is the weight of the leader's position, [target j] the target of
    agent [j], [familiar] the exit the follower knows. *)
Definition follower_outcome obs sight phi w leader x v i (remembered : option nat) (target : nat -> Z) (familiar : Z)
    (target' : Z) (leader' : option nat) (direction : vec) : Prop :=
  (exists j, nearest_decisive obs sight phi leader x v i remembered j /\ leads obs sight phi leader x v i j /\
     target' = (-1)%Z /\ leader' = Some j /\
     direction = normalize (vadd (vscale w (normalize (vsub (x j) (x i)))) (vscale (1 - w) (normalize (v j))))) \/
  (exists j, nearest_decisive obs sight phi leader x v i remembered j /\ lost_leader obs sight leader x i remembered j /\
     target' = target j /\ leader' = Some j /\ direction = vzero) \/
  ((forall j, ~ decisive obs sight phi leader x v i remembered j) /\ leader' = remembered /\ direction = vzero /\
     target' = match remembered with Some r => target r | None => familiar end).

(** How the remembered leader is stored: its index, or -1. *)
Definition leader_code (o : option nat) : Z := match o with Some j => Z.of_nat j | None => (-1)%Z end.

(** The arrays of positions, velocities, targets and leaders of a list of agents. *)
Definition pos_of (agents : list agent) (j : nat) : vec := nth j (map a_position agents) vzero.
Definition vel_of (agents : list agent) (j : nat) : vec := nth j (map a_velocity agents) vzero.
Definition target_of (agents : list agent) (j : nat) : Z := nth j (map a_target agents) 0%Z.
Definition leader_in (agents : list agent) (j : nat) : Prop := nth_error (map a_is_leader agents) j = Some true.
Definition remembers (a : agent) : option nat :=
  if (a_index_leader a <? 0)%Z then None else Some (Z.to_nat (a_index_leader a)).
(** What the rule requires of the state: no agent both leads and follows, and a
    follower remembers nobody (-1) or a leader. *)
Definition follow_ready (agents : list agent) : Prop :=
  forall a, In a agents -> a_is_follower a = true -> a_is_leader a = false /\
    (a_index_leader a = (-1)%Z \/ exists j, a_index_leader a = Z.of_nat j /\ leader_in agents j).

(** Herding: agent [i], whose nearest others are [ns], heads for the middle of those
    of them it may follow ([w]) and along their total velocity ([1 - w]). *)
Definition herd_outcome (w phi : R) (x v : nat -> vec) (i : nat) (ns : list (option nat)) (herds : bool) (direction : vec) : Prop :=
  exists js, NoDup js /\ (forall j, In j js <-> In (Some j) ns /\ may_follow phi (x i) (x j) (v i) (v j)) /\
    (herds = true <-> js <> []) /\
    direction = if herds then
        normalize (vadd (vscale w (normalize (vsub (vscale (/ INR (length js)) (vsum (map x js))) (x i))))
                        (vscale (1 - w) (normalize (vsum (map v js)))))
      else vzero.
