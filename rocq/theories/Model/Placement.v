(** * Building the agent array: [Agents.add_non_overlapping_group]

    crowddynamics/simulation/agents.py:605-680 *)
From Verif Require Export Model.Agent Model.BlockList.
Open Scope R_scope.

(** A member of a group is an agent object.  [m_row] holds its trait values;
    the shoulders of a three-circle agent are dynamic defaults (agents.py:401-409):
    computed on first access and cached from then on ([None]: not accessed yet). *)
Record member : Type := Member { m_row : agent; m_ls : option vec; m_rs : option vec }.

(** agents.py:401-404 and 406-409: the dynamic defaults. *)
Definition default_ls (a : agent) : vec :=
  vsub (a_position a) (vscale (a_r_ts a) (rotate270 (unit_vector (a_orientation a)))).
Definition default_rs (a : agent) : vec :=
  vadd (a_position a) (vscale (a_r_ts a) (rotate270 (unit_vector (a_orientation a)))).

(** Reading both shoulders of a three-circle agent object: the object with its
    caches filled.  Circular agents have no shoulders. *)
Definition touch (k : kind) (m : member) : member :=
  match k with
  | Circular => m
  | ThreeCircle =>
      Member (m_row m)
        (Some (match m_ls m with Some v => v | None => default_ls (m_row m) end))
        (Some (match m_rs m with Some v => v | None => default_rs (m_row m) end))
  end.

(** agents.py:309-319 [__array__]: the row holding the values of the object
    (after [touch], since it reads every field). *)
Definition to_row (k : kind) (m : member) : agent :=
  match k with
  | Circular => m_row m
  | ThreeCircle =>
      set_position_rs (match m_rs m with Some v => v | None => default_rs (m_row m) end)
        (set_position_ls (match m_ls m with Some v => v | None => default_ls (m_row m) end) (m_row m))
  end.

(** [new_agent.position = p] *)
Definition move_to (p : vec) (m : member) : member :=
  Member (set_position p (m_row m)) (m_ls m) (m_rs m).

(** agents.py:365-366 and 411-415 [overlapping]. *)
Definition overlapping (k : kind) (m : member) (others : list agent) : bool :=
  match k with
  | Circular => overlapping_circles others (a_position (m_row m)) (a_radius (m_row m))
  | ThreeCircle => overlapping_three_circles others (xs_of (to_row k m)) (rs_of (to_row k m))
  end.
(** agents.py:368-369 and 417-418 [overlapping_obstacles]. *)
Definition overlapping_obstacles (k : kind) (m : member) (obstacles : list obstacle) : bool :=
  match k with
  | Circular => overlapping_circle_line [to_row k m] obstacles
  | ThreeCircle => overlapping_three_circle_line [to_row k m] obstacles
  end.

(** agents.py:626-631: state of an [Agents] object. *)
Record agents_obj : Type := Agents {
  ag_kind : kind;
  ag_index : nat;
  ag_array : list agent;
  ag_neighbours : blocklist nat
}.
(** agents.py:626-631 [__init__] *)
Definition agents_new (k : kind) (cell : R) : res agents_obj :=
  do b <- bl_new cell ; Ok (Agents k 0 [] b).

(** agents.py:565-602: the parts of a group placement reads. Simplification:
    the size is a natural number. *)
Record group : Type := Group { g_kind : kind; g_size : nat; g_members : list member }.

(** Block-list key of a position. *)
Definition key_of (p : vec) : list R := [vx p; vy p].

(** How the call ends. [OutOfFuel] is an artefact of the bounded loop below and
    never occurs (property C17). *)
Inductive outcome : Type := Returns | Raises (e : exn) | OutOfFuel.

(** [self.array[neighbours]] *)
Definition rows_at (arr : list agent) (is : list nat) : list agent :=
  map (fun i => nth i arr zero_row) is.

(** agents.py:652-673, the while loop.  [gen n] is the [n]-th position drawn from
    [position_gen] in this call ([None]: the generator is exhausted or the
    callable raises, StopIteration).  Result: outcome, object, members (the agent objects
    are mutated) and number of positions drawn. *)
Fixpoint place_loop (fuel : nat) (k : kind) (size : nat) (gen : nat -> option vec)
    (obstacles : option (list obstacle))
    (st : agents_obj) (members : list member) (draws index overlaps : nat)
    : outcome * agents_obj * list member * nat :=
  if (index <? size)%nat && (overlaps <? 10 * size)%nat then
    match fuel with
    | O => (OutOfFuel, st, members, draws)
    | S fuel' =>
        match nth_error members index with
        | None => (Raises IndexError, st, members, draws)
        | Some m =>
            match gen draws with
            | None => (Raises StopIteration, st, members, draws)
            | Some p =>
                let m := touch k (move_to p m) in
                let members := upd members index m in
                let '(near, bl) := bl_nearest (ag_neighbours st) (key_of p) 1 in
                let st := Agents (ag_kind st) (ag_index st) (ag_array st) bl in
                if overlapping k m (rows_at (ag_array st) near) then
                  place_loop fuel' k size gen obstacles st members (S draws) index (S overlaps)
                else if match obstacles with None => false | Some os => overlapping_obstacles k m os end then
                  place_loop fuel' k size gen obstacles st members (S draws) index (S overlaps)
                else
                  let st := Agents (ag_kind st) (S (ag_index st))
                              (upd (ag_array st) (ag_index st) (to_row k m))
                              (bl_set (ag_neighbours st) (key_of p) (ag_index st)) in
                  place_loop fuel' k size gen obstacles st members (S draws) (S index) overlaps
            end
        end
    end
  else (Returns, st, members, draws).

(** agents.py:633-680 [add_non_overlapping_group]. *)
Definition add_non_overlapping_group (st : agents_obj) (g : group) (gen : nat -> option vec)
    (obstacles : option (list obstacle)) : outcome * agents_obj * list member * nat :=
  if kind_eqb (ag_kind st) (g_kind g) then
    let st := Agents (ag_kind st) (ag_index st)
                (ag_array st ++ repeat zero_row (g_size g)) (ag_neighbours st) in
    place_loop (11 * g_size g) (g_kind g) (g_size g) gen obstacles st (g_members g) 0 0 0
  else (Raises CrowdDynamicsException, st, g_members g, 0%nat).

(** A history of calls; exceptions of a call are caught by the caller, who may
    go on with the same object. *)
Record call : Type := Call {
  c_group : group; c_gen : nat -> option vec; c_obstacles : option (list obstacle) }.
Definition state_of (r : outcome * agents_obj * list member * nat) : agents_obj :=
  let '(_, st, _, _) := r in st.
Definition place_all (st : agents_obj) (cs : list call) : agents_obj :=
  fold_left (fun st c => state_of (add_non_overlapping_group st (c_group c) (c_gen c) (c_obstacles c))) cs st.
