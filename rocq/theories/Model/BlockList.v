(** * crowddynamics/core/block_list.py *)
From Verif Require Export Model.Base.
Open Scope R_scope.

(** Block index: tuple of integers ([elem // cell_size] is an integral float). *)
Definition bkey : Type := list Z.

Fixpoint bkey_eqb (a b : bkey) : bool :=
  match a, b with
  | [], [] => true
  | x :: a', y :: b' => (x =? y)%Z && bkey_eqb a' b'
  | _, _ => false
  end.

Section BlockList.
  Context {A : Type}.

  (** The defaultdict [_blocks]: association list in insertion order. *)
  Definition blocks : Type := list (bkey * list A).

  Record blocklist : Type := BL { cell_size : R; bl_blocks : blocks }.

  (** block_list.py:70-91 [__init__]; [assert cell_size > 0]. The list factory
      is [list]. *)
  Definition bl_new (c : R) : res blocklist :=
    if Rltb 0 c then Ok (BL c []) else Err AssertionError.

  (** block_list.py:93-107 [_transform] on an iterable of numbers. *)
  Definition bl_transform (value : list R) (c : R) : bkey :=
    map (fun elem => floordiv elem c) value.

  (** [range(lo, hi)] *)
  Definition zrange (lo hi : Z) : list Z :=
    map (fun i => (lo + Z.of_nat i)%Z) (seq 0 (Z.to_nat (hi - lo))).

  (** [itertools.product] of a list of ranges, lexicographic order. *)
  Fixpoint zproduct (ranges : list (list Z)) : list (list Z) :=
    match ranges with
    | [] => [[]]
    | r :: rs => flat_map (fun x => map (cons x) (zproduct rs)) r
    end.

  (** [tuple(map(sum, zip(index, i)))] *)
  Fixpoint zip_add (index i : list Z) : list Z :=
    match index, i with
    | a :: index', b :: i' => (a + b)%Z :: zip_add index' i'
    | _, _ => []
    end.

  (** block_list.py:109-122 [_nearest_blocks]. *)
  Definition bl_nearest_blocks (index : bkey) (radius : Z) : list bkey :=
    map (zip_add index)
        (zproduct (map (fun _ => zrange (- radius) (radius + 1)) index)).

  (** [defaultdict.__getitem__]: returns the list, creating an empty one (and
      thereby changing the dict) for an absent key. *)
  Fixpoint dd_find (d : blocks) (k : bkey) : option (list A) :=
    match d with
    | [] => None
    | (k', v) :: d' => if bkey_eqb k k' then Some v else dd_find d' k
    end.
  Definition dd_get (d : blocks) (k : bkey) : list A * blocks :=
    match dd_find d k with
    | Some v => (v, d)
    | None => ([], d ++ [(k, [])])
    end.
  (** [.append(value)] on the list stored under a present key. *)
  Fixpoint dd_append (d : blocks) (k : bkey) (a : A) : blocks :=
    match d with
    | [] => []
    | (k', v) :: d' =>
        if bkey_eqb k k' then (k', v ++ [a]) :: d' else (k', v) :: dd_append d' k a
    end.

  (** block_list.py:124-127 [__setitem__]. *)
  Definition bl_set (b : blocklist) (key : list R) (value : A) : blocklist :=
    let index := bl_transform key (cell_size b) in
    let '(_, d) := dd_get (bl_blocks b) index in
    BL (cell_size b) (dd_append d index value).

  (** block_list.py:129-132 [__getitem__]; the returned list is a value here
      (the caller could also mutate it, which is not modelled). *)
  Definition bl_get (b : blocklist) (item : list R) : list A * blocklist :=
    let '(v, d) := dd_get (bl_blocks b) (bl_transform item (cell_size b)) in
    (v, BL (cell_size b) d).

  (** block_list.py:134-146 [nearest]: [sum] of the lists of the nearest
      blocks; every lookup may extend the dict. *)
  Definition bl_nearest (b : blocklist) (item : list R) (radius : Z) : list A * blocklist :=
    let index := bl_transform item (cell_size b) in
    let '(out, d) :=
      fold_left (fun (s : list A * blocks) key =>
                   let '(out, d) := s in
                   let '(v, d') := dd_get d key in (out ++ v, d'))
                (bl_nearest_blocks index radius) ([], bl_blocks b) in
    (out, BL (cell_size b) d).
End BlockList.
Arguments blocks : clear implicits.
Arguments blocklist : clear implicits.

(** Operations of a client, for histories. *)
Inductive bl_op (A : Type) : Type :=
| OpSet (key : list R) (value : A)
| OpGet (item : list R)
| OpNearest (item : list R) (radius : Z).
Arguments OpSet {A}. Arguments OpGet {A}. Arguments OpNearest {A}.

(** One operation: the list it returns (empty for an insertion) and the new state. *)
Definition bl_step {A} (b : blocklist A) (o : bl_op A) : list A * blocklist A :=
  match o with
  | OpSet k v => ([], bl_set b k v)
  | OpGet k => bl_get b k
  | OpNearest k r => bl_nearest b k r
  end.
(** State after a history. *)
Definition bl_run {A} (b : blocklist A) (ops : list (bl_op A)) : blocklist A :=
  fold_left (fun b o => snd (bl_step b o)) ops b.
