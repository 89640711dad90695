(** * Square cells of side [c] in any dimension *)
From Verif Require Export Model.BlockList.
Open Scope R_scope.

(** The point [x] lies in the half-open cell with integer index [z]. *)
Definition in_cell (c : R) (z : list Z) (x : list R) : Prop :=
  Forall2 (fun k e => c * IZR k <= e < c * (IZR k + 1)) z x.

Definition same_cell (c : R) (x y : list R) : Prop :=
  exists z, in_cell c z x /\ in_cell c z y.

(** Cell indices differ by at most [r] in every dimension. *)
Definition cells_within (c : R) (r : Z) (x y : list R) : Prop :=
  exists zx zy, in_cell c zx x /\ in_cell c zy y /\
    Forall2 (fun a b => (Z.abs (a - b) <= r)%Z) zx zy.

(** Coordinates differ by at most [d] in every dimension. *)
Definition coords_within (d : R) (x y : list R) : Prop :=
  Forall2 (fun a b => Rabs (a - b) <= d) x y.

(** [out] lists the second components of the entries of [h] whose first
    component satisfies [P], in order. *)
Inductive selected {A B : Type} (P : A -> Prop) : list (A * B) -> list B -> Prop :=
| sel_nil : selected P [] []
| sel_keep a b h out : P a -> selected P h out -> selected P ((a, b) :: h) (b :: out)
| sel_drop a b h out : ~ P a -> selected P h out -> selected P ((a, b) :: h) out.

(** The insertions of a history, oldest first. *)
Definition insertions {A} (ops : list (bl_op A)) : list (list R * A) :=
  flat_map (fun o => match o with OpSet k v => [(k, v)] | _ => [] end) ops.
(** The history with all its reads dropped. *)
Definition only_insertions {A} (ops : list (bl_op A)) : list (bl_op A) :=
  filter (fun o => match o with OpSet _ _ => true | _ => false end) ops.
