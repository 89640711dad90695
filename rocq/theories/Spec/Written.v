(** * The order in which a written logic tree is meant to run

    First the operands of [<<], in the order in which they are written and each with
    its own operands first, then the node itself. *)
From Verif Require Export Model.LogicExpr.
Fixpoint written_order {A} (x : expr A) : list A :=
  match x with Make a operands => flat_map (flat_map written_order) operands ++ [a] end.
