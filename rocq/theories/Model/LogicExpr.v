(** * Logic trees as they are written in source code

    [N(self) << x << (y, z)] is [Make n [[x]; [y; z]]]: a node and the operands of
    its [<<], which associates to the left (examples/simulations.py:49-53, 125-136,
    examples/collective_motion.py:67-73, 146-154, examples/validation.py:41-44).
    [A] is what [update] of a node needs to know (its class and its traits). *)
From Coq Require String.
From Verif Require Export Model.LogicTree.
Open Scope nat_scope.

Inductive expr (A : Type) : Type := Make (a : A) (operands : list (list (expr A))).
Arguments Make {A} a operands.

(** Evaluation: the left operand of every [<<] first, then the elements of the tuple
    from left to right, then [__lshift__] (base.py:53-75).  The nodes are numbered in
    the order in which they are constructed, [ns] holds them. *)
Section Construct.
  Context {A : Type} (cls : A -> String.string).
  Fixpoint construct (x : expr A) (f : tree_state) (ns : list A) : res (nat * tree_state * list A) :=
    match x with
    | Make a operands =>
        let self := size f in
        (fix shifts (gs : list (list (expr A))) (f : tree_state) (ns : list A) : res (nat * tree_state * list A) :=
           match gs with
           | [] => Ok (self, f, ns)
           | g :: gs' =>
               do r <- (fix tuple (xs : list (expr A)) (f : tree_state) (ns : list A) : res (list nat * tree_state * list A) :=
                          match xs with
                          | [] => Ok ([], f, ns)
                          | x :: xs' =>
                              do r1 <- construct x f ns;
                              let '(i, f1, ns1) := r1 in
                              do r2 <- tuple xs' f1 ns1;
                              let '(is, f2, ns2) := r2 in
                              Ok (i :: is, f2, ns2)
                          end) g f ns;
               let '(is, f', ns') := r in
               match lshift f' self is with
               | (f'', None) => shifts gs' f'' ns'
               | (_, Some e) => Err e
               end
           end) operands (new_node (cls a) f) (ns ++ [a])
    end.
End Construct.
