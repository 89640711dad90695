(** * Scenes that are their own mirror image, or look the same when turned *)
From Coq Require Export Permutation.
From Verif Require Export Spec.Frames Spec.Parts Spec.Resume.
Open Scope R_scope.

(** The surroundings look the same in the new coordinates: the walls in any order, each target
    with its points in any order. *)
Record symmetric_world (F : frame) (e : env) : Prop := SymmetricWorld {
  sy_walls : same_walls (map (fun o => Obs (point F (p0 o)) (point F (p1 o))) (e_obstacles e)) (e_obstacles e);
  sy_targets : Forall2 (fun t t' => Permutation (map (point F) t) t') (e_targets e) (e_targets e);
  sy_targets_ok : ~ In [] (e_targets e);
  sy_nav : forall step radius strength t md, e_nav e step radius strength t = Ok md ->
    forall p, answer md (point F p) = option_map (option_map (vect F)) (answer md p);
  sy_inside : forall p, e_inside e (point F p) = e_inside e p }.
(** The agents too: number [m] is the image of number [i], its partner, for [sel = ... i ...] with
    [i] at place [m]. *)
Definition symmetric_crowd (F : frame) (sel : list nat) (agents : list agent) : Prop :=
  Permutation sel (seq 0 (length agents)) /\
  forall m i a b, nth_error sel m = Some i -> nth_error agents i = Some a -> nth_error agents m = Some b -> seen Circular F a b.
(** The random forces as well. *)
Definition symmetric_draws (F : frame) (sel : list nat) (e : env) : Prop := forall n m i, nth_error sel m = Some i ->
  let '(phi, z, zt) := e_draws e n i in let '(phi', z', zt') := e_draws e n m in
  V (cos phi') (sin phi') = vect F (V (cos phi) (sin phi)) /\ z' = z /\ zt' = zt.
(** Or there are none. *)
Definition no_noise (agents : list agent) : Prop := forall a, In a agents -> a_std_rand_force a = 0.
(** The mirror image in the x axis. *)
Definition mirror : frame := Frame 1 0 (-1) (V 0 0).
