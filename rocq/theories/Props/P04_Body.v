(** * Properties C18-C20, C62, C86, C87: groups, bodies, agent records *)
From Coq Require Import Lra Lia.
From Verif Require Import Proofs.AgentObjectProofs.
Open Scope R_scope.

(** C18. A callable source: [size] members in call order, but constructed with
    three keyword arguments the source is called [3 * size] times, not [size]
    times, and the members come from the last [size] calls. *)
Theorem C18_callable_members_partial : forall (D : Type) size (s : nat -> D), (0 < size)%Z ->
  exists g, group_new size (Callable s 0) = (None, g) /\
    length (gr_members g) = Z.to_nat size /\
    (forall i, (i < Z.to_nat size)%nat -> nth_error (gr_members g) i = Some (s (2 * Z.to_nat size + i)%nat)) /\
    gr_attributes g = Some (Callable s (3 * Z.to_nat size)).
Proof. exact @new_callable. Qed.
Print Assumptions C18_callable_members_partial.
(** An iterator with at least [3 * size] items. *)
Theorem C18_iterator_members_partial : forall (D : Type) size (s : nat -> option D), (0 < size)%Z ->
  (forall i, (i < 3 * Z.to_nat size)%nat -> s i <> None) ->
  exists g, group_new size (Gen s 0) = (None, g) /\
    length (gr_members g) = Z.to_nat size /\
    (forall i, (i < Z.to_nat size)%nat -> nth_error (gr_members g) i = s (2 * Z.to_nat size + i)%nat) /\
    gr_attributes g = Some (Gen s (3 * Z.to_nat size)).
Proof. exact @new_gen. Qed.
Print Assumptions C18_iterator_members_partial.
(** An iterator with exactly one item per member is never enough. *)
Theorem C18_one_item_per_member_refuted : forall (D : Type) size (s : nat -> option D), (0 < size)%Z ->
  (forall i, s i <> None <-> (i < Z.to_nat size)%nat) ->
  fst (group_new size (Gen s 0)) = Some StopIteration.
Proof. exact @new_gen_exact. Qed.
Print Assumptions C18_one_item_per_member_refuted.
(** A collection decides the number of members by itself. *)
Theorem C18_collection_ignores_size_refuted : forall (D : Type) size (l : list D), (0 < size)%Z ->
  exists g, group_new size (Coll l) = (None, g) /\ gr_members g = l.
Proof. exact @new_coll. Qed.
Print Assumptions C18_collection_ignores_size_refuted.
(** Each later rebuild of a group takes the next [size] items in order. *)
Theorem C18_rebuild_takes_next_items_partial : forall (D : Type) size ms (s : nat -> option D) n g, (0 < size)%Z ->
  observe_members (AGroup size true (Some (Gen s n)) ms) = (None, g) ->
  length (gr_members g) = Z.to_nat size /\
  (forall i, (i < Z.to_nat size)%nat -> nth_error (gr_members g) i = s (n + i)%nat) /\
  gr_attributes g = Some (Gen s (n + Z.to_nat size)).
Proof. exact @rebuild_gen. Qed.
Print Assumptions C18_rebuild_takes_next_items_partial.
(** Assigning the size it has changes nothing and draws nothing. *)
Theorem C18_same_size : forall (D : Type) (g : agroup D), assign_size (gr_size g) g = (None, g).
Proof. intros D [size ty attrs ms]. cbn. now rewrite Z.eqb_refl. Qed.
Print Assumptions C18_same_size.
(** Another positive size rebuilds the group with that many members. *)
Theorem C18_resized : forall (D : Type) old size ms (s : nat -> D) n, (0 < size)%Z -> size <> old ->
  exists g, assign_size size (AGroup old true (Some (Callable s n)) ms) = (None, g) /\ gr_size g = size /\
    length (gr_members g) = Z.to_nat size /\ (forall i, (i < Z.to_nat size)%nat -> nth_error (gr_members g) i = Some (s (n + i)%nat)) /\
    gr_attributes g = Some (Callable s (n + Z.to_nat size)).
Proof.
  intros D old size ms s n P N. unfold assign_size. apply Z.eqb_neq in N. rewrite N. unfold observe_members. apply Z.ltb_lt in P. rewrite P. cbn [andb].
  eexists. split; [reflexivity|]. cbn [gr_size gr_members gr_attributes]. rewrite map_length, seq_length. repeat split.
  intros i H. rewrite nth_error_map. replace (nth_error (seq n (Z.to_nat size)) i) with (Some (n + i)%nat); [reflexivity|].
  symmetry. rewrite (nth_error_nth' _ 0%nat) by (now rewrite seq_length). f_equal. now rewrite seq_nth.
Qed.
Print Assumptions C18_resized.
(** Refuted: a group whose size is set to zero, or below, keeps its members. *)
Theorem C18_emptied_refuted : forall (D : Type) size (g : agroup D), (size <= 0)%Z ->
  exists g', assign_size size g = (None, g') /\ gr_size g' = size /\ gr_members g' = gr_members g.
Proof.
  intros D size [old ty attrs ms] P. unfold assign_size. destruct (Z.eqb_spec size old) as [->|N]; [eexists; repeat split|].
  unfold observe_members. apply Z.ltb_ge in P. rewrite P. eexists. repeat split.
Qed.
Print Assumptions C18_emptied_refuted.
Example C18_ex : let g := snd (group_new 2 (Callable (fun n => n) 0)) in gr_members g = [4; 5]%nat.
Proof. reflexivity. Qed.
Example C18_ex_iterator : fst (group_new 2 (Gen (fun n => if (n <? 2)%nat then Some n else None) 0)) = Some StopIteration /\
  fst (group_new 2 (Gen (fun n => if (n <? 6)%nat then Some n else None) 0)) = None.
Proof. split; reflexivity. Qed.

(** C19: any history of assignments, with any configuration file and any draws. *)
Theorem C19_radii_follow_ratios : forall zs cfg os, let b := brun zs cfg body0 os in
  b_r_t b = b_ratio_rt b * b_radius b /\
  b_r_s b = b_ratio_rs b * b_radius b /\
  b_r_ts b = b_ratio_ts b * b_radius b.
Proof. exact radii_consistent. Qed.
Print Assumptions C19_radii_follow_ratios.
(** Changing the body type raises; nothing but the stored name changes. *)
Theorem C19_body_type_once : forall zs cfg b name, b_body_type b <> ""%string -> name <> b_body_type b ->
  fst (assign_body_type zs cfg name b) = Some TraitError /\
  snd (assign_body_type zs cfg name b) = put_body_type name b.
Proof. exact body_type_once. Qed.
Print Assumptions C19_body_type_once.
Example C19_ex : let b := brun (fun _ => 0) shipped_config body0 [SetField Radius (1/2); SetField RatioRt (1/4); SetField Radius 1] in
  b_radius b = 1 /\ b_r_t b = 1/4.
Proof. exact small_history. Qed.

(** C20: every shipped body type, every sequence of draws from [-3, 3]. *)
Theorem C20_shipped_bodies : forall zs name rt rs ts rm rsc tvm tvs mm ms,
  (forall n, -3 <= zs n <= 3) -> In (name, cfg_section rt rs ts rm rsc tvm tvs mm ms) shipped ->
  exists b, assign_body_type zs shipped_config name body0 = (None, b) /\
    rm - rsc <= b_radius b <= rm + rsc /\ 0 < b_radius b /\
    tvm - tvs <= b_target_velocity b <= tvm + tvs /\ 0 < b_target_velocity b /\
    mm - ms <= b_mass b <= mm + ms /\ 0 < b_mass b /\
    b_inertia_rot b = 4 * PI * (b_mass b / 80) * (b_radius b / (27/100)) ^ 2 /\
    b_r_t b = rt * b_radius b /\ b_r_s b = rs * b_radius b /\ b_r_ts b = ts * b_radius b /\
    b_target_angular_velocity b = 0 /\
    0 < b_r_t b <= b_radius b /\ 0 < b_r_s b /\ 0 < b_r_ts b /\ b_r_ts b + b_r_s b <= b_radius b /\
    b_radius b <= 3/10.
Proof. exact shipped_body. Qed.
Print Assumptions C20_shipped_bodies.
(** The five shipped sections, so that the hypothesis above is met. *)
Example C20_ex : map fst shipped = ["adult"; "male"; "female"; "child"; "eldery"]%string /\
  In ("male"%string, cfg_section (5926/10000) (3704/10000) (6296/10000) (27/100) (2/100) (135/100) (2/10) 80 8) shipped.
Proof. split; [reflexivity|]. right. now left. Qed.

(** C62: any object whose values passed their validators, loaded into any object. *)
Theorem C62_round_trip : forall zs k o o', obj_valid k o ->
  exists o'', from_array zs k [obj_row o] o' = Ok o'' /\ obj_row o'' = obj_row o.
Proof. exact round_trip. Qed.
Print Assumptions C62_round_trip.
(** The row holds the value of every trait, and the object loaded has the same values. *)
Theorem C62_row_holds_traits : forall o, row_of_object (obj_row o) o.
Proof. exact obj_row_values. Qed.
Print Assumptions C62_row_holds_traits.
Theorem C62_traits_reproduced : forall zs k o o', obj_valid k o ->
  exists o'', from_array zs k [obj_row o] o' = Ok o'' /\ same_traits o'' o.
Proof. exact round_trip_traits. Qed.
Print Assumptions C62_traits_reproduced.
Theorem C62_one_row_only : forall zs k rows o, length rows <> 1%nat -> from_array zs k rows o = Err ValueError.
Proof. exact from_array_needs_one. Qed.
Print Assumptions C62_one_row_only.
Example C62_ex : obj_valid Circular (AObj (bput Radius 1 (bput Mass 80 (put_radii (1/2) (1/3) (2/3) body0))) default_row).
Proof. exact example_obj_valid. Qed.

(** C86: [b] is a body with a value of the trait [f] other than 0.  Any history of
    assignments, including the choice of a body type, that does not name [f]. *)
Theorem C86_explicit_values_kept : forall zs cfg f os b, f = Radius \/ f = Mass \/ f = TargetVelocity ->
  (forall o, In o os -> leaves_alone cfg f o) -> bget f b <> 0 -> bget f (brun zs cfg b os) = bget f b.
Proof. intros zs cfg f os b D. now apply explicit_kept. Qed.
Print Assumptions C86_explicit_values_kept.
(** The shipped body types name none of the three. *)
Theorem C86_shipped_body_types : forall f name, f = Radius \/ f = Mass \/ f = TargetVelocity -> leaves_alone shipped_config f (SetBodyType name).
Proof. exact shipped_leaves_alone. Qed.
Print Assumptions C86_shipped_body_types.
Example C86_case : bget Radius (brun (fun _ => 0) shipped_config body0 [SetField Radius (1/4); SetBodyType "male"]) = 1/4.
Proof.
  change (bget Radius (brun (fun _ => 0) shipped_config (snd (assign (fun _ => 0) Radius (1/4) body0)) [SetBodyType "male"]) = 1/4).
  assert (E : bget Radius (snd (assign (fun _ => 0) Radius (1/4) body0)) = 1/4).
  { unfold assign, bvalid, observe_inertia. cbn. repeat (rdec; cbn). reflexivity. }
  rewrite C86_explicit_values_kept, E; auto; [|lra]. intros o [<- | []]. apply C86_shipped_body_types. auto.
Qed.

(** C87: the inertia is that of the mass and the radius.  It is computed when both are
    first known. *)
Theorem C87_first_inertia_partial : forall zs cfg b v f, (f = Radius \/ f = Mass) -> b_inertia_rot b = 0 -> 0 < v -> v <> bget f b ->
  let b' := snd (bstep zs cfg b (SetField f v)) in
  0 < b_radius b' -> 0 < b_mass b' -> b_inertia_rot b' = 4 * PI * (b_mass b' / 80) * (b_radius b' / (27/100)) ^ 2.
Proof. exact first_inertia. Qed.
Print Assumptions C87_first_inertia_partial.
(** It never changes afterwards, whatever happens to mass and radius. *)
Theorem C87_inertia_never_updated_refuted : forall zs cfg os b, b_inertia_rot b <> 0 -> b_inertia_rot (brun zs cfg b os) = b_inertia_rot b.
Proof. exact inertia_kept. Qed.
Print Assumptions C87_inertia_never_updated_refuted.
Theorem C87_wrong_inertia_refuted : forall zs cfg, exists os, let b := brun zs cfg body0 os in
  0 < b_radius b /\ 0 < b_mass b /\ b_inertia_rot b <> 4 * PI * (b_mass b / 80) * (b_radius b / (27/100)) ^ 2.
Proof. intros zs cfg. exists [SetField Mass 80; SetField Radius (27/100); SetField Mass 40]. exact (stale_inertia zs cfg). Qed.
Print Assumptions C87_wrong_inertia_refuted.
Example C87_case : let b := brun (fun _ => 0) shipped_config body0 [SetField Mass 80] in b_inertia_rot b = 0 /\ 0 < b_mass b /\ 27/100 <> bget Radius b.
Proof.
  unfold brun. cbn [fold_left bstep]. unfold assign, bvalid, observe_inertia. cbn. repeat (rdec; cbn). repeat split; lra.
Qed.
