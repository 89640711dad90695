(** * Properties C13-C14: block list *)
From Coq Require Import Lra Lia Permutation.
From Verif Require Import Proofs.BlockListProofs.
Open Scope R_scope.

(** C13 *)
Theorem C13_block_list_needs_positive_cells : forall (A : Type) c (b : blocklist A),
  bl_new c = Ok b -> 0 < c.
Proof. exact @bl_new_pos. Qed.
Print Assumptions C13_block_list_needs_positive_cells.
Theorem C13_getitem_same_cell : forall (A : Type) c (b : blocklist A) ops q,
  bl_new c = Ok b ->
  selected (fun key => same_cell c key q) (insertions ops) (fst (bl_get (bl_run b ops) q)).
Proof. exact @run_get'. Qed.
Print Assumptions C13_getitem_same_cell.
Theorem C13_nearest_cells_within : forall (A : Type) c (b : blocklist A) ops q r,
  bl_new c = Ok b ->
  exists out, Permutation (fst (bl_nearest (bl_run b ops) q r)) out /\
    selected (fun key => cells_within c r q key) (insertions ops) out.
Proof. exact @run_nearest'. Qed.
Print Assumptions C13_nearest_cells_within.
Theorem C13_nearest_finds_everything_close : forall (A : Type) c (b : blocklist A) ops q r key v,
  bl_new c = Ok b -> In (OpSet key v) ops -> coords_within (c * IZR r) q key ->
  In v (fst (bl_nearest (bl_run b ops) q r)).
Proof. exact @run_nearest_complete'. Qed.
Print Assumptions C13_nearest_finds_everything_close.
(** Two keys on either side of zero land in different cells; nearest finds both. *)
Example C13_ex : exists b, bl_new (1 : R) = Ok b /\
  fst (bl_get (bl_run b [OpSet [1/2; -1/2] true; OpSet [1/2; 1/2] false]) [1/4; 1/4]) = [false] /\
  In true (fst (bl_nearest (bl_run b [OpSet [1/2; -1/2] true; OpSet [1/2; 1/2] false]) [1/4; 1/4] 1)).
Proof.
  exists (BL 1 []). assert (E : bl_new (A := bool) 1 = Ok (BL 1 [])) by (unfold bl_new; rdec; auto).
  split; [auto|]. split.
  - refine (selected_fun _ _ _ _ (C13_getitem_same_cell bool 1 _ _ _ E) _).
    cbn [insertions flat_map app]. apply sel_drop; [|apply sel_keep; [|constructor]].
    + intros (z & H1 & H2). inversion H1 as [|? ? ? ? _ H1']; subst. inversion H2 as [|? ? ? ? _ H2']; subst.
      inversion H1' as [|k ? ? ? K1 _]; subst. inversion H2' as [|? ? ? ? K2 _]; subst.
      assert (k < 0)%Z by (apply lt_IZR; lra). assert (-1 < k)%Z by (apply lt_IZR; lra). lia.
    + exists [0%Z; 0%Z]. split; repeat constructor; lra.
  - apply (C13_nearest_finds_everything_close bool 1 _ _ _ 1 [1/2; -1/2]); [auto|now left|].
    unfold coords_within. apply Forall2_cons; [|apply Forall2_cons; [|constructor]]; apply Rabs_le; lra.
Qed.

(** C14 *)
Theorem C14_reads_have_no_effect : forall (A : Type) (b : blocklist A) ops q r,
  fst (bl_get (bl_run b ops) q) = fst (bl_get (bl_run b (only_insertions ops)) q) /\
  fst (bl_nearest (bl_run b ops) q r) = fst (bl_nearest (bl_run b (only_insertions ops)) q r).
Proof. exact @reads_no_effect. Qed.
Print Assumptions C14_reads_have_no_effect.
(** The reads do change the underlying dictionary. *)
Example C14_ex : let b := bl_run (BL (A := nat) 1 []) [OpSet [0] 1%nat; OpGet [7]] in
  length (bl_blocks b) = 2%nat.
Proof.
  assert (E0 : floordiv 0 1 = 0%Z) by (unfold floordiv; apply Int_part_unique; lra).
  assert (E7 : floordiv 7 1 = 7%Z) by (unfold floordiv; apply Int_part_unique; lra).
  unfold bl_run, bl_step, bl_set, bl_get, bl_transform. cbn -[floordiv].
  rewrite !E0, E7. reflexivity.
Qed.
