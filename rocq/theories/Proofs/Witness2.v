(** Concrete placement runs. *)
From Coq Require Import Lra Lia.
From Verif Require Export Proofs.PlacementProofs.
Open Scope R_scope.

Definition near_fold (d : blocks nat) (i j : Z) : list nat * blocks nat :=
  fold_left (fun (s : list nat * blocks nat) key =>
               let '(out, d) := s in
               let '(v, d') := dd_get d key in (out ++ v, d'))
            (bl_nearest_blocks [i; j] 1) ([], d).
Lemma near_eval c (d : blocks nat) p i j : floordiv (vx p) c = i -> floordiv (vy p) c = j ->
  bl_nearest (BL c d) (key_of p) 1 = (fst (near_fold d i j), BL c (snd (near_fold d i j))).
Proof.
  intros <- <-. unfold bl_nearest, near_fold, key_of, bl_transform. cbn [map cell_size bl_blocks].
  destruct (fold_left _ _ _). reflexivity.
Qed.
Lemma set_eval c (d : blocks nat) p v i j : floordiv (vx p) c = i -> floordiv (vy p) c = j ->
  bl_set (BL c d) (key_of p) v = BL c (dd_append (snd (dd_get d [i; j])) [i; j] v).
Proof.
  intros <- <-. unfold bl_set, key_of, bl_transform. cbn [map cell_size bl_blocks].
  destruct (dd_get _ _). reflexivity.
Qed.
(** One iteration without obstacles. *)
Lemma loop_reject fuel k size gen kk n arr c d members draws index overlaps m p i j :
  (index <? size)%nat && (overlaps <? 10 * size)%nat = true ->
  nth_error members index = Some m -> gen draws = Some p ->
  floordiv (vx p) c = i -> floordiv (vy p) c = j ->
  overlapping k (touch k (move_to p m)) (rows_at arr (fst (near_fold d i j))) = true ->
  place_loop (S fuel) k size gen None (Agents kk n arr (BL c d)) members draws index overlaps =
  place_loop fuel k size gen None (Agents kk n arr (BL c (snd (near_fold d i j))))
    (upd members index (touch k (move_to p m))) (S draws) index (S overlaps).
Proof.
  intros B Em G Hi Hj O. cbn [place_loop ag_neighbours ag_kind ag_index ag_array]. rewrite B, Em, G.
  rewrite (near_eval c d p i j Hi Hj). cbn [ag_neighbours ag_kind ag_index ag_array]. rewrite O. reflexivity.
Qed.
Lemma loop_accept fuel k size gen kk n arr c d members draws index overlaps m p i j :
  (index <? size)%nat && (overlaps <? 10 * size)%nat = true ->
  nth_error members index = Some m -> gen draws = Some p ->
  floordiv (vx p) c = i -> floordiv (vy p) c = j ->
  overlapping k (touch k (move_to p m)) (rows_at arr (fst (near_fold d i j))) = false ->
  place_loop (S fuel) k size gen None (Agents kk n arr (BL c d)) members draws index overlaps =
  place_loop fuel k size gen None
    (Agents kk (S n) (upd arr n (to_row k (touch k (move_to p m))))
       (let d1 := snd (near_fold d i j) in BL c (dd_append (snd (dd_get d1 [i; j])) [i; j] n)))
    (upd members index (touch k (move_to p m))) (S draws) (S index) overlaps.
Proof.
  intros B Em G Hi Hj O. cbn [place_loop ag_neighbours ag_kind ag_index ag_array]. rewrite B, Em, G.
  rewrite (near_eval c d p i j Hi Hj). cbn [ag_neighbours ag_kind ag_index ag_array]. rewrite O.
  rewrite (set_eval c _ p n i j Hi Hj). reflexivity.
Qed.

Lemma agents_new_pos k c : 0 < c -> agents_new k c = Ok (Agents k 0 [] (BL c [])).
Proof. intros H. unfold agents_new, bl_new. rdec. reflexivity. Qed.
Lemma floordiv_eq x c k : 0 < c -> c * IZR k <= x < c * (IZR k + 1) -> floordiv x c = k.
Proof.
  intros Hc H. unfold floordiv. apply Int_part_unique.
  assert (E : x = c * (x / c)) by (field; lra). set (q := x / c) in *. clearbody q. subst x. split; nra.
Qed.

(** Two agents of radius 0.29, cell size 0.3 "a little over the maximum radius". *)
Definition w_member (r : R) : member := Member (set_radius r default_row) None None.
Definition w_gen2 (p q : vec) (n : nat) : option vec :=
  match n with O => Some p | S O => Some q | _ => None end.
Lemma overlapping_nil k m : overlapping k m [] = false.
Proof. destruct k; reflexivity. Qed.

Lemma doc_cell_run :
  let g := Group Circular 2 [w_member (29/100); w_member (29/100)] in
  let r := add_non_overlapping_group (Agents Circular 0 [] (BL (3/10) [])) g
             (w_gen2 (V (29/100) 0) (V (6/10) 0)) None in
  fst (fst (fst r)) = Returns /\ ag_index (state_of r) = 2%nat /\
  ag_array (state_of r) = [set_position (V (29/100) 0) (set_radius (29/100) default_row);
                           set_position (V (6/10) 0) (set_radius (29/100) default_row)].
Proof.
  assert (F0 : floordiv 0 (3/10) = 0%Z) by (apply floordiv_eq; lra).
  assert (F1 : floordiv (29/100) (3/10) = 0%Z) by (apply floordiv_eq; lra).
  assert (F2 : floordiv (6/10) (3/10) = 2%Z) by (apply floordiv_eq; lra).
  unfold add_non_overlapping_group. cbn [kind_eqb ag_kind g_kind g_size g_members ag_index ag_array ag_neighbours].
  change (11 * 2)%nat with 22%nat.
  erewrite loop_accept; [|reflexivity|reflexivity|reflexivity|exact F1|exact F0|exact (overlapping_nil _ _)].
  erewrite loop_accept; [|reflexivity|reflexivity|reflexivity|exact F2|exact F0|exact (overlapping_nil _ _)].
  cbn [place_loop Nat.ltb Nat.leb andb]. split; [reflexivity|]. split; reflexivity.
Qed.
Lemma doc_cell_insufficient : exists cell st0 cs a b,
  agents_new Circular cell = Ok st0 /\
  let st := place_all st0 cs in
  ag_index st = 2%nat /\ ag_array st = [a; b] /\ a_radius a < cell /\ a_radius b < cell /\
  bodies_overlap (body Circular a) (body Circular b).
Proof.
  exists (3/10), (Agents Circular 0 [] (BL (3/10) [])),
    [Call (Group Circular 2 [w_member (29/100); w_member (29/100)]) (w_gen2 (V (29/100) 0) (V (6/10) 0)) None].
  do 2 eexists. split; [apply agents_new_pos; lra|].
  destruct doc_cell_run as (_ & I & A). cbn [place_all fold_left c_group c_gen c_obstacles].
  split; [exact I|]. split; [exact A|]. cbn. split; [lra|]. split; [lra|].
  do 2 eexists. split; [left; reflexivity|]. split; [left; reflexivity|].
  unfold gap. cbn. rewrite (edist_eq _ _ (31/100)); cbn; lra.
Qed.

(** Default cell size, two agents apart: both placed. *)
Lemma two_placed :
  let g := Group Circular 2 [w_member (1/4); w_member (1/4)] in
  exists cell st0, agents_new Circular cell = Ok st0 /\
  let st := place_all st0 [Call g (w_gen2 (V 0 0) (V (1/2) 0)) None] in
  ag_index st = 2%nat /\
  ag_array st = [set_position (V 0 0) (set_radius (1/4) default_row);
                 set_position (V (1/2) 0) (set_radius (1/4) default_row)] /\
  1/4 + 1/4 <= cell.
Proof.
  exists (6/10), (Agents Circular 0 [] (BL (6/10) [])). split; [apply agents_new_pos; lra|].
  assert (F0 : floordiv 0 (6/10) = 0%Z) by (apply floordiv_eq; lra).
  assert (F2 : floordiv (1/2) (6/10) = 0%Z) by (apply floordiv_eq; lra).
  cbn [place_all fold_left c_group c_gen c_obstacles].
  unfold add_non_overlapping_group. cbn [kind_eqb ag_kind g_kind g_size g_members ag_index ag_array ag_neighbours].
  change (11 * 2)%nat with 22%nat.
  erewrite loop_accept; [|reflexivity|reflexivity|reflexivity|exact F0|exact F0|exact (overlapping_nil _ _)].
  erewrite loop_accept; [|reflexivity|reflexivity|reflexivity|exact F2|exact F0|].
  2:{ apply not_true_iff_false. rewrite overlapping_iff. intros (a & Ha & c & d & Hc & Hd & H).
      destruct Ha as [<-|[]]. destruct Hc as [<-|[]], Hd as [<-|[]]. unfold gap in H. cbn in H.
      rewrite (edist_eq _ _ (1/2)) in H; cbn; lra. }
  cbn [place_loop Nat.ltb Nat.leb andb]. split; [reflexivity|]. split; [reflexivity|lra].
Qed.

(** Stale shoulders: the first position of the second member is rejected. *)
Definition w3 : member :=
  Member (set_r_ts (15/100) (set_r_s (1/10) (set_r_t (15/100) default_row))) None None.
Definition w_gen3 (n : nat) : option vec :=
  match n with O => Some (V 0 0) | S O => Some (V 0 0) | S (S O) => Some (V 6 6) | _ => None end.
Lemma stale_run :
  let r := add_non_overlapping_group (Agents ThreeCircle 0 [] (BL (6/10) [])) (Group ThreeCircle 2 [w3; w3]) w_gen3 None in
  fst (fst (fst r)) = Returns /\ ag_index (state_of r) = 2%nat /\
  ag_array (state_of r) = [to_row ThreeCircle (move_to (V 0 0) w3);
                           to_row ThreeCircle (move_to (V 6 6) (touch ThreeCircle (move_to (V 0 0) w3)))].
Proof.
  assert (F0 : floordiv 0 (6/10) = 0%Z) by (apply floordiv_eq; lra).
  assert (F6 : floordiv 6 (6/10) = 10%Z) by (apply floordiv_eq; lra).
  unfold add_non_overlapping_group. cbn [kind_eqb ag_kind g_kind g_size g_members ag_index ag_array ag_neighbours].
  change (11 * 2)%nat with 22%nat.
  erewrite loop_accept; [|reflexivity|reflexivity|reflexivity|exact F0|exact F0|exact (overlapping_nil _ _)].
  erewrite loop_reject; [|reflexivity|reflexivity|reflexivity|exact F0|exact F0|].
  2:{ rewrite overlapping_iff. eexists. split; [left; reflexivity|].
      do 2 eexists. split; [left; reflexivity|]. split; [left; reflexivity|].
      unfold gap. cbn. rewrite (edist_eq _ _ 0); cbn; lra. }
  erewrite loop_accept; [|reflexivity|reflexivity|reflexivity|exact F6|exact F6|exact (overlapping_nil _ _)].
  cbn [place_loop Nat.ltb Nat.leb andb]. split; [reflexivity|]. split; reflexivity.
Qed.
Lemma stale_shoulders : exists st0 g gen,
  agents_new ThreeCircle (6/10) = Ok st0 /\
  (forall m, In m (g_members g) -> m_ls m = None /\ m_rs m = None) /\
  let st := place_all st0 [Call g gen None] in
  exists a b, ag_index st = 2%nat /\ ag_array st = [a; b] /\
    Rmax (a_r_t a) (a_r_ts a + a_r_s a) + Rmax (a_r_t b) (a_r_ts b + a_r_s b) <= 6/10 /\
    ~ shoulders_in_place b /\ bodies_overlap (body ThreeCircle a) (body ThreeCircle b).
Proof.
  exists (Agents ThreeCircle 0 [] (BL (6/10) [])), (Group ThreeCircle 2 [w3; w3]), w_gen3.
  split; [apply agents_new_pos; lra|]. split; [intros m [<-|[<-|[]]]; cbn; auto|].
  do 2 eexists. destruct stale_run as (_ & I & A). cbn [place_all fold_left c_group c_gen c_obstacles].
  split; [exact I|]. split; [exact A|].
  unfold w3, move_to, touch, to_row, default_ls, default_rs, unit_vector, rotate270. cbn. rewrite ?cos_0, ?sin_0.
  split; [|split].
  - rewrite Rmax_right; lra.
  - unfold shoulders_in_place. cbn. intros [E _]. apply vec_eq_inv in E as [E _].
    rewrite ?sin_0, ?cos_0 in E. lra.
  - do 2 eexists. split; [right; left; reflexivity|]. split; [right; left; reflexivity|].
    unfold gap. cbn. rewrite (edist_eq _ _ 0); cbn; lra.
Qed.
