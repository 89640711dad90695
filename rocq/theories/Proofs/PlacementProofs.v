From Coq Require Import Lra Lia Permutation.
From Verif Require Export Proofs.OverlapProofs Proofs.BlockListProofs Model.Placement Spec.Placed.
Open Scope R_scope.

(** ** Rows and members *)
Lemma kind_eqb_iff a b : kind_eqb a b = true <-> a = b.
Proof. destruct a, b; cbn; split; congruence. Qed.
Lemma to_row_touch k m : to_row k (touch k m) = to_row k m.
Proof. destruct k; reflexivity. Qed.
Lemma touch_position k m : a_position (m_row (touch k m)) = a_position (m_row m).
Proof. destruct k; reflexivity. Qed.
Lemma to_row_position k m : a_position (to_row k m) = a_position (m_row m).
Proof. destruct k; reflexivity. Qed.
Lemma overlapping_iff k m others :
  overlapping k m others = true <->
  exists a, In a others /\ bodies_overlap (body k a) (body k (to_row k m)).
Proof.
  destruct k; cbn [overlapping].
  - apply overlapping_circles_iff.
  - rewrite overlapping_three_circles_iff. reflexivity.
Qed.
Lemma overlapping_obstacles_iff k m os : Forall positive_length os ->
  (overlapping_obstacles k m os = true <->
   exists o, In o os /\ body_hits_wall (body k (to_row k m)) (p0 o) (p1 o)).
Proof.
  intros F. destruct k; cbn [overlapping_obstacles].
  - rewrite overlapping_circle_line_iff by auto. split.
    + intros (a & [<-|[]] & H). exact H.
    + intros H. eexists; split; [now left|exact H].
  - rewrite overlapping_three_circle_line_iff by auto. split.
    + intros (a & [<-|[]] & H). exact H.
    + intros H. eexists; split; [now left|exact H].
Qed.

(** ** Distance and coordinates *)
Lemma edist_ge_x a b : Rabs (vx a - vx b) <= edist a b.
Proof.
  unfold edist. rewrite <- sqrt_Rsqr_abs. apply sqrt_le_1_alt. pose proof (Rle_0_sqr (vy a - vy b)). unfold Rsqr in *. lra.
Qed.
Lemma edist_ge_y a b : Rabs (vy a - vy b) <= edist a b.
Proof.
  unfold edist. rewrite <- sqrt_Rsqr_abs. apply sqrt_le_1_alt. pose proof (Rle_0_sqr (vx a - vx b)). unfold Rsqr in *. lra.
Qed.
Lemma coords_or_far c p q : coords_within (c * IZR 1) (key_of p) (key_of q) \/ c < edist p q.
Proof.
  unfold coords_within, key_of. pose proof (edist_ge_x p q). pose proof (edist_ge_y p q).
  destruct (Rle_dec (Rabs (vx p - vx q)) (c * 1)).
  - destruct (Rle_dec (Rabs (vy p - vy q)) (c * 1)).
    + left. apply Forall2_cons; [auto|]. apply Forall2_cons; [auto|]. constructor.
    + right. lra.
  - right. lra.
Qed.
Lemma far_no_overlap k a b ra rb c :
  body_within k a ra -> body_within k b rb -> ra + rb <= c ->
  c < edist (a_position a) (a_position b) -> ~ bodies_overlap (body k a) (body k b).
Proof.
  intros Ha Hb Hc Hd (x & y & Hx & Hy & H). specialize (Ha x Hx). specialize (Hb y Hy).
  unfold gap in H.
  pose proof (edist_triangle (a_position a) (fst x) (a_position b)).
  pose proof (edist_triangle (fst x) (fst y) (a_position b)).
  rewrite (edist_sym (a_position a) (fst x)) in *. lra.
Qed.
Lemma bodies_overlap_sym b1 b2 : bodies_overlap b1 b2 -> bodies_overlap b2 b1.
Proof.
  intros (c & d & Hc & Hd & H). exists d, c. split; auto. split; auto.
  unfold gap in *. rewrite edist_sym. lra.
Qed.
Lemma circular_within a : body_within Circular a (a_radius a).
Proof. intros c [<-|[]]. cbn. rewrite edist_refl. lra. Qed.
Lemma three_within a rho : shoulders_in_place a -> 0 <= a_r_ts a ->
  a_r_t a <= rho -> a_r_ts a + a_r_s a <= rho -> body_within ThreeCircle a rho.
Proof.
  intros [Hl Hr] Ht H1 H2 c. pose proof (sin2_cos2 (a_orientation a)) as SC. unfold Rsqr in SC.
  cbn in Hl, Hr. apply vec_eq_inv in Hl as [L1 L2]. apply vec_eq_inv in Hr as [R1 R2].
  intros [<-|[<-|[<-|[]]]]; cbn [fst snd].
  - rewrite edist_refl. lra.
  - rewrite (edist_eq _ _ (a_r_ts a)); try lra. rewrite L1, L2.
    replace (a_r_ts a * a_r_ts a) with (a_r_ts a * a_r_ts a * (sin (a_orientation a) * sin (a_orientation a) + cos (a_orientation a) * cos (a_orientation a))) by (rewrite SC; ring). ring.
  - rewrite (edist_eq _ _ (a_r_ts a)); try lra. rewrite R1, R2.
    replace (a_r_ts a * a_r_ts a) with (a_r_ts a * a_r_ts a * (sin (a_orientation a) * sin (a_orientation a) + cos (a_orientation a) * cos (a_orientation a))) by (rewrite SC; ring). ring.
Qed.

(** ** The invariant of an [Agents] object *)
Definition row (st : agents_obj) (i : nat) : agent := nth i (ag_array st) zero_row.

Record wf (cell : R) (st : agents_obj) : Prop := {
  wf_cell : 0 < cell;
  wf_index : (ag_index st <= length (ag_array st))%nat;
  wf_blocks : exists ops, ag_neighbours st = bl_run (BL cell []) ops /\
    insertions ops = map (fun i => (key_of (a_position (row st i)), i)) (seq 0 (ag_index st));
  wf_rest : forall i, (ag_index st <= i < length (ag_array st))%nat -> nth_error (ag_array st) i = Some zero_row;
  wf_apart : forall i j ra rb, (i < j < ag_index st)%nat ->
    body_within (ag_kind st) (row st i) ra -> body_within (ag_kind st) (row st j) rb -> ra + rb <= cell ->
    ~ bodies_overlap (body (ag_kind st) (row st i)) (body (ag_kind st) (row st j))
}.

Lemma wf_new k cell st : agents_new k cell = Ok st -> wf cell st /\ ag_kind st = k /\ ag_index st = 0%nat.
Proof.
  unfold agents_new. destruct (bl_new cell) as [b|e] eqn:E; cbn; [|discriminate].
  intros H; injection H as <-. assert (Hc := bl_new_pos _ _ E).
  unfold bl_new in E. replace (Rltb 0 cell) with true in E by (symmetry; now apply Rltb_true).
  injection E as <-. split; [|auto]. constructor; cbn; auto.
  - exists []. auto.
  - intros; lia.
  - intros; lia.
Qed.

Lemma nth_app_l {A} (l l' : list A) i d : (i < length l)%nat -> nth i (l ++ l') d = nth i l d.
Proof. intros; now apply app_nth1. Qed.
Lemma wf_grow cell st n : wf cell st ->
  wf cell (Agents (ag_kind st) (ag_index st) (ag_array st ++ repeat zero_row n) (ag_neighbours st)).
Proof.
  intros [Hc Hi Hb Hr Ha]. 
  assert (Row : forall i, (i < ag_index st)%nat ->
     row (Agents (ag_kind st) (ag_index st) (ag_array st ++ repeat zero_row n) (ag_neighbours st)) i = row st i).
  { intros i H. unfold row. cbn. apply nth_app_l. lia. }
  constructor; cbn [ag_kind ag_index ag_array ag_neighbours]; auto.
  - rewrite app_length. lia.
  - destruct Hb as (ops & E & I). exists ops. split; auto. rewrite I.
    apply map_ext_in. intros i H. apply in_seq in H. rewrite Row by lia. reflexivity.
  - intros i H. rewrite app_length, repeat_length in H.
    destruct (Nat.lt_ge_cases i (length (ag_array st))).
    + rewrite nth_error_app1 by auto. apply Hr. lia.
    + rewrite nth_error_app2 by auto. rewrite (nth_error_nth' _ zero_row) by (rewrite repeat_length; lia).
      now rewrite nth_repeat.
  - intros i j ra rb H. rewrite !Row by lia. apply Ha; auto.
Qed.

(** Reading the block list keeps the invariant and finds every near agent. *)
Lemma wf_read cell st p : wf cell st ->
  let '(near, bl) := bl_nearest (ag_neighbours st) (key_of p) 1 in
  wf cell (Agents (ag_kind st) (ag_index st) (ag_array st) bl) /\
  forall i, (i < ag_index st)%nat -> coords_within (cell * IZR 1) (key_of p) (key_of (a_position (row st i))) -> In i near.
Proof.
  intros [Hc Hi (ops & E & I) Hr Ha].
  assert (Eb : bl_new (A := nat) cell = Ok (BL cell [])).
  { unfold bl_new. replace (Rltb 0 cell) with true by (symmetry; now apply Rltb_true). reflexivity. }
  pose proof (fun i => run_nearest_complete' cell _ ops (key_of p) 1 (key_of (a_position (row st i))) i Eb) as N.
  rewrite <- E in N. destruct (bl_nearest (ag_neighbours st) (key_of p) 1) as [near bl] eqn:EN. split.
  - constructor; cbn [ag_kind ag_index ag_array ag_neighbours]; auto.
    exists (ops ++ [OpNearest (key_of p) 1]). split.
    + unfold bl_run in *. rewrite fold_left_app. cbn [fold_left bl_step]. rewrite <- E, EN. reflexivity.
    + unfold insertions. rewrite flat_map_app. cbn. rewrite app_nil_r. exact I.
  - intros i H W. apply N; auto.
    assert (In (key_of (a_position (row st i)), i) (insertions ops)).
    { rewrite I. apply in_map_iff. exists i. split; auto. apply in_seq. lia. }
    unfold insertions in H0. apply in_flat_map in H0 as (o & Ho & H0).
    destruct o; cbn in H0; try tauto. destruct H0 as [H0|[]]. injection H0 as -> ->. exact Ho.
Qed.

Lemma nth_upd_eq {A} (l : list A) i x d : (i < length l)%nat -> nth i (upd l i x) d = x.
Proof. intros H. apply nth_error_nth. now apply upd_nth_eq. Qed.
Lemma nth_upd_neq {A} (l : list A) i j x d : i <> j -> nth j (upd l i x) d = nth j l d.
Proof.
  intros H. pose proof (upd_nth_neq l i j x H) as E.
  destruct (nth_error l j) eqn:E'.
  - rewrite (nth_error_nth _ _ d E), (nth_error_nth _ _ d E'). auto.
  - rewrite !nth_overflow; auto; apply nth_error_None; auto.
Qed.

Definition store (st : agents_obj) (p : vec) (a : agent) : agents_obj :=
  Agents (ag_kind st) (S (ag_index st)) (upd (ag_array st) (ag_index st) a)
         (bl_set (ag_neighbours st) (key_of p) (ag_index st)).
Lemma wf_store cell st a p : wf cell st -> (ag_index st < length (ag_array st))%nat ->
  a_position a = p ->
  (forall i ra rb, (i < ag_index st)%nat -> body_within (ag_kind st) (row st i) ra ->
     body_within (ag_kind st) a rb -> ra + rb <= cell ->
     ~ bodies_overlap (body (ag_kind st) (row st i)) (body (ag_kind st) a)) ->
  wf cell (store st p a).
Proof.
  intros [Hc Hi (ops & E & I) Hr Ha] Hl Hp Hn.
  assert (Old : forall i, (i < ag_index st)%nat -> row (store st p a) i = row st i).
  { intros i H. unfold row, store; cbn. apply nth_upd_neq. lia. }
  assert (New : row (store st p a) (ag_index st) = a).
  { unfold row, store; cbn. now apply nth_upd_eq. }
  constructor; try (cbn [store ag_kind ag_index ag_array ag_neighbours]); auto.
  - rewrite upd_length. lia.
  - exists (ops ++ [OpSet (key_of p) (ag_index st)]). split.
    + unfold bl_run in *. rewrite fold_left_app. cbn. now rewrite <- E.
    + unfold insertions in *. rewrite flat_map_app, I. cbn [flat_map app].
      rewrite seq_S, map_app. f_equal.
      * apply map_ext_in. intros i H. apply in_seq in H. rewrite Old by lia. reflexivity.
      * cbn [map plus]. rewrite New, Hp. reflexivity.
  - intros i H. rewrite upd_length in H. rewrite upd_nth_neq by lia. apply Hr. lia.
  - intros i j ra rb H. rewrite (Old i) by lia.
    destruct (Nat.eq_dec j (ag_index st)) as [->|Hj].
    + rewrite New. intros. apply (Hn i ra rb); auto. lia.
    + rewrite (Old j) by lia. apply Ha. lia.
Qed.

(** ** The loop *)
Lemma set_position_twice p q a : set_position p (set_position q a) = set_position p a.
Proof. reflexivity. Qed.

Definition same_member (m m' : member) : Prop :=
  exists q, m_row m' = set_position q (m_row m).
Lemma placed_from_same k gen m m' a : same_member m m' -> placed_from k gen m' a -> placed_from k gen m a.
Proof.
  intros (q & E) (d & p & G & H). exists d, p. split; auto. rewrite E in H.
  destruct k; [|destruct H as (l & r & H); exists l, r]; rewrite set_position_twice in H; auto.
Qed.

Definition walls_clear (k : kind) (obstacles : option (list obstacle)) (a : agent) : Prop :=
  forall os o, obstacles = Some os -> Forall positive_length os -> In o os ->
    ~ body_hits_wall (body k a) (p0 o) (p1 o).

Record loop_post (cell : R) (k : kind) (size : nat) gen obstacles (st : agents_obj) (members : list member)
    (draws index overlaps : nat) (r : outcome * agents_obj * list member * nat) : Prop := {
  lp_wf : wf cell (state_of r);
  lp_kind : ag_kind (state_of r) = ag_kind st;
  lp_len : length (ag_array (state_of r)) = length (ag_array st);
  lp_idx : (ag_index st <= ag_index (state_of r) <= ag_index st + (size - index))%nat;
  lp_old : forall i, (i < ag_index st)%nat ->
     nth_error (ag_array (state_of r)) i = nth_error (ag_array st) i;
  lp_new : forall i, (ag_index st <= i < ag_index (state_of r))%nat ->
     walls_clear k obstacles (row (state_of r) i) /\
     exists m, nth_error members (index + (i - ag_index st))%nat = Some m /\
               placed_from k gen m (row (state_of r) i);
  lp_draws : (draws <= snd r <= draws + ((size - index) + (10 * size - overlaps)))%nat;
  lp_returns : fst (fst (fst r)) = Returns ->
     (ag_index (state_of r) = ag_index st + (size - index))%nat \/
     (snd r + overlaps = draws + (ag_index (state_of r) - ag_index st) + 10 * size)%nat
}.
Lemma no_raise_fields (o : outcome) (st : agents_obj) (ms : list member) (n : nat) :
  state_of (o, st, ms, n) = st. Proof. reflexivity. Qed.

Lemma place_loop_post cell k size gen obstacles fuel : forall st members draws index overlaps,
  wf cell st -> ag_kind st = k -> (index <= size)%nat -> (overlaps <= 10 * size)%nat ->
  (ag_index st + (size - index) <= length (ag_array st))%nat ->
  loop_post cell k size gen obstacles st members draws index overlaps
    (place_loop fuel k size gen obstacles st members draws index overlaps) /\
  ((size - index) + (10 * size - overlaps) <= fuel ->
   fst (fst (fst (place_loop fuel k size gen obstacles st members draws index overlaps))) <> OutOfFuel)%nat.
Proof.
  induction fuel as [|fuel IH]; intros st members draws index overlaps W K Hi Ho Hroom;
    cbn [place_loop].
  1: destruct ((index <? size)%nat && (overlaps <? 10 * size)%nat) eqn:B; [|].
  3: destruct ((index <? size)%nat && (overlaps <? 10 * size)%nat) eqn:B; [|].
  - split.
    + constructor; cbn [state_of fst snd]; auto; try lia; try discriminate.
    + apply andb_prop in B as [B1 B2]. apply Nat.ltb_lt in B1, B2. lia.
  - split; [|cbn; discriminate]. constructor; cbn [state_of fst snd]; auto; try lia.
    intros _. apply andb_false_iff in B as [B|B]; apply Nat.ltb_ge in B; lia.
  - apply andb_prop in B as [B1 B2]. apply Nat.ltb_lt in B1, B2.
    destruct (nth_error members index) as [m|] eqn:Em.
    2:{ split; [|cbn; discriminate]. constructor; cbn [state_of fst snd]; auto; try lia; discriminate. }
    destruct (gen draws) as [p|] eqn:G.
    2:{ split; [|cbn; discriminate]. constructor; cbn [state_of fst snd]; auto; try lia; discriminate. }
    pose proof (wf_read cell st p W) as RD.
    destruct (bl_nearest (ag_neighbours st) (key_of p) 1) as [near bl] eqn:EN.
    destruct RD as [W1 Near].
    set (st1 := Agents (ag_kind st) (ag_index st) (ag_array st) bl) in *.
    set (m1 := touch k (move_to p m)) in *.
    set (ms1 := upd members index m1).
    assert (Ilt : (index < length members)%nat) by (apply nth_error_Some; congruence).
    assert (Rej : forall r, loop_post cell k size gen obstacles st1 ms1 (S draws) index (S overlaps) r ->
                  loop_post cell k size gen obstacles st members draws index overlaps r).
    { intros r [A1 A2 A3 A4 A5 A6 A7 A8]. cbn [st1 ag_index ag_kind ag_array] in *.
      constructor; auto; try lia.
      - intros i H. destruct (A6 i H) as (C & m' & Em' & Pm'). split; auto.
        destruct (Nat.eq_dec (index + (i - ag_index st)) index) as [Eq|Ne].
        + rewrite Eq in *. unfold ms1 in Em'. rewrite upd_nth_eq in Em' by auto. injection Em' as <-.
          exists m. split; auto. apply placed_from_same with m1; auto.
          exists p. unfold m1. destruct k; reflexivity.
        + exists m'. unfold ms1 in Em'. rewrite upd_nth_neq in Em' by auto. auto.
      - intros H. destruct (A8 H); [auto|right; lia]. }
    destruct (overlapping k m1 (rows_at (ag_array st1) near)) eqn:OV;
      [|destruct (match obstacles with None => false | Some os => overlapping_obstacles k m1 os end) eqn:OB].
    + destruct (IH st1 ms1 (S draws) index (S overlaps)) as [P F]; auto; try lia.
      split; [apply Rej; exact P|]. intros H. apply F. lia.
    + destruct (IH st1 ms1 (S draws) index (S overlaps)) as [P F]; auto; try lia.
      split; [apply Rej; exact P|]. intros H. apply F. lia.
    + change (Agents (ag_kind st1) (S (ag_index st1)) (upd (ag_array st1) (ag_index st1) (to_row k m1))
                (bl_set (ag_neighbours st1) (key_of p) (ag_index st1))) with (store st1 p (to_row k m1)).
      assert (Pos : a_position (to_row k m1) = p).
      { unfold m1. rewrite to_row_position, touch_position. reflexivity. }
      assert (W2 : wf cell (store st1 p (to_row k m1))).
      { apply wf_store; auto.
        - cbn. lia.
        - cbn [st1 ag_index ag_kind]. intros i ra rb Hlt Ba Bb Hsum.
          change (row st1 i) with (row st i). rewrite K.
          destruct (coords_or_far cell p (a_position (row st i))) as [Cw|Far].
          + intros Ov. apply not_true_iff_false in OV. apply OV. apply overlapping_iff.
            exists (row st i). split; auto. unfold rows_at. apply in_map_iff. exists i. auto.
          + cbn [st1 ag_kind] in Ba, Bb. rewrite K in Ba, Bb.
            apply far_no_overlap with ra rb cell; auto.
            rewrite Pos, edist_sym. exact Far. }
      destruct (IH (store st1 p (to_row k m1)) ms1 (S draws) (S index) overlaps) as [P F]; auto; try lia.
      { cbn [store st1 ag_index ag_array]. rewrite upd_length. lia. }
      split; [|intros H; apply F; lia].
      destruct P as [A1 A2 A3 A4 A5 A6 A7 A8].
      set (r := place_loop fuel k size gen obstacles _ _ _ _ _) in *.
      cbn [store st1 ag_index ag_kind ag_array] in *. rewrite upd_length in A3.
      constructor; auto; try lia.
      * intros i H. rewrite A5 by lia. apply upd_nth_neq. lia.
      * intros i H. destruct (Nat.eq_dec i (ag_index st)) as [->|Ne].
        -- assert (Er : row (state_of r) (ag_index st) = to_row k m1).
           { unfold row. apply nth_error_nth. rewrite A5 by lia. apply upd_nth_eq. lia. }
           rewrite Er. split.
           ++ intros os o Eo Fo Io Hit. subst obstacles. apply not_true_iff_false in OB. apply OB.
              apply overlapping_obstacles_iff; auto. exists o; auto.
           ++ exists m. replace (index + (ag_index st - ag_index st))%nat with index by lia. split; auto.
              exists draws, p. split; auto. unfold m1. destruct k; [reflexivity|]. do 2 eexists; reflexivity.
        -- destruct (A6 i) as (C & m' & Em' & Pm'); [lia|]. split; auto. exists m'. split; auto.
           unfold ms1 in Em'. rewrite upd_nth_neq in Em' by lia.
           replace (S index + (i - S (ag_index st)))%nat with (index + (i - ag_index st))%nat in Em' by lia. auto.
      * intros H. destruct (A8 H); [left|right]; lia.
  - split; [|cbn; discriminate]. constructor; cbn [state_of fst snd]; auto; try lia.
    intros _. apply andb_false_iff in B as [B|B]; apply Nat.ltb_ge in B; lia.
Qed.

(** ** Whole calls and histories *)
Lemma add_group_post cell st g gen obstacles : wf cell st -> ag_kind st = g_kind g ->
  let st1 := Agents (ag_kind st) (ag_index st) (ag_array st ++ repeat zero_row (g_size g)) (ag_neighbours st) in
  loop_post cell (g_kind g) (g_size g) gen obstacles st1 (g_members g) 0 0 0
    (add_non_overlapping_group st g gen obstacles) /\
  fst (fst (fst (add_non_overlapping_group st g gen obstacles))) <> OutOfFuel.
Proof.
  intros W K st1. unfold add_non_overlapping_group.
  replace (kind_eqb (ag_kind st) (g_kind g)) with true by (symmetry; now apply kind_eqb_iff).
  destruct (place_loop_post cell (g_kind g) (g_size g) gen obstacles (11 * g_size g) st1 (g_members g) 0 0 0) as [P F].
  - now apply wf_grow.
  - exact K.
  - lia.
  - lia.
  - cbn [st1 ag_index ag_array]. rewrite app_length, repeat_length. destruct W. lia.
  - split; [exact P|apply F]. lia.
Qed.
Lemma add_group_mismatch st g gen obstacles : ag_kind st <> g_kind g ->
  add_non_overlapping_group st g gen obstacles = (Raises CrowdDynamicsException, st, g_members g, 0%nat).
Proof.
  intros K. unfold add_non_overlapping_group. destruct (kind_eqb _ _) eqn:E; auto.
  apply kind_eqb_iff in E. contradiction.
Qed.
Lemma wf_add cell st g gen obstacles : wf cell st ->
  wf cell (state_of (add_non_overlapping_group st g gen obstacles)) /\
  ag_kind (state_of (add_non_overlapping_group st g gen obstacles)) = ag_kind st.
Proof.
  intros W. destruct (kind_eqb (ag_kind st) (g_kind g)) eqn:E.
  - apply kind_eqb_iff in E. destruct (add_group_post cell st g gen obstacles W E) as [[] _].
    split; auto.
  - rewrite add_group_mismatch; auto. intros K. apply kind_eqb_iff in K. congruence.
Qed.
Lemma wf_all cell cs : forall st, wf cell st ->
  wf cell (place_all st cs) /\ ag_kind (place_all st cs) = ag_kind st.
Proof.
  induction cs as [|c cs IH]; intros st W; cbn; auto.
  destruct (wf_add cell st (c_group c) (c_gen c) (c_obstacles c) W) as [W' K'].
  destruct (IH _ W') as [W2 K2]. split; auto. unfold place_all in K2. congruence.
Qed.

Lemma row_nth st i a : nth_error (ag_array st) i = Some a -> row st i = a.
Proof. intros H. unfold row. now apply nth_error_nth. Qed.

Lemma placed_apart k cell st0 cs i j a b ra rb : agents_new k cell = Ok st0 ->
  let st := place_all st0 cs in
  i <> j -> (i < ag_index st)%nat -> (j < ag_index st)%nat ->
  nth_error (ag_array st) i = Some a -> nth_error (ag_array st) j = Some b ->
  body_within k a ra -> body_within k b rb -> ra + rb <= cell ->
  ~ bodies_overlap (body k a) (body k b).
Proof.
  intros N st Hne Hi Hj Ea Eb Ba Bb Hs. apply wf_new in N as (W & K & _).
  destruct (wf_all cell cs st0 W) as [W' K']. fold st in W', K'.
  apply row_nth in Ea, Eb. subst a b.
  assert (Kk : ag_kind st = k) by congruence.
  destruct (Nat.lt_ge_cases i j).
  - rewrite <- Kk. apply (wf_apart cell st W' i j ra rb); auto; rewrite Kk; auto.
  - intros O. apply bodies_overlap_sym in O. revert O. rewrite <- Kk.
    apply (wf_apart cell st W' j i rb ra); try (rewrite Kk; auto); try lia; lra.
Qed.
Lemma circular_apart cell st0 cs i j a b : agents_new Circular cell = Ok st0 ->
  let st := place_all st0 cs in
  i <> j -> (i < ag_index st)%nat -> (j < ag_index st)%nat ->
  nth_error (ag_array st) i = Some a -> nth_error (ag_array st) j = Some b ->
  a_radius a + a_radius b <= cell ->
  ~ bodies_overlap (body Circular a) (body Circular b).
Proof.
  intros N st Hne Hi Hj Ea Eb Hs.
  apply (placed_apart Circular cell st0 cs i j a b (a_radius a) (a_radius b)); auto using circular_within.
Qed.
Definition reach (a : agent) : R := Rmax (a_r_t a) (a_r_ts a + a_r_s a).
Lemma three_apart cell st0 cs i j a b : agents_new ThreeCircle cell = Ok st0 ->
  let st := place_all st0 cs in
  i <> j -> (i < ag_index st)%nat -> (j < ag_index st)%nat ->
  nth_error (ag_array st) i = Some a -> nth_error (ag_array st) j = Some b ->
  0 <= a_r_ts a -> 0 <= a_r_ts b -> shoulders_in_place a -> shoulders_in_place b ->
  Rmax (a_r_t a) (a_r_ts a + a_r_s a) + Rmax (a_r_t b) (a_r_ts b + a_r_s b) <= cell ->
  ~ bodies_overlap (body ThreeCircle a) (body ThreeCircle b).
Proof.
  intros N st Hne Hi Hj Ea Eb Ta Tb Sa Sb Hs.
  apply (placed_apart ThreeCircle cell st0 cs i j a b (reach a) (reach b)); auto.
  - apply three_within; auto; [apply Rmax_l|apply Rmax_r].
  - apply three_within; auto; [apply Rmax_l|apply Rmax_r].
Qed.

(** Walls of the call that placed the agent. *)
Lemma call_walls k cell st0 cs g gen os i a o : agents_new k cell = Ok st0 ->
  let st := place_all st0 cs in
  let st' := state_of (add_non_overlapping_group st g gen (Some os)) in
  (ag_index st <= i < ag_index st')%nat -> nth_error (ag_array st') i = Some a ->
  (forall o, In o os -> p0 o <> p1 o) -> In o os ->
  ~ body_hits_wall (body k a) (p0 o) (p1 o).
Proof.
  intros N st st' Hi Ea Ho Io. apply wf_new in N as (W & K & _).
  destruct (wf_all cell cs st0 W) as [W' K']. fold st in W', K'.
  destruct (kind_eqb (ag_kind st) (g_kind g)) eqn:E.
  - apply kind_eqb_iff in E. destruct (add_group_post cell st g gen (Some os) W' E) as [P _].
    apply row_nth in Ea. subst a. replace k with (g_kind g) by congruence.
    destruct P as [_ _ _ _ _ P _ _]. fold st' in P. destruct (P i Hi) as [C _].
    apply (C os); auto. apply Forall_forall. exact Ho.
  - unfold st' in *. rewrite add_group_mismatch in * by (intros X; apply kind_eqb_iff in X; congruence).
    cbn in Hi. lia.
Qed.

(** Frame, growth, order, number of draws. *)
Lemma call_frame k cell st0 cs g gen obstacles : agents_new k cell = Ok st0 ->
  let st := place_all st0 cs in
  let r := add_non_overlapping_group st g gen obstacles in
  let st' := state_of r in
  g_kind g = k ->
  fst (fst (fst r)) <> OutOfFuel /\
  (snd r <= 11 * g_size g)%nat /\
  length (ag_array st') = (length (ag_array st) + g_size g)%nat /\
  (ag_index st <= ag_index st' <= ag_index st + g_size g)%nat /\
  (forall i, (i < ag_index st)%nat -> nth_error (ag_array st') i = nth_error (ag_array st) i) /\
  (forall i, (ag_index st' <= i < length (ag_array st'))%nat -> nth_error (ag_array st') i = Some zero_row) /\
  (forall t, (t < ag_index st' - ag_index st)%nat ->
     exists m a, nth_error (g_members g) t = Some m /\
       nth_error (ag_array st') (ag_index st + t) = Some a /\ placed_from k gen m a) /\
  (fst (fst (fst r)) = Returns ->
     ag_index st' = (ag_index st + g_size g)%nat \/
     snd r = (10 * g_size g + (ag_index st' - ag_index st))%nat).
Proof.
  intros N st r st' Kg. apply wf_new in N as (W & K & _).
  destruct (wf_all cell cs st0 W) as [W' K']. fold st in W', K'.
  destruct (add_group_post cell st g gen obstacles W') as [P F]; [congruence|].
  fold r in P, F. destruct P as [A1 A2 A3 A4 A5 A6 A7 A8]. fold st' in A1, A2, A3, A4, A5, A6, A8.
  cbn [ag_index ag_array] in *. rewrite app_length, repeat_length in A3.
  split; [exact F|]. split; [lia|]. split; [exact A3|]. split; [lia|]. split; [|split; [|split]].
  - intros i Hi. rewrite A5 by auto. apply nth_error_app1. destruct W'. lia.
  - intros i Hi. apply (wf_rest cell st' A1). auto.
  - intros t Ht. destruct (A6 (ag_index st + t)%nat) as (_ & m & Em & Pm); [lia|].
    replace (0 + (ag_index st + t - ag_index st))%nat with t in Em by lia.
    exists m, (row st' (ag_index st + t)). split; auto. split; [|rewrite <- Kg; exact Pm].
    unfold row. apply nth_error_nth'. pose proof (wf_index _ _ A1). lia.
  - intros Hr. destruct (A8 Hr); [left|right]; lia.
Qed.

(** Fresh members placed without a rejected draw have their shoulders in place. *)
Definition fresh (m : member) : Prop := m_ls m = None /\ m_rs m = None.
Lemma fresh_in_place m p : fresh m -> shoulders_in_place (to_row ThreeCircle (touch ThreeCircle (move_to p m))).
Proof.
  intros [L Rr]. rewrite to_row_touch. unfold to_row, move_to; cbn [m_ls m_rs m_row]. rewrite L, Rr.
  unfold shoulders_in_place, default_ls, default_rs, rotate270, unit_vector. cbn. split; f_equal; ring.
Qed.
Lemma place_loop_first_try size gen obstacles fuel : forall st members draws index overlaps,
  let r := place_loop fuel ThreeCircle size gen obstacles st members draws index overlaps in
  (ag_index st + (size - index) <= length (ag_array st))%nat ->
  (forall t m, (index <= t)%nat -> nth_error members t = Some m -> fresh m) ->
  (ag_index st <= ag_index (state_of r))%nat /\
  (draws + (ag_index (state_of r) - ag_index st) <= snd r)%nat /\
  (forall i, (i < ag_index st)%nat -> nth_error (ag_array (state_of r)) i = nth_error (ag_array st) i) /\
  (snd r = draws + (ag_index (state_of r) - ag_index st) ->
   forall i a, ag_index st <= i < ag_index (state_of r) ->
     nth_error (ag_array (state_of r)) i = Some a -> shoulders_in_place a)%nat.
Proof.
  intros st members draws index overlaps r. subst r.
  assert (G : forall fuel st members draws index overlaps,
     let r := place_loop fuel ThreeCircle size gen obstacles st members draws index overlaps in
     (ag_index st + (size - index) <= length (ag_array st))%nat ->
     (ag_index st <= ag_index (state_of r))%nat /\
     (draws + (ag_index (state_of r) - ag_index st) <= snd r)%nat /\
     (forall i, (i < ag_index st)%nat -> nth_error (ag_array (state_of r)) i = nth_error (ag_array st) i) /\
     ((forall t m, (index <= t)%nat -> nth_error members t = Some m -> fresh m) ->
      snd r = draws + (ag_index (state_of r) - ag_index st) ->
      forall i a, ag_index st <= i < ag_index (state_of r) ->
       nth_error (ag_array (state_of r)) i = Some a -> shoulders_in_place a)%nat).
  2:{ intros Hl Hf. destruct (G fuel st members draws index overlaps Hl) as (A & B & C & D).
      exact (conj A (conj B (conj C (D Hf)))). }
  clear. induction fuel as [|fuel IH]; intros st members draws index overlaps; cbn [place_loop].
  - destruct (_ && _); cbn; intros; repeat split; auto; lia.
  - destruct (_ && _) eqn:B; [|cbn; intros; repeat split; auto; lia].
    apply andb_prop in B as [B1 B2]. apply Nat.ltb_lt in B1, B2.
    destruct (nth_error members index) as [m|] eqn:Em; [|cbn; intros; repeat split; auto; lia].
    destruct (gen draws) as [p|] eqn:Gd; [|cbn; intros; repeat split; auto; lia].
    destruct (bl_nearest (ag_neighbours st) (key_of p) 1) as [near bl].
    set (st1 := Agents (ag_kind st) (ag_index st) (ag_array st) bl).
    set (m1 := touch ThreeCircle (move_to p m)). set (ms1 := upd members index m1).
    destruct (overlapping ThreeCircle m1 (rows_at (ag_array st1) near));
      [|destruct (match obstacles with None => false | Some os => overlapping_obstacles ThreeCircle m1 os end)].
    + intros Hl. destruct (IH st1 ms1 (S draws) index (S overlaps) Hl) as (A & Bq & C & D).
      set (r := place_loop fuel _ _ _ _ _ _ _ _ _) in *. cbn [st1 ag_index ag_array] in *.
      repeat split; auto; try lia.
    + intros Hl. destruct (IH st1 ms1 (S draws) index (S overlaps) Hl) as (A & Bq & C & D).
      set (r := place_loop fuel _ _ _ _ _ _ _ _ _) in *. cbn [st1 ag_index ag_array] in *.
      repeat split; auto; try lia.
    + set (st2 := Agents _ _ _ _). intros Hl.
      destruct (IH st2 ms1 (S draws) (S index) overlaps) as (A & Bq & C & D).
      { cbn [st2 st1 ag_index ag_array]. rewrite upd_length. lia. }
      set (r := place_loop fuel _ _ _ _ _ _ _ _ _) in *. cbn [st2 st1 ag_index ag_array] in *.
      split; [lia|]. split; [lia|]. split.
      * intros i Hi. rewrite C by lia. apply upd_nth_neq. lia.
      * intros Hf Heq i a Hi Ea. destruct (Nat.eq_dec i (ag_index st)) as [->|Ne].
        -- rewrite C, upd_nth_eq in Ea by lia. injection Ea as <-. apply fresh_in_place.
           apply (Hf index); auto.
        -- apply (D) with i; auto; try lia. intros t m' Ht Em'. unfold ms1 in Em'.
           rewrite upd_nth_neq in Em' by lia. apply (Hf t); auto. lia.
Qed.
Lemma call_first_try k cell st0 cs g gen obstacles i a : agents_new k cell = Ok st0 ->
  let st := place_all st0 cs in
  let r := add_non_overlapping_group st g gen obstacles in
  let st' := state_of r in
  k = ThreeCircle -> Forall (fun m => m_ls m = None /\ m_rs m = None) (g_members g) ->
  snd r = (ag_index st' - ag_index st)%nat ->
  (ag_index st <= i < ag_index st')%nat -> nth_error (ag_array st') i = Some a ->
  shoulders_in_place a.
Proof.
  intros N st r st' -> Hf Hd Hi Ea. apply wf_new in N as (W & K & _).
  destruct (wf_all cell cs st0 W) as [W' K']. fold st in W', K'.
  subst st' r. unfold add_non_overlapping_group in *. destruct (kind_eqb _ _) eqn:E.
  - apply kind_eqb_iff in E. replace (g_kind g) with ThreeCircle in * by congruence.
    set (st1 := Agents _ _ _ _) in *.
    destruct (place_loop_first_try (g_size g) gen obstacles (11 * g_size g) st1 (g_members g) 0 0 0) as (_ & _ & _ & D).
    + cbn [st1 ag_index ag_array]. rewrite app_length, repeat_length. destruct W'. lia.
    + intros t m _ Em. apply nth_error_In in Em. rewrite Forall_forall in Hf. now apply Hf.
    + apply D with i; auto.
  - cbn in Hi. lia.
Qed.
