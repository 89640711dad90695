(** * The crowds of the example simulations *)
From Verif Require Import Model.ExampleSims Spec.Crowds Spec.Overlap Proofs.VecLemmas Proofs.ListLemmas Proofs.PlacementProofs Proofs.BodyProofs.
From Coq Require Import Lra Lia.
Open Scope R_scope.

(** ** Single agents *)
Lemma new_agent_made : forall k zs d m, (forall n, -3 <= zs n <= 3) -> new_agent k zs d = Ok m -> made k d (m_row m).
Proof.
  intros k zs d m Hz. unfold new_agent.
  destruct (shipped_body zs "adult"%string (5882/10000) (3725/10000) (6275/10000) (255/1000) (35/1000) (125/100) (3/10) (735/10) 8 Hz)
    as (b & E & R1 & R0 & T1 & T0 & M1 & M0 & I & A & B & C & W & _); [left; reflexivity|].
  rewrite E. destruct (rest_valid k (attributed k d)); [|discriminate]. intros Q. injection Q as <-.
  assert (P : 0 < b_inertia_rot b).
  { rewrite I. pose proof PI_RGT_0. apply Rmult_lt_0_compat; [apply Rmult_lt_0_compat; lra|]. apply pow_lt. lra. }
  unfold made.
  assert (AD : adult (m_row (Member (obj_row (AObj b (attributed k d))) None None))).
  { unfold adult. replace (attributed k d) with (attributed k d) by reflexivity.
    assert (X : forall r, a_radius (obj_row (AObj b r)) = b_radius b /\ a_mass (obj_row (AObj b r)) = b_mass b /\
      a_target_velocity (obj_row (AObj b r)) = b_target_velocity b /\ a_r_t (obj_row (AObj b r)) = b_r_t b /\
      a_r_s (obj_row (AObj b r)) = b_r_s b /\ a_r_ts (obj_row (AObj b r)) = b_r_ts b /\
      a_inertia_rot (obj_row (AObj b r)) = b_inertia_rot b) by (intros r; repeat split).
    cbn [m_row]. destruct (X (attributed k d)) as (-> & -> & -> & -> & -> & -> & ->).
    clear - R1 T1 M1 A B C P. repeat match goal with |- _ /\ _ => split end; lra. }
  assert (DF : defaults k (m_row (Member (obj_row (AObj b (attributed k d))) None None))).
  { clear - W. unfold defaults. change (a_target_angular_velocity _) with (b_target_angular_velocity b). rewrite W. destruct k; cbn; repeat split; discriminate. }
  repeat match goal with |- _ /\ _ => split end; try exact AD; try exact DF; clear;
    destruct k; try reflexivity; intros Q; try discriminate Q; repeat split.
Qed.
Lemma new_agents_nth : forall k ds zs ms, new_agents k zs ds = Ok ms ->
  length ms = length ds /\
  forall i m, nth_error ms i = Some m -> exists d, nth_error ds i = Some (Ok d) /\ new_agent k (zs i) d = Ok m.
Proof.
  intros k. induction ds as [|d ds IH]; intros zs ms H; cbn [new_agents] in H.
  - injection H as <-. split; [reflexivity|]. intros [|i] m; discriminate.
  - destruct d as [d|e]; cbn [rbind] in H; [|discriminate].
    destruct (new_agent k (zs 0%nat) d) as [m0|e] eqn:E; cbn [rbind] in H; [|discriminate].
    destruct (new_agents k (fun n => zs (S n)) ds) as [ms'|e] eqn:F; cbn [rbind] in H; [|discriminate].
    injection H as <-. destruct (IH _ _ F) as (L & N). split; [cbn; congruence|].
    intros [|i] m Hm; cbn [nth_error] in *.
    + injection Hm as <-. eauto.
    + apply N in Hm. exact Hm.
Qed.
Lemma made_moved : forall k d m gen a, made k d (m_row m) -> placed_from k gen m a -> made k d a /\ drawn_from gen a.
Proof.
  intros k d m gen a M (n & p & G & E). unfold made, defaults, adult, drawn_from in *.
  destruct k.
  - subst a. split; [exact M|]. exists n. exact G.
  - destruct E as (l & r & ->). split; [exact M|]. exists n. exact G.
Qed.

(** ** Groups *)
Lemma plan_group_spec : forall k p g, plan_group k p = Ok g ->
  g_kind g = k /\ g_size g = Z.to_nat (pl_size p) /\ length (g_members g) = Z.to_nat (pl_size p) /\
  forall i m, nth_error (g_members g) i = Some m ->
    exists d, pl_attributes p (2 * Z.to_nat (pl_size p) + i) = Ok d /\ new_agent k (pl_bodies p i) d = Ok m.
Proof.
  intros k p g H. unfold plan_group in H.
  destruct (Z_lt_le_dec 0 (pl_size p)) as [L|L].
  - destruct (new_callable (D := res attributes) (pl_size p) (pl_attributes p) L) as (gr & E & Len & N & _). rewrite E in H.
    destruct (new_agents k (pl_bodies p) (gr_members gr)) as [ms|e] eqn:F; cbn [rbind] in H; [|discriminate]. injection H as <-.
    cbn [g_kind g_size g_members]. destruct (new_agents_nth _ _ _ _ F) as (L' & N'). split; [reflexivity|]. split; [reflexivity|].
    split; [congruence|]. intros i m Hm. destruct (N' i m Hm) as (d & Hd & A).
    assert (Hi : (i < Z.to_nat (pl_size p))%nat) by (rewrite <- Len, <- L'; apply nth_error_Some; congruence).
    rewrite (N i Hi) in Hd. injection Hd as Hd. exists d. auto.
  - assert (Z0 : Z.to_nat (pl_size p) = 0%nat) by lia.
    assert (E : group_new (pl_size p) (Callable (pl_attributes p) 0) = (None, AGroup (pl_size p) true (Some (Callable (pl_attributes p) 0)) [])).
    { unfold group_new. assert (B : (0 <? pl_size p)%Z = false) by (apply Z.ltb_ge; exact L).
      destruct (pl_size p =? 0)%Z; cbn [notify]; unfold observe_members; cbn [gr_size]; rewrite B; cbn [andb notify gr_size]; rewrite ?B; cbn; rewrite ?B; reflexivity. }
    rewrite E in H. cbn in H. injection H as <-. cbn [g_kind g_size g_members]. rewrite Z0. repeat split.
    intros [|i] m; discriminate.
Qed.

Lemma place_all_snoc : forall st cs c, place_all st (cs ++ [c]) = state_of (add_non_overlapping_group (place_all st cs) (c_group c) (c_gen c) (c_obstacles c)).
Proof. intros. unfold place_all. rewrite fold_left_app. reflexivity. Qed.

Lemma nth_error_firstn_lt {A} : forall n (l : list A) i, (i < n)%nat -> nth_error (firstn n l) i = nth_error l i.
Proof.
  induction n; intros [|x l] [|i] H; try lia; cbn; auto. apply IHn. lia.
Qed.
Lemma nth_error_skipn' {A} : forall n (l : list A) i, nth_error (skipn n l) i = nth_error l (n + i).
Proof. induction n; intros [|x l] i; cbn; auto. destruct i; reflexivity. Qed.

(** Row [a] comes from plan [p]. *)
Definition from_plan (k : kind) (p : plan) (a : agent) : Prop :=
  (exists n d, pl_attributes p n = Ok d /\ made k d a) /\ drawn_from (pl_positions p) a /\
  forall os o, pl_walls p = Some os -> (forall o, In o os -> p0 o <> p1 o) -> In o os -> ~ body_hits_wall (body k a) (p0 o) (p1 o).
Definition group_rows (k : kind) (p : plan) (rows : list agent) : Prop :=
  length rows = Z.to_nat (pl_size p) /\ Forall (from_plan k p) rows.
Definition fair_plan (p : plan) : Prop := forall i n, -3 <= pl_bodies p i n <= 3.
Definition total (ps : list plan) : nat := fold_right (fun p s => (Z.to_nat (pl_size p) + s)%nat) 0%nat ps.

Section Populate.
  Variables (k : kind) (st0 : agents_obj).
  Hypothesis Hnew : agents_new k (6/10) = Ok st0.
  Lemma placed_kind : forall cs, ag_kind (place_all st0 cs) = k.
  Proof.
    intros cs. pose proof Hnew as N. apply wf_new in N as (W & K & _). destruct (wf_all (6/10) cs st0 W) as [W' K']. congruence.
  Qed.
  Lemma placed_index : forall cs, (ag_index (place_all st0 cs) <= length (ag_array (place_all st0 cs)))%nat.
  Proof.
    intros cs. pose proof Hnew as N. apply wf_new in N as (W & K & _). destruct (wf_all (6/10) cs st0 W) as [W' _]. destruct W'. lia.
  Qed.
  Lemma one_group : forall cs p g, fair_plan p -> plan_group k p = Ok g ->
    let st := place_all st0 cs in
    let st' := state_of (add_non_overlapping_group st g (pl_positions p) (pl_walls p)) in
    length (ag_array st') = (length (ag_array st) + Z.to_nat (pl_size p))%nat /\
    (ag_index st <= ag_index st' <= ag_index st + Z.to_nat (pl_size p))%nat /\
    (forall i, (i < ag_index st)%nat -> nth_error (ag_array st') i = nth_error (ag_array st) i) /\
    (forall i a, (ag_index st <= i < ag_index st')%nat -> nth_error (ag_array st') i = Some a -> from_plan k p a).
  Proof.
    intros cs p g Hf Hg st st'. destruct (plan_group_spec _ _ _ Hg) as (Gk & Gs & Gl & Gm).
    pose proof (call_frame k (6/10) st0 cs g (pl_positions p) (pl_walls p) Hnew Gk) as F. cbv zeta in F.
    fold st in F. fold st' in F. destruct F as (_ & _ & F1 & F2 & F3 & _ & F5 & _). rewrite Gs in *.
    split; [exact F1|]. split; [exact F2|]. split; [exact F3|].
    intros i a Hi Ha. destruct (F5 (i - ag_index st)%nat) as (m & a' & Hm & Ha' & P); [lia|].
    replace (ag_index st + (i - ag_index st))%nat with i in Ha' by lia. rewrite Ha in Ha'. injection Ha' as <-.
    destruct (Gm _ _ Hm) as (d & Hd & A). apply new_agent_made in A; [|apply Hf].
    destruct (made_moved _ _ _ _ _ A P) as (M & D). split; [eexists _, _; eauto|]. split; [exact D|].
    intros os o W N I. pose proof (call_walls k (6/10) st0 cs g (pl_positions p) os i a o Hnew) as C. cbv zeta in C.
    fold st in C. unfold st' in Hi, Ha. rewrite W in Hi, Ha. apply C; assumption.
  Qed.

  Lemma populate_spec : forall ps cs st', Forall fair_plan ps -> populate (place_all st0 cs) ps = Ok st' ->
    let st := place_all st0 cs in
    exists cs', st' = place_all st0 cs' /\
    length (ag_array st') = (length (ag_array st) + total ps)%nat /\
    (ag_index st <= ag_index st' <= ag_index st + total ps)%nat /\
    (forall i, (i < ag_index st)%nat -> nth_error (ag_array st') i = nth_error (ag_array st) i) /\
    (forall i a, (ag_index st <= i < ag_index st')%nat -> nth_error (ag_array st') i = Some a -> exists p, In p ps /\ from_plan k p a) /\
    (complete st' -> exists rowss, ag_array st' = ag_array st ++ concat rowss /\ Forall2 (group_rows k) ps rowss).
  Proof.
    induction ps as [|p ps IH]; intros cs st' Hf H; cbn [populate] in H.
    - injection H as <-. cbv zeta. exists cs. split; [reflexivity|]. cbn [total fold_right]. split; [lia|]. split; [lia|].
      split; [reflexivity|]. split; [intros i a Hi; lia|]. intros _. exists []. split; [rewrite app_nil_r; reflexivity|constructor].
    - cbv zeta. rewrite placed_kind in H. destruct (plan_group k p) as [g|e] eqn:G; cbn [rbind] in H; [|discriminate].
      pose proof (Forall_inv Hf) as Hp. pose proof (Forall_inv_tail Hf) as Hps.
      destruct (one_group cs p g Hp G) as (L1 & I1 & F1 & R1).
      pose proof (place_all_snoc st0 cs (Call g (pl_positions p) (pl_walls p))) as S. cbn [c_group c_gen c_obstacles] in S.
      set (st := place_all st0 cs) in *.
      destruct (add_non_overlapping_group st g (pl_positions p) (pl_walls p)) as [[[out st1] ms] n] eqn:E. cbn [state_of] in *.
      assert (H' : populate (place_all st0 (cs ++ [Call g (pl_positions p) (pl_walls p)])) ps = Ok st').
      { rewrite S. destruct out; [exact H|discriminate|exact H]. }
      destruct (IH _ _ Hps H') as (cs' & Q1 & Q2 & Q3 & Q4 & Q5 & Q6). rewrite S in *. fold (complete st') in *.
      exists cs'. split; [exact Q1|]. cbn [total fold_right]. fold (total ps). split; [lia|]. split; [lia|]. split; [|split].
      + intros i Hi. rewrite Q4 by lia. apply F1. exact Hi.
      + intros i a Hi Ha. destruct (Nat.lt_ge_cases i (ag_index st1)) as [B|B].
        * exists p. split; [left; reflexivity|]. apply (R1 i); [lia|]. rewrite <- Q4 by exact B. exact Ha.
        * destruct (Q5 i a) as (q & Iq & Fq); [lia|exact Ha|]. exists q. split; [right; exact Iq|exact Fq].
      + intros C. destruct (Q6 C) as (rowss & A & B).
        pose proof (placed_index cs) as X. fold st in X.
        assert (Y : (ag_index st1 <= length (ag_array st1))%nat) by (rewrite <- S; apply placed_index).
        unfold complete in C.
        assert (C1 : ag_index st1 = length (ag_array st1)) by lia.
        assert (C0 : ag_index st = length (ag_array st)) by lia.
        exists (skipn (length (ag_array st)) (ag_array st1) :: rowss). split.
        * cbn [concat]. rewrite app_assoc. rewrite A. f_equal.
          transitivity (firstn (length (ag_array st)) (ag_array st1) ++ skipn (length (ag_array st)) (ag_array st1)); [symmetry; apply firstn_skipn|].
          f_equal. apply nth_error_ext. intros i. destruct (Nat.lt_ge_cases i (length (ag_array st))) as [Z|Z].
          -- rewrite nth_error_firstn_lt by exact Z. apply F1. lia.
          -- rewrite !(proj2 (nth_error_None _ _)); [reflexivity|lia|rewrite firstn_length; lia].
        * constructor; [|exact B]. split; [rewrite skipn_length; lia|].
          apply Forall_forall. intros a Ha. apply In_nth_error in Ha. destruct Ha as (i & Hi).
          rewrite nth_error_skipn' in Hi. apply (R1 (length (ag_array st) + i)%nat); [|exact Hi].
          split; [lia|]. rewrite C1. apply nth_error_Some. congruence.
  Qed.
End Populate.

Lemma cell_new : forall k, exists st0, agents_new k (6/10) = Ok st0 /\ ag_index st0 = 0%nat /\ ag_array st0 = [].
Proof.
  intros k. unfold agents_new, bl_new. rewrite (proj2 (Rltb_true 0 (6/10))) by lra. cbn [rbind]. eexists. repeat split.
Qed.
Lemma crowd_spec : forall k ps st, Forall fair_plan ps -> crowd k ps = Ok st ->
  (exists st0 cs, agents_new k (6/10) = Ok st0 /\ st = place_all st0 cs) /\
  length (ag_array st) = total ps /\ (ag_index st <= length (ag_array st))%nat /\
  Forall (fun a => exists p, In p ps /\ from_plan k p a) (firstn (ag_index st) (ag_array st)) /\
  Forall (fun a => a_active a = false) (skipn (ag_index st) (ag_array st)) /\
  (complete st -> exists rowss, ag_array st = concat rowss /\ Forall2 (group_rows k) ps rowss).
Proof.
  intros k ps st Hf H. unfold crowd in H. destruct (cell_new k) as (st0 & N & I0 & A0). rewrite N in H. cbn [rbind] in H.
  change st0 with (place_all st0 []) in H.
  destruct (populate_spec k st0 N ps [] st Hf H) as (cs & Q1 & Q2 & Q3 & Q4 & Q5 & Q6).
  cbn [place_all fold_left] in *. rewrite I0, A0 in *. cbn [length app] in *.
  pose proof (placed_index k st0 N cs) as X. rewrite <- Q1 in X.
  split; [eauto|]. split; [lia|]. split; [exact X|]. split; [|split; [|exact Q6]].
  - apply Forall_forall. intros a Ha. apply In_nth_error in Ha. destruct Ha as (i & Hi).
    assert (L : (i < ag_index st)%nat).
    { assert (i < length (firstn (ag_index st) (ag_array st)))%nat by (apply nth_error_Some; congruence). rewrite firstn_length in H0. lia. }
    rewrite nth_error_firstn_lt in Hi by exact L. apply (Q5 i); [lia|exact Hi].
  - apply Forall_forall. intros a Ha. apply In_nth_error in Ha. destruct Ha as (i & Hi). rewrite nth_error_skipn' in Hi.
    pose proof N as N'. apply wf_new in N' as (W & _). destruct (wf_all (6/10) cs st0 W) as [W' _]. rewrite <- Q1 in W'.
    rewrite (wf_rest _ _ W' (ag_index st + i)%nat) in Hi; [injection Hi as <-; reflexivity|].
    split; [lia|]. apply nth_error_Some. congruence.
Qed.

(** ** No exceptions *)
Lemma place_loop_ends : forall k size gen obstacles, endless gen -> forall fuel st members draws index overlaps,
  length members = size -> forall e, fst (fst (fst (place_loop fuel k size gen obstacles st members draws index overlaps))) <> Raises e.
Proof.
  intros k size gen obstacles He. induction fuel as [|fuel IH]; intros st members draws index overlaps Hl e; cbn [place_loop].
  - destruct (_ && _); cbn; discriminate.
  - destruct ((index <? size)%nat && (overlaps <? 10 * size)%nat) eqn:B; [|cbn; discriminate].
    apply andb_prop in B as [B _]. apply Nat.ltb_lt in B.
    destruct (nth_error members index) as [m|] eqn:E; [|apply nth_error_None in E; lia].
    destruct (gen draws) as [p|] eqn:G; [|destruct (He draws G)].
    destruct (bl_nearest (ag_neighbours st) (key_of p) 1) as [near bl].
    destruct (overlapping _ _ _); [apply IH; rewrite upd_length; exact Hl|].
    destruct (match obstacles with None => false | Some os => overlapping_obstacles k (touch k (move_to p m)) os end);
      apply IH; rewrite upd_length; exact Hl.
Qed.
Definition plan_ok (k : kind) (p : plan) : Prop :=
  endless (pl_positions p) /\ forall n, exists d, pl_attributes p n = Ok d /\ rest_valid k (attributed k d) = true.
Lemma new_agent_ok : forall k zs d, (forall n, -3 <= zs n <= 3) -> rest_valid k (attributed k d) = true -> exists m, new_agent k zs d = Ok m.
Proof.
  intros k zs d Hz Hr. unfold new_agent.
  destruct (shipped_body zs "adult"%string (5882/10000) (3725/10000) (6275/10000) (255/1000) (35/1000) (125/100) (3/10) (735/10) 8 Hz)
    as (b & E & _); [left; reflexivity|].
  rewrite E, Hr. eauto.
Qed.
Lemma new_agents_ok : forall k ds zs, (forall i n, -3 <= zs i n <= 3) ->
  (forall d, In d ds -> exists x, d = Ok x /\ rest_valid k (attributed k x) = true) -> exists ms, new_agents k zs ds = Ok ms.
Proof.
  intros k. induction ds as [|d ds IH]; intros zs Hz Hd; cbn [new_agents]; [eauto|].
  destruct (Hd d (or_introl eq_refl)) as (x & -> & V). cbn [rbind].
  destruct (new_agent_ok k (zs 0%nat) x (Hz 0%nat) V) as (m & ->). cbn [rbind].
  destruct (IH (fun n => zs (S n))) as (ms & ->); [intros; apply Hz|intros; apply Hd; now right|]. cbn [rbind]. eauto.
Qed.
Lemma plan_group_ok : forall k p, fair_plan p -> plan_ok k p -> exists g, plan_group k p = Ok g.
Proof.
  intros k p Hf (He & Ho). unfold plan_group.
  destruct (Z_lt_le_dec 0 (pl_size p)) as [L|L].
  - destruct (new_callable (D := res attributes) (pl_size p) (pl_attributes p) L) as (gr & E & Len & N & _). rewrite E.
    destruct (new_agents_ok k (gr_members gr) (pl_bodies p) Hf) as (ms & ->); [|cbn [rbind]; eauto].
    intros d Hd. apply In_nth_error in Hd. destruct Hd as (i & Hi).
    assert (B : (i < Z.to_nat (pl_size p))%nat) by (rewrite <- Len; apply nth_error_Some; congruence).
    rewrite (N i B) in Hi. injection Hi as <-. apply Ho.
  - assert (E : group_new (pl_size p) (Callable (pl_attributes p) 0) = (None, AGroup (pl_size p) true (Some (Callable (pl_attributes p) 0)) [])).
    { unfold group_new. assert (B : (0 <? pl_size p)%Z = false) by (apply Z.ltb_ge; exact L).
      destruct (pl_size p =? 0)%Z; cbn [notify]; unfold observe_members; cbn [gr_size]; rewrite B; cbn [andb notify gr_size]; rewrite ?B; cbn; rewrite ?B; reflexivity. }
    rewrite E. cbn. eauto.
Qed.
Lemma populate_ok : forall k ps st, ag_kind st = k -> (ag_index st <= length (ag_array st))%nat -> wf (6/10) st ->
  Forall fair_plan ps -> Forall (plan_ok k) ps -> exists st', populate st ps = Ok st'.
Proof.
  intros k. induction ps as [|p ps IH]; intros st K I W Hf Ho; cbn [populate]; [eauto|].
  rewrite K. destruct (plan_group_ok k p (Forall_inv Hf) (Forall_inv Ho)) as (g & G). rewrite G. cbn [rbind].
  destruct (plan_group_spec _ _ _ G) as (Gk & Gs & Gl & Gm).
  pose proof (wf_add (6/10) st g (pl_positions p) (pl_walls p) W) as (W' & K').
  assert (NR : forall e, fst (fst (fst (add_non_overlapping_group st g (pl_positions p) (pl_walls p)))) <> Raises e).
  { unfold add_non_overlapping_group. rewrite (proj2 (kind_eqb_iff _ _)) by congruence.
    apply place_loop_ends; [apply (Forall_inv Ho)|congruence]. }
  destruct (add_non_overlapping_group st g (pl_positions p) (pl_walls p)) as [[[out st1] ms] n]. cbn [state_of fst] in *.
  destruct (IH st1) as (st' & E); [congruence|apply W'|exact W'|exact (Forall_inv_tail Hf)|exact (Forall_inv_tail Ho)|].
  exists st'. destruct out; [exact E|destruct (NR e eq_refl)|exact E].
Qed.
Lemma crowd_ok : forall k ps, Forall fair_plan ps -> Forall (plan_ok k) ps -> exists st, crowd k ps = Ok st.
Proof.
  intros k ps Hf Ho. unfold crowd. destruct (cell_new k) as (st0 & N & _). rewrite N. cbn [rbind].
  apply wf_new in N as (W & K & _). apply (populate_ok k); auto. apply W.
Qed.

(** ** Draws far enough apart give everyone a place *)
Lemma near_sound : forall cell st p i, wf cell st -> In i (fst (bl_nearest (ag_neighbours st) (key_of p) 1)) -> (i < ag_index st)%nat.
Proof.
  intros cell st p i W Hin. pose proof (wf_blocks _ _ W) as (ops & E & I). rewrite E in Hin.
  assert (Eb : bl_new (A := nat) cell = Ok (BL cell [])).
  { unfold bl_new. rewrite (proj2 (Rltb_true 0 cell)) by apply W. reflexivity. }
  destruct (run_nearest' cell _ ops (key_of p) 1 Eb) as (out & P & S).
  apply (Permutation.Permutation_in _ P) in Hin. apply (selected_in _ _ _ i S) in Hin. destruct Hin as (key & Hin & _).
  rewrite I in Hin. apply in_map_iff in Hin. destruct Hin as (j & Q & B). injection Q as _ <-. apply in_seq in B. lia.
Qed.
Definition clear_of (rho : R) (obstacles : option (list obstacle)) (gen : nat -> option vec) : Prop :=
  forall os n p o q, obstacles = Some os -> gen n = Some p -> In o os ->
    p0 o <> p1 o /\ (on_segment (p0 o) (p1 o) q -> rho <= edist p q).
Lemma place_loop_everyone : forall cell rho size gen obstacles, 0 < rho -> endless gen -> clear_of rho obstacles gen ->
  (forall n m p q, (n < m)%nat -> gen n = Some p -> gen m = Some q -> 2 * rho <= edist p q) ->
  forall fuel st members draws index,
  wf cell st -> ag_kind st = Circular -> (index <= size)%nat -> (size - index <= fuel)%nat ->
  (ag_index st + (size - index) <= length (ag_array st))%nat -> length members = size ->
  (forall m, In m members -> 0 <= a_radius (m_row m) <= rho) ->
  (forall i, (i < ag_index st)%nat -> a_radius (row st i) <= rho /\
     forall n p, (draws <= n)%nat -> gen n = Some p -> 2 * rho <= edist (a_position (row st i)) p) ->
  ag_index (state_of (place_loop fuel Circular size gen obstacles st members draws index 0)) = (ag_index st + (size - index))%nat.
Proof.
  intros cell rho size gen obstacles Hrho He Hw Ha. induction fuel as [|fuel IH]; intros st members draws index W K Hi Hfu Hroom Hl Hm Hold; cbn [place_loop].
  - replace (index <? size)%nat with false by (symmetry; apply Nat.ltb_ge; lia). cbn. lia.
  - destruct (index <? size)%nat eqn:B; [|apply Nat.ltb_ge in B; cbn; lia]. apply Nat.ltb_lt in B.
    replace (0 <? 10 * size)%nat with true by (symmetry; apply Nat.ltb_lt; lia). cbn [andb].
    destruct (nth_error members index) as [m|] eqn:E; [|apply nth_error_None in E; lia].
    destruct (gen draws) as [p|] eqn:G; [|destruct (He draws G)].
    assert (Hrm : 0 <= a_radius (m_row m) <= rho) by (apply Hm; eapply nth_error_In; exact E).
    pose proof (fun i => near_sound cell st p i W) as NS. pose proof (wf_read cell st p W) as RD.
    destruct (bl_nearest (ag_neighbours st) (key_of p) 1) as [near bl]. cbn [fst] in NS. destruct RD as [W1 Near].
    set (st1 := Agents (ag_kind st) (ag_index st) (ag_array st) bl) in *.
    set (m1 := touch Circular (move_to p m)) in *.
    assert (Pos : a_position (to_row Circular m1) = p) by reflexivity.
    assert (Rad : a_radius (to_row Circular m1) = a_radius (m_row m)) by reflexivity.
    assert (Far : forall i, (i < ag_index st)%nat -> ~ bodies_overlap (body Circular (row st i)) (body Circular (to_row Circular m1))).
    { intros i Hb (c & d & [<-|[]] & [<-|[]] & Hg). unfold gap in Hg. cbn [fst snd] in Hg. rewrite Pos, Rad in Hg.
      destruct (Hold i Hb) as (H1 & H2). specialize (H2 draws p (le_n _) G). lra. }
    assert (OV : overlapping Circular m1 (rows_at (ag_array st1) near) = false).
    { apply not_true_iff_false. intros O. apply overlapping_iff in O. destruct O as (a & Hin & Ov).
      unfold rows_at in Hin. apply in_map_iff in Hin. destruct Hin as (i & <- & Hin). apply (Far i); [apply NS; exact Hin|exact Ov]. }
    rewrite OV.
    assert (OB : match obstacles with None => false | Some os => overlapping_obstacles Circular m1 os end = false).
    { destruct obstacles as [os|]; [|reflexivity]. apply not_true_iff_false. intros O. apply overlapping_obstacles_iff in O.
      - destruct O as (o & Io & c & q & [<-|[]] & Hq & D). cbn [fst snd] in D. rewrite Pos, Rad in D.
        destruct (Hw os draws p o q eq_refl G Io) as (_ & H2). specialize (H2 Hq). lra.
      - apply Forall_forall. intros o Io. apply (Hw os draws p o (V 0 0) eq_refl G Io). }
    rewrite OB.
    change (Agents (ag_kind st1) (S (ag_index st1)) (upd (ag_array st1) (ag_index st1) (to_row Circular m1))
                (bl_set (ag_neighbours st1) (key_of p) (ag_index st1))) with (store st1 p (to_row Circular m1)).
    assert (R0 : forall i, (i < ag_index st)%nat -> row (store st1 p (to_row Circular m1)) i = row st i).
    { intros i Hb. unfold row, store; cbn [ag_array st1 ag_index]. apply nth_upd_neq. lia. }
    assert (R1 : row (store st1 p (to_row Circular m1)) (ag_index st) = to_row Circular m1).
    { unfold row, store; cbn [ag_array st1 ag_index]. apply nth_upd_eq. lia. }
    rewrite IH; auto.
    + cbn [store st1 ag_index]. lia.
    + apply wf_store; auto; [cbn [st1 ag_index ag_array]; lia|]. intros i ra rb Hlt _ _ _. cbn [st1 ag_kind]. rewrite K. apply Far. exact Hlt.
    + lia.
    + cbn [store st1 ag_index ag_array]. rewrite upd_length. lia.
    + rewrite upd_length. exact Hl.
    + intros m' Hin. apply In_nth_error in Hin. destruct Hin as (t & Ht). destruct (Nat.eq_dec index t) as [<-|Ne].
      * rewrite upd_nth_eq in Ht by lia. injection Ht as <-. exact Hrm.
      * rewrite upd_nth_neq in Ht by exact Ne. apply Hm. eapply nth_error_In. exact Ht.
    + cbn [store st1 ag_index]. intros i Hlt. destruct (Nat.eq_dec i (ag_index st)) as [->|Ne].
      * rewrite R1. split; [rewrite Rad; lra|]. intros n q Hn Gq. rewrite Pos. apply (Ha draws n); auto.
      * rewrite R0 by lia. destruct (Hold i) as (H1 & H2); [lia|]. split; [exact H1|]. intros n q Hn Gq. apply (H2 n); auto. lia.
Qed.

Definition far_draws (g h : nat -> option vec) : Prop := forall n m p q, g n = Some p -> h m = Some q -> 58/100 <= edist p q.
Definition far_plan (p : plan) : Prop :=
  (forall n m x y, (n < m)%nat -> pl_positions p n = Some x -> pl_positions p m = Some y -> 58/100 <= edist x y) /\
  clear_of (29/100) (pl_walls p) (pl_positions p).
Lemma populate_everyone : forall ps st st', wf (6/10) st -> ag_kind st = Circular -> Forall fair_plan ps -> Forall (fun p => endless (pl_positions p)) ps ->
  Forall far_plan ps -> ForallOrdPairs (fun p q => far_draws (pl_positions p) (pl_positions q)) ps ->
  ag_index st = length (ag_array st) ->
  (forall i, (i < ag_index st)%nat -> a_radius (row st i) <= 29/100 /\
     forall p n x, In p ps -> pl_positions p n = Some x -> 58/100 <= edist (a_position (row st i)) x) ->
  populate st ps = Ok st' -> complete st'.
Proof.
  induction ps as [|p ps IH]; intros st st' W K Hf He Hfar Hpairs Hc Hold H; cbn [populate] in H; [injection H as <-; exact Hc|].
  rewrite K in H. destruct (plan_group Circular p) as [g|e] eqn:G; cbn [rbind] in H; [|discriminate].
  destruct (plan_group_spec _ _ _ G) as (Gk & Gs & Gl & Gm).
  pose proof (wf_add (6/10) st g (pl_positions p) (pl_walls p) W) as (W' & K').
  destruct (add_group_post (6/10) st g (pl_positions p) (pl_walls p) W) as [P _]; [congruence|].
  assert (Hrad : forall m, In m (g_members g) -> 0 <= a_radius (m_row m) <= 29/100).
  { intros m Hin. apply In_nth_error in Hin. destruct Hin as (i & Hi). destruct (Gm i m Hi) as (d & _ & A).
    apply new_agent_made in A; [|apply (Forall_inv Hf)]. unfold made, adult in A. decompose [and] A. lra. }
  assert (IX : ag_index (state_of (add_non_overlapping_group st g (pl_positions p) (pl_walls p))) = (ag_index st + g_size g)%nat).
  { unfold add_non_overlapping_group. rewrite (proj2 (kind_eqb_iff _ _)) by congruence. rewrite Gk.
    destruct (Forall_inv Hfar) as (F1 & F2).
    rewrite (place_loop_everyone (6/10) (29/100) (g_size g) (pl_positions p) (pl_walls p)).
    - cbn [ag_index]. lia.
    - lra.
    - apply (Forall_inv He).
    - exact F2.
    - intros n m x y Hn X Y. pose proof (F1 n m x y Hn X Y). lra.
    - apply wf_grow. exact W.
    - exact K.
    - lia.
    - lia.
    - cbn [ag_index ag_array]. rewrite app_length, repeat_length. lia.
    - congruence.
    - exact Hrad.
    - cbn [ag_index]. intros i Hi.
      assert (E : row (Agents (ag_kind st) (ag_index st) (ag_array st ++ repeat zero_row (g_size g)) (ag_neighbours st)) i = row st i).
      { unfold row. cbn [ag_array]. apply app_nth1. lia. }
      rewrite E. destruct (Hold i Hi) as (H1 & H2). split; [exact H1|]. intros n x _ X. pose proof (H2 p n x (or_introl eq_refl) X). lra. }
  destruct P as [A1 A2 A3 A4 A5 A6 A7 A8]. cbn [ag_index ag_array] in *. rewrite app_length, repeat_length in A3.
  destruct (add_non_overlapping_group st g (pl_positions p) (pl_walls p)) as [[[out st1] ms] n]. cbn [state_of] in *.
  assert (H' : populate st1 ps = Ok st') by (destruct out; [exact H|discriminate|exact H]).
  apply (IH st1 st'); auto.
  - congruence.
  - exact (Forall_inv_tail Hf).
  - exact (Forall_inv_tail He).
  - exact (Forall_inv_tail Hfar).
  - inversion Hpairs; assumption.
  - lia.
  - intros i Hi. destruct (Nat.lt_ge_cases i (ag_index st)) as [B|B].
    + assert (E : row st1 i = row st i).
      { unfold row. apply nth_error_nth. rewrite A5 by exact B. rewrite nth_error_app1 by lia. apply nth_error_nth'. lia. }
      rewrite E. destruct (Hold i B) as (H1 & H2). split; [exact H1|]. intros q m x Hq. apply H2. right. exact Hq.
    + destruct (A6 i) as (_ & m & Em & t & x & Gx & Px); [lia|]. rewrite Gk in Px. rewrite Px.
      assert (Hin : In m (g_members g)) by (eapply nth_error_In; exact Em).
      split; [apply (Hrad m Hin)|]. intros q n' y Hq Y.
      change (a_position (set_position x (m_row m))) with x. inversion Hpairs as [|? ? Hp _]; subst.
      rewrite Forall_forall in Hp. apply (Hp q Hq t n'); assumption.
Qed.
Lemma crowd_everyone : forall ps st, Forall fair_plan ps -> Forall (fun p => endless (pl_positions p)) ps ->
  Forall far_plan ps -> ForallOrdPairs (fun p q => far_draws (pl_positions p) (pl_positions q)) ps ->
  crowd Circular ps = Ok st -> complete st.
Proof.
  intros ps st Hf He Hfar Hp H. unfold crowd in H. destruct (cell_new Circular) as (st0 & N & I0 & A0). rewrite N in H. cbn [rbind] in H.
  apply wf_new in N as (W & K & _). apply (populate_everyone ps st0 st); auto.
  - rewrite I0, A0. reflexivity.
  - rewrite I0. intros i Hi. lia.
Qed.
