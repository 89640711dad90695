(** Grids, direction maps, navigation, orientation. *)
From Coq Require Import Lra Lia Psatz.
From Verif Require Export Spec.Grids Proofs.Vector2DProofs Proofs.ListLemmas.
Open Scope R_scope.

(** ** Integer parts *)
Lemma Int_part_bounds x : IZR (Int_part x) <= x < IZR (Int_part x) + 1.
Proof. destruct (base_Int_part x) as [A B]. lra. Qed.
Lemma Int_part_unique x z : IZR z <= x < IZR z + 1 -> Int_part x = z.
Proof.
  intros H. pose proof (Int_part_bounds x) as B.
  assert (A1 : (z < Int_part x + 1)%Z) by (apply lt_IZR; rewrite plus_IZR; lra).
  assert (A2 : (Int_part x < z + 1)%Z) by (apply lt_IZR; rewrite plus_IZR; lra). lia.
Qed.
Lemma ceil_bounds x : x <= IZR (ceil x) < x + 1.
Proof. unfold ceil. rewrite opp_IZR. pose proof (Int_part_bounds (- x)). lra. Qed.
Lemma trunc_nonneg x : 0 <= x -> trunc x = Int_part x.
Proof. intros H. unfold trunc. rcase; auto. lra. Qed.
Lemma trunc_neg x : x < 0 -> trunc x = ceil x.
Proof. intros H. unfold trunc, ceil. rcase; auto. lra. Qed.

(** ** Grids *)
Lemma arange_length_pos start stop step : 0 < step -> start <= stop ->
  stop <= start + (INR (arange_length start (stop + step) step) - 1) * step < stop + step.
Proof.
  intros Hs Hle. unfold arange_length. set (q := (stop + step - start) / step).
  assert (Q : q * step = stop + step - start) by (unfold q; field; lra).
  pose proof (ceil_bounds q) as B. assert (Hq : 1 <= q). { apply Rmult_le_reg_r with step; lra. }
  assert (C : (0 <= ceil q)%Z) by (apply le_IZR; lra).
  rewrite INR_IZR_INZ, Z2Nat.id by auto. nra.
Qed.
Lemma cell_of start stop step x : 0 < step -> start <= x <= stop ->
  exists j, trunc ((x - start) / step) = Z.of_nat j /\ (j < arange_length start (stop + step) step)%nat /\
    start + INR j * step <= x < start + INR j * step + step.
Proof.
  intros Hs Hx. pose proof (arange_length_pos start stop step Hs ltac:(lra)) as L. set (q := (x - start) / step).
  assert (Q : q * step = x - start) by (unfold q; field; lra). assert (Hq : 0 <= q) by (apply Rmult_le_reg_r with step; lra).
  rewrite trunc_nonneg by auto. pose proof (Int_part_bounds q) as B. assert (C : (0 <= Int_part q)%Z).
  { assert (-1 < Int_part q)%Z; [|lia]. apply lt_IZR. lra. }
  exists (Z.to_nat (Int_part q)). rewrite Z2Nat.id by auto. split; auto.
  assert (E : INR (Z.to_nat (Int_part q)) = IZR (Int_part q)) by (rewrite INR_IZR_INZ, Z2Nat.id; auto).
  split; [|rewrite E; nra]. apply INR_lt. rewrite E. nra.
Qed.
Lemma indicer_inside m p : 0 < m_step m -> m_minx m <= vx p <= m_maxx m -> m_miny m <= vy p <= m_maxy m ->
  exists i j, indicer m p = (Z.of_nat j, Z.of_nat i) /\ (i < m_rows m)%nat /\ (j < m_cols m)%nat /\ in_cell (m_step m) (m_node m i j) p.
Proof.
  intros Hs Hx Hy. destruct (cell_of _ _ _ _ Hs Hx) as (j & E1 & L1 & B1). destruct (cell_of _ _ _ _ Hs Hy) as (i & E2 & L2 & B2).
  exists i, j. unfold indicer. rewrite E1, E2. repeat split; cbn; auto; lra.
Qed.
Lemma grid_extent m : 0 < m_step m -> m_minx m <= m_maxx m -> m_miny m <= m_maxy m ->
  (0 < m_cols m)%nat /\ (0 < m_rows m)%nat /\ m_node m 0 0 = V (m_minx m) (m_miny m) /\
  m_maxx m <= vx (m_node m (m_rows m - 1) (m_cols m - 1)) < m_maxx m + m_step m /\
  m_maxy m <= vy (m_node m (m_rows m - 1) (m_cols m - 1)) < m_maxy m + m_step m.
Proof.
  intros Hs Hx Hy. pose proof (arange_length_pos _ _ _ Hs Hx) as Lx. pose proof (arange_length_pos _ _ _ Hs Hy) as Ly.
  fold (m_cols m) in Lx. fold (m_rows m) in Ly.
  assert (Px : (0 < m_cols m)%nat). { destruct (m_cols m); [|lia]. cbn in Lx. nra. }
  assert (Py : (0 < m_rows m)%nat). { destruct (m_rows m); [|lia]. cbn in Ly. nra. }
  unfold m_node. cbn [vx vy]. rewrite !minus_INR by lia. cbn [INR]. repeat split; auto; try lra. apply vec_eq; cbn; lra.
Qed.
(** Which points get an index of the grid: truncation lets points less than one step to
    the left of the grid in. *)
Lemma trunc_range x n : (0 <= trunc x < Z.of_nat n)%Z <-> -1 < x < INR n /\ (0 < n)%nat.
Proof.
  rewrite INR_IZR_INZ. destruct (Rlt_or_le x 0) as [N|N].
  - rewrite trunc_neg by auto. pose proof (ceil_bounds x) as B. split.
    + intros [A1 A2]. assert (P : (0 < n)%nat) by lia. apply IZR_le in A1. apply IZR_lt in A2. repeat split; auto; lra.
    + intros [[A1 _] A2]. assert (ceil x = 0)%Z; [|lia]. assert (-1 < ceil x)%Z by (apply lt_IZR; lra).
      assert (ceil x < 1)%Z by (apply lt_IZR; lra). lia.
  - rewrite trunc_nonneg by auto. pose proof (Int_part_bounds x) as B. split.
    + intros [A1 A2]. split; [|lia]. split; [lra|]. assert (A3 : (Int_part x + 1 <= Z.of_nat n)%Z) by lia. apply IZR_le in A3. rewrite plus_IZR in A3. lra.
    + intros [[_ A1] A2]. split; [assert (-1 < Int_part x)%Z; [apply lt_IZR; lra|lia]|]. apply lt_IZR. lra.
Qed.
Lemma is_inside_iff i j n m : is_inside i j n m = true <-> (0 <= i < Z.of_nat n)%Z /\ (0 <= j < Z.of_nat m)%Z.
Proof. unfold is_inside. rewrite !andb_true_iff, !Z.leb_le, !Z.ltb_lt. tauto. Qed.
Lemma scale_range x a s n : 0 < s -> (-1 < (x - a) / s < n <-> a - s < x < a + n * s).
Proof.
  intros Hs. set (q := (x - a) / s). assert (Q : q * s = x - a) by (unfold q; field; lra). split; intros [A B]; split; nra.
Qed.
Lemma indicer_range m p c w : 0 < m_step m -> (0 < m_rows m)%nat -> (0 < m_cols m)%nat -> indicer m p = (c, w) ->
  (is_inside w c (m_rows m) (m_cols m) = true <->
   m_minx m - m_step m < vx p < m_minx m + INR (m_cols m) * m_step m /\ m_miny m - m_step m < vy p < m_miny m + INR (m_rows m) * m_step m).
Proof.
  intros Hs Pr Pc [= <- <-]. rewrite is_inside_iff, !trunc_range, !scale_range by auto. tauto.
Qed.

(** ** Defaults *)
Lemma getdefault_spec indices dm defaults :
  (length indices <> length defaults -> getdefault indices dm defaults = Err AssertionError) /\
  (length indices = length defaults -> exists out, getdefault indices dm defaults = Ok out /\ length out = length defaults /\
    forall k i j d, nth_error indices k = Some (i, j) -> nth_error defaults k = Some d ->
      ((0 <= i < Z.of_nat (rows dm))%Z /\ (0 <= j < Z.of_nat (cols dm))%Z -> nth_error out k = Some (at_ dm (Z.to_nat i) (Z.to_nat j))) /\
      (~ ((0 <= i < Z.of_nat (rows dm))%Z /\ (0 <= j < Z.of_nat (cols dm))%Z) -> nth_error out k = Some (Some d))).
Proof.
  unfold getdefault. split; intros E.
  - now rewrite (proj2 (Nat.eqb_neq _ _) E).
  - rewrite (proj2 (Nat.eqb_eq _ _) E). eexists. split; [reflexivity|]. split; [rewrite map_length, combine_length; lia|].
    intros k i j d Hi Hd. assert (Hc : nth_error (combine indices defaults) k = Some ((i, j), d)).
    { clear E. revert defaults k Hi Hd. induction indices as [|x l IH]; intros [|y l'] [|k]; cbn; try discriminate; auto. now intros [= ->] [= ->]. }
    erewrite map_nth_error by exact Hc. cbn. destruct (is_inside i j (rows dm) (cols dm)) eqn:I.
    + apply is_inside_iff in I. tauto.
    + assert (~ ((0 <= i < Z.of_nat (rows dm))%Z /\ (0 <= j < Z.of_nat (cols dm))%Z)); [|tauto]. intros K. apply is_inside_iff in K. congruence.
Qed.

(** ** Direction maps *)
Lemma gradient1_slope n f i : (2 <= n)%nat -> (i < n)%nat -> gradient1 n f i = slope n f i.
Proof.
  intros Hn Hi. unfold gradient1, slope. cbv zeta. destruct i as [|i].
  - cbn [Nat.eqb pred]. replace (Nat.min 1 (pred n)) with 1%nat by lia. cbn. lra.
  - change (Nat.eqb (S i) 0) with false. cbv iota. destruct (Nat.eqb_spec (S i) (n - 1)) as [E|E].
    + replace (Nat.min (S (S i)) (pred n)) with (S i) by lia. replace (S i - pred (S i))%nat with 1%nat by lia.
      replace (S i - 1)%nat with (pred (S i)) by lia. cbn [INR]. lra.
    + replace (Nat.min (S (S i)) (pred n)) with (S (S i)) by lia. replace (S (S i) - pred (S i))%nat with 2%nat by lia.
      replace (S i - 1)%nat with (pred (S i)) by lia. replace (S i + 1)%nat with (S (S i)) by lia. cbn [INR]. lra.
Qed.
Lemma unit_or_nan_spec d : normalised d (unit_or_nan d).
Proof.
  unfold unit_or_nan, normalised. destruct (Reqb_spec (vlength d) 0) as [E|N].
  - now apply vlength_zero.
  - assert (P : 0 < vlength d) by (pose proof (vlength_nonneg d); lra). assert (Nz : d <> vzero) by (intros ->; apply N; now apply vlength_zero). split.
    + unfold is_unit. rewrite elen_vlength. replace (vdiv d (vlength d)) with (normalize d); [now apply normalize_unit|]. rewrite (normalize_nonzero d Nz). apply vec_eq; cbn; unfold Rdiv; ring.
    + exists (/ vlength d). split; [now apply Rinv_0_lt_compat|]. apply vec_eq; cbn; unfold Rdiv; ring.
Qed.
Lemma direction_map_spec dmap :
  ((rows dmap < 2)%nat \/ (cols dmap < 2)%nat -> direction_map dmap = Err ValueError) /\
  ((2 <= rows dmap)%nat -> (2 <= cols dmap)%nat -> exists g, direction_map dmap = Ok g /\ rows g = rows dmap /\ cols g = cols dmap /\
    forall i j, (i < rows dmap)%nat -> (j < cols dmap)%nat -> normalised (slopes dmap i j) (at_ g i j)).
Proof.
  unfold direction_map. split.
  - intros [L|L]; apply Nat.ltb_lt in L; rewrite L; [reflexivity|]. now rewrite orb_true_r.
  - intros Lr Lc. rewrite (proj2 (Nat.ltb_ge _ _) Lr), (proj2 (Nat.ltb_ge _ _) Lc). cbn [orb]. eexists. split; [reflexivity|].
    repeat split; auto. intros i j Hi Hj. cbn [at_]. unfold slopes. rewrite !gradient1_slope by auto. apply unit_or_nan_spec.
Qed.
Lemma slope_linear n a b i : (2 <= n)%nat -> (i < n)%nat -> slope n (fun k => a * INR k + b) i = a.
Proof.
  intros Hn Hi. unfold slope. set (hi := Nat.min (S i) (pred n)). assert (L : (pred i < hi)%nat) by (unfold hi; lia).
  rewrite minus_INR by lia. apply lt_INR in L. field. lra.
Qed.
(** A plane has the same direction everywhere. *)
Lemma direction_map_plane n m a b c : (2 <= n)%nat -> (2 <= m)%nat ->
  exists g, direction_map (Grid n m (fun i j => a * INR j + b * INR i + c)) = Ok g /\
    forall i j, (i < n)%nat -> (j < m)%nat -> normalised (V a b) (at_ g i j).
Proof.
  intros Hn Hm. destruct (proj2 (direction_map_spec (Grid n m (fun i j => a * INR j + b * INR i + c))) Hn Hm) as (g & E & _ & _ & H).
  exists g. split; auto. intros i j Hi Hj. specialize (H i j Hi Hj). cbn [rows cols at_] in H. unfold slopes in H. cbn [rows cols at_] in H.
  replace (slope m (fun j => a * INR j + b * INR i + c) j) with a in H
    by (rewrite <- (slope_linear m a (b * INR i + c) j) at 1 by auto; unfold slope; f_equal; ring).
  replace (slope n (fun i => a * INR j + b * INR i + c) i) with b in H
    by (rewrite <- (slope_linear n b (a * INR j + c) i) at 1 by auto; unfold slope; f_equal; ring).
  exact H.
Qed.

(** ** Obstacle handling *)
Lemma blend_repelled p o t : blend p o t = repelled p o t.
Proof. unfold blend, repelled. apply vec_eq; cbn; ring. Qed.
Lemma unit_or_nan_unit d : is_unit d -> unit_or_nan d = Some d.
Proof.
  unfold is_unit. rewrite elen_vlength. intros H. unfold unit_or_nan. rewrite H. rcase; [lra|]. f_equal. apply vec_eq; cbn; field.
Qed.
Lemma obstacle_handling_spec dmap dobs dtgt radius strength i j :
  let d := - at_ dmap i j in let out := at_ (obstacle_handling dmap dobs dtgt radius strength) i j in
  rows (obstacle_handling dmap dobs dtgt radius strength) = rows dmap /\ cols (obstacle_handling dmap dobs dtgt radius strength) = cols dmap /\
  (~ (0 < d < radius) -> match at_ dtgt i j with
     | None => out = None
     | Some t => normalised t out /\ (is_unit t -> out = Some t)
     end) /\
  (0 < d < radius -> 0 < strength -> forall o t, at_ dobs i j = Some o -> at_ dtgt i j = Some t ->
     normalised (repelled (Rpower strength (d / radius)) o t) out) /\
  (0 < d < radius -> strength = 0 -> forall o t, at_ dobs i j = Some o -> at_ dtgt i j = Some t -> normalised t out) /\
  (0 < d < radius -> at_ dobs i j = None \/ at_ dtgt i j = None -> out = None).
Proof.
  cbn zeta. split; auto. split; auto. cbn [at_ obstacle_handling]. unfold handle_cell.
  set (d := - at_ dmap i j). split; [|split; [|split]].
  - intros N. assert (F : (Rltb 0 d && Rltb d radius)%bool = false).
    { apply andb_false_iff. rewrite !Rltb_false. destruct (Rlt_or_le 0 d); [right|now left]. destruct (Rlt_or_le d radius); [exfalso; auto|auto]. }
    rewrite F. destruct (at_ dtgt i j) as [t|]; auto. split; [apply unit_or_nan_spec|apply unit_or_nan_unit].
  - intros [A B] S o t -> ->. rewrite (proj2 (Rltb_true _ _) A), (proj2 (Rltb_true _ _) B). cbn [andb]. unfold power.
    rcase; [lra|]. rcase; [lra|]. change (exp (d / radius * ln strength)) with (Rpower strength (d / radius)). rewrite blend_repelled. apply unit_or_nan_spec.
  - intros [A B] S o t -> ->. rewrite (proj2 (Rltb_true _ _) A), (proj2 (Rltb_true _ _) B). cbn [andb]. unfold power.
    rcase; [lra|]. rcase; [|lra]. rewrite blend_repelled. replace (repelled 0 o t) with t; [apply unit_or_nan_spec|].
    unfold repelled. apply vec_eq; cbn; ring.
  - intros [A B] H. rewrite (proj2 (Rltb_true _ _) A), (proj2 (Rltb_true _ _) B). cbn [andb].
    destruct (power strength (d / radius)), (at_ dobs i j), (at_ dtgt i j); auto; destruct H; discriminate.
Qed.
(** The weight falls from one at the obstacle to [strength] at the radius. *)
Lemma weight_range strength radius d : 0 < strength < 1 -> 0 < d < radius -> strength < Rpower strength (d / radius) < 1.
Proof.
  intros S D. assert (L : ln strength < 0). { rewrite <- ln_1. apply ln_increasing; lra. } unfold Rpower.
  assert (Q : 0 < d / radius < 1). { split; [apply Rdiv_lt_0_compat; lra|]. apply Rmult_lt_reg_r with radius; [lra|]. field_simplify; lra. }
  split.
  - rewrite <- (exp_ln strength) at 1 by lra. apply exp_increasing. nra.
  - rewrite <- exp_0. apply exp_increasing. nra.
Qed.
Lemma weight_decreasing strength radius d d' : 0 < strength < 1 -> 0 < radius -> d < d' -> Rpower strength (d' / radius) < Rpower strength (d / radius).
Proof.
  intros S Rr D. assert (L : ln strength < 0). { rewrite <- ln_1. apply ln_increasing; lra. } unfold Rpower. apply exp_increasing.
  assert (d / radius < d' / radius) by (apply Rmult_lt_compat_r; [now apply Rinv_0_lt_compat|auto]). nra.
Qed.

(** ** Navigation *)
Lemma masked_some t r : forall a, In a (masked t r) <-> In (Some a) r /\ a_target a = t.
Proof.
  intros a. unfold masked. rewrite in_flat_map. split.
  - intros ([b|] & Hb & H); [|destruct H]. destruct (Z.eqb_spec (a_target b) t); [|destruct H]. destruct H as [->|[]]. auto.
  - intros [H E]. exists (Some a). split; auto. apply Z.eqb_eq in E. rewrite E. now left.
Qed.
(** One row after the update for one target. *)
Definition nav_row (m : mesh) (dm : grid (option vec)) (t : Z) (r : option agent) : option agent :=
  match r with
  | None => None
  | Some a =>
      if Z.eqb (a_target a) t then
        let '(c, w) := indicer m (a_position a) in
        if is_inside w c (rows dm) (cols dm) then option_map (fun d => set_target_direction d a) (at_ dm (Z.to_nat w) (Z.to_nat c))
        else Some (set_target_direction (a_target_direction a) a)
      else Some a
  end.
Lemma set_dir_same a : set_target_direction (a_target_direction a) a = a.
Proof. now destruct a. Qed.
Lemma navigate_target_ok nav t r m dm : nav t = Ok (m, dm) -> navigate_target nav t r = Ok (map (nav_row m dm t) r).
Proof.
  intros E. unfold navigate_target. destruct r as [|x r]; [reflexivity|]. rewrite E. cbn [rbind]. set (l := x :: r). clearbody l. clear x r.
  unfold getdefault. rewrite !map_length, Nat.eqb_refl. cbn [rbind]. f_equal.
  induction l as [|[a|] l IH]; cbn [scatter masked flat_map map nav_row]; auto.
  - destruct (Z.eqb (a_target a) t) eqn:T.
    + cbn [app map combine]. destruct (indicer m (a_position a)) as [c w]. f_equal; [|exact IH].
      now destruct (is_inside w c (rows dm) (cols dm)).
    + cbn [app]. f_equal. apply IH.
  - cbn [app]. f_equal. apply IH.
Qed.
Lemma nav_row_target m dm t r a' : nav_row m dm t r = Some a' -> exists a, r = Some a /\ a_target a' = a_target a.
Proof.
  destruct r as [a|]; [|discriminate]. cbn. destruct (Z.eqb (a_target a) t); [|intros [= <-]; eauto].
  destruct (indicer m (a_position a)) as [c w]. destruct (is_inside _ _ _ _); [|intros [= <-]; exists a; split; auto].
  destruct (at_ dm _ _); [|discriminate]. intros [= <-]. exists a. split; auto.
Qed.
Lemma navigate_all_ok nav (maps : Z -> mesh * grid (option vec)) ts : (forall t, In t ts -> nav t = Ok (maps t)) -> forall r,
  navigate_all nav ts r = Ok (fold_left (fun r t => map (nav_row (fst (maps t)) (snd (maps t)) t) r) ts r).
Proof.
  induction ts as [|t ts IH]; intros H r; cbn; auto. rewrite (navigate_target_ok nav t r (fst (maps t)) (snd (maps t))).
  - cbn. apply IH. intros; apply H; now right.
  - rewrite H by now left. now destruct (maps t).
Qed.
Lemma fold_rows (maps : Z -> mesh * grid (option vec)) ts : forall r,
  fold_left (fun r t => map (nav_row (fst (maps t)) (snd (maps t)) t) r) ts r =
  map (fun x => fold_left (fun x t => nav_row (fst (maps t)) (snd (maps t)) t x) ts x) r.
Proof. induction ts as [|t ts IH]; intros r; cbn; [now rewrite map_id|]. rewrite IH, map_map. reflexivity. Qed.
Lemma fold_none (maps : Z -> mesh * grid (option vec)) ts : fold_left (fun x t => nav_row (fst (maps t)) (snd (maps t)) t x) ts None = None.
Proof. induction ts as [|t ts IH]; cbn; auto. Qed.
Lemma fold_other (maps : Z -> mesh * grid (option vec)) ts : forall a, ~ In (a_target a) ts ->
  fold_left (fun x t => nav_row (fst (maps t)) (snd (maps t)) t x) ts (Some a) = Some a.
Proof.
  induction ts as [|t ts IH]; intros a N; cbn [fold_left]; auto. unfold nav_row at 2. destruct (Z.eqb_spec (a_target a) t) as [E|_]; [exfalso; apply N; now left|].
  apply IH. intros K. apply N. now right.
Qed.
Lemma fold_own (maps : Z -> mesh * grid (option vec)) ts : NoDup ts -> forall a, In (a_target a) ts ->
  fold_left (fun x t => nav_row (fst (maps t)) (snd (maps t)) t x) ts (Some a) =
  nav_row (fst (maps (a_target a))) (snd (maps (a_target a))) (a_target a) (Some a).
Proof.
  induction ts as [|t ts IH]; intros ND a K; [destruct K|]. inversion ND as [|? ? N1 N2]; subst. cbn [fold_left].
  destruct (Z.eq_dec (a_target a) t) as [E|E].
  - subst t. destruct (nav_row _ _ _ (Some a)) as [a'|] eqn:F; [|apply fold_none]. apply nav_row_target in F as (b & [= <-] & T). apply fold_other. now rewrite T.
  - replace (nav_row (fst (maps t)) (snd (maps t)) t (Some a)) with (Some a); [|cbn; now rewrite (proj2 (Z.eqb_neq _ _) E)]. apply IH; auto. destruct K; [congruence|auto].
Qed.
Lemma navigation_node_ok nav n (maps : Z -> mesh * grid (option vec)) agents : (forall t, (0 <= t < Z.of_nat n)%Z -> nav t = Ok (maps t)) ->
  exists out, navigation_node nav n agents = Ok out /\ length out = length agents /\
    forall k a, nth_error agents k = Some a ->
      let m := fst (maps (a_target a)) in let dm := snd (maps (a_target a)) in
      let '(c, w) := indicer m (a_position a) in
      if (Z.leb 0 (a_target a) && Z.ltb (a_target a) (Z.of_nat n) && is_inside w c (rows dm) (cols dm))%bool
      then nth_error out k = Some (option_map (fun d => set_target_direction d a) (at_ dm (Z.to_nat w) (Z.to_nat c)))
      else nth_error out k = Some (Some a).
Proof.
  intros H. unfold navigation_node. rewrite (navigate_all_ok nav maps).
  2:{ intros t Ht. apply H. apply in_map_iff in Ht as (j & <- & Hj). apply in_seq in Hj. lia. }
  rewrite fold_rows, map_map. eexists. split; [reflexivity|]. split; [apply map_length|]. intros k a Ha. cbn zeta.
  destruct (indicer (fst (maps (a_target a))) (a_position a)) as [c w] eqn:I. erewrite map_nth_error by exact Ha.
  assert (ND : NoDup (map Z.of_nat (seq 0 n))) by (apply FinFun.Injective_map_NoDup; [intros x y; apply Nat2Z.inj|apply seq_NoDup]).
  assert (M : In (a_target a) (map Z.of_nat (seq 0 n)) <-> (0 <= a_target a < Z.of_nat n)%Z).
  { rewrite in_map_iff. split; [intros (j & <- & Hj); apply in_seq in Hj; lia|]. intros K. exists (Z.to_nat (a_target a)). rewrite Z2Nat.id, in_seq by lia. lia. }
  destruct (Z.leb 0 (a_target a) && Z.ltb (a_target a) (Z.of_nat n))%bool eqn:B.
  - apply andb_true_iff in B as [B1 B2]. apply Z.leb_le in B1. apply Z.ltb_lt in B2. rewrite fold_own by (auto; apply M; lia).
    cbn [nav_row andb]. rewrite Z.eqb_refl, I. destruct (is_inside _ _ _ _); auto. now rewrite set_dir_same.
  - cbn [andb]. rewrite fold_other; auto. intros K. apply M in K as [K1 K2]. apply Z.leb_le in K1. apply Z.ltb_lt in K2. rewrite K1, K2 in B. discriminate.
Qed.
(** An exception of one navigation map reaches the caller, unless there are no agents. *)
Lemma navigation_node_empty nav n : navigation_node nav n [] = Ok [].
Proof. unfold navigation_node. cbn [map]. induction (map Z.of_nat (seq 0 n)) as [|t ts IH]; cbn; auto. Qed.

(** ** Orientation *)
Lemma orientation_node_spec k agents :
  length (orientation_node k agents) = length agents /\
  forall i a, nth_error agents i = Some a ->
    exists a', nth_error (orientation_node k agents) i = Some a' /\
    match k with
    | Circular => a' = a
    | ThreeCircle => exists phi, a' = set_target_orientation phi a /\ - PI < phi <= PI /\
        (a_target_direction a <> V 0 0 -> a_target_direction a = V (elen (a_target_direction a) * cos phi) (elen (a_target_direction a) * sin phi))
    end.
Proof.
  unfold orientation_node. destruct k; cbn [is_model kind_eqb].
  - split; auto. intros i a H. exists a. auto.
  - unfold orient_towards_target_direction. split; [apply map_length|]. intros i a H. erewrite map_nth_error by exact H. eexists. split; [reflexivity|].
    exists (angle (a_target_direction a)). split; [reflexivity|]. split; [apply angle_range|]. intros N.
    pose proof (unit_vector_angle (a_target_direction a) N) as E. rewrite elen_vlength. unfold vscale, unit_vector in E. cbn in E. now rewrite E.
Qed.

(** ** Continuous obstacle handling *)
Lemma continuous_spec dmap dobs radius strength i j d :
  let at_cell := ((0 <= i < Z.of_nat (rows dmap))%Z /\ (0 <= j < Z.of_nat (cols dmap))%Z) in
  let x := - at_ dmap (Z.to_nat i) (Z.to_nat j) in
  (~ (at_cell /\ 0 < x < radius) -> handle_continuous dmap dobs radius strength (i, j) d = Some d) /\
  (at_cell -> 0 < x < radius -> 0 < strength -> forall o, at_ dobs (Z.to_nat i) (Z.to_nat j) = Some o ->
     handle_continuous dmap dobs radius strength (i, j) d = Some (normalize (repelled (Rpower strength (x / radius)) o (V (vy d) (vy d))))).
Proof.
  cbn zeta. unfold handle_continuous. fold (is_inside i j (rows dmap) (cols dmap)).
  pose proof (is_inside_iff i j (rows dmap) (cols dmap)) as I. set (x := - at_ dmap (Z.to_nat i) (Z.to_nat j)). split.
  - intros N. destruct (is_inside i j (rows dmap) (cols dmap)); auto.
    assert (F : (Rltb 0 x && Rltb x radius)%bool = false); [|now rewrite F].
    apply andb_false_iff. rewrite !Rltb_false. destruct (Rlt_or_le 0 x); [right|now left]. destruct (Rlt_or_le x radius); [exfalso; apply N; tauto|auto].
  - intros C [A B] S o ->. apply I in C. rewrite C. rewrite (proj2 (Rltb_true _ _) A), (proj2 (Rltb_true _ _) B). cbn [andb]. unfold power.
    rcase; [lra|]. rcase; [lra|]. rewrite blend_repelled. reflexivity.
Qed.
Lemma normalize_normalised d : d <> V 0 0 -> normalised d (Some (normalize d)).
Proof.
  intros N. split.
  - unfold is_unit. rewrite elen_vlength. now apply normalize_unit.
  - exists (/ vlength d). split; [apply Rinv_0_lt_compat; now apply vlength_pos|]. rewrite normalize_nonzero by auto. reflexivity.
Qed.
Lemma continuous_diagonal dmap dobs radius strength i j d o :
  ((0 <= i < Z.of_nat (rows dmap))%Z /\ (0 <= j < Z.of_nat (cols dmap))%Z) -> 0 < - at_ dmap (Z.to_nat i) (Z.to_nat j) < radius -> 0 < strength ->
  at_ dobs (Z.to_nat i) (Z.to_nat j) = Some o -> vx d = vy d ->
  let b := repelled (Rpower strength (- at_ dmap (Z.to_nat i) (Z.to_nat j) / radius)) o d in b <> V 0 0 ->
  normalised b (handle_continuous dmap dobs radius strength (i, j) d).
Proof.
  intros C X S O E b N. destruct (continuous_spec dmap dobs radius strength i j d) as [_ H]. rewrite (H C X S o O).
  replace (V (vy d) (vy d)) with d by (destruct d; cbn in *; congruence). now apply normalize_normalised.
Qed.
Lemma continuous_wrong : exists dmap dobs radius strength i j d o,
  ((0 <= i < Z.of_nat (rows dmap))%Z /\ (0 <= j < Z.of_nat (cols dmap))%Z) /\ 0 < - at_ dmap (Z.to_nat i) (Z.to_nat j) < radius /\ 0 < strength < 1 /\
  at_ dobs (Z.to_nat i) (Z.to_nat j) = Some o /\ is_unit o /\ is_unit d /\
  ~ normalised (repelled (Rpower strength (- at_ dmap (Z.to_nat i) (Z.to_nat j) / radius)) o d) (handle_continuous dmap dobs radius strength (i, j) d).
Proof.
  exists (Grid 1 1 (fun _ _ => - (1/2))), (Grid 1 1 (fun _ _ => Some (V 0 1))), 1, (1/4), 0%Z, 0%Z, (V 1 0), (V 0 1).
  set (dm := Grid 1 1 (fun _ _ => - (1/2))). set (dob := Grid 1 1 (fun _ _ => Some (V 0 1))).
  assert (C : ((0 <= 0 < Z.of_nat (rows dm))%Z /\ (0 <= 0 < Z.of_nat (cols dm))%Z)) by (cbn; lia).
  assert (X : 0 < - at_ dm (Z.to_nat 0) (Z.to_nat 0) < 1) by (cbn; lra).
  assert (U : forall v, vx v * vx v + vy v * vy v = 1 -> is_unit v). { intros v H. unfold is_unit, elen, edist. cbn. replace (_ + _) with 1 by lra. apply sqrt_1. }
  repeat match goal with |- _ /\ _ => split end; try apply C; try apply X; try lra; [reflexivity|apply U; cbn; ring|apply U; cbn; ring|].
  destruct (continuous_spec dm dob 1 (1/4) 0 0 (V 1 0)) as [_ H]. rewrite (H C X ltac:(lra) (V 0 1) eq_refl).
  pose proof (weight_range (1/4) 1 (- at_ dm (Z.to_nat 0) (Z.to_nat 0)) ltac:(lra) X) as Wt.
  set (p := Rpower (1/4) (- at_ dm (Z.to_nat 0) (Z.to_nat 0) / 1)) in *. intros [_ (k & Hk & E)]. cbn [vy] in E.
  rewrite normalize_nonzero in E by (unfold repelled; cbn; intros [= _ K]; lra). unfold repelled, vscale in E. cbn in E. injection E as E _.
  assert (k * (1 - p) = 0) by lra. nra.
Qed.
