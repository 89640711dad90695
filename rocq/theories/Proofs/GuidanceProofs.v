(** * Distance maps, shortest paths and navigation maps *)
From Verif Require Import Proofs.VecLemmas Spec.Fields Proofs.SteeringProofs Proofs.GeometryProofs Proofs.FieldProofs.
From Verif Require Export Spec.Guidance.
From Coq Require Import Lia Lra Classical.
Open Scope R_scope.

(** ** Gradients of masked arrays *)
Definition value (x : option R) : R := match x with Some x => x | None => 0 end.
Lemma masked_gradient_known n f i x y : (2 <= n)%nat -> (i < n)%nat -> f (pred i) = Some x -> f (next n i) = Some y ->
  masked_gradient1 n f i = Some (slope n (fun k => value (f k)) i).
Proof.
  intros Hn Hi X Y. rewrite <- gradient1_slope by auto. unfold masked_gradient1, gradient1, next in *. destruct i as [|i].
  - cbn [Nat.eqb pred] in *. replace (Nat.min 1 (pred n)) with 1%nat in Y by lia. now rewrite X, Y.
  - change (Nat.eqb (S i) 0) with false. cbv iota. cbn [pred] in X. replace (S i - 1)%nat with i by lia.
    destruct (Nat.eqb_spec (S i) (n - 1)) as [E|E].
    + replace (Nat.min (S (S i)) (pred n)) with (S i) in Y by lia. now rewrite X, Y.
    + replace (Nat.min (S (S i)) (pred n)) with (S i + 1)%nat in Y by lia. now rewrite X, Y.
Qed.
Lemma masked_gradient_unknown n f i : (2 <= n)%nat -> (i < n)%nat -> f (pred i) = None \/ f (next n i) = None ->
  masked_gradient1 n f i = None.
Proof.
  intros Hn Hi H. unfold masked_gradient1, next in *. destruct i as [|i].
  - cbn [Nat.eqb pred] in *. replace (Nat.min 1 (pred n)) with 1%nat in H by lia. destruct H as [H|H]; rewrite H; [now destruct (f 1%nat)|reflexivity].
  - change (Nat.eqb (S i) 0) with false. cbv iota. cbn [pred] in H. replace (S i - 1)%nat with i by lia.
    destruct (Nat.eqb_spec (S i) (n - 1)) as [E|E].
    + replace (Nat.min (S (S i)) (pred n)) with (S i) in H by lia. destruct H as [H|H]; rewrite H; [now destruct (f (S i))|reflexivity].
    + replace (Nat.min (S (S i)) (pred n)) with (S i + 1)%nat in H by lia. destruct H as [H|H]; rewrite H; [now destruct (f (S i + 1)%nat)|reflexivity].
Qed.

Lemma known_dec g i j : {known g i j} + {at_ g i j = None}.
Proof. unfold known. destruct (at_ g i j) as [x|]; [left; now exists x|now right]. Qed.

Lemma direction_cell dmap dir i j : masked_direction_map dmap = Ok dir -> within dmap i j ->
  uphill dmap i j (at_ dir i j) \/ (flat dmap i j /\ at_ dir i j = None).
Proof.
  unfold masked_direction_map. destruct (Nat.ltb_spec (rows dmap) 2) as [L|L]; [discriminate|].
  destruct (Nat.ltb_spec (cols dmap) 2) as [L'|L']; [discriminate|]. cbn [orb]. intros [= <-] [I J]. cbn [at_].
  destruct (known_dec dmap (pred i) j) as [K1|K1].
  2:{ right. split; [intros d ((A & _) & _); destruct A as [x A]; congruence|]. rewrite (masked_gradient_unknown (rows dmap)); auto. }
  destruct (known_dec dmap (next (rows dmap) i) j) as [K2|K2].
  2:{ right. split; [intros d ((_ & A & _) & _); destruct A as [x A]; congruence|]. rewrite (masked_gradient_unknown (rows dmap)); auto. }
  destruct (known_dec dmap i (pred j)) as [K3|K3].
  2:{ right. split; [intros d ((_ & _ & A & _) & _); destruct A as [x A]; congruence|]. rewrite (masked_gradient_unknown (cols dmap)); auto. now destruct (masked_gradient1 _ _ _). }
  destruct (known_dec dmap i (next (cols dmap) j)) as [K4|K4].
  2:{ right. split; [intros d ((_ & _ & _ & A) & _); destruct A as [x A]; congruence|]. rewrite (masked_gradient_unknown (cols dmap)); auto. now destruct (masked_gradient1 _ _ _). }
  assert (K : known_around dmap i j) by (unfold known_around; auto).
  destruct K1 as [x1 K1], K2 as [x2 K2], K3 as [x3 K3], K4 as [x4 K4].
  rewrite (masked_gradient_known (rows dmap) _ i x1 x2), (masked_gradient_known (cols dmap) _ j x3 x4) by auto.
  change (unit_or_nan (V (slope (cols dmap) (fun k => value (at_ dmap i k)) j) (slope (rows dmap) (fun k => value (at_ dmap k j)) i)))
    with (unit_or_nan (slopes (data dmap) i j)).
  pose proof (unit_or_nan_spec (slopes (data dmap) i j)) as S. destruct (unit_or_nan (slopes (data dmap) i j)) as [w|]; cbn in S.
  - left. exists (slopes (data dmap) i j), w. split; [|split; [reflexivity|exact S]]. split; [exact K|]. split; [reflexivity|].
    intros E. destruct S as [U (k & _ & W)]. rewrite E in W. subst w.
    unfold is_unit, elen, edist in U. cbn in U. replace (_ + _) with 0 in U by ring. rewrite sqrt_0 in U. lra.
  - right. split; [|reflexivity]. intros d (_ & -> & N). contradiction.
Qed.
Lemma direction_shape dmap dir : masked_direction_map dmap = Ok dir ->
  rows dir = rows dmap /\ cols dir = cols dmap /\ (2 <= rows dmap)%nat /\ (2 <= cols dmap)%nat.
Proof.
  unfold masked_direction_map. destruct (Nat.ltb_spec (rows dmap) 2); [discriminate|].
  destruct (Nat.ltb_spec (cols dmap) 2); [discriminate|]. cbn [orb]. intros [= <-]. auto.
Qed.
Lemma uphill_not_flat g i j u : uphill g i j u -> ~ flat g i j.
Proof. intros (d & w & S & _) F. exact (F d S). Qed.
Lemma uphill_some g i j u : uphill g i j u -> exists w, u = Some w /\ is_unit w.
Proof. intros (d & w & _ & E & U & _). eauto. Qed.

Lemma masked_flat dmap dir i j : masked_direction_map dmap = Ok dir -> within dmap i j ->
  is_masked dir (i, j) = true <-> flat dmap i j.
Proof.
  intros D W. unfold is_masked. cbn [fst snd]. destruct (direction_cell dmap dir i j D W) as [U|[F N]].
  - destruct (uphill_some _ _ _ _ U) as (w & E & _). rewrite E. split; [discriminate|]. intros F. now apply uphill_not_flat in U.
  - rewrite N. tauto.
Qed.
Lemma unmasked_uphill dmap dir i j : masked_direction_map dmap = Ok dir -> within dmap i j ->
  is_masked dir (i, j) = false -> uphill dmap i j (at_ dir i j).
Proof.
  intros D W. unfold is_masked. cbn [fst snd]. destruct (direction_cell dmap dir i j D W) as [U|[F N]]; auto. rewrite N. discriminate.
Qed.

Lemma same_direction_unit d w w' : is_unit w -> is_unit w' -> same_direction d w -> same_direction d w' -> w = w'.
Proof.
  intros U U' (k & K & ->) (k' & K' & ->). unfold is_unit in U, U'. rewrite !elen_vlength in U, U'.
  change (V (k * vx d) (k * vy d)) with (vscale k d) in U. change (V (k' * vx d) (k' * vy d)) with (vscale k' d) in U'.
  rewrite vlength_scale, Rabs_right in U, U' by lra. replace k' with k; [reflexivity|].
  assert (vlength d <> 0) by (intros E; rewrite E in U; lra). apply (Rmult_eq_reg_r (vlength d)); [lra|auto].
Qed.

(** ** Boundaries *)
Lemma cells_in n m i j : In (i, j) (cells n m) <-> (i < n)%nat /\ (j < m)%nat.
Proof. unfold cells. rewrite in_prod_iff, !in_seq. lia. Qed.
Lemma beside_in n m i j a b : (i < n)%nat -> (j < m)%nat -> In (a, b) (beside n m (i, j)) <-> ((a < n)%nat /\ (b < m)%nat /\ adjacent i j a b).
Proof.
  intros I J. unfold beside, adjacent. rewrite !in_app_iff.
  assert (P : forall x y : nat, In (a, b) [(x, y)] <-> x = a /\ y = b).
  { intros x y. cbn [In]. split; [intros [E|[]]; injection E; auto|intros [-> ->]; now left]. }
  assert (Z : In (a, b) [] <-> False) by reflexivity.
  destruct (Nat.ltb_spec (S i) n), (Nat.ltb_spec (S j) m), i as [|i'], j as [|j']; rewrite ?P, ?Z; lia.
Qed.

Lemma boundary_rim dmap dir a b : masked_direction_map dmap = Ok dir -> In (a, b) (outer_boundary dir) <-> rim dmap a b.
Proof.
  intros D. destruct (direction_shape _ _ D) as (R & C & _). unfold outer_boundary. rewrite filter_In, cells_in, andb_true_iff, negb_true_iff, existsb_exists. rewrite R, C.
  split.
  - intros ((A & B) & M & (i, j) & I & N). apply beside_in in I; auto. destruct I as (I & J & Adj). split; [now split|]. split.
    + eapply uphill_not_flat, unmasked_uphill; eauto. now split.
    + exists i, j. split; [now split|]. split; auto. eapply masked_flat; eauto. now split.
  - intros ((A & B) & M & i & j & (I & J) & Adj & F). split; [auto|]. split.
    + destruct (is_masked dir (a, b)) eqn:E; auto. exfalso. apply M. eapply masked_flat; eauto. now split.
    + exists (i, j). split; [apply beside_in; auto|]. eapply masked_flat; eauto. now split.
Qed.

(** ** Filling *)
Lemma edist_swap p q : edist (V (vy p) (vx p)) (V (vy q) (vx q)) = edist p q.
Proof. unfold edist. cbn. f_equal. ring. Qed.

Section Guided.
  Variables (line : Z * Z -> Z * Z -> list (Z * Z)) (fill perimeter : list (Z * Z) -> list (Z * Z)).
  Variable solver : R -> grid R -> grid bool -> res (grid (option R)).
  Variables (buffer : geom -> R -> geom) (intersection : geom -> geom -> geom).
  Variable nearest : list vec -> vec -> nat.
  Hypothesis found : finds_nearest nearest.

  (** The cell picked for a missing one. *)
  Lemma pick_nearest m dmap dir i j : masked_direction_map dmap = Ok dir -> outer_boundary dir <> [] ->
    let swapped c := let p := m_node m (fst c) (snd c) in V (vy p) (vx p) in
    exists a b, nth_error (outer_boundary dir) (nearest (map swapped (outer_boundary dir)) (swapped (i, j))) = Some (a, b) /\
      nearest_of m (rim dmap) i j a b.
  Proof using found.
    intros D N swapped. destruct (found (map swapped (outer_boundary dir)) (swapped (i, j))) as (p & E & L).
    { intros X. apply map_eq_nil in X. contradiction. }
    rewrite nth_error_map in E. destruct (nth_error (outer_boundary dir) _) as [(a, b)|] eqn:F; [|discriminate]. injection E as <-.
    exists a, b. split; [reflexivity|]. split; [apply (boundary_rim dmap dir); auto; now apply nth_error_In in F|].
    intros a' b' M. apply (boundary_rim dmap dir) in M; auto. specialize (L (swapped (a', b')) (in_map swapped _ _ M)).
    unfold swapped in L. cbn [fst snd] in L. now rewrite !edist_swap in L.
  Qed.

  Lemma fill_spec m dmap dir mask out : masked_direction_map dmap = Ok dir -> fill_missing nearest m mask dir = Ok out ->
    rows out = rows dmap /\ cols out = cols dmap /\ forall i j, within dmap i j ->
    (mask i j = false -> at_ out i j = at_ dir i j) /\
    (mask i j = true -> exists a b, nearest_of m (rim dmap) i j a b /\ at_ out i j = at_ dir a b).
  Proof using found.
    intros D F. destruct (direction_shape _ _ D) as (R & C & _). unfold fill_missing in F. cbv zeta in F.
    match type of F with (if ?b then _ else _) = _ => destruct b eqn:A; [|discriminate] end. injection F as <-. cbn [rows cols at_].
    split; [auto|]. split; [auto|]. intros i j (I & J). split; intros M; rewrite M; [reflexivity|].
    rewrite forallb_forall in A. specialize (A (i, j)). rewrite filter_In, cells_in, R, C in A. specialize (A (conj (conj I J) M)).
    match type of A with context [nth_error ?l ?k] => destruct (nth_error l k) as [(a, b)|] eqn:E; [|discriminate] end.
    destruct (pick_nearest m dmap dir i j D) as (a' & b' & E' & P). { intros X. rewrite X in E. destruct (nearest _ _) in E; discriminate. }
    cbv zeta in E'. rewrite E in E'. injection E' as <- <-. exists a, b. split; [exact P|]. match type of E with ?l = _ => change (match l with Some (a0, b0) => at_ dir a0 b0 | None => None end = at_ dir a b) end. now rewrite E.
  Qed.

  (** ** Shortest paths *)
  Hypothesis shape : keeps_shape solver.
  Lemma draw_shape {A} idx (v z : A) s : forall g g', draw_geom line fill perimeter idx v z s g = Ok g' -> rows g' = rows g /\ cols g' = cols g.
  Proof using.
    clear shape solver buffer intersection found nearest.
    assert (P : forall v cs (g g' : grid A), put_cells cs v g = Ok g' -> rows g' = rows g /\ cols g' = cols g).
    { intros w cs. induction cs as [|(x, y) cs IH]; intros g g'; cbn [put_cells]; [now intros [= <-]|].
      destruct (axis_index (rows g) y), (axis_index (cols g) x); try discriminate. intros E. now apply IH in E. }
    induction s as [p | l | e h | l IH |] using geom_ind'; intros g g'; cbn [draw_geom].
    - now intros [= <-].
    - revert g. induction (zip_pairs l) as [|(a, b) q IH]; intros g; cbn [draw_lines]; [now intros [= <-]|].
      destruct (put_cells _ v g) as [g1|] eqn:E; [|discriminate]. cbn [rbind]. intros F. apply P in E. apply IH in F. intuition congruence.
    - destruct e as [|x e]; [discriminate|]. destruct (put_cells _ v g) as [g1|] eqn:E1; [|discriminate]. cbn [rbind].
      destruct (put_cells _ v g1) as [g2|] eqn:E2; [|discriminate]. cbn [rbind]. intros F. apply P in E1, E2.
      assert (Q : rows g' = rows g2 /\ cols g' = cols g2).
      { clear E1 E2. revert g2 F. induction h as [|y h IH]; intros g2; cbn [draw_holes]; [now intros [= <-]|].
        destruct (put_cells _ z g2) as [g3|] eqn:E3; [|discriminate]. cbn [rbind]. intros F. apply P in E3. apply IH in F. intuition congruence. }
      intuition congruence.
    - revert g. induction l as [|s l IHl]; intros g; [now intros [= <-]|].
      destruct (draw_geom line fill perimeter idx v z s g) as [g1|] eqn:E; [|discriminate]. cbn [rbind]. intros F.
      apply IH in E; [|now left]. apply (IHl (fun s' I => IH s' (or_intror I)) g1) in F. intuition congruence.
    - discriminate.
  Qed.
  Lemma distance_shape m t o d : distance_map line fill perimeter solver m t o = Ok d -> rows d = m_rows m /\ cols d = m_cols m.
  Proof using shape.
    clear buffer intersection found nearest.
    unfold distance_map. destruct (draw_geom _ _ _ _ _ _ t _) as [c|] eqn:E; [|discriminate]. cbn [rbind].
    destruct (match o with Some o => _ | None => _ end) as [k|] eqn:F; [|discriminate]. cbn [rbind]. intros S.
    apply shape in S. apply draw_shape in E. cbn [rows cols] in E. intuition congruence.
  Qed.

  Lemma path_spec m domain targets obstacles radius dir dist :
    path_maps line fill perimeter solver buffer intersection nearest m domain targets obstacles radius = Ok (dir, dist) ->
    exists dmap mask,
      distance_map line fill perimeter solver m targets (Some (intersection (buffer obstacles radius) domain)) = Ok dmap /\
      draw_geom line fill perimeter (indicer m) true false obstacles (Grid (m_rows m) (m_cols m) (fun _ _ => false)) = Ok mask /\
      dist = data dmap /\ rows dir = m_rows m /\ cols dir = m_cols m /\
      forall i j, within dir i j ->
        (at_ mask i j = false -> ~ flat dmap i j -> uphill dmap i j (at_ dir i j)) /\
        (at_ mask i j = true -> flat dmap i j -> at_ dir i j = None) /\
        ((at_ mask i j = false /\ flat dmap i j) \/ (at_ mask i j = true /\ ~ flat dmap i j) ->
           exists a b, nearest_of m (rim dmap) i j a b /\ uphill dmap a b (at_ dir i j)).
  Proof using found shape.
    unfold path_maps. destruct (distance_map _ _ _ _ _ _ _) as [dmap|] eqn:Em; [|discriminate]. cbn [rbind].
    destruct (masked_direction_map dmap) as [d0|] eqn:D; [|discriminate]. cbn [rbind].
    destruct (draw_geom _ _ _ _ _ _ obstacles _) as [mask|] eqn:K; [|discriminate]. cbn [rbind].
    destruct (any_masked dmap); [|discriminate]. destruct (fill_missing _ _ _ _) as [d1|] eqn:F; [|discriminate]. cbn [rbind]. intros [= <- <-].
    exists dmap, mask. split; [reflexivity|]. split; [reflexivity|]. split; [reflexivity|].
    destruct (fill_spec _ _ _ _ _ D F) as (R & C & S). destruct (distance_shape _ _ _ _ Em) as [Rm Cm].
    split; [congruence|]. split; [congruence|]. intros i j (I & J). assert (W : within dmap i j) by (split; congruence).
    specialize (S i j W). cbn beta in S. destruct S as [S1 S2]. pose proof (masked_flat _ _ _ _ D W) as MF.
    destruct (is_masked d0 (i, j)) eqn:M.
    - assert (Fl : flat dmap i j) by tauto. split; [contradiction|]. destruct (at_ mask i j) eqn:Ma; cbn [xorb] in *.
      + split; [|intros [[? _]|[_ ?]]; [discriminate|contradiction]]. intros _ _. rewrite S1 by reflexivity. unfold is_masked in M. cbn [fst snd] in M.
        now destruct (at_ d0 i j).
      + split; [discriminate|]. intros _. destruct S2 as (a & b & N & E); [reflexivity|]. exists a, b. split; auto. rewrite E.
        destruct N as [(Wa & NF & _) _]. destruct (direction_cell _ _ _ _ D Wa) as [U|[X _]]; [exact U|contradiction].
    - assert (Fl : ~ flat dmap i j) by (intros X; apply MF in X; discriminate). destruct (at_ mask i j) eqn:Ma; cbn [xorb] in *.
      + split; [discriminate|]. split; [contradiction|]. intros _. destruct S2 as (a & b & N & E); [reflexivity|]. exists a, b. split; auto. rewrite E.
        destruct N as [(Wa & NF & _) _]. destruct (direction_cell _ _ _ _ D Wa) as [U|[X _]]; [exact U|contradiction].
      + split; [|split; [discriminate|intros [[_ ?]|[? _]]; [contradiction|discriminate]]]. intros _ _. rewrite S1 by reflexivity.
        now apply (unmasked_uphill _ _ _ _ D W).
  Qed.

  (** ** When there are maps *)
  Lemma masked_beside_flat g i j : within g i j -> (2 <= rows g)%nat -> at_ g i j = None -> exists a b, within g a b /\ flat g a b.
  Proof using.
    intros (I & J) L N. destruct (Nat.ltb_spec (S i) (rows g)) as [H|H].
    - exists (S i), j. split; [now split|]. intros d ((K & _) & _). cbn [pred] in K. destruct K as [x K]. congruence.
    - exists (pred i), j. split; [split; [lia|exact J]|]. intros d ((_ & K & _) & _). unfold next in K.
      replace (Nat.min (S (pred i)) (pred (rows g))) with i in K by lia. destruct K as [x K]. congruence.
  Qed.
  Lemma spreads (g : grid (option R)) (P : nat -> nat -> Prop) :
    (forall i j a b, within g i j -> within g a b -> adjacent i j a b -> P i j -> P a b) ->
    forall i j, within g i j -> P i j -> forall a b, within g a b -> P a b.
  Proof using.
    intros H i j W Q. assert (Z : P 0%nat 0%nat).
    { assert (P i 0%nat).
      { destruct W as [I J]. revert J Q. induction j as [|j IH]; intros J Q; auto. apply IH; [lia|]. apply (H i (S j)); try (split; lia); auto. left. lia. }
      destruct W as [I J]. assert (J0 : (0 < cols g)%nat) by lia. clear Q J. revert I H0. induction i as [|i IH]; intros I Q; auto.
      apply IH; [lia|]. apply (H (S i) 0%nat); try (split; lia); auto. right. lia. }
    destruct W as [I J]. assert (I0 : (0 < rows g)%nat) by lia. assert (J0 : (0 < cols g)%nat) by lia. clear I J Q.
    intros a b [A B]. assert (Y : P a 0%nat).
    { induction a as [|a IH]; auto. apply (H a 0%nat); try (split; lia); [right; lia|]. apply IH. lia. }
    revert B. induction b as [|b IH]; intros B; auto. apply (H a b); try (split; lia); [left; lia|]. apply IH. lia.
  Qed.
  Lemma rim_exists g : (exists i j, within g i j /\ ~ flat g i j) -> (exists i j, within g i j /\ flat g i j) -> exists a b, rim g a b.
  Proof using.
    intros (i & j & W & N) (a & b & Wa & F). apply NNPP. intros X.
    apply (spreads g (fun i j => ~ flat g i j)) with (a := a) (b := b) in N; auto.
    intros i0 j0 a0 b0 W0 Wa0 A Q F0. apply X. exists i0, j0. split; auto. split; auto. eauto.
  Qed.

  Lemma path_computed m domain targets obstacles radius dmap mask :
    distance_map line fill perimeter solver m targets (Some (intersection (buffer obstacles radius) domain)) = Ok dmap ->
    draw_geom line fill perimeter (indicer m) true false obstacles (Grid (m_rows m) (m_cols m) (fun _ _ => false)) = Ok mask ->
    (2 <= m_rows m)%nat -> (2 <= m_cols m)%nat ->
    (exists i j, within dmap i j /\ at_ dmap i j = None) -> (exists i j, within dmap i j /\ ~ flat dmap i j) ->
    exists dir, path_maps line fill perimeter solver buffer intersection nearest m domain targets obstacles radius = Ok (dir, data dmap).
  Proof using found shape.
    intros Em K Lr Lc (i & j & W & N) NF. unfold path_maps. rewrite Em. cbn [rbind]. destruct (distance_shape _ _ _ _ Em) as [Rm Cm].
    assert (D : exists d0, masked_direction_map dmap = Ok d0).
    { unfold masked_direction_map. rewrite (proj2 (Nat.ltb_ge _ _)), (proj2 (Nat.ltb_ge (cols dmap) _)) by congruence. cbn [orb]. eauto. }
    destruct D as [d0 D]. rewrite D. cbn [rbind]. rewrite K. cbn [rbind].
    assert (A : any_masked dmap = true).
    { apply existsb_exists. exists (i, j). split; [apply cells_in; apply W|]. unfold is_masked. cbn [fst snd]. now rewrite N. }
    rewrite A. unfold fill_missing. cbv zeta.
    match goal with |- context [if ?b then _ else _] => assert (F : b = true) end.
    { apply forallb_forall. intros (a, b) _. destruct (rim_exists dmap NF) as (x & y & Ri). { apply (masked_beside_flat dmap i j); auto. congruence. }
      destruct (pick_nearest m dmap d0 a b D) as (p & q & E & _). { intros X. apply (boundary_rim dmap d0) in Ri; auto. rewrite X in Ri. destruct Ri. }
      cbv zeta in E. now rewrite E. }
    rewrite F. cbn [rbind]. eauto.
  Qed.
  Lemma path_nothing_masked m domain targets obstacles radius dmap :
    distance_map line fill perimeter solver m targets (Some (intersection (buffer obstacles radius) domain)) = Ok dmap ->
    (forall i j, within dmap i j -> known dmap i j) ->
    forall r, path_maps line fill perimeter solver buffer intersection nearest m domain targets obstacles radius <> Ok r.
  Proof using.
    intros Em H r. unfold path_maps. rewrite Em. cbn [rbind]. destruct (masked_direction_map dmap); [|discriminate]. cbn [rbind].
    destruct (draw_geom _ _ _ _ _ _ obstacles _); [|discriminate]. cbn [rbind].
    destruct (any_masked dmap) eqn:A; [|discriminate]. apply existsb_exists in A as ((i, j) & I & M). apply cells_in in I.
    destruct (H i j I) as [x X]. unfold is_masked in M. cbn [fst snd] in M. rewrite X in M. discriminate.
  Qed.
  Lemma obstacles_spec m o dir dist : obstacle_maps line fill perimeter solver m o = Ok (dir, dist) ->
    exists dmap, distance_map line fill perimeter solver m o None = Ok dmap /\ dist = data dmap /\ rows dist = m_rows m /\ cols dist = m_cols m /\
      forall i j, within dist i j -> uphill dmap i j (at_ dir i j) \/ (flat dmap i j /\ at_ dir i j = None).
  Proof using shape.
    unfold obstacle_maps. destruct (distance_map _ _ _ _ _ _ _) as [dmap|] eqn:Em; [|discriminate]. cbn [rbind].
    destruct (masked_direction_map dmap) as [d0|] eqn:D; [|discriminate]. cbn [rbind]. intros [= <- <-]. exists dmap.
    destruct (distance_shape _ _ _ _ Em) as [Rm Cm]. split; auto. split; auto. split; auto. split; auto.
    intros i j W. now apply direction_cell.
  Qed.

  (** ** Navigation maps *)
  Variable bounds : geom -> R * R * R * R.
  Lemma navigation_spec domain targets obstacles step radius strength m dist nav :
    static_potential line fill perimeter solver buffer intersection bounds nearest domain targets obstacles step radius strength = Ok (m, dist, nav) ->
    exists o path dobs obs, obstacles = Some o /\
      (let '(a, b, c, d) := bounds domain in m = Mesh step a b c d) /\
      path_maps line fill perimeter solver buffer intersection nearest m domain targets o radius = Ok (path, dist) /\
      obstacle_maps line fill perimeter solver m o = Ok (dobs, obs) /\
      nav = obstacle_handling obs dobs path radius strength.
  Proof using.
    unfold static_potential. destruct (let '(a, b, c, d) := bounds domain in meshgrid step a b c d) as [m'|] eqn:M; [|discriminate]. cbn [rbind].
    destruct obstacles as [o|]; [|discriminate]. destruct (path_maps _ _ _ _ _ _ _ _ _ _ _ _) as [[path dist']|] eqn:P; [|discriminate]. cbn [rbind].
    destruct (obstacle_maps _ _ _ _ _ _) as [[dobs obs]|] eqn:O; [|discriminate]. cbn [rbind fst snd]. intros [= <- <- <-].
    exists o, path, dobs, obs. split; auto. split; auto. destruct (bounds domain) as [[[a b] c] d]. unfold meshgrid in M. destruct (Reqb step 0); [discriminate|].
    now injection M.
  Qed.

  Variable join : geom -> geom -> geom.
  Lemma fresh_navigation fs o d i t step radius strength :
    f_domain (fs o) = Some d -> chosen_targets geom join (fs o) i = Ok t -> f_targets (fs o) <> [] ->
    snd (ask geom join bounds (field_path line fill perimeter solver buffer intersection nearest) (field_obstacles line fill perimeter solver)
          (unasked geom fs) o (QNavigation i step radius strength)) =
    do x <- static_potential line fill perimeter solver buffer intersection bounds nearest d t (f_obstacles (fs o)) step radius strength; Ok (ANavigation x).
  Proof using.
    intros D T N.
    assert (I : Inv geom join bounds (field_path line fill perimeter solver buffer intersection nearest) (field_obstacles line fill perimeter solver) o (fs o) (unasked geom fs)).
    { change (fs o) with (fields geom (unasked geom fs) o). apply clear_inv. apply clear_unasked. }
    rewrite (ask_now geom join bounds _ _ o (fs o)); [|exact I|].
    2:{ cbn [whole_query]. destruct i; cbn in T |- *; auto. discriminate. }
    cbn [now]. unfold navigation_now. destruct (f_targets (fs o)) as [|t0 ts] eqn:TS; [now destruct N|].
    unfold path_now, obstacles_now, mesh_now. rewrite T, D. cbn [rbind]. unfold static_potential.
    destruct (bounds d) as [[[a b] c] e]. destruct (meshgrid step a b c e) as [m|x]; [|reflexivity]. cbn [rbind].
    unfold shortest_path. destruct (f_obstacles (fs o)) as [ob|]; [|reflexivity]. cbn [field_path field_obstacles].
    destruct (path_maps _ _ _ _ _ _ _ _ _ _ _ _) as [[path dist]|x]; [|reflexivity]. cbn [rbind].
    destruct (obstacle_maps _ _ _ _ _ _) as [[dobs obs]|x]; reflexivity.
  Qed.
End Guided.
