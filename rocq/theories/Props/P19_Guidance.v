(** * Properties C99-C101: the maps that guide agents *)
From Coq Require Import Lra Lia Classical String.
From Verif Require Import Model.Maps Model.Field Spec.Guidance Proofs.VecLemmas Proofs.SteeringProofs Proofs.GeometryProofs Proofs.GuidanceProofs.
Open Scope R_scope.

Section Guidance.
(** The rasterisers, the fast marching solver, the operations of shapely and the search of
    nearest points. *)
Variables (line : Z * Z -> Z * Z -> list (Z * Z)) (fill perimeter : list (Z * Z) -> list (Z * Z))
          (solver : R -> grid R -> grid bool -> res (grid (option R)))
          (buffer : geom -> R -> geom) (intersection : geom -> geom -> geom) (bounds : geom -> R * R * R * R)
          (nearest : list vec -> vec -> nat).
Hypotheses (found : finds_nearest nearest) (shape : keeps_shape solver).
Notation distances := (distance_map line fill perimeter solver).
Notation draw m o :=
  (draw_geom line fill perimeter (indicer m) true false o (Grid (m_rows m) (m_cols m) (fun _ _ => false))).
Notation shortest := (path_maps line fill perimeter solver buffer intersection nearest).

(** ** C99 *)
(** The distances are what the solver answers for the step of the grid, 1 in the cells of
    the targets and -1 in the others, and a mask over the cells of the obstacles. *)
Theorem C99_distances : forall m targets obstacles,
  proper targets -> without_holes targets ->
  (forall o, obstacles = Some o -> proper o /\ without_holes o) ->
  let ink_of g c := ink line fill perimeter (indicer m) g c in
  let fits c := (0 <= fst c < Z.of_nat (m_cols m))%Z /\ (0 <= snd c < Z.of_nat (m_rows m))%Z in
  (forall c, ink_of targets c -> fits c) -> (forall o c, obstacles = Some o -> ink_of o c -> fits c) ->
  exists contour mask, distances m targets obstacles = solver (m_step m) contour mask /\
    rows contour = m_rows m /\ cols contour = m_cols m /\ rows mask = m_rows m /\ cols mask = m_cols m /\
    forall i j,
      (ink_of targets (cell_of i j) -> at_ contour i j = 1) /\ (~ ink_of targets (cell_of i j) -> at_ contour i j = -1) /\
      (at_ mask i j = true <-> exists o, obstacles = Some o /\ ink_of o (cell_of i j)).
Proof using.
  intros m targets obstacles P W PO ink_of fits FT FO. unfold distance_map.
  destruct (draw_spec line fill perimeter (indicer m) 1 0 targets P W (Grid (m_rows m) (m_cols m) (fun _ _ => -1))) as (c & Ec & Rc & Cc & Qc).
  { intros x X. exact (FT x X). }
  rewrite Ec. cbn [rbind]. destruct obstacles as [o|].
  - destruct (PO o eq_refl) as [Po Wo].
    destruct (draw_spec line fill perimeter (indicer m) true false o Po Wo (Grid (m_rows m) (m_cols m) (fun _ _ => false))) as (k & Ek & Rk & Ck & Qk).
    { intros x X. exact (FO o x eq_refl X). }
    rewrite Ek. cbn [rbind]. exists c, k. repeat (split; [assumption || reflexivity|]). intros i j.
    destruct (Qc i j) as [Q1 Q2]. split; [exact Q1|]. split; [exact Q2|]. destruct (Qk i j) as [K1 K2]. cbn [at_] in K2. split.
    + intros T. exists o. split; [reflexivity|]. destruct (classic (ink_of o (cell_of i j))) as [I|I]; [exact I|]. rewrite (K2 I) in T. discriminate.
    + intros (o' & E & I). injection E as <-. now apply K1.
  - cbn [rbind]. exists c, (Grid (m_rows m) (m_cols m) (fun _ _ => false)). repeat (split; [assumption || reflexivity|]). intros i j.
    destruct (Qc i j) as [Q1 Q2]. split; [exact Q1|]. split; [exact Q2|]. cbn. split; [discriminate|]. now intros (o' & E & _).
Qed.
(** [dmap] are the distances to the targets, [mask] the cells the obstacles cover. *)
Theorem C99_shortest_path : forall m domain targets obstacles radius dir dist,
  shortest m domain targets obstacles radius = Ok (dir, dist) ->
  exists dmap mask,
    distances m targets (Some (intersection (buffer obstacles radius) domain)) = Ok dmap /\ draw m obstacles = Ok mask /\
    dist = data dmap /\ rows dir = m_rows m /\ cols dir = m_cols m /\
    forall i j, within dir i j ->
      (at_ mask i j = false -> ~ flat dmap i j -> uphill dmap i j (at_ dir i j)) /\
      (at_ mask i j = true -> flat dmap i j -> at_ dir i j = None) /\
      ((at_ mask i j = false /\ flat dmap i j) \/ (at_ mask i j = true /\ ~ flat dmap i j) ->
         exists a b, nearest_of m (rim dmap) i j a b /\ uphill dmap a b (at_ dir i j)).
Proof using found shape. intros. now apply (path_spec line fill perimeter solver buffer intersection nearest found shape). Qed.
(** Every node no obstacle covers gets a direction of length one. *)
Theorem C99_free_nodes : forall m domain targets obstacles radius dir dist,
  shortest m domain targets obstacles radius = Ok (dir, dist) ->
  proper obstacles -> without_holes obstacles ->
  (forall c, ink line fill perimeter (indicer m) obstacles c -> in_grid dir c) ->
  forall i j, within dir i j -> ~ ink line fill perimeter (indicer m) obstacles (cell_of i j) ->
  exists u, at_ dir i j = Some u /\ is_unit u.
Proof using found shape.
  intros m domain targets obstacles radius dir dist S P W G i j I N.
  destruct (C99_shortest_path _ _ _ _ _ _ _ S) as (dmap & mask & _ & K & _ & R & C & H).
  destruct (draw_spec line fill perimeter (indicer m) true false obstacles P W (Grid (m_rows m) (m_cols m) (fun _ _ => false))) as (g & E & _ & _ & Q).
  { intros c X. apply G in X. unfold in_grid in *. cbn [rows cols]. now rewrite <- R, <- C. }
  rewrite E in K. injection K as ->. destruct (Q i j) as [_ Q2]. specialize (Q2 N). cbn [at_] in Q2.
  destruct (H i j I) as (H1 & _ & H3). destruct (classic (flat dmap i j)) as [F|F].
  - destruct H3 as (a & b & _ & U); [now left|]. eapply uphill_some; eauto.
  - eapply uphill_some, H1; auto.
Qed.
(** There are maps whenever the distances could be computed, some place cannot be reached
    and at some place the distances slope. *)
Theorem C99_computed : forall m domain targets obstacles radius dmap mask,
  distances m targets (Some (intersection (buffer obstacles radius) domain)) = Ok dmap -> draw m obstacles = Ok mask ->
  (2 <= m_rows m)%nat -> (2 <= m_cols m)%nat ->
  (exists i j, within dmap i j /\ at_ dmap i j = None) -> (exists i j, within dmap i j /\ ~ flat dmap i j) ->
  exists dir, shortest m domain targets obstacles radius = Ok (dir, data dmap).
Proof using found shape. intros. eapply (path_computed line fill perimeter solver buffer intersection nearest found shape); eauto. Qed.
(** Where every place can be reached there are none: the program raises. *)
Theorem C99_all_reachable_refuted : forall m domain targets obstacles radius dmap mask,
  distances m targets (Some (intersection (buffer obstacles radius) domain)) = Ok dmap -> draw m obstacles = Ok mask ->
  (2 <= m_rows m)%nat -> (2 <= m_cols m)%nat -> (forall i j, within dmap i j -> known dmap i j) ->
  shortest m domain targets obstacles radius = Err AttributeError.
Proof using shape.
  intros m domain targets obstacles radius dmap mask Em K R C A.
  pose proof (path_nothing_masked line fill perimeter solver buffer intersection nearest m domain targets obstacles radius dmap Em A) as N.
  pose proof (distance_shape line fill perimeter solver shape _ _ _ _ Em) as [Rm Cm].
  unfold path_maps in *. rewrite Em in *. cbn [rbind] in *. unfold masked_direction_map in *.
  rewrite (proj2 (Nat.ltb_ge (rows dmap) 2)), (proj2 (Nat.ltb_ge (cols dmap) 2)) in * by congruence. cbn [orb rbind] in *.
  rewrite K in *. cbn [rbind] in *. destruct (any_masked dmap) eqn:M; [|reflexivity].
  exfalso. apply existsb_exists in M as ((i, j) & I & M). apply cells_in in I. destruct (A i j I) as [x X]. unfold is_masked in M. cbn [fst snd] in M. now rewrite X in M.
Qed.

(** In a grid with a single row or column nothing slopes: the program raises. *)
Theorem C99_too_narrow : forall m domain targets obstacles radius dmap,
  distances m targets (Some (intersection (buffer obstacles radius) domain)) = Ok dmap -> (m_rows m < 2 \/ m_cols m < 2)%nat ->
  shortest m domain targets obstacles radius = Err ValueError.
Proof using shape.
  intros m domain targets obstacles radius dmap Em H. pose proof (distance_shape line fill perimeter solver shape _ _ _ _ Em) as [Rm Cm].
  unfold path_maps. rewrite Em. cbn [rbind]. unfold masked_direction_map. rewrite Rm, Cm.
  replace (_ || _)%bool with true; [reflexivity|]. symmetry. rewrite Bool.orb_true_iff, !Nat.ltb_lt. exact H.
Qed.

(** ** C100 *)
(** [o] are the obstacles, [dobs] the distances to them. *)
Theorem C100_navigation : forall domain targets obstacles step radius strength m dist nav,
  static_potential line fill perimeter solver buffer intersection bounds nearest domain targets obstacles step radius strength = Ok (m, dist, nav) ->
  exists o path dobs, obstacles = Some o /\ shortest m domain targets o radius = Ok (path, dist) /\ distances m o None = Ok dobs /\
    rows nav = m_rows m /\ cols nav = m_cols m /\
    forall i j, within nav i j -> let away := - at_ (data dobs) i j in
      (~ (0 < away < radius) -> at_ nav i j = at_ path i j) /\
      (0 < away < radius -> 0 < strength -> forall u t, uphill dobs i j (Some u) -> at_ path i j = Some t ->
         normalised (repelled (Rpower strength (away / radius)) u t) (at_ nav i j)) /\
      (0 < away < radius -> flat dobs i j \/ at_ path i j = None -> at_ nav i j = None).
Proof using found shape.
  intros domain targets obstacles step radius strength m dist nav S.
  destruct (navigation_spec line fill perimeter solver buffer intersection nearest bounds _ _ _ _ _ _ _ _ _ S) as (o & path & dirobs & obs & -> & _ & P & O & ->).
  destruct (obstacles_spec line fill perimeter solver shape _ _ _ _ O) as (dobs & D & -> & R & C & H).
  exists o, path, dobs. split; [reflexivity|]. split; [exact P|]. split; [exact D|]. split; [exact R|]. split; [exact C|].
  intros i j I away. change (within (data dobs) i j) in I. specialize (H i j I).
  destruct (obstacle_handling_spec (data dobs) dirobs path radius strength i j) as (_ & _ & H1 & H2 & _ & H4). cbn zeta in *. fold away in H1, H2, H4.
  destruct (C99_shortest_path _ _ _ _ _ _ _ P) as (dmap & mask & _ & _ & _ & Rp & Cp & Hp).
  assert (U : forall t, at_ path i j = Some t -> is_unit t).
  { intros t E. destruct (Hp i j) as (A & B & F). { destruct I as [I J]. cbn [data rows cols] in *. split; congruence. }
    destruct (at_ mask i j) eqn:M, (classic (flat dmap i j)) as [L|L].
    - rewrite B in E by auto. discriminate.
    - destruct F as (a & b & _ & G); [now right|]. destruct (uphill_some _ _ _ _ G) as (w & X & Y). congruence.
    - destruct F as (a & b & _ & G); [now left|]. destruct (uphill_some _ _ _ _ G) as (w & X & Y). congruence.
    - specialize (A eq_refl L). destruct (uphill_some _ _ _ _ A) as (w & X & Y). congruence. }
  split; [|split].
  - intros N. specialize (H1 N). destruct (at_ path i j) as [t|] eqn:E; [|exact H1]. apply H1. now apply U.
  - intros N St u t Hu E. apply H2; auto. destruct H as [G|[F _]]; [|now apply uphill_not_flat in Hu].
    destruct G as (d & w & S1 & E1 & U1 & D1), Hu as (d' & w' & S2 & E2 & U2 & D2). injection E2 as <-. rewrite E1. f_equal.
    destruct S1 as (_ & -> & _), S2 as (_ & -> & _). eapply same_direction_unit; eauto.
  - intros N [F|F]; apply H4; auto. left. destruct H as [G|[_ G]]; [now apply uphill_not_flat in G|exact G].
Qed.
(** Midway between two walls that are close, so that the distances to them are the same on
    both sides, there is no direction: an agent there is given not-a-number. *)
Theorem C100_midway_refuted : forall domain targets o step radius strength m dist nav dobs i j,
  static_potential line fill perimeter solver buffer intersection bounds nearest domain targets (Some o) step radius strength = Ok (m, dist, nav) ->
  distances m o None = Ok dobs -> within nav i j ->
  at_ dobs (pred i) j = at_ dobs (next (rows dobs) i) j -> at_ dobs i (pred j) = at_ dobs i (next (cols dobs) j) ->
  0 < - at_ (data dobs) i j < radius ->
  at_ nav i j = None.
Proof using found shape.
  intros domain targets o step radius strength m dist nav dobs i j S D I E1 E2 A.
  destruct (C100_navigation _ _ _ _ _ _ _ _ _ S) as (o' & path & dobs' & Eo & _ & D' & _ & _ & H). injection Eo as <-.
  rewrite D in D'. injection D' as <-. destruct (H i j I) as (_ & _ & H3). apply H3; [exact A|]. left.
  intros d (_ & -> & N). apply N. unfold slopes, slope, data, next in *. cbn [rows cols at_]. rewrite E1, E2. unfold Rdiv. f_equal; ring.
Qed.
(** An agent on the way to a target whose cell is free, and not close to an obstacle, is
    given a direction of length one: that of the shortest path. *)
Theorem C100_agents : forall domain targets o step radius strength m dist maps dobs agents,
  0 < step ->
  (forall t g, nth_error targets t = Some g ->
     static_potential line fill perimeter solver buffer intersection bounds nearest domain g (Some o) step radius strength = Ok (m, dist t, maps t)) ->
  distances m o None = Ok dobs ->
  proper o -> without_holes o ->
  (forall c, ink line fill perimeter (indicer m) o c -> in_grid (data dobs) c) ->
  let navigation t := match nth_error targets (Z.to_nat t) with
    | Some g => do r <- static_potential line fill perimeter solver buffer intersection bounds nearest domain g (Some o) step radius strength;
                Ok (fst (fst r), snd r)
    | None => Err IndexError
    end in
  exists out, navigation_node navigation (List.length targets) agents = Ok out /\ List.length out = List.length agents /\
  forall k a, nth_error agents k = Some a -> (0 <= a_target a < Z.of_nat (List.length targets))%Z ->
    m_minx m <= vx (a_position a) <= m_maxx m -> m_miny m <= vy (a_position a) <= m_maxy m ->
    exists i j, in_cell (m_step m) (m_node m i j) (a_position a) /\
      (~ ink line fill perimeter (indicer m) o (cell_of i j) -> ~ (0 < - at_ (data dobs) i j < radius) ->
       exists path u, shortest m domain (nth (Z.to_nat (a_target a)) targets o) o radius = Ok (path, dist (Z.to_nat (a_target a))) /\
         at_ path i j = Some u /\ is_unit u /\ nth_error out k = Some (Some (set_target_direction u a))).
Proof using found shape.
  intros domain targets o step radius strength m dist maps dobs agents Hs Hn Ho P W G navigation.
  destruct (navigation_node_ok navigation (List.length targets) (fun t => (m, maps (Z.to_nat t))) agents) as (out & E & L & H).
  { intros t Ht. unfold navigation. destruct (nth_error targets (Z.to_nat t)) as [g|] eqn:N; [|apply nth_error_None in N; lia]. now rewrite (Hn _ _ N). }
  exists out. split; [exact E|]. split; [exact L|]. intros k a Ha Ht Hx Hy. specialize (H k a Ha). cbn [fst snd] in H.
  destruct (nth_error targets (Z.to_nat (a_target a))) as [g|] eqn:N; [|apply nth_error_None in N; lia].
  pose proof (Hn _ _ N) as S.
  destruct (C100_navigation _ _ _ _ _ _ _ _ _ S) as (o' & path & dobs' & Eo & Ep & Eobs & Rn & Cn & Hc). injection Eo as <-.
  rewrite Ho in Eobs. injection Eobs as <-.
  assert (Em : m_step m = step).
  { destruct (navigation_spec line fill perimeter solver buffer intersection nearest bounds _ _ _ _ _ _ _ _ _ S) as (? & ? & ? & ? & _ & B & _).
    destruct (bounds domain) as [[[? ?] ?] ?]. now subst m. }
  destruct (indicer_inside m (a_position a)) as (i & j & Ix & Ir & Ic & Cell); try assumption; [lra|].
  exists i, j. split; [exact Cell|]. intros Ni Nd. rewrite Ix in H.
  replace (_ && _ && _)%bool with true in H.
  2:{ symmetry. rewrite !andb_true_iff. unfold is_inside. rewrite !andb_true_iff, !Z.leb_le, !Z.ltb_lt. lia. }
  assert (Wn : within (maps (Z.to_nat (a_target a))) i j) by (split; congruence).
  destruct (Hc i j Wn) as (H1 & _). specialize (H1 Nd).
  destruct (C99_shortest_path _ _ _ _ _ _ _ Ep) as (_ & _ & _ & _ & _ & Rp & Cp & _).
  destruct (distance_shape line fill perimeter solver shape _ _ _ _ Ho) as [Ro Co].
  destruct (C99_free_nodes _ _ _ _ _ _ _ Ep P W) with (i := i) (j := j) as (u & Eu & Uu).
  { intros c X. apply G in X. unfold in_grid in *. cbn [data rows cols] in X. now rewrite Rp, Cp, <- Ro, <- Co. }
  { split; congruence. }
  { exact Ni. }
  exists path, u. rewrite (nth_error_nth _ _ _ N). split; [exact Ep|]. split; [exact Eu|]. split; [exact Uu|].
  rewrite !Nat2Z.id, H1, Eu in H. exact H.
Qed.

(** ** C101 *)
(** The first question to a field is answered with these maps. *)
Theorem C101_field_navigation : forall join fs o d i t step radius strength,
  f_domain (fs o) = Some d -> chosen_targets geom join (fs o) i = Ok t -> f_targets (fs o) <> [] ->
  snd (ask geom join bounds (field_path line fill perimeter solver buffer intersection nearest) (field_obstacles line fill perimeter solver)
        (unasked geom fs) o (QNavigation i step radius strength)) =
  do x <- static_potential line fill perimeter solver buffer intersection bounds nearest d t (f_obstacles (fs o)) step radius strength; Ok (ANavigation x).
Proof using. intros. now apply (fresh_navigation line fill perimeter solver buffer intersection nearest). Qed.
(** A field without obstacles cannot be navigated, whatever its targets. *)
Theorem C101_no_obstacles_refuted : forall join fs o d i t step radius strength,
  f_domain (fs o) = Some d -> chosen_targets geom join (fs o) i = Ok t -> f_targets (fs o) <> [] -> step <> 0 ->
  f_obstacles (fs o) = None ->
  snd (ask geom join bounds (field_path line fill perimeter solver buffer intersection nearest) (field_obstacles line fill perimeter solver)
        (unasked geom fs) o (QNavigation i step radius strength)) = Err AttributeError.
Proof using.
  intros join fs o d i t step radius strength D T N S O. rewrite (C101_field_navigation join fs o d i t step radius strength D T N), O.
  unfold static_potential. destruct (bounds d) as [[[a b] c] e]. unfold meshgrid. rcase; [contradiction|]. reflexivity.
Qed.
(** Nor has it a shortest path or a map of its obstacles. *)
Theorem C101_no_obstacles_maps : forall join fs o d i t step radius,
  let ask := ask geom join bounds (field_path line fill perimeter solver buffer intersection nearest) (field_obstacles line fill perimeter solver) in
  f_domain (fs o) = Some d -> chosen_targets geom join (fs o) i = Ok t -> step <> 0 -> f_obstacles (fs o) = None ->
  snd (ask (unasked geom fs) o (QPath step i radius)) = Err AttributeError /\
  snd (ask (unasked geom fs) o (QObstacles step)) = Err TypeError.
Proof using.
  intros join fs o d i t step radius ask D T S O. unfold ask, Field.ask, ask_obstacles, ask_path, ask_mesh, cached, give. cbn.
  unfold path_body, obstacles_body, ask_mesh, cached, mesh_body. cbn. rewrite T. cbn. rewrite D. destruct (bounds d) as [[[a b] c] e].
  unfold meshgrid. rcase; [contradiction|]. cbn. rewrite O. split; reflexivity.
Qed.
(** A field whose domain is taken away after its grid was asked for raises AttributeError;
    one that was not asked before says what is missing. *)
Theorem C101_domain_removed : forall join fs o d f ob i t step radius, let domain_path := field_path line fill perimeter solver buffer intersection nearest in
  let ask := ask geom join bounds domain_path (field_obstacles line fill perimeter solver) in
  f_domain (fs o) = Some d -> step <> 0 -> f_domain f = None -> f_obstacles f = Some ob -> chosen_targets geom join f i = Ok t ->
  snd (ask (assign geom (fst (ask (unasked geom fs) o (QMesh step))) o f) o (QPath step i radius)) = Err AttributeError /\
  snd (ask (assign geom (unasked geom fs) o f) o (QPath step i radius)) = Err CrowdDynamicsException.
Proof using.
  intros join fs o d f ob i t step radius domain_path ask D S N O T. unfold ask, Field.ask, ask_mesh, ask_path, cached, give. cbn.
  unfold mesh_body. cbn. rewrite D. destruct (bounds d) as [[[a b] c] e]. unfold meshgrid. rcase; [contradiction|]. cbn.
  unfold path_body. cbn. rewrite Nat.eqb_refl, T. unfold ask_mesh, cached, mesh_body, key_eqb. cbn. rewrite Nat.eqb_refl, N. cbn.
  rewrite (proj2 (Reqb_true step step) eq_refl). cbn. rewrite Nat.eqb_refl, N, O. split; reflexivity.
Qed.
End Guidance.
Print Assumptions C99_distances.
Print Assumptions C99_shortest_path.
Print Assumptions C99_free_nodes.
Print Assumptions C99_computed.
Print Assumptions C99_all_reachable_refuted.
Print Assumptions C99_too_narrow.
Print Assumptions C100_navigation.
Print Assumptions C100_midway_refuted.
Print Assumptions C100_agents.
Print Assumptions C101_field_navigation.
Print Assumptions C101_no_obstacles_refuted.
Print Assumptions C101_no_obstacles_maps.
Print Assumptions C101_domain_removed.

(** ** A corridor with a wall below and an exit to the right *)
Definition segment_cells (a b : Z * Z) : list (Z * Z) :=
  let upto lo hi := map (fun k => (lo + Z.of_nat k)%Z) (seq 0 (Z.to_nat (hi - lo + 1))) in
  if Z.eqb (snd a) (snd b) then map (fun x => (x, snd a)) (upto (fst a) (fst b))
  else map (fun y => (fst a, y)) (upto (snd a) (snd b)).
(** The distances in this corridor to the exit, and to the walls. *)
Definition corridor_solver (w : nat -> R) (dx : R) (c : grid R) (k : grid bool) : res (grid (option R)) :=
  Ok (Grid (rows c) (cols c) (fun i j =>
    if at_ k 0%nat 0%nat then if at_ k i j then None else Some (INR j - 3) else Some (- w i))).
Fixpoint closest (ps : list vec) (q : vec) : nat :=
  match ps with
  | [] => 0
  | p :: rest => match nth_error rest (closest rest q) with
                 | Some p' => if Rle_dec (edist q p) (edist q p') then 0 else S (closest rest q)
                 | None => 0
                 end
  end.
Lemma closest_nearest : finds_nearest closest.
Proof.
  intros ps q. induction ps as [|p rest IH]; [easy|]. intros _. cbn [closest].
  destruct rest as [|p1 rest].
  - cbn. exists p. split; [reflexivity|]. intros p' [<-|[]]. apply Rle_refl.
  - destruct IH as (p' & E & M); [discriminate|]. rewrite E. destruct (Rle_dec (edist q p) (edist q p')) as [L|L].
    + exists p. split; [reflexivity|]. intros x [<-|I]; [apply Rle_refl|]. specialize (M x I). lra.
    + exists p'. split; [exact E|]. intros x [<-|I]; [lra|auto].
Qed.
Lemma corridor_shape w : keeps_shape (corridor_solver w).
Proof. intros dx c k d E. injection E as <-. now split. Qed.
Definition corridor : mesh := Mesh 1 0 0 3 2.
Definition corridor_wall : geom := LineString [V 0 0; V 3 0].
Definition corridor_exit : geom := LineString [V 3 0; V 3 2].
Lemma ceil_IZR z : ceil (IZR z) = z.
Proof. pose proof (ceil_bounds (IZR z)) as [A B]. apply le_IZR in A. rewrite <- plus_IZR in B. apply lt_IZR in B. lia. Qed.
Lemma corridor_rows : m_rows corridor = 3%nat.
Proof. unfold m_rows, arange_length. cbn [corridor m_miny m_maxy m_step]. replace ((2 + 1 - 0) / 1) with (IZR 3) by lra. now rewrite ceil_IZR. Qed.
Lemma corridor_cols : m_cols corridor = 4%nat.
Proof. unfold m_cols, arange_length. cbn [corridor m_minx m_maxx m_step]. replace ((3 + 1 - 0) / 1) with (IZR 4) by lra. now rewrite ceil_IZR. Qed.
Lemma corridor_cell x y : (0 <= x)%Z -> (0 <= y)%Z -> indicer corridor (V (IZR x) (IZR y)) = (x, y).
Proof.
  intros X Y. unfold indicer. cbn [corridor m_minx m_miny m_step vx vy].
  replace ((IZR x - 0) / 1) with (IZR x) by lra. replace ((IZR y - 0) / 1) with (IZR y) by lra.
  rewrite !trunc_nonneg by (now apply IZR_le). f_equal; pose proof (archimed (IZR x)) as [A B]; pose proof (archimed (IZR y)) as [C D]; unfold Int_part; rewrite <- minus_IZR in *;
    apply lt_IZR in A, C; apply le_IZR in B, D; lia.
Qed.

Notation corridor_path w :=
  (path_maps segment_cells (fun l => l) (fun l => l) (corridor_solver w) (fun g _ => g) (fun g _ => g) closest corridor).
Lemma corridor_draw (A : Type) (v z e : A) : exists g,
  draw_geom segment_cells (fun l => l) (fun l => l) (indicer corridor) v z corridor_wall (Grid (m_rows corridor) (m_cols corridor) (fun _ _ => e)) = Ok g /\
  rows g = 3%nat /\ cols g = 4%nat /\ forall i j, (i < 3)%nat -> (j < 4)%nat -> at_ g i j = if Nat.eqb i 0 then v else e.
Proof.
  rewrite corridor_rows, corridor_cols. unfold corridor_wall. cbn [draw_geom zip_pairs removelast tl combine draw_lines].
  rewrite (corridor_cell 0 0), (corridor_cell 3 0) by lia. cbn -[put_cells]. cbn.
  eexists. split; [reflexivity|]. split; [reflexivity|]. split; [reflexivity|]. intros i j Hi Hj. cbn.
  destruct i as [|i]; cbn.
  - do 4 (destruct j as [|j]; [reflexivity|]). lia.
  - reflexivity.
Qed.
Lemma corridor_target (A : Type) (v z e : A) : exists g,
  draw_geom segment_cells (fun l => l) (fun l => l) (indicer corridor) v z corridor_exit (Grid (m_rows corridor) (m_cols corridor) (fun _ _ => e)) = Ok g /\
  rows g = 3%nat /\ cols g = 4%nat.
Proof.
  rewrite corridor_rows, corridor_cols. unfold corridor_exit. cbn [draw_geom zip_pairs removelast tl combine draw_lines].
  rewrite (corridor_cell 3 0), (corridor_cell 3 2) by lia. cbn.
  eexists. split; [reflexivity|]. split; reflexivity.
Qed.

Lemma corridor_distances w : exists g,
  distance_map segment_cells (fun l => l) (fun l => l) (corridor_solver w) corridor corridor_exit (Some corridor_wall) = Ok g /\
  rows g = 3%nat /\ cols g = 4%nat /\ forall i j, (i < 3)%nat -> (j < 4)%nat -> at_ g i j = if Nat.eqb i 0 then None else Some (INR j - 3).
Proof.
  unfold distance_map. destruct (corridor_target R 1 0 (-1)) as (c & -> & Rc & Cc). cbn [rbind].
  destruct (corridor_draw bool true false false) as (k & -> & Rk & Ck & K). cbn [rbind]. unfold corridor_solver.
  eexists. split; [reflexivity|]. split; [exact Rc|]. split; [exact Cc|]. intros i j Hi Hj. cbn [at_].
  rewrite !K by lia. cbn. now destruct i.
Qed.
Lemma corridor_sloped g i j :
  rows g = 3%nat -> cols g = 4%nat -> (forall i j, (i < 3)%nat -> (j < 4)%nat -> at_ g i j = if Nat.eqb i 0 then None else Some (INR j - 3)) ->
  (j < 4)%nat -> (sloped g 2 j (V 1 0) /\ (i < 2 -> flat g i j))%nat.
Proof.
  intros R C A J. split.
  - unfold sloped. split; [|split].
    + unfold known_around, known, next. rewrite R, C. cbn [pred Nat.min]. repeat split; rewrite A by lia; cbn; eexists; reflexivity.
    + unfold slopes, slope, data. cbn [rows cols at_]. rewrite R, C. do 4 (destruct j as [|j]; [cbn [pred Nat.min Nat.sub]; rewrite !A by lia; cbn; f_equal; lra|]). lia.
    + intros E. injection E. lra.
  - intros I d (((x & K) & _) & _). rewrite A in K by lia. now destruct i as [|[|i]]; [| |lia].
Qed.
Lemma along_one u : is_unit u -> same_direction (V 1 0) u -> u = V 1 0.
Proof.
  intros U D. apply (same_direction_unit (V 1 0)); auto.
  - unfold is_unit, elen, edist. cbn. replace (_ + _) with 1 by (unfold Rsqr; ring). apply sqrt_1.
  - exists 1. cbn. split; [lra|]. f_equal; ring.
Qed.
(** From every node above the wall the map leads straight to the exit. *)
Example C99_ex : forall w, exists dir dist, corridor_path w (Point (V 0 0)) corridor_exit corridor_wall 0 = Ok (dir, dist) /\
  forall i j, (1 <= i < 3)%nat -> (j < 4)%nat -> at_ dir i j = Some (V 1 0).
Proof.
  intros w. destruct (corridor_distances w) as (g & E & R & C & A). destruct (corridor_draw bool true false false) as (k & Ek & Rk & Ck & K).
  destruct (C99_computed segment_cells (fun l => l) (fun l => l) (corridor_solver w) (fun g _ => g) (fun g _ => g) closest closest_nearest (corridor_shape w)
    corridor (Point (V 0 0)) corridor_exit corridor_wall 0 g k E Ek) as (dir & P).
  { rewrite corridor_rows; lia. } { rewrite corridor_cols; lia. }
  { exists 0%nat, 0%nat. unfold within. rewrite R, C. split; [lia|]. now rewrite A by lia. }
  { exists 2%nat, 1%nat. unfold within. rewrite R, C. split; [lia|]. intros F. apply (F (V 1 0)). apply (corridor_sloped g 0); auto; lia. }
  exists dir, (data g). split; [exact P|].
  destruct (C99_shortest_path _ _ _ _ _ _ _ closest_nearest (corridor_shape w) _ _ _ _ _ _ _ P) as (dmap & mask & Ed & Em & _ & Rd & Cd & H).
  cbn beta in Ed. rewrite E in Ed. injection Ed as <-. rewrite Ek in Em. injection Em as <-.
  assert (U : forall a b, (a < 3)%nat -> (b < 4)%nat -> forall u, uphill g a b u -> u = Some (V 1 0)).
  { intros a b Ha Hb u (d & q & S & -> & Uq & D). f_equal.
    destruct (le_lt_dec 2 a) as [L|L]; [|exfalso; now apply (proj2 (corridor_sloped g a b R C A Hb) L d)].
    assert (a = 2)%nat as -> by lia. destruct S as (_ & -> & _).
    destruct (corridor_sloped g 2 b R C A Hb) as ((_ & Es & _) & _). rewrite <- Es in D. now apply along_one. }
  intros i j Hi Hj. destruct (H i j) as (H1 & _ & H3). { split; rewrite ?Rd, ?Cd, ?corridor_rows, ?corridor_cols; lia. }
  rewrite K in * by lia. replace (Nat.eqb i 0) with false in * by (destruct i; [lia|reflexivity]).
  destruct (classic (flat g i j)) as [F|F].
  - destruct H3 as (a & b & (((Wa & Wb) & _) & _) & Uab); [now left|]. apply (U a b); [congruence|congruence|exact Uab].
  - apply (U i j); [lia|lia|auto].
Qed.

(** Beside the wall the map turns away from it; where the wall is farther than the radius
    it does not. *)
Example C100_ex : exists m dist nav,
  static_potential segment_cells (fun l => l) (fun l => l) (corridor_solver INR) (fun g _ => g) (fun g _ => g) (fun _ => (0, 0, 3, 2)) closest
    (Point (V 0 0)) corridor_exit (Some corridor_wall) 1 (3/2) 1 = Ok (m, dist, nav) /\
  at_ nav 1%nat 1%nat = Some (V 0 1) /\ at_ nav 2%nat 1%nat = Some (V 1 0).
Proof.
  destruct (C99_ex INR) as (dir & dist & P & D).
  assert (O : exists dobs, distance_map segment_cells (fun l => l) (fun l => l) (corridor_solver INR) corridor corridor_wall None = Ok dobs /\
    rows dobs = 3%nat /\ cols dobs = 4%nat /\ forall i j, at_ dobs i j = Some (- INR i)).
  { unfold distance_map. destruct (corridor_draw R 1 0 (-1)) as (c & -> & Rc & Cc & _). cbn [rbind]. unfold corridor_solver.
    eexists. split; [reflexivity|]. now repeat split. }
  destruct O as (dobs & O & Ro & Co & Ao).
  assert (S : exists nav, static_potential segment_cells (fun l => l) (fun l => l) (corridor_solver INR) (fun g _ => g) (fun g _ => g) (fun _ => (0, 0, 3, 2)) closest
    (Point (V 0 0)) corridor_exit (Some corridor_wall) 1 (3/2) 1 = Ok (corridor, dist, nav)).
  { unfold static_potential, meshgrid. rewrite (proj2 (Reqb_false 1 0)) by lra. cbn [rbind]. change (Mesh 1 0 0 3 2) with corridor.
    change (path_maps _ _ _ _ _ _ _ corridor _ _ _ (3/2)) with (corridor_path INR (Point (V 0 0)) corridor_exit corridor_wall 0). rewrite P. cbn [rbind].
    unfold obstacle_maps. rewrite O. cbn [rbind]. unfold masked_direction_map. rewrite Ro, Co. cbn [Nat.ltb Nat.leb orb rbind]. eexists. reflexivity. }
  destruct S as (nav & S). exists corridor, dist, nav. split; [exact S|].
  destruct (C100_navigation _ _ _ _ _ _ _ _ closest_nearest (corridor_shape INR) _ _ _ _ _ _ _ _ _ S) as (o & path & dobs' & Eo & P' & O' & Rn & Cn & H).
  injection Eo as <-. rewrite O in O'. injection O' as <-.
  change (path_maps _ _ _ _ _ _ _ corridor _ _ _ (3/2)) with (corridor_path INR (Point (V 0 0)) corridor_exit corridor_wall 0) in P'. rewrite P in P'. injection P' as <-.
  rewrite corridor_rows in Rn. rewrite corridor_cols in Cn.
  assert (W : forall i j, (i < 3)%nat -> (j < 4)%nat -> within nav i j) by (intros; split; congruence).
  assert (L : forall i j, at_ (data dobs) i j = - INR i) by (intros i j; unfold data; cbn [at_]; now rewrite Ao).
  split.
  - destruct (H 1%nat 1%nat) as (_ & H2 & _); [apply W; lia|]. cbn zeta in H2. rewrite L in H2. cbn [INR] in H2.
    specialize (H2 ltac:(lra) ltac:(lra) (V 0 (-1)) (V 1 0)).
    assert (N : normalised (repelled (Rpower 1 (- - 1 / (3/2))) (V 0 (-1)) (V 1 0)) (at_ nav 1%nat 1%nat)).
    { apply H2; [|apply D; lia]. exists (V 0 (-1)), (V 0 (-1)). split; [|split; [reflexivity|split]].
      - split; [|split].
        + unfold known_around, known. rewrite !Ao. repeat split; eexists; reflexivity.
        + unfold slopes, slope. cbn [rows cols data]. rewrite Ro, Co, !L. cbn. f_equal; lra.
        + intros E. injection E. lra.
      - unfold is_unit, elen, edist. cbn. replace (_ + _) with 1 by ring. apply sqrt_1.
      - exists 1. split; [lra|]. cbn. f_equal; ring. }
    replace (Rpower 1 (- - 1 / (3/2))) with 1 in N by (unfold Rpower; rewrite ln_1, Rmult_0_r, exp_0; reflexivity).
    unfold repelled in N. cbn [vx vy] in N. destruct (at_ nav 1%nat 1%nat) as [u|]; cbn in N.
    + destruct N as [U (k & K & E)]. f_equal. subst u. unfold is_unit, elen, edist in U. cbn in U.
      replace (_ + _) with (k * k) in U by ring. rewrite sqrt_square in U by lra. subst k. cbn; f_equal; lra.
    + injection N. lra.
  - destruct (H 2%nat 1%nat) as (H1 & _ & _); [apply W; lia|]. cbn zeta in H1. rewrite L in H1. cbn [INR] in H1. rewrite H1 by lra. apply D; lia.
Qed.
(** Between that wall and one above it there is no direction. *)
Definition halls (i : nat) : R := if Nat.eqb i 1 then 1 else 0.
Example C100_midway : exists m dist nav,
  static_potential segment_cells (fun l => l) (fun l => l) (corridor_solver halls) (fun g _ => g) (fun g _ => g) (fun _ => (0, 0, 3, 2)) closest
    (Point (V 0 0)) corridor_exit (Some corridor_wall) 1 (3/2) 1 = Ok (m, dist, nav) /\
  at_ nav 1%nat 1%nat = None.
Proof.
  destruct (C99_ex halls) as (dir & dist & P & D).
  assert (O : exists dobs, distance_map segment_cells (fun l => l) (fun l => l) (corridor_solver halls) corridor corridor_wall None = Ok dobs /\
    rows dobs = 3%nat /\ cols dobs = 4%nat /\ forall i j, at_ dobs i j = Some (- halls i)).
  { unfold distance_map. destruct (corridor_draw R 1 0 (-1)) as (c & -> & Rc & Cc & _). cbn [rbind]. unfold corridor_solver.
    eexists. split; [reflexivity|]. now repeat split. }
  destruct O as (dobs & O & Ro & Co & Ao).
  assert (S : exists nav, static_potential segment_cells (fun l => l) (fun l => l) (corridor_solver halls) (fun g _ => g) (fun g _ => g) (fun _ => (0, 0, 3, 2)) closest
    (Point (V 0 0)) corridor_exit (Some corridor_wall) 1 (3/2) 1 = Ok (corridor, dist, nav)).
  { unfold static_potential, meshgrid. rewrite (proj2 (Reqb_false 1 0)) by lra. cbn [rbind]. change (Mesh 1 0 0 3 2) with corridor.
    change (path_maps _ _ _ _ _ _ _ corridor _ _ _ (3/2)) with (corridor_path halls (Point (V 0 0)) corridor_exit corridor_wall 0). rewrite P. cbn [rbind].
    unfold obstacle_maps. rewrite O. cbn [rbind]. unfold masked_direction_map. rewrite Ro, Co. cbn [Nat.ltb Nat.leb orb rbind]. eexists. reflexivity. }
  destruct S as (nav & S). exists corridor, dist, nav. split; [exact S|].
  apply (C100_midway_refuted _ _ _ _ _ _ _ _ closest_nearest (corridor_shape halls) _ _ _ _ _ _ _ _ _ dobs 1 1 S O).
  - destruct (C100_navigation _ _ _ _ _ _ _ _ closest_nearest (corridor_shape halls) _ _ _ _ _ _ _ _ _ S) as (_ & _ & _ & _ & _ & _ & Rn & Cn & _).
    split; [rewrite Rn, corridor_rows|rewrite Cn, corridor_cols]; lia.
  - unfold next. rewrite !Ao, Ro. reflexivity.
  - now rewrite !Ao.
  - unfold data. cbn [at_]. rewrite Ao. cbn. lra.
Qed.
