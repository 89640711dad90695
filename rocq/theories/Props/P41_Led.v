(** * Property C140: somebody alone who is led along a free way gets along it *)
From Coq Require Import Lra Lia.
From Verif Require Import Spec.Guidance Proofs.GuidanceProofs Props.P19_Guidance.
From Verif Require Import Model.Simulation Model.ExampleSims Spec.Led Proofs.VecLemmas Proofs.LedProofs Proofs.TurnProofs Proofs.PlacementProofs.
From Verif Require Import Props.P39_Pace.
Open Scope R_scope.
Local Open Scope list_scope.

(** In a simulation with walls, domain and targets: as long as the map of the target says the
    same direction, and no wall is within reach, everywhere near the way walked at the wanted
    pace in that direction, the person keeps near that way. *)
Theorem C140_led : forall e a u rho last, (forall ps c, good_enumeration ps c (e_enum e ps c)) -> fair_draws (e_draws e) -> fit (e_kind e) a ->
  slim (e_kind e) a rho -> (e_kind e = ThreeCircle -> shoulders_in_place a) ->
  (forall t, (0 <= t < Z.of_nat (length (e_targets e)))%Z -> exists md, e_nav e (1/10) (1/2) (3/10) t = Ok md) ->
  (0 <= a_target a < Z.of_nat (length (e_targets e)))%Z ->
  (forall i p, (i < last)%nat -> edist p (walked (a_position a) u (a_target_velocity a) (INR i / 100)) <= leeway (a_tau_adj a) (a_std_rand_force a) (off_told a u) (INR i / 100) ->
     says e (a_target a) u p /\ clear_of_walls (e_obstacles e) rho p) ->
  forall n, (n <= last)%nat -> exists s b, updates e logic_hallway (new_simulation [a]) (repeat (1/100) n) (s, n) /\ s_agents s = [b] /\ s_time s = INR n / 100 /\
  edist (a_position b) (walked (a_position a) u (a_target_velocity a) (INR n / 100)) <= leeway (a_tau_adj a) (a_std_rand_force a) (off_told a u) (INR n / 100).
Proof. intros e a u rho last G D F S P M T W n Hn. apply (led_way e a u rho last); auto using good_lone. split; auto. Qed.
Print Assumptions C140_led.
(** So they get to the end of a marked and free strip, of length [far] and with [aside] to both
    sides, if it leaves room for the leeway of the time this takes. *)
Theorem C140_arrives : forall e a u rho far aside last, (forall ps c, good_enumeration ps c (e_enum e ps c)) -> fair_draws (e_draws e) -> fit (e_kind e) a ->
  slim (e_kind e) a rho -> (e_kind e = ThreeCircle -> shoulders_in_place a) ->
  (forall t, (0 <= t < Z.of_nat (length (e_targets e)))%Z -> exists md, e_nav e (1/10) (1/2) (3/10) t = Ok md) ->
  (0 <= a_target a < Z.of_nat (length (e_targets e)))%Z -> elen u = 1 -> 0 <= a_target_velocity a ->
  (forall p, - aside <= progress (a_position a) u p < far -> beside (a_position a) u p <= aside -> says e (a_target a) u p /\ clear_of_walls (e_obstacles e) rho p) ->
  let away := leeway (a_tau_adj a) (a_std_rand_force a) (off_told a u) (INR last / 100) in
  away <= aside -> far <= INR last / 100 * a_target_velocity a - away ->
  exists n s b, (n <= last)%nat /\ updates e logic_hallway (new_simulation [a]) (repeat (1/100) n) (s, n) /\ s_agents s = [b] /\ s_time s = INR n / 100 /\
  far <= progress (a_position a) u (a_position b) /\ beside (a_position a) u (a_position b) <= aside.
Proof.
  intros e a u rho far aside last G D F S P M T U V W away A Far. set (k := e_kind e) in *. set (draws := fun i => e_draws e i 0%nat). set (a' := set_target_direction u a).
  assert (F' : fit k a') by exact F.
  set (x := fun i => a_position (lone k draws a' i)).
  assert (B : forall i, edist (x i) (walked (a_position a) u (a_target_velocity a) (INR i / 100)) <= leeway (a_tau_adj a) (a_std_rand_force a) (off_told a u) (INR i / 100)).
  { intros i. exact (lone_way k draws a' F' (fun m => D m 0%nat) i). }
  assert (Mono : forall i, (i <= last)%nat -> leeway (a_tau_adj a) (a_std_rand_force a) (off_told a u) (INR i / 100) <= away).
  { intros i Hi. apply le_INR in Hi. destruct F as (_ & _ & _ & T1 & T2 & _). unfold away, leeway. apply Rplus_le_compat_r, Rmult_le_compat_r; [|lra]. apply Rmult_le_pos; lra. }
  destruct (first_reach (fun i => progress (a_position a) u (x i)) far last) as (n & Hn & R & Before).
  { exists last. split; [lia|]. destruct (near_way _ _ _ _ _ _ U (B last)) as ((L & _) & _). fold away in L. lra. }
  destruct (led_runs e a u rho n (good_lone e G) (fit_able _ a F) (conj S P) M T) with (n := n) as (c & f & b & Up & E & _); [|lia|].
  { intros i Hi. cbv zeta. fold k draws a'. change (a_position (lone k draws a' i)) with (x i). destruct (near_way _ _ _ _ _ _ U (B i)) as ((L & _) & Be). pose proof (Mono i ltac:(lia)) as Mi. pose proof (pos_INR i) as Pi.
    assert (0 <= INR i / 100 * a_target_velocity a) by (apply Rmult_le_pos; lra). apply W; [split; [lra|apply Before; exact Hi]|lra]. }
  exists n. eexists. exists b. split; [exact Hn|]. split; [exact Up|]. split; [reflexivity|]. split; [reflexivity|].
  replace (a_position b) with (x n).
  - split; [exact R|]. destruct (near_way _ _ _ _ _ _ U (B n)) as (_ & Be). pose proof (Mono n Hn). lra.
  - unfold x. change (a_position b) with (a_position (set_target_direction u b)). rewrite E. reflexivity.
Qed.
Print Assumptions C140_arrives.

(** Where the map says so: the map that is made of the domain, the targets and the obstacles says
    [u] at a point whose cell no obstacle covers or is near to, if [u] is the direction in which
    the distances to the targets rise there (they are negative: in which one gets nearer). *)
Theorem C140_says : forall line fill perimeter solver buffer intersection bounds nearest, finds_nearest nearest -> keeps_shape solver ->
  let potential := static_potential line fill perimeter solver buffer intersection bounds nearest in
  let distances := distance_map line fill perimeter solver in
  forall e t domain targets obstacles m dist nav dmap mask dobs p column row d u,
  e_nav e (1/10) (1/2) (3/10) t = (do r <- potential domain targets (Some obstacles) (1/10) (1/2) (3/10); Ok (fst (fst r), snd r)) ->
  potential domain targets (Some obstacles) (1/10) (1/2) (3/10) = Ok (m, dist, nav) ->
  distances m targets (Some (intersection (buffer obstacles (1/2)) domain)) = Ok dmap -> distances m obstacles None = Ok dobs ->
  draw_geom line fill perimeter (indicer m) true false obstacles (Grid (m_rows m) (m_cols m) (fun _ _ => false)) = Ok mask ->
  indicer m p = (Z.of_nat column, Z.of_nat row) -> (row < m_rows m)%nat -> (column < m_cols m)%nat ->
  at_ mask row column = false -> ~ 0 < - at_ (data dobs) row column < 1/2 ->
  sloped dmap row column d -> is_unit u -> same_direction d u -> says e t u p.
Proof.
  intros line fill perimeter solver buffer intersection bounds nearest found shape potential distances e t domain targets obstacles m dist nav dmap mask dobs p column row d u N Sp Dm Do K I Hr Hc Mk Ob Sl U Sd.
  unfold potential in Sp, N. unfold distances in Do, Dm.
  destruct (C100_navigation line fill perimeter solver buffer intersection bounds nearest found shape _ _ _ _ _ _ _ _ _ Sp) as (o & path & dobs' & Eo & P & Do' & Rn & Cn & H). injection Eo as <-.
  rewrite Do in Do'. injection Do' as <-.
  destruct (C99_shortest_path line fill perimeter solver buffer intersection nearest found shape _ _ _ _ _ _ _ P) as (dmap' & mask' & Dm' & K' & _ & Rp & Cp & H').
  rewrite Dm in Dm'. injection Dm' as <-. rewrite K in K'. injection K' as <-.
  rewrite Sp in N. cbn [rbind fst snd] in N. exists m, nav. split; [exact N|]. rewrite I. rewrite Rn, Cn, !Nat2Z.id.
  split; [lia|]. split; [lia|]. destruct (H row column) as (H1 & _); [split; congruence|]. rewrite (H1 Ob).
  destruct (H' row column) as (H2 & _); [split; congruence|]. destruct H2 as (d' & w & Sl' & -> & W & Sd'); [exact Mk|intros Fl; exact (Fl d Sl)|].
  f_equal. destruct Sl as (_ & -> & _), Sl' as (_ & -> & _). eapply same_direction_unit; eauto.
Qed.
Print Assumptions C140_says.

(** A hall of 7 m between two walls, and a map that says everywhere to go to the right. *)
Definition hall_map : mesh * grid (option vec) := (Mesh (1/10) (-10) (-5) 20 5, Grid 100 300 (fun _ _ => Some (V 1 0))).
Definition hall (draws : nat -> nat -> R * R * R) : env :=
  Env Circular [Obs (V (-10) (-35/10)) (V 20 (-35/10)); Obs (V (-10) (35/10)) (V 20 (35/10))] [[V 20 (-35/10); V 20 (35/10)]] (fun _ _ _ _ => Ok hall_map)
    (fun ps _ => all_pairs (length ps)) (fun _ => []) (fun _ => true) draws.
Definition hall_walker : agent := set_target 0 (set_radius (1/4) starter).
Example C140_case : forall draws, fair_draws draws -> exists n s b, (n <= 1040)%nat /\ updates (hall draws) logic_hallway (new_simulation [hall_walker]) (repeat (1/100) n) (s, n) /\
  s_agents s = [b] /\ 10 <= vx (a_position b).
Proof.
  intros draws H. assert (O : off_told hall_walker (V 1 0) = 125/100). { unfold off_told. rewrite elen_vlength. apply vlength_eq; [lra|]. cbn. lra. }
  assert (I : INR 1040 / 100 = 104/10) by (rewrite INR_IZR_INZ; cbn; lra).
  assert (L : leeway (a_tau_adj hall_walker) (a_std_rand_force hall_walker) (off_told hall_walker (V 1 0)) (INR 1040 / 100) <= 2915/1000).
  { rewrite O, I. unfold leeway, astray. change (a_tau_adj hall_walker) with (1/2). change (a_std_rand_force hall_walker) with (1/10). lra. }
  destruct (C140_arrives (hall draws) hall_walker (V 1 0) (1/4) 10 3 1040) as (n & s & b & Hn & U & B & _ & P & _).
  - intros ps c. apply all_pairs_good.
  - exact H.
  - repeat split; cbn; try lra; discriminate.
  - cbn. lra.
  - discriminate.
  - intros t _. eexists. reflexivity.
  - cbn. lia.
  - rewrite elen_vlength. apply vlength_eq; [lra|]. cbn. lra.
  - cbn. lra.
  - intros p Hp Hb. assert (X : -3 <= vx p < 10) by (unfold progress in Hp; cbn in Hp; lra). assert (Y : -3 <= vy p <= 3) by (unfold beside in Hb; cbn in Hb; revert Hb; unfold Rabs; destruct (Rcase_abs _); lra).
    split.
    + eexists. eexists. split; [reflexivity|]. cbn [hall_map fst snd indicer m_step m_minx m_miny rows cols at_].
      assert (T : forall r m, 0 <= r < IZR m -> (0 <= trunc r < m)%Z).
      { intros r m Hr. unfold trunc. rewrite (proj2 (Rltb_false r 0)) by lra. destruct (base_Int_part r) as (B1 & B2). split; [assert (-1 < Int_part r)%Z by (apply lt_IZR; lra); lia|apply lt_IZR; lra]. }
      split; [apply (T _ 100%Z); lra|]. split; [apply (T _ 300%Z); lra|]. reflexivity.
    + intros o q Ho (t & Ht & ->). assert (Q : Rabs (vy p - vy (along (p0 o) (p1 o) t)) <= edist p (along (p0 o) (p1 o) t)) by apply edist_ge_y.
      eapply Rle_trans; [|exact Q]. destruct Ho as [<-|[<-|[]]]; unfold along; cbn [p0 p1 vx vy].
      * rewrite Rabs_pos_eq; lra.
      * rewrite Rabs_left1; lra.
  - lra.
  - cbn [a_target_velocity hall_walker set_target set_radius starter set_mass set_tau_adj set_std_rand_force set_target_velocity set_target_direction zero_row]. lra.
  - exists n, s, b. repeat split; auto. unfold progress in P. cbn in P. lra.
Qed.
(** The map of a lane 0.3 m long, with a wall below and its exit to the right, drawn with the step
    of the simulations, says to go to the right above the cells beside the wall. *)
Definition lane : mesh := Mesh (1/10) 0 0 (3/10) (2/10).
Definition lane_wall : geom := LineString [V 0 0; V (3/10) 0].
Definition lane_exit : geom := LineString [V (3/10) 0; V (3/10) (2/10)].
Lemma lane_rows : m_rows lane = 3%nat.
Proof. unfold m_rows, arange_length. cbn [lane m_miny m_maxy m_step]. replace ((2/10 + 1/10 - 0) / (1/10)) with (IZR 3) by lra. now rewrite ceil_IZR. Qed.
Lemma lane_cols : m_cols lane = 4%nat.
Proof. unfold m_cols, arange_length. cbn [lane m_minx m_maxx m_step]. replace ((3/10 + 1/10 - 0) / (1/10)) with (IZR 4) by lra. now rewrite ceil_IZR. Qed.
Lemma lane_cell x y : indicer lane (V x y) = (trunc (x * 10), trunc (y * 10)).
Proof. unfold indicer. cbn [lane m_minx m_miny m_step vx vy]. f_equal; f_equal; lra. Qed.
Lemma trunc_IZR z : (0 <= z)%Z -> trunc (IZR z) = z.
Proof.
  intros Z0. unfold trunc. rewrite (proj2 (Rltb_false _ _)) by (apply IZR_le; exact Z0). destruct (base_Int_part (IZR z)) as (B1 & B2).
  apply le_IZR in B1. assert (IZR z - 1 < IZR (Int_part (IZR z))) by lra. rewrite <- minus_IZR in H. apply lt_IZR in H. lia.
Qed.
Lemma lane_draw (A : Type) (v z e : A) : exists g,
  draw_geom segment_cells (fun l => l) (fun l => l) (indicer lane) v z lane_wall (Grid (m_rows lane) (m_cols lane) (fun _ _ => e)) = Ok g /\
  rows g = 3%nat /\ cols g = 4%nat /\ forall i j, (i < 3)%nat -> (j < 4)%nat -> at_ g i j = if Nat.eqb i 0 then v else e.
Proof.
  rewrite lane_rows, lane_cols. unfold lane_wall. cbn [draw_geom zip_pairs removelast tl combine draw_lines].
  rewrite !lane_cell. replace (0 * 10) with (IZR 0) by lra. replace (3/10 * 10) with (IZR 3) by lra. rewrite !trunc_IZR by lia. cbn -[put_cells]. cbn.
  eexists. split; [reflexivity|]. split; [reflexivity|]. split; [reflexivity|]. intros i j Hi Hj. cbn.
  destruct i as [|i]; cbn.
  - do 4 (destruct j as [|j]; [reflexivity|]). lia.
  - reflexivity.
Qed.
Lemma lane_target (A : Type) (v z e : A) : exists g,
  draw_geom segment_cells (fun l => l) (fun l => l) (indicer lane) v z lane_exit (Grid (m_rows lane) (m_cols lane) (fun _ _ => e)) = Ok g /\
  rows g = 3%nat /\ cols g = 4%nat.
Proof.
  rewrite lane_rows, lane_cols. unfold lane_exit. cbn [draw_geom zip_pairs removelast tl combine draw_lines].
  rewrite !lane_cell. replace (0 * 10) with (IZR 0) by lra. replace (3/10 * 10) with (IZR 3) by lra. replace (2/10 * 10) with (IZR 2) by lra. rewrite !trunc_IZR by lia. cbn.
  eexists. split; [reflexivity|]. split; reflexivity.
Qed.
Lemma lane_distances w : exists g,
  distance_map segment_cells (fun l => l) (fun l => l) (corridor_solver w) lane lane_exit (Some lane_wall) = Ok g /\
  rows g = 3%nat /\ cols g = 4%nat /\ forall i j, (i < 3)%nat -> (j < 4)%nat -> at_ g i j = if Nat.eqb i 0 then None else Some (INR j - 3).
Proof.
  unfold distance_map. destruct (lane_target R 1 0 (-1)) as (c & -> & Rc & Cc). cbn [rbind].
  destruct (lane_draw bool true false false) as (k & -> & Rk & Ck & K). cbn [rbind]. unfold corridor_solver.
  eexists. split; [reflexivity|]. split; [exact Rc|]. split; [exact Cc|]. intros i j Hi Hj. cbn [at_].
  rewrite !K by lia. cbn. now destruct i.
Qed.
Definition lane_env (draws : nat -> nat -> R * R * R) : env :=
  Env Circular [] [[V (3/10) 0; V (3/10) (2/10)]]
    (fun step radius strength _ => do r <- static_potential segment_cells (fun l => l) (fun l => l) (corridor_solver INR) (fun g _ => g) (fun g _ => g) (fun _ => (0, 0, 3/10, 2/10)) closest
       (Point (V 0 0)) lane_exit (Some lane_wall) step radius strength; Ok (fst (fst r), snd r))
    (fun ps _ => all_pairs (length ps)) (fun _ => []) (fun _ => true) draws.
Example C140_says_case : forall draws x y, 0 <= x < 4/10 -> 2/10 <= y < 3/10 -> says (lane_env draws) 0 (V 1 0) (V x y).
Proof.
  intros draws x y X Y. destruct (lane_distances INR) as (g & E & Rg & Cg & A). destruct (lane_draw bool true false false) as (k & Ek & Rk & Ck & K).
  destruct (C99_computed segment_cells (fun l => l) (fun l => l) (corridor_solver INR) (fun g _ => g) (fun g _ => g) closest closest_nearest (corridor_shape INR)
    lane (Point (V 0 0)) lane_exit lane_wall (1/2) g k E Ek) as (dir & P).
  { rewrite lane_rows; lia. } { rewrite lane_cols; lia. }
  { exists 0%nat, 0%nat. unfold within. rewrite Rg, Cg. split; [lia|]. now rewrite A by lia. }
  { exists 2%nat, 1%nat. unfold within. rewrite Rg, Cg. split; [lia|]. intros F. apply (F (V 1 0)). apply (corridor_sloped g 0); auto; lia. }
  assert (O : exists dobs, distance_map segment_cells (fun l => l) (fun l => l) (corridor_solver INR) lane lane_wall None = Ok dobs /\
    rows dobs = 3%nat /\ cols dobs = 4%nat /\ forall i j, at_ dobs i j = Some (- INR i)).
  { unfold distance_map. destruct (lane_draw R 1 0 (-1)) as (c & -> & Rc & Cc & _). cbn [rbind]. unfold corridor_solver.
    eexists. split; [reflexivity|]. now repeat split. }
  destruct O as (dobs & O & Ro & Co & Ao).
  assert (Sp : exists nav, static_potential segment_cells (fun l => l) (fun l => l) (corridor_solver INR) (fun g _ => g) (fun g _ => g) (fun _ => (0, 0, 3/10, 2/10)) closest
    (Point (V 0 0)) lane_exit (Some lane_wall) (1/10) (1/2) (3/10) = Ok (lane, data g, nav)).
  { unfold static_potential, meshgrid. rewrite (proj2 (Reqb_false (1/10) 0)) by lra. cbn [rbind]. change (Mesh (1/10) 0 0 (3/10) (2/10)) with lane.
    rewrite P. cbn [rbind].
    unfold obstacle_maps. rewrite O. cbn [rbind]. unfold masked_direction_map. rewrite Ro, Co. cbn [Nat.ltb Nat.leb orb rbind]. eexists. reflexivity. }
  destruct Sp as (nav & Sp).
  assert (T : forall r m, 0 <= r < IZR m -> (0 <= trunc r < m)%Z).
  { intros r m Hr. unfold trunc. rewrite (proj2 (Rltb_false r 0)) by lra. destruct (base_Int_part r) as (B1 & B2). split; [assert (-1 < Int_part r)%Z by (apply lt_IZR; lra); lia|apply lt_IZR; lra]. }
  pose proof (T (x * 10) 4%Z ltac:(lra)) as Tx. assert (Ty : trunc (y * 10) = 2%Z).
  { pose proof (T (y * 10 - 2) 1%Z ltac:(lra)) as H. unfold trunc in *. rewrite (proj2 (Rltb_false _ _)) by lra. rewrite (proj2 (Rltb_false _ _)) in H by lra.
    destruct (base_Int_part (y * 10)) as (B1 & B2). assert (1 < Int_part (y * 10))%Z by (apply lt_IZR; lra). assert (Int_part (y * 10) < 3)%Z by (apply lt_IZR; lra). lia. }
  eapply (C140_says segment_cells (fun l => l) (fun l => l) (corridor_solver INR) (fun g _ => g) (fun g _ => g) (fun _ => (0, 0, 3/10, 2/10)) closest closest_nearest (corridor_shape INR))
    with (column := Z.to_nat (trunc (x * 10))) (row := 2%nat) (d := V 1 0); [reflexivity|exact Sp|exact E|exact O|exact Ek| | | | | | | | ].
  - rewrite lane_cell, Z2Nat.id by lia. now rewrite Ty.
  - rewrite lane_rows. lia.
  - rewrite lane_cols. lia.
  - rewrite K by lia. reflexivity.
  - unfold data. cbn [at_]. rewrite Ao. cbn. lra.
  - apply (corridor_sloped g 0); auto; lia.
  - unfold is_unit. rewrite elen_vlength. apply vlength_eq; [lra|]. cbn. lra.
  - exists 1. cbn. split; [lra|]. f_equal; ring.
Qed.
