(** * Where the agents of the example simulations stand *)
From Verif Require Import Model.ExampleSims Spec.Crowds Spec.Overlap Proofs.VecLemmas Proofs.Vector2DProofs Proofs.ListLemmas Proofs.PlacementProofs Proofs.BodyProofs Proofs.CrowdProofs Proofs.CrowdExamples.
From Coq Require Import Lra Lia.
Open Scope R_scope.

Lemma rbind_ok : forall A B (r : res A) (f : A -> res B) b, rbind r f = Ok b -> exists a, r = Ok a /\ f a = Ok b.
Proof. intros A B [a|e] f b H; [eauto|discriminate]. Qed.
Ltac peel H := repeat (apply rbind_ok in H; let x := fresh "n" in let E := fresh "E" in destruct H as (x & E & H)).
Lemma started_crowd : forall k rolled bodies targets spawn walls st, fair_bodies bodies -> started k rolled bodies targets spawn walls st ->
  exists ps, Forall fair_plan ps /\ crowd k ps = Ok st.
Proof.
  intros k rolled bodies targets spawn walls st Hb S.
  assert (F1 : forall p, (exists g sz at_ po wa, p = Plan sz at_ (bodies g) po wa) -> fair_plan p).
  { intros p (g & sz & at_ & po & wa & ->). apply fair_one. exact Hb. }
  destruct S as [[? H|? ? H|? ? H|? ? H|? ? H]|[? H|? H|? H|? ? ? ? ? ? H|? ? H]].
  5:{ unfold four_fixed_crowd in H. apply rbind_ok in H. destruct H as (nl' & E1 & H). apply rbind_ok in H. destruct H as (nh' & E2 & H).
      eexists. split; [|exact H]. apply Forall_app. split.
      - apply Forall_forall. intros p Hp. apply in_map_iff in Hp. destruct Hp as (i & <- & _). apply fair_one. exact Hb.
      - constructor; [apply fair_one; exact Hb|constructor]. }
  all: unfold four_exits_crowd, rounding_crowd, avoid_crowd, four_herding_crowd, outdoor_crowd, hallway_crowd, room_crowd,
    outdoor_herding_crowd, closed_crowd in H; apply rbind_ok in H; destruct H as (n1 & E1 & H);
    try (match type of H with rbind _ _ = _ => match type of H with rbind (agents_new _ _) _ = _ => fail 1 | _ => idtac end end;
         apply rbind_ok in H; destruct H as (n2 & E2 & H)); (eexists; split; [|exact H]);
    repeat (apply Forall_cons; [apply fair_one; exact Hb|]); apply Forall_nil.
Qed.
Lemma crowd_adult : forall k ps st i a, Forall fair_plan ps -> crowd k ps = Ok st -> (i < ag_index st)%nat ->
  nth_error (ag_array st) i = Some a -> ready k a.
Proof.
  intros k ps st i a Hf H Hi Ha. destruct (crowd_spec k ps st Hf H) as (_ & _ & _ & F & _).
  rewrite Forall_forall in F. destruct (F a) as (p & _ & ((n & d & _ & M) & _)).
  - apply nth_error_In with i. rewrite nth_error_firstn_lt by exact Hi. exact Ha.
  - eapply made_ready. exact M.
Qed.
Lemma crowd_apart_circular : forall ps st i j a b, Forall fair_plan ps -> crowd Circular ps = Ok st ->
  i <> j -> (i < ag_index st)%nat -> (j < ag_index st)%nat -> nth_error (ag_array st) i = Some a -> nth_error (ag_array st) j = Some b ->
  ~ bodies_overlap (body Circular a) (body Circular b).
Proof.
  intros ps st i j a b Hf H Hne Hi Hj Ha Hb.
  pose proof (crowd_adult _ _ _ _ _ Hf H Hi Ha) as Ra. pose proof (crowd_adult _ _ _ _ _ Hf H Hj Hb) as Rb.
  destruct (crowd_spec _ ps st Hf H) as ((st0 & cs & N & ->) & _).
  apply (circular_apart (6/10) st0 cs i j a b); auto. destruct Ra as (_ & _ & _ & _ & _ & _ & A1 & _). destruct Rb as (_ & _ & _ & _ & _ & _ & B1 & _). lra.
Qed.
Lemma crowd_apart_three : forall ps st i j a b, Forall fair_plan ps -> crowd ThreeCircle ps = Ok st ->
  i <> j -> (i < ag_index st)%nat -> (j < ag_index st)%nat -> nth_error (ag_array st) i = Some a -> nth_error (ag_array st) j = Some b ->
  shoulders_in_place a -> shoulders_in_place b -> ~ bodies_overlap (body ThreeCircle a) (body ThreeCircle b).
Proof.
  intros ps st i j a b Hf H Hne Hi Hj Ha Hb Sa Sb.
  pose proof (crowd_adult _ _ _ _ _ Hf H Hi Ha) as Ra. pose proof (crowd_adult _ _ _ _ _ Hf H Hj Hb) as Rb.
  destruct (crowd_spec _ ps st Hf H) as ((st0 & cs & N & ->) & _).
  destruct Ra as (_ & _ & _ & _ & _ & _ & A1 & _ & _ & A2 & A3 & A4 & _). destruct Rb as (_ & _ & _ & _ & _ & _ & B1 & _ & _ & B2 & B3 & B4 & _).
  apply (three_apart (6/10) st0 cs i j a b); auto; try lra.
  assert (Rmax (a_r_t a) (a_r_ts a + a_r_s a) <= 29/100) by (apply Rmax_lub; lra).
  assert (Rmax (a_r_t b) (a_r_ts b + a_r_s b) <= 29/100) by (apply Rmax_lub; lra). lra.
Qed.

(** ** Walls *)
Lemma crowd_clear : forall k ps st i a walls, Forall fair_plan ps -> Forall (fun p => pl_walls p = Some walls) ps -> crowd k ps = Ok st ->
  (i < ag_index st)%nat -> nth_error (ag_array st) i = Some a -> (forall o, In o walls -> p0 o <> p1 o) ->
  forall o, In o walls -> ~ body_hits_wall (body k a) (p0 o) (p1 o).
Proof.
  intros k ps st i a walls Hf Hw H Hi Ha Ho o Io. destruct (crowd_spec k ps st Hf H) as (_ & _ & _ & F & _).
  rewrite Forall_forall in F. destruct (F a) as (p & Ip & (_ & _ & C)).
  - apply nth_error_In with i. rewrite nth_error_firstn_lt by exact Hi. exact Ha.
  - rewrite Forall_forall in Hw. apply (C walls o); auto.
Qed.
Lemma started_clear : forall k rolled bodies targets spawn walls st i a, fair_bodies bodies ->
  started_with_walls k rolled bodies targets spawn walls st ->
  (i < ag_index st)%nat -> nth_error (ag_array st) i = Some a -> (forall o, In o walls -> p0 o <> p1 o) ->
  forall o, In o walls -> ~ body_hits_wall (body k a) (p0 o) (p1 o).
Proof.
  intros k rolled bodies targets spawn walls st i a Hb S Hi Ha Ho.
  assert (X : exists ps, Forall fair_plan ps /\ Forall (fun p => pl_walls p = Some walls) ps /\ crowd k ps = Ok st).
  { destruct S as [? H|? ? H|? ? H|? ? H|? ? H].
    5:{ unfold four_fixed_crowd in H. apply rbind_ok in H. destruct H as (nl' & E1 & H). apply rbind_ok in H. destruct H as (nh' & E2 & H).
      eexists. split; [|split; [|exact H]]; apply Forall_app; split.
      - apply Forall_forall. intros p Hp. apply in_map_iff in Hp. destruct Hp as (j & <- & _). apply fair_one. exact Hb.
      - constructor; [apply fair_one; exact Hb|constructor].
      - apply Forall_forall. intros p Hp. apply in_map_iff in Hp. destruct Hp as (j & <- & _). reflexivity.
      - constructor; [reflexivity|constructor]. }
    all: unfold four_exits_crowd, rounding_crowd, avoid_crowd, four_herding_crowd in H; apply rbind_ok in H; destruct H as (n1 & E1 & H);
    try (match type of H with rbind _ _ = _ => match type of H with rbind (agents_new _ _) _ = _ => fail 1 | _ => idtac end end;
         apply rbind_ok in H; destruct H as (n2 & E2 & H)); (eexists; split; [|split; [|exact H]]);
    repeat (apply Forall_cons; [first [reflexivity|apply fair_one; exact Hb]|]); apply Forall_nil. }
  destruct X as (ps & X1 & X2 & X3). eapply crowd_clear; eauto.
Qed.

(** Without walls the very first draw is taken, whatever it is. *)
Lemma first_draw_taken : forall k p ps st x, Forall fair_plan (p :: ps) -> pl_walls p = None -> (1 <= pl_size p)%Z ->
  pl_positions p 0%nat = Some x -> crowd k (p :: ps) = Ok st ->
  exists a, nth_error (ag_array st) 0 = Some a /\ a_position a = x /\ (0 < ag_index st)%nat.
Proof.
  intros k p ps st x Hf Hw Hs Hx H. unfold crowd in H. destruct (cell_new k) as (st0 & N & I0 & A0). rewrite N in H. cbn [rbind] in H.
  pose proof N as N0. apply wf_new in N as (W & K & _). cbn [populate] in H. rewrite K in H.
  destruct (plan_group k p) as [g|e] eqn:G; cbn [rbind] in H; [|discriminate].
  destruct (plan_group_spec _ _ _ G) as (Gk & Gs & Gl & Gm).
  assert (X : exists a, nth_error (ag_array (state_of (add_non_overlapping_group st0 g (pl_positions p) (pl_walls p)))) 0 = Some a /\
     a_position a = x /\ (0 < ag_index (state_of (add_non_overlapping_group st0 g (pl_positions p) (pl_walls p))))%nat).
  { unfold add_non_overlapping_group. rewrite (proj2 (kind_eqb_iff _ _)) by congruence. rewrite Gk.
    remember (g_size g) as sz eqn:Esz. destruct sz as [|sz]; [lia|].
    set (st1 := Agents (ag_kind st0) (ag_index st0) (ag_array st0 ++ repeat zero_row (S sz)) (ag_neighbours st0)).
    assert (W1 : wf (6/10) st1) by (apply wf_grow; exact W).
    replace (11 * S sz)%nat with (S (11 * sz + 10)) by lia. set (fu := (11 * sz + 10)%nat). cbn [place_loop].
    replace (0 <? S sz)%nat with true by reflexivity. replace (0 <? 10 * S sz)%nat with true by (symmetry; apply Nat.ltb_lt; lia). cbn [andb].
    destruct (g_members g) as [|m ms]; [cbn in Gl; lia|]. change (nth_error (m :: ms) 0) with (Some m). cbv iota. rewrite Hx, Hw.
    pose proof (fun i => near_sound (6/10) st1 x i W1) as NS. pose proof (wf_read (6/10) st1 x W1) as RD.
    destruct (bl_nearest (ag_neighbours st1) (key_of x) 1) as [near bl]. cbn [fst] in NS. destruct RD as [W2 _].
    assert (Hn : near = []). { destruct near as [|i near]; [reflexivity|]. specialize (NS i (or_introl eq_refl)). cbn [st1 ag_index] in NS. lia. }
    rewrite Hn. cbn [rows_at map].
    assert (OV : forall m', overlapping k m' [] = false) by (intros m'; destruct k; reflexivity). rewrite OV.
    set (m1 := touch k (move_to x m)). set (st2 := Agents (ag_kind st1) (ag_index st1) (ag_array st1) bl) in *.
    change (Agents (ag_kind st2) (S (ag_index st2)) (upd (ag_array st2) (ag_index st2) (to_row k m1))
                (bl_set (ag_neighbours st2) (key_of x) (ag_index st2))) with (store st2 x (to_row k m1)).
    assert (Pos : a_position (to_row k m1) = x).
    { unfold m1. rewrite to_row_position, touch_position. reflexivity. }
    assert (L1 : length (ag_array st2) = S sz) by (cbn [st2 st1 ag_array]; rewrite A0; cbn [app]; apply repeat_length).
    assert (W3 : wf (6/10) (store st2 x (to_row k m1))).
    { apply wf_store; auto; [cbn [st2 st1 ag_index]; lia|]. cbn [st2 st1 ag_index]. rewrite I0. intros i ra rb Hi. lia. }
    destruct (place_loop_post (6/10) k (S sz) (pl_positions p) None fu (store st2 x (to_row k m1)) (upd (m :: ms) 0 m1) 1 1 0 W3) as [P _].
    - exact K.
    - lia.
    - lia.
    - cbn [store ag_index ag_array]. rewrite upd_length, L1. cbn [st2 st1 ag_index]. lia.
    - destruct P as [_ _ _ A4 A5 _ _ _]. exists (to_row k m1). split; [|split; [exact Pos|]].
      + rewrite A5 by (cbn [store ag_index]; lia). cbn [store ag_array ag_index].
        replace (ag_index st2) with 0%nat by (cbn [st2 st1 ag_index]; congruence). apply upd_nth_eq. lia.
      + cbn [store ag_index] in A4. lia. }
  destruct X as (a & Xa & Xp & Xi). exists a.
  change st0 with (place_all st0 []) in H at 1. 
  pose proof (place_all_snoc st0 [] (Call g (pl_positions p) (pl_walls p))) as S. cbn [place_all fold_left c_group c_gen c_obstacles app] in S.
  destruct (add_non_overlapping_group st0 g (pl_positions p) (pl_walls p)) as [[[out st1] ms] n] eqn:E. cbn [state_of] in *.
  assert (H' : populate (place_all st0 [Call g (pl_positions p) (pl_walls p)]) ps = Ok st).
  { cbn [place_all fold_left c_group c_gen c_obstacles]. rewrite E. cbn [state_of]. cbn [place_all fold_left] in H. rewrite E in H. destruct out; [exact H|discriminate|exact H]. }
  destruct (populate_spec k st0 N0 ps _ st (Forall_inv_tail Hf) H') as (cs' & Q1 & Q2 & Q3 & Q4 & _).
  cbn [place_all fold_left c_group c_gen c_obstacles] in *. rewrite E in *. cbn [state_of] in *.
  split; [rewrite Q4 by exact Xi; exact Xa|]. split; [exact Xp|]. lia.
Qed.
Lemma first_hits : forall k p ps st x w0 w1 q, Forall fair_plan (p :: ps) -> pl_walls p = None -> (1 <= pl_size p)%Z ->
  pl_positions p 0%nat = Some x -> crowd k (p :: ps) = Ok st -> on_segment w0 w1 q -> edist x q < 12/100 ->
  exists a, nth_error (ag_array st) 0 = Some a /\ (0 < ag_index st)%nat /\ body_hits_wall (body k a) w0 w1.
Proof.
  intros k p ps st x w0 w1 q Hf Hw Hs Hx H Hq Hd. destruct (first_draw_taken k p ps st x Hf Hw Hs Hx H) as (a & Ha & Hp & Hi).
  exists a. split; [exact Ha|]. split; [exact Hi|].
  pose proof (crowd_adult _ _ _ _ _ Hf H Hi Ha) as (_ & _ & _ & _ & _ & _ & R1 & _ & _ & R2 & _).
  destruct k.
  - exists (a_position a, a_radius a), q. split; [left; reflexivity|]. split; [exact Hq|]. cbn [fst snd]. rewrite Hp. lra.
  - exists (a_position a, a_r_t a), q. split; [left; reflexivity|]. split; [exact Hq|]. cbn [fst snd]. rewrite Hp. lra.
Qed.
