From Coq Require Import Lra Lia.
From Verif Require Export Proofs.VecLemmas Model.Body.
Open Scope R_scope.

Definition radii_ok (b : bodyt) : Prop :=
  b_r_t b = b_ratio_rt b * b_radius b /\
  b_r_s b = b_ratio_rs b * b_radius b /\
  b_r_ts b = b_ratio_ts b * b_radius b.
Definition ranges_ok (b : bodyt) : Prop :=
  0 <= b_radius b /\ 0 <= b_ratio_rt b /\ 0 <= b_ratio_rs b /\ 0 <= b_ratio_ts b.

Lemma put_inertia_ok i b : radii_ok (put_inertia i b) <-> radii_ok b.
Proof. destruct b; reflexivity. Qed.
Lemma put_inertia_rg i b : ranges_ok (put_inertia i b) <-> ranges_ok b.
Proof. destruct b; reflexivity. Qed.
Lemma observe_inertia_ok b : radii_ok b /\ ranges_ok b -> radii_ok (observe_inertia b) /\ ranges_ok (observe_inertia b).
Proof.
  unfold observe_inertia. destruct (_ && _); auto. rewrite put_inertia_ok, put_inertia_rg. auto.
Qed.
Lemma set_radius_ok b v : radii_ok b -> ranges_ok b -> 0 <= v ->
  radii_ok (observe_radius Radius (bput Radius v b)) /\ ranges_ok (observe_radius Radius (bput Radius v b)).
Proof.
  destruct b. unfold radii_ok, ranges_ok. cbn. intros (A & B & C) (D & E & F & G) H.
  assert (Hz : forall q x y, 0 <= q -> x = q * y -> (if Rltb 0 q then q * v else x) = q * v).
  { intros q x y Hq ->. rcase; auto. replace q with 0 by lra. ring. }
  rewrite (Hz _ _ _ E A), (Hz _ _ _ F B), (Hz _ _ _ G C). tauto.
Qed.
Lemma set_ratio_ok f b v : radii_ok b -> ranges_ok b -> 0 <= v ->
  (f = RatioRt \/ f = RatioRs \/ f = RatioTs) ->
  radii_ok (observe_radius f (bput f v b)) /\ ranges_ok (observe_radius f (bput f v b)).
Proof.
  destruct b as [r rt rs rts m i tv tav q1 q2 q3 rm rsc tvm tvs mm ms bt n].
  unfold radii_ok, ranges_ok. cbn. intros (A & B & C) (D & E & F & G) H [ -> | [ -> | -> ] ]; cbn;
    (rcase; cbn; [repeat split; auto|]); assert (r = 0) by lra; subst; repeat split; auto; lra.
Qed.
Lemma bvalid_nonneg f v : bvalid f v = true -> 0 <= v.
Proof. unfold bvalid. intros H. apply andb_prop in H as [H _]. now apply Rleb_true. Qed.
Lemma put_other_ok f v b : radii_ok b /\ ranges_ok b ->
  match f with Radius | RatioRt | RatioRs | RatioTs => False | _ => True end ->
  radii_ok (bput f v b) /\ ranges_ok (bput f v b).
Proof. destruct b. unfold radii_ok, ranges_ok. destruct f; cbn; tauto. Qed.
Lemma put_draws_ok n b : radii_ok b /\ ranges_ok b -> radii_ok (put_draws n b) /\ ranges_ok (put_draws n b).
Proof. destruct b; auto. Qed.
Lemma put_bt_ok s b : radii_ok b /\ ranges_ok b -> radii_ok (put_body_type s b) /\ ranges_ok (put_body_type s b).
Proof. destruct b; auto. Qed.

Lemma assign_drawn_ok f v b : (f = Radius \/ f = Mass \/ f = TargetVelocity) -> radii_ok b /\ ranges_ok b ->
  radii_ok (snd (assign_drawn f v b)) /\ ranges_ok (snd (assign_drawn f v b)).
Proof.
  intros Hf [H1 H2]. unfold assign_drawn. destruct (bvalid f v) eqn:Ev; [|auto].
  apply bvalid_nonneg in Ev. destruct (Reqb v (bget f b)); [auto|]. cbn [snd].
  destruct Hf as [->|[->| ->]].
  - apply observe_inertia_ok. now apply set_radius_ok.
  - apply observe_inertia_ok. apply put_other_ok; auto.
  - apply put_other_ok; auto.
Qed.
Lemma observe_truncnorm_ok zs f m s b : (f = Radius \/ f = Mass \/ f = TargetVelocity) -> radii_ok b /\ ranges_ok b ->
  radii_ok (snd (observe_truncnorm zs f m s b)) /\ ranges_ok (snd (observe_truncnorm zs f m s b)).
Proof.
  intros Hf H. unfold observe_truncnorm. destruct (_ && _); [|auto].
  apply assign_drawn_ok; auto. now apply put_draws_ok.
Qed.
Lemma assign_ok zs f v b : radii_ok b /\ ranges_ok b ->
  radii_ok (snd (assign zs f v b)) /\ ranges_ok (snd (assign zs f v b)).
Proof.
  intros H. unfold assign. destruct (bvalid f v) eqn:Ev; [|auto].
  apply bvalid_nonneg in Ev. destruct (Reqb v (bget f b)); [auto|].
  destruct f; try (apply observe_truncnorm_ok; auto; apply put_other_ok; auto); cbn [snd].
  - apply observe_inertia_ok. apply set_radius_ok; tauto.
  - apply set_ratio_ok; tauto.
  - apply set_ratio_ok; tauto.
  - apply set_ratio_ok; tauto.
  - apply observe_inertia_ok. apply put_other_ok; auto.
  - apply put_other_ok; auto.
Qed.
Lemma assign_items_ok zs items : forall b, radii_ok b /\ ranges_ok b ->
  radii_ok (snd (assign_items zs items b)) /\ ranges_ok (snd (assign_items zs items b)).
Proof.
  induction items as [|[f v] items IH]; intros b H; cbn; auto.
  pose proof (assign_ok zs f v b H) as A. destruct (assign zs f v b) as [[e|] b']; auto.
Qed.
Lemma bstep_ok zs cfg b o : radii_ok b /\ ranges_ok b ->
  radii_ok (snd (bstep zs cfg b o)) /\ ranges_ok (snd (bstep zs cfg b o)).
Proof.
  intros H. destruct o as [f v|s]; cbn; [now apply assign_ok|].
  unfold assign_body_type. destruct (String.eqb s (b_body_type b)); auto.
  pose proof (put_bt_ok s b H). destruct (String.eqb _ ""); auto.
  destruct (cfg s); auto. now apply assign_items_ok.
Qed.
Lemma brun_ok zs cfg os : forall b, radii_ok b /\ ranges_ok b -> radii_ok (brun zs cfg b os) /\ ranges_ok (brun zs cfg b os).
Proof.
  induction os as [|o os IH]; intros b H; cbn; auto. apply IH. now apply bstep_ok.
Qed.
Lemma body0_ok : radii_ok body0 /\ ranges_ok body0.
Proof. unfold radii_ok, ranges_ok; cbn. repeat split; lra. Qed.
Lemma radii_consistent zs cfg os : let b := brun zs cfg body0 os in
  b_r_t b = b_ratio_rt b * b_radius b /\
  b_r_s b = b_ratio_rs b * b_radius b /\
  b_r_ts b = b_ratio_ts b * b_radius b.
Proof. apply brun_ok, body0_ok. Qed.

Lemma body_type_once zs cfg b name : b_body_type b <> ""%string -> name <> b_body_type b ->
  fst (assign_body_type zs cfg name b) = Some TraitError /\
  snd (assign_body_type zs cfg name b) = put_body_type name b.
Proof.
  intros H1 H2. unfold assign_body_type.
  destruct (String.eqb_spec name (b_body_type b)); [contradiction|].
  destruct (String.eqb_spec (b_body_type b) ""); [contradiction|]. auto.
Qed.

(** ** Shipped body types *)
Lemma truncnorm3_eq zs n m s : truncnorm3 zs n m s = m + s / 3 * zs n.
Proof.
  unfold truncnorm3. rewrite Rabs_Ropp || idtac.
  replace (Rmax (Rabs (-3)) (Rabs 3)) with 3; auto.
  rewrite (Rabs_left (-3)), (Rabs_right 3) by lra. rewrite Rmax_left; lra.
Qed.
Lemma truncnorm3_range zs n m s : -3 <= zs n <= 3 -> 0 <= s -> m - s <= truncnorm3 zs n m s <= m + s.
Proof. intros H Hs. rewrite truncnorm3_eq. nra. Qed.

Definition good_section (rt rs ts rm rsc tvm tvs mm ms : R) : Prop :=
  0 < rt <= 1 /\ 0 < rs <= 1 /\ 0 < ts <= 1 /\ 0 < rsc < rm /\ 0 < tvs < tvm /\ 0 < ms < mm.

Definition inertia_of (m r : R) : R := 4 * PI * (m / 80) * ((r / (27/100)) * (r / (27/100))).
Lemma items_step zs f v items b b' : assign zs f v b = (None, b') ->
  assign_items zs ((f, v) :: items) b = assign_items zs items b'.
Proof. intros H. cbn [assign_items]. now rewrite H. Qed.
Ltac solve_assign r v m :=
  unfold assign, bvalid, observe_truncnorm, assign_drawn, bvalid, observe_inertia, observe_radius; cbn -[truncnorm3 PI];
  repeat (rdec; cbn -[truncnorm3 PI];
          try (progress fold r); try (progress fold v); try (progress fold m)); reflexivity.
Lemma section_run zs rt rs ts rm rsc tvm tvs mm ms name :
  (forall n, -3 <= zs n <= 3) -> good_section rt rs ts rm rsc tvm tvs mm ms ->
  let r := truncnorm3 zs 0 rm rsc in
  let v := truncnorm3 zs 1 tvm tvs in
  let m := truncnorm3 zs 2 mm ms in
  assign_items zs (cfg_section rt rs ts rm rsc tvm tvs mm ms) (put_body_type name body0) =
  (None, Body r (rt * r) (rs * r) (ts * r) m (inertia_of m r) v 0 rt rs ts rm rsc tvm tvs mm ms name 3).
Proof.
  intros Hz (H1 & H2 & H3 & H4 & H5 & H6) r v m.
  assert (Hr : 0 < r) by (pose proof (truncnorm3_range zs 0 rm rsc (Hz _)); unfold r; lra).
  assert (Hv : 0 < v) by (pose proof (truncnorm3_range zs 1 tvm tvs (Hz _)); unfold v; lra).
  assert (Hm : 0 < m) by (pose proof (truncnorm3_range zs 2 mm ms (Hz _)); unfold m; lra).
  unfold cfg_section, body0. cbn [put_body_type].
  do 9 (erewrite items_step; [|solve_assign r v m]).
  cbn [assign_items]. reflexivity.
Qed.

Lemma shipped_good name items : In (name, items) shipped ->
  exists rt rs ts rm rsc tvm tvs mm ms,
    items = cfg_section rt rs ts rm rsc tvm tvs mm ms /\ good_section rt rs ts rm rsc tvm tvs mm ms /\
    rs + ts <= 1 /\ rm + rsc <= 3/10 /\ shipped_config name = Some items /\ name <> ""%string.
Proof.
  unfold shipped. cbn [In]. intros [E|[E|[E|[E|[E|[]]]]]]; injection E as <- <-;
    do 9 eexists; (split; [reflexivity|]); unfold good_section; repeat split; try lra; try reflexivity; discriminate.
Qed.
Lemma shipped_body zs name rt rs ts rm rsc tvm tvs mm ms :
  (forall n, -3 <= zs n <= 3) -> In (name, cfg_section rt rs ts rm rsc tvm tvs mm ms) shipped ->
  exists b, assign_body_type zs shipped_config name body0 = (None, b) /\
    rm - rsc <= b_radius b <= rm + rsc /\ 0 < b_radius b /\
    tvm - tvs <= b_target_velocity b <= tvm + tvs /\ 0 < b_target_velocity b /\
    mm - ms <= b_mass b <= mm + ms /\ 0 < b_mass b /\
    b_inertia_rot b = 4 * PI * (b_mass b / 80) * (b_radius b / (27/100)) ^ 2 /\
    b_r_t b = rt * b_radius b /\ b_r_s b = rs * b_radius b /\ b_r_ts b = ts * b_radius b /\
    b_target_angular_velocity b = 0 /\
    0 < b_r_t b <= b_radius b /\ 0 < b_r_s b /\ 0 < b_r_ts b /\ b_r_ts b + b_r_s b <= b_radius b /\
    b_radius b <= 3/10.
Proof.
  intros Hz Hin. destruct (shipped_good _ _ Hin) as (rt' & rs' & ts' & rm' & rsc' & tvm' & tvs' & mm' & ms' & E & G & H1 & H2 & Hc & Hn).
  unfold cfg_section in E. injection E as <- <- <- <- <- <- <- <- <-.
  unfold assign_body_type. destruct (String.eqb_spec name (b_body_type body0)) as [E|_]; [contradiction|].
  cbn [body0 b_body_type String.eqb]. rewrite Hc.
  change (Body 0 0 0 0 0 0 0 0 0 0 0 0 0 0 0 0 0 "" 0) with body0.
  rewrite section_run by auto. eexists. split; [reflexivity|].
  destruct G as (G1 & G2 & G3 & G4 & G5 & G6).
  pose proof (truncnorm3_range zs 0 rm rsc (Hz _)) as R1. pose proof (truncnorm3_range zs 1 tvm tvs (Hz _)) as R2.
  pose proof (truncnorm3_range zs 2 mm ms (Hz _)) as R3.
  cbn [b_radius b_r_t b_r_s b_r_ts b_mass b_inertia_rot b_target_velocity b_target_angular_velocity].
  set (r := truncnorm3 zs 0 rm rsc) in *. set (v := truncnorm3 zs 1 tvm tvs) in *. set (m := truncnorm3 zs 2 mm ms) in *.
  clearbody r v m. assert (0 < r) by lra.
  assert (0 < rt * r) by (apply Rmult_lt_0_compat; lra).
  assert (0 < rs * r) by (apply Rmult_lt_0_compat; lra).
  assert (0 < ts * r) by (apply Rmult_lt_0_compat; lra).
  assert (rt * r <= r) by nra. assert (ts * r + rs * r <= r) by nra.
  unfold inertia_of. repeat split; try lra.
Qed.

(** ** Groups *)
Section Groups.
  Context {D : Type}.
  Lemma take_gen_ok (s : nat -> option D) k : forall n l n', take_gen s n k = (Some l, n') ->
    n' = (n + k)%nat /\ length l = k /\ forall i, (i < k)%nat -> nth_error l i = s (n + i)%nat.
  Proof.
    induction k as [|k IH]; intros n l n' E; cbn in E.
    - injection E as <- <-. split; [lia|]. split; auto. intros; lia.
    - destruct (s n) as [d|] eqn:Es; [|discriminate].
      destruct (take_gen s (S n) k) as [r m] eqn:Er. destruct r as [l'|]; cbn in E; [|discriminate].
      injection E as <- <-. destruct (IH _ _ _ Er) as (A & B & C). split; [lia|]. split; [cbn; lia|].
      intros [|i] Hi; cbn.
      + now rewrite Nat.add_0_r.
      + rewrite C by lia. f_equal. lia.
  Qed.
  Lemma take_gen_full (s : nat -> option D) k : forall n, (forall i, (i < k)%nat -> s (n + i)%nat <> None) ->
    exists l, take_gen s n k = (Some l, (n + k)%nat).
  Proof.
    induction k as [|k IH]; intros n H; cbn.
    - exists []. now rewrite Nat.add_0_r.
    - destruct (s n) as [d|] eqn:Es.
      + destruct (IH (S n)) as [l El].
        { intros i Hi. specialize (H (S i)). replace (S n + i)%nat with (n + S i)%nat by lia. apply H. lia. }
        rewrite El. exists (d :: l). cbn. f_equal. lia.
      + exfalso. apply (H 0%nat); [lia|]. now rewrite Nat.add_0_r.
  Qed.
  Lemma take_gen_short (s : nat -> option D) k : forall n j, (j < k)%nat ->
    (forall i, (i < j)%nat -> s (n + i)%nat <> None) -> s (n + j)%nat = None ->
    take_gen s n k = (None, (n + j)%nat).
  Proof.
    induction k as [|k IH]; intros n j Hj Hs Hn; [lia|]. cbn.
    destruct j as [|j].
    - rewrite Nat.add_0_r in *. now rewrite Hn.
    - destruct (s n) as [d|] eqn:Es.
      + rewrite (IH (S n) j); [cbn; f_equal; lia|lia| |].
        * intros i Hi. replace (S n + i)%nat with (n + S i)%nat by lia. apply Hs. lia.
        * replace (S n + j)%nat with (n + S j)%nat by lia. auto.
      + exfalso. apply (Hs 0%nat); [lia|]. now rewrite Nat.add_0_r.
  Qed.

  (** Whatever the group looked like, a successful rebuild takes the next items. *)
  Lemma rebuild_gen size ms (s : nat -> option D) n g : (0 < size)%Z ->
    observe_members (AGroup size true (Some (Gen s n)) ms) = (None, g) ->
    length (gr_members g) = Z.to_nat size /\
    (forall i, (i < Z.to_nat size)%nat -> nth_error (gr_members g) i = s (n + i)%nat) /\
    gr_attributes g = Some (Gen s (n + Z.to_nat size)).
  Proof.
    intros H E. unfold observe_members in E. replace (0 <? size)%Z with true in E by (symmetry; now apply Z.ltb_lt).
    cbn [andb] in E. destruct (take_gen s n (Z.to_nat size)) as [[l|] n'] eqn:Et; [|discriminate].
    injection E as <-. destruct (take_gen_ok _ _ _ _ _ Et) as (-> & B & C). cbn. auto.
  Qed.
  Lemma rebuild_callable size ms (s : nat -> D) n : (0 < size)%Z ->
    observe_members (AGroup size true (Some (Callable s n)) ms) =
    (None, AGroup size true (Some (Callable s (n + Z.to_nat size))) (map s (seq n (Z.to_nat size)))).
  Proof.
    intros H. unfold observe_members. replace (0 <? size)%Z with true by (symmetry; now apply Z.ltb_lt). reflexivity.
  Qed.
  Lemma new_callable size (s : nat -> D) : (0 < size)%Z ->
    exists g, group_new size (Callable s 0) = (None, g) /\
      length (gr_members g) = Z.to_nat size /\
      (forall i, (i < Z.to_nat size)%nat -> nth_error (gr_members g) i = Some (s (2 * Z.to_nat size + i)%nat)) /\
      gr_attributes g = Some (Callable s (3 * Z.to_nat size)).
  Proof.
    intros H. unfold group_new. destruct (Z.eqb_spec size 0); [lia|]. cbn [notify].
    rewrite !rebuild_callable by auto. eexists. split; [reflexivity|]. cbn [gr_members gr_attributes].
    rewrite map_length, seq_length. split; auto. split.
    - intros i Hi. rewrite nth_error_map, (nth_error_nth' _ 0%nat) by (rewrite seq_length; auto).
      rewrite seq_nth by auto. cbn. f_equal. f_equal. lia.
    - f_equal. f_equal. lia.
  Qed.
  Lemma new_gen size (s : nat -> option D) : (0 < size)%Z ->
    (forall i, (i < 3 * Z.to_nat size)%nat -> s i <> None) ->
    exists g, group_new size (Gen s 0) = (None, g) /\
      length (gr_members g) = Z.to_nat size /\
      (forall i, (i < Z.to_nat size)%nat -> nth_error (gr_members g) i = s (2 * Z.to_nat size + i)%nat) /\
      gr_attributes g = Some (Gen s (3 * Z.to_nat size)).
  Proof.
    intros H Hs. unfold group_new. destruct (Z.eqb_spec size 0); [lia|]. cbn [notify].
    assert (Step : forall n ms, (n + Z.to_nat size <= 3 * Z.to_nat size)%nat ->
      exists l, observe_members (AGroup size true (Some (Gen s n)) ms) =
        (None, AGroup size true (Some (Gen s (n + Z.to_nat size))) l) /\ length l = Z.to_nat size /\
        forall i, (i < Z.to_nat size)%nat -> nth_error l i = s (n + i)%nat).
    { intros m ms Hm. destruct (take_gen_full s (Z.to_nat size) m) as [l El].
      { intros i Hi. apply Hs. lia. }
      exists l. unfold observe_members. replace (0 <? size)%Z with true by (symmetry; now apply Z.ltb_lt).
      cbn [andb]. rewrite El. split; auto. now apply take_gen_ok in El. }
    destruct (Step 0%nat [] ltac:(lia)) as (l1 & E1 & _). rewrite E1.
    destruct (Step (0 + Z.to_nat size)%nat l1 ltac:(lia)) as (l2 & E2 & _). rewrite E2.
    destruct (Step (0 + Z.to_nat size + Z.to_nat size)%nat l2 ltac:(lia)) as (l3 & E3 & L3 & N3). rewrite E3.
    eexists. split; [reflexivity|]. cbn [gr_members gr_attributes]. split; auto. split.
    - intros i Hi. rewrite N3 by auto. f_equal. lia.
    - f_equal. f_equal. lia.
  Qed.
  (** A generator with exactly as many items as members is not enough. *)
  Lemma new_gen_exact size (s : nat -> option D) : (0 < size)%Z ->
    (forall i, s i <> None <-> (i < Z.to_nat size)%nat) ->
    fst (group_new size (Gen s 0)) = Some StopIteration.
  Proof.
    intros H Hs. unfold group_new. destruct (Z.eqb_spec size 0); [lia|]. cbn [notify].
    unfold observe_members at 1. replace (0 <? size)%Z with true by (symmetry; now apply Z.ltb_lt). cbn [andb].
    destruct (take_gen_full s (Z.to_nat size) 0) as [l El].
    { intros i Hi. apply Hs. lia. }
    rewrite El. unfold observe_members. replace (0 <? size)%Z with true by (symmetry; now apply Z.ltb_lt). cbn [andb].
    rewrite (take_gen_short s (Z.to_nat size) (0 + Z.to_nat size) 0).
    - reflexivity.
    - lia.
    - intros; lia.
    - destruct (s (0 + Z.to_nat size + 0)%nat) eqn:E; auto.
      exfalso. assert (s (0 + Z.to_nat size + 0)%nat <> None) as K by congruence. apply Hs in K. lia.
  Qed.
  (** A collection determines the members whatever the size says. *)
  Lemma new_coll size (l : list D) : (0 < size)%Z ->
    exists g, group_new size (Coll l) = (None, g) /\ gr_members g = l.
  Proof.
    intros H. unfold group_new. destruct (Z.eqb_spec size 0); [lia|]. cbn [notify].
    unfold observe_members at 1. replace (0 <? size)%Z with true by (symmetry; now apply Z.ltb_lt). cbn [andb].
    unfold observe_members at 1. replace (0 <? size)%Z with true by (symmetry; now apply Z.ltb_lt). cbn [andb].
    unfold observe_members at 1. replace (0 <? size)%Z with true by (symmetry; now apply Z.ltb_lt). cbn [andb].
    eexists. split; reflexivity.
  Qed.
End Groups.

(** A small history. *)
Lemma brun_step zs cfg b o os b' e : bstep zs cfg b o = (e, b') -> brun zs cfg b (o :: os) = brun zs cfg b' os.
Proof. unfold brun. cbn. now intros ->. Qed.
Lemma small_history :
  let b := brun (fun _ => 0) shipped_config body0 [SetField Radius (1/2); SetField RatioRt (1/4); SetField Radius 1] in
  b_radius b = 1 /\ b_r_t b = 1/4.
Proof.
  cbv zeta. unfold body0.
  assert (A : forall v b, 0 <= v -> v <> b_radius b -> bstep (fun _ => 0) shipped_config b (SetField Radius v) =
    (None, observe_inertia (observe_radius Radius (bput Radius v b)))).
  { intros v b H1 H2. cbn. unfold assign, bvalid. cbn [bget]. now rdec; cbn; repeat (rewrite (proj2 (Reqb_false _ _)) by auto). }
  erewrite brun_step by (apply A; cbn; lra).
  cbn [bput observe_radius b_ratio_rt b_ratio_rs b_ratio_ts]. rdec. cbn [put_radii b_r_t b_r_s b_r_ts].
  unfold observe_inertia. cbn [b_inertia_rot b_mass b_radius]. rdec. cbn [andb].
  erewrite brun_step.
  2:{ cbn [bstep]. unfold assign, bvalid. cbn [bget b_ratio_rt]. rdec. cbn [andb bput observe_radius b_radius]. rdec.
      cbn [put_radii b_ratio_rt b_r_s b_r_ts]. reflexivity. }
  erewrite brun_step by (apply A; cbn; lra).
  cbn [bput observe_radius b_ratio_rt b_ratio_rs b_ratio_ts]. rdec. cbn [put_radii b_r_t b_r_s b_r_ts b_radius].
  unfold observe_inertia. cbn [b_inertia_rot b_mass b_radius]. rdec. cbn [andb]. cbn. split; lra.
Qed.
