(** Proofs about the validation simulations. *)
From Coq Require Import Lra Lia Permutation.
From Verif Require Import Proofs.SimulationMore Proofs.CrowdExamples Proofs.PlacementProofs.
From Verif Require Export Proofs.MotionProofs.
From Verif Require Import Spec.Straight.
Open Scope R_scope.

(** ** Bodies from explicit values *)

Lemma bfield_dec (f g : bfield) : {f = g} + {f <> g}.
Proof. decide equality. Qed.
Lemma bget_bput f v b : bget f (bput f v b) = v.
Proof. destruct b, f; reflexivity. Qed.
Lemma bget_bput_other f g v b : f <> g -> bget f (bput g v b) = bget f b.
Proof. destruct b, f, g; try reflexivity; congruence. Qed.
(** The parts no assignment writes. *)
Definition parts (b : bodyt) := (b_r_t b, b_r_s b, b_r_ts b, b_inertia_rot b, b_draws b).
Lemma parts_bput f v b : parts (bput f v b) = parts b.
Proof. destruct b, f; reflexivity. Qed.
Lemma bvalid_iff f v : bvalid f v = true <-> trait_range f v.
Proof.
  unfold bvalid, trait_range. rewrite Bool.andb_true_iff, Rleb_true. split; intros (A & B); split; auto.
  - intros H. destruct f; cbn in H; destruct H as [H|[H|[H|[]]]]; try discriminate H; now apply Rleb_true.
  - destruct f; auto; apply Rleb_true, B; cbn; auto.
Qed.
Lemma store_items_spec items : forall b, NoDup (map fst items) -> Forall (fun i => trait_range (fst i) (snd i)) items ->
  (forall f, In f (map fst items) -> bget f b = 0) ->
  exists fs b', store_items items b = Ok (fs, b') /\ parts b' = parts b /\
    (forall f v, In (f, v) items -> bget f b' = v) /\ (forall f, ~ In f (map fst items) -> bget f b' = bget f b) /\
    (forall f, In f fs <-> exists v, In (f, v) items /\ v <> 0).
Proof.
  induction items as [|(f, v) items IH]; intros b ND HV HZ; cbn [store_items].
  - exists [], b. repeat split; auto; try contradiction. intros (v & [] & _).
  - cbn [map fst] in ND, HZ. inversion ND as [|? ? Hn ND']; subst. inversion HV as [|? ? H1 H2]; subst. cbn [fst snd] in H1.
    rewrite (proj2 (bvalid_iff f v) H1).
    destruct (IH (bput f v b) ND' H2) as (fs & b' & E & P & G & O & S).
    { intros g Hg. rewrite bget_bput_other; [apply HZ; now right|]. intros ->. contradiction. }
    rewrite E. cbn [rbind fst snd]. eexists _, _. split; [reflexivity|]. split; [rewrite P; apply parts_bput|]. split; [|split].
    + intros g w [Q|Hw]; [injection Q as <- <-; rewrite O by exact Hn; apply bget_bput|auto].
    + intros g Hg. cbn in Hg. rewrite O by tauto. apply bget_bput_other. intros ->. tauto.
    + intros g. rewrite (HZ f (or_introl eq_refl)). destruct (Reqb v 0) eqn:Z.
      * apply Reqb_true in Z. rewrite S. split; intros (w & H & Hw); exists w; split; auto; [now right|].
        destruct H as [Q|H]; [injection Q as <- <-; contradiction|exact H].
      * apply Reqb_false in Z. cbn [In]. rewrite S. split.
        -- intros [<-|(w & H & Hw)]; [exists v; split; [now left|exact Z]|exists w; split; [now right|exact Hw]].
        -- intros (w & [Q|H] & Hw); [injection Q as <- <-; now left|right; eauto].
Qed.

(** One notification. *)
Lemma bget_put_radii f x y z b : bget f (put_radii x y z b) = bget f b.
Proof. destruct b, f; reflexivity. Qed.
Lemma bget_put_inertia f x b : bget f (put_inertia x b) = bget f b.
Proof. destruct b, f; reflexivity. Qed.
Definition inertia_of (b : bodyt) : R := 4 * PI * (b_mass b / 80) * ((b_radius b / (27/100)) * (b_radius b / (27/100))).
(** [x] is not yet computed, or is the value [y]. *)
Definition pending (x y : R) : Prop := x = 0 \/ x = y.
Record partly (b : bodyt) : Prop := {
  pt_t : pending (b_r_t b) (b_ratio_rt b * b_radius b);
  pt_s : pending (b_r_s b) (b_ratio_rs b * b_radius b);
  pt_ts : pending (b_r_ts b) (b_ratio_ts b * b_radius b);
  pt_i : pending (b_inertia_rot b) (inertia_of b) }.
Record same_values (b b' : bodyt) : Prop := { sv_get : forall f, bget f b' = bget f b; sv_draws : b_draws b' = b_draws b }.
Lemma sv_refl b : same_values b b. Proof. split; auto. Qed.
Lemma sv_trans a b c : same_values a b -> same_values b c -> same_values a c.
Proof. intros [A A'] [B B']. split; [intros f; rewrite B; apply A|congruence]. Qed.
Lemma get_named b b' : same_values b b' -> b_radius b' = b_radius b /\ b_ratio_rt b' = b_ratio_rt b /\ b_ratio_rs b' = b_ratio_rs b /\
  b_ratio_ts b' = b_ratio_ts b /\ b_mass b' = b_mass b.
Proof. intros [G _]. exact (conj (G Radius) (conj (G RatioRt) (conj (G RatioRs) (conj (G RatioTs) (G Mass))))). Qed.

Lemma observe_radius_same f b : same_values b (observe_radius f b).
Proof.
  split; [intros g|]; destruct f; cbn [observe_radius]; rewrite ?bget_put_radii; auto;
    try (destruct (Rltb 0 (b_radius b)); rewrite ?bget_put_radii; auto; destruct b; reflexivity).
Qed.
Lemma observe_inertia_same b : same_values b (observe_inertia b).
Proof.
  unfold observe_inertia. destruct (_ && _); [|apply sv_refl]. split; [intros g; apply bget_put_inertia|destruct b; reflexivity].
Qed.
Lemma inertia_only b : b_r_t (observe_inertia b) = b_r_t b /\ b_r_s (observe_inertia b) = b_r_s b /\ b_r_ts (observe_inertia b) = b_r_ts b.
Proof. unfold observe_inertia. destruct (_ && _); auto. destruct b; auto. Qed.
Lemma inertia_found b : 0 < b_mass b -> 0 < b_radius b -> pending (b_inertia_rot b) (inertia_of b) -> b_inertia_rot (observe_inertia b) = inertia_of b.
Proof.
  intros M Rr [Z|Z]; unfold observe_inertia.
  - rewrite Z, (proj2 (Reqb_true 0 0) eq_refl), (proj2 (Rltb_true 0 (b_mass b)) M), (proj2 (Rltb_true 0 (b_radius b)) Rr). destruct b; reflexivity.
  - destruct (_ && _); [destruct b; reflexivity|exact Z].
Qed.
Lemma inertia_pending b : pending (b_inertia_rot b) (inertia_of b) -> pending (b_inertia_rot (observe_inertia b)) (inertia_of b).
Proof. intros P. unfold observe_inertia. destruct (_ && _); [right; destruct b; reflexivity|exact P]. Qed.
Lemma radii_inertia f b : b_inertia_rot (observe_radius f b) = b_inertia_rot b.
Proof. destruct b, f; cbn [observe_radius]; try destruct (Rltb _ _); reflexivity. Qed.

(** What a notification settles. *)
Definition settles (f : bfield) (b : bodyt) : Prop :=
  match f with
  | Radius => (0 < b_ratio_rt b -> b_r_t b = b_ratio_rt b * b_radius b) /\ (0 < b_ratio_rs b -> b_r_s b = b_ratio_rs b * b_radius b) /\
      (0 < b_ratio_ts b -> b_r_ts b = b_ratio_ts b * b_radius b) /\ (0 < b_mass b -> 0 < b_radius b -> b_inertia_rot b = inertia_of b)
  | _ => True
  end.
Lemma notify_one zs f b : explicit f -> partly b ->
  exists b', notify_trait zs f b = (None, b') /\ same_values b b' /\ partly b' /\ settles f b' /\ (settles Radius b -> settles Radius b').
Proof.
  intros Hf [T S U I].
  assert (RR : forall b0, b_r_t (put_radii (b_ratio_rt b * b_radius b) b0 (b_r_ts b) b) = b_ratio_rt b * b_radius b) by (intros; destruct b; reflexivity).
  destruct Hf as [<-|[<-|[<-|[<-|[<-|[<-|[]]]]]]]; cbn [notify_trait].
  - set (b1 := observe_radius Radius b). pose proof (observe_radius_same Radius b) as S1. fold b1 in S1.
    pose proof (observe_inertia_same b1) as S2. pose proof (sv_trans _ _ _ S1 S2) as S3.
    destruct (get_named _ _ S1) as (g1 & g2 & g3 & g4 & g5). destruct (get_named _ _ S3) as (h1 & h2 & h3 & h4 & h5).
    destruct (inertia_only b1) as (o1 & o2 & o3).
    assert (E1 : b_r_t b1 = if Rltb 0 (b_ratio_rt b) then b_ratio_rt b * b_radius b else b_r_t b) by (destruct b; reflexivity).
    assert (E2 : b_r_s b1 = if Rltb 0 (b_ratio_rs b) then b_ratio_rs b * b_radius b else b_r_s b) by (destruct b; reflexivity).
    assert (E3 : b_r_ts b1 = if Rltb 0 (b_ratio_ts b) then b_ratio_ts b * b_radius b else b_r_ts b) by (destruct b; reflexivity).
    assert (E4 : inertia_of b1 = inertia_of b) by (unfold inertia_of; rewrite g1, g5; reflexivity).
    assert (E5 : inertia_of (observe_inertia b1) = inertia_of b) by (unfold inertia_of; rewrite h1, h5; reflexivity).
    assert (P1 : pending (b_inertia_rot b1) (inertia_of b1)) by (rewrite E4; unfold b1; rewrite radii_inertia; exact I).
    assert (SE : settles Radius (observe_inertia b1)).
    { cbn [settles]. rewrite o1, o2, o3, h1, h2, h3, h4, h5, E1, E2, E3, E5.
      split; [intros Q; rewrite (proj2 (Rltb_true _ _) Q); reflexivity|].
      split; [intros Q; rewrite (proj2 (Rltb_true _ _) Q); reflexivity|].
      split; [intros Q; rewrite (proj2 (Rltb_true _ _) Q); reflexivity|].
      intros M Q. rewrite inertia_found; [exact E4|lra|lra|exact P1]. }
    eexists. split; [reflexivity|]. split; [exact S3|]. split; [|split; [exact SE|intros _; exact SE]].
    constructor.
    + rewrite o1, h1, h2, E1. destruct (Rltb 0 (b_ratio_rt b)); [now right|exact T].
    + rewrite o2, h1, h3, E2. destruct (Rltb 0 (b_ratio_rs b)); [now right|exact S].
    + rewrite o3, h1, h4, E3. destruct (Rltb 0 (b_ratio_ts b)); [now right|exact U].
    + rewrite E5, <- E4. apply inertia_pending. exact P1.
  - eexists. split; [reflexivity|]. split; [apply observe_radius_same|]. cbn [observe_radius].
    destruct (Rltb 0 (b_radius b)); [|split; [now constructor|split; [exact Logic.I|auto]]].
    split; [destruct b; constructor; cbn in *; auto; now right|]. split; [exact Logic.I|]. intros (A & B & C & D). destruct b; cbn in *. auto.
  - eexists. split; [reflexivity|]. split; [apply observe_radius_same|]. cbn [observe_radius].
    destruct (Rltb 0 (b_radius b)); [|split; [now constructor|split; [exact Logic.I|auto]]].
    split; [destruct b; constructor; cbn in *; auto; now right|]. split; [exact Logic.I|]. intros (A & B & C & D). destruct b; cbn in *. auto.
  - eexists. split; [reflexivity|]. split; [apply observe_radius_same|]. cbn [observe_radius].
    destruct (Rltb 0 (b_radius b)); [|split; [now constructor|split; [exact Logic.I|auto]]].
    split; [destruct b; constructor; cbn in *; auto; now right|]. split; [exact Logic.I|]. intros (A & B & C & D). destruct b; cbn in *. auto.
  - pose proof (observe_inertia_same b) as S1. destruct (get_named _ _ S1) as (g1 & g2 & g3 & g4 & g5). destruct (inertia_only b) as (o1 & o2 & o3).
    assert (E4 : inertia_of (observe_inertia b) = inertia_of b) by (unfold inertia_of; rewrite g1, g5; reflexivity).
    eexists. split; [reflexivity|]. split; [exact S1|]. split; [|split; [exact Logic.I|]].
    + constructor; rewrite ?o1, ?o2, ?o3, ?g1, ?g2, ?g3, ?g4; auto. rewrite E4. now apply inertia_pending.
    + cbn [settles]. rewrite o1, o2, o3, g1, g2, g3, g4, g5, E4. intros (A & B & C & D). repeat split; auto. intros M Q. now apply inertia_found.
  - eexists. split; [reflexivity|]. split; [apply sv_refl|]. split; [now constructor|]. split; [exact Logic.I|auto].
Qed.
Lemma notify_all zs fs : forall b, (forall f, In f fs -> explicit f) -> partly b ->
  exists b', notify_traits zs fs b = (None, b') /\ same_values b b' /\ partly b' /\ (In Radius fs \/ settles Radius b -> settles Radius b').
Proof.
  induction fs as [|f fs IH]; intros b Hf P; cbn [notify_traits].
  - exists b. split; auto. split; [apply sv_refl|]. split; auto. intros [[]|]; auto.
  - destruct (notify_one zs f b (Hf f (or_introl eq_refl)) P) as (b1 & -> & S1 & P1 & Se & K1). cbn [bseq].
    destruct (IH b1 (fun g Hg => Hf g (or_intror Hg)) P1) as (b2 & -> & S2 & P2 & K2).
    exists b2. split; auto. split; [eapply sv_trans; eauto|]. split; auto.
    intros [[->|H]|H]; apply K2; auto.
Qed.
Lemma explicit_body zs items : NoDup (map fst items) -> (forall f v, In (f, v) items -> explicit f /\ trait_range f v) ->
  exists b, body_with zs items = Ok b /\ (forall f v, value_of items f v -> bget f b = v) /\ proportioned b /\ b_draws b = 0%nat /\
    b_target_angular_velocity b = b_target_angular_velocity b.
Proof.
  intros ND HV. unfold body_with.
  destruct (store_items_spec items body0 ND) as (fs & b1 & -> & P & G & O & S).
  { apply Forall_forall. intros (f, v) H. apply (HV f v H). }
  { intros f _. destruct f; reflexivity. }
  cbn [rbind fst snd].
  assert (VO : forall f v, value_of items f v -> bget f b1 = v).
  { intros f v [H|(-> & H)]; [auto|]. rewrite O by exact H. destruct f; reflexivity. }
  assert (NN : forall f, 0 <= bget f b1).
  { intros f. destruct (in_dec bfield_dec f (map fst items)) as [H|H].
    - apply in_map_iff in H. destruct H as ((g, v) & <- & H). cbn [fst]. rewrite (G g v H). apply (HV g v H).
    - rewrite O by exact H. destruct f; cbn; lra. }
  unfold parts in P. injection P as P1 P2 P3 P4 P5. cbn in P1, P2, P3, P4, P5.
  assert (PT : partly b1) by (constructor; left; assumption).
  destruct (notify_all zs fs b1) as (b2 & -> & S2 & [A B C D] & K); [|exact PT|].
  { intros f Hf. apply S in Hf. destruct Hf as (v & Hv & _). apply (HV f v Hv). }
  exists b2. split; [reflexivity|]. pose proof (sv_get _ _ S2) as SG.
  split; [intros f v H; rewrite SG; auto|]. split; [|split; [rewrite (sv_draws _ _ S2); exact P5|reflexivity]].
  assert (NN2 : forall f, 0 <= bget f b2) by (intros f; rewrite SG; auto).
  pose proof (NN2 Radius) as N0. pose proof (NN2 RatioRt) as N1. pose proof (NN2 RatioRs) as N2. pose proof (NN2 RatioTs) as N3. pose proof (NN2 Mass) as N4. cbn [bget] in N0, N1, N2, N3, N4.
  assert (H2 : 0 < b_radius b2 -> settles Radius b2).
  { intros Hr. apply K. left. apply S. change (b_radius b2) with (bget Radius b2) in Hr. rewrite SG in Hr.
    destruct (in_dec bfield_dec Radius (map fst items)) as [H|H].
    - apply in_map_iff in H. destruct H as ((g, v) & Eg & H). cbn [fst] in Eg. subst g. exists v. split; [exact H|]. rewrite (G _ _ H) in Hr. lra.
    - rewrite O in Hr by exact H. cbn in Hr. lra. }
  assert (ZZ : forall x q, pending x (q * b_radius b2) -> 0 <= q -> (0 < q -> 0 < b_radius b2 -> x = q * b_radius b2) -> x = q * b_radius b2).
  { intros x q [-> | ->] Q H; [|reflexivity]. destruct Q as [Q|<-]; [|lra]. destruct N0 as [N0|<-]; [|lra]. auto. }
  unfold proportioned. replace ((b_radius b2 / (27/100)) ^ 2) with ((b_radius b2 / (27/100)) * (b_radius b2 / (27/100))) by ring. fold (inertia_of b2).
  split; [apply ZZ; auto; intros X Y; now apply (H2 Y)|].
  split; [apply ZZ; auto; intros X Y; now apply (H2 Y)|].
  split; [apply ZZ; auto; intros X Y; now apply (H2 Y)|].
  destruct D as [D|D]; [|exact D]. destruct N4 as [N4|N4]; [destruct N0 as [N0|N0]|].
  - apply (H2 N0); assumption.
  - rewrite D. unfold inertia_of. rewrite <- N0. field.
  - rewrite D. unfold inertia_of. rewrite <- N4. field.
Qed.
