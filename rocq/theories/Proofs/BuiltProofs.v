(** * Proofs about agents made from keyword arguments *)
From Coq Require Import Lra Lia Permutation.
From Verif Require Import Spec.Built Proofs.VecLemmas Proofs.BodyProofs.
Open Scope R_scope.

(** ** Storing *)
Definition at_key (a : argument) (b : bodyt) : R :=
  match a with
  | Given f _ => bget f b | OfType _ => 0
  | TorsoRadius _ => b_r_t b | ShoulderRadius _ => b_r_s b | TorsoToShoulder _ => b_r_ts b
  | Inertia _ => b_inertia_rot b | TurningSpeed _ => b_target_angular_velocity b
  end.
Lemma trait_name_inj f g : trait_name f = trait_name g -> f = g.
Proof. destruct f, g; cbn; (reflexivity || discriminate). Qed.
Lemma given_in a args : once args -> In a args -> given (keyword a) args = amount a.
Proof.
  unfold once. induction args as [|c l IH]; intros N I; [destruct I|]. cbn [map] in N. inversion N; subst. cbn [given]. destruct I as [->|I].
  - now rewrite String.eqb_refl.
  - destruct (String.eqb_spec (keyword a) (keyword c)) as [E|E]; [|now apply IH]. exfalso. apply H1. rewrite <- E. now apply in_map.
Qed.
Lemma given_out key args : ~ In key (map keyword args) -> given key args = 0.
Proof. induction args as [|c l IH]; intros N; [reflexivity|]. cbn [given]. cbn in N. destruct (String.eqb_spec key (keyword c)); [exfalso; apply N; now left|]. apply IH. tauto. Qed.
Lemma bvalid_range f v : trait_range f v -> bvalid f v = true.
Proof.
  intros (H & K). unfold bvalid. replace (Rleb 0 v) with true by (symmetry; now apply Rleb_true). cbn [andb].
  destruct f; try reflexivity; apply Rleb_true; apply K; cbn; tauto.
Qed.
Lemma range_bvalid f v : bvalid f v = true -> trait_range f v.
Proof.
  unfold bvalid, trait_range. intros H. apply andb_prop in H. destruct H as (H & K). apply Rleb_true in H. split; [exact H|].
  intros I. cbn in I. destruct I as [<-|[<-|[<-|[]]]]; now apply Rleb_true.
Qed.
Lemma store_one a b : in_bounds a -> exists ns b', store_argument a b = Ok (ns, b') /\
  at_key a b' = amount a /\ (forall c, keyword c <> keyword a -> at_key c b' = at_key c b) /\
  b_body_type b' = (match a with OfType s => s | _ => b_body_type b end) /\ b_draws b' = b_draws b /\
  ns = (match a with Given f v => if Reqb v (bget f b) then [] else [Changed f] | OfType s => if String.eqb s (b_body_type b) then [] else [TypeChanged] | _ => [] end).
Proof.
  destruct b as [r rt rs rts m i tv tav q1 q2 q3 rm rsc tvm tvs mm ms bt n].
  destruct a as [f v|s|v|v|v|v|v]; intros H; cbn [store_argument]; cbn in H; try (rewrite (proj2 (Rleb_true _ _) H)); try rewrite (bvalid_range f v H);
    do 2 eexists; (split; [reflexivity|]).
  - split; [now destruct f|]. split; [|destruct f; repeat split; reflexivity]. intros c N. destruct c as [g w|s|w|w|w|w|w]; try (destruct f; reflexivity).
    destruct f, g; cbn in N |- *; (reflexivity || (exfalso; apply N; reflexivity)).
  - split; [reflexivity|]. split; [|repeat split; reflexivity]. intros c N. destruct c as [g w|s'|w|w|w|w|w]; try reflexivity; now destruct g.
  - split; [reflexivity|]. split; [|repeat split; reflexivity]. intros c N. destruct c as [g w|s'|w|w|w|w|w]; try reflexivity; try (now destruct g); try (now elim N).
  - split; [reflexivity|]. split; [|repeat split; reflexivity]. intros c N. destruct c as [g w|s'|w|w|w|w|w]; try reflexivity; try (now destruct g); try (now elim N).
  - split; [reflexivity|]. split; [|repeat split; reflexivity]. intros c N. destruct c as [g w|s'|w|w|w|w|w]; try reflexivity; try (now destruct g); try (now elim N).
  - split; [reflexivity|]. split; [|repeat split; reflexivity]. intros c N. destruct c as [g w|s'|w|w|w|w|w]; try reflexivity; try (now destruct g); try (now elim N).
  - split; [reflexivity|]. split; [|repeat split; reflexivity]. intros c N. destruct c as [g w|s'|w|w|w|w|w]; try reflexivity; try (now destruct g); try (now elim N).
Qed.
Lemma store_ok args : forall b, once args -> Forall in_bounds args -> exists ns b', store_arguments args b = Ok (ns, b') /\
  (forall a, In a args -> at_key a b' = amount a) /\ (forall c, ~ In (keyword c) (map keyword args) -> at_key c b' = at_key c b) /\
  (forall s, In (OfType s) args -> b_body_type b' = s) /\ (~ In "body_type"%string (map keyword args) -> b_body_type b' = b_body_type b) /\ b_draws b' = b_draws b /\
  (forall f, In (Changed f) ns <-> exists v, In (Given f v) args /\ v <> bget f b) /\ (In TypeChanged ns <-> exists s, In (OfType s) args /\ s <> b_body_type b) /\ NoDup ns.
Proof.
  unfold once. induction args as [|a l IH]; intros b N F; cbn [map] in N.
  - exists [], b. cbn. repeat split; auto; try tauto; try (intros [v [H _]]; destruct H). constructor.
  - inversion N as [|? ? Na Nl]; subst. inversion F as [|? ? Fa Fl]; subst.
    destruct (store_one a b Fa) as (n1 & b1 & E1 & A1 & O1 & T1 & D1 & M1).
    destruct (IH b1 Nl Fl) as (ns & b' & E & A & O & T & T0 & D & M & MT & ND).
    exists (n1 ++ ns), b'. split; [cbn [store_arguments]; rewrite E1; cbn [rbind fst snd]; rewrite E; reflexivity|].
    assert (B : forall f v, In (Given f v) l -> bget f b1 = bget f b).
    { intros f v I. apply (O1 (Given f v)). intros Q. apply Na. rewrite <- Q. change (In (keyword (Given f v)) (map keyword l)). now apply in_map. }
    assert (BT : forall s, In (OfType s) l -> b_body_type b1 = b_body_type b).
    { intros s I. rewrite T1. destruct a; try reflexivity. exfalso. apply Na. change (In (keyword (OfType s)) (map keyword l)). now apply in_map. }
    assert (MN : forall f, In (Changed f) n1 <-> exists v, a = Given f v /\ v <> bget f b).
    { intros f. rewrite M1. destruct a as [g v|s|v|v|v|v|v]; try (split; [intros []|intros (w & Q & _); discriminate Q]).
      - destruct (Reqb v (bget g b)) eqn:Q; [apply Reqb_true in Q|apply Reqb_false in Q]; split; try (intros []; fail).
        + intros (w & W & X). injection W as -> ->. contradiction.
        + intros [W|[]]. injection W as ->. eauto.
        + intros (w & W & X). injection W as -> ->. now left.
      - destruct (String.eqb s (b_body_type b)); (split; [intros J; cbn in J; intuition discriminate|intros (w & Q & _); discriminate Q]). }
    assert (MS : In TypeChanged n1 <-> exists s, a = OfType s /\ s <> b_body_type b).
    { rewrite M1. destruct a as [g v|s|v|v|v|v|v]; try (split; [intros []|intros (w & Q & _); discriminate Q]).
      - destruct (Reqb v (bget g b)); (split; [intros J; cbn in J; intuition discriminate|intros (w & Q & _); discriminate Q]).
      - destruct (String.eqb_spec s (b_body_type b)) as [Q|Q]; split; try (intros []; fail).
        + intros (w & W & X). injection W as ->. contradiction.
        + intros _. eauto.
        + intros _. now left. }
    split; [|split; [|split; [|split; [|split; [|split; [|split]]]]]].
    + intros c [<-|I]; [|now apply A]. rewrite (O a Na). exact A1.
    + intros c Q. cbn [map In] in Q. rewrite O by tauto. apply O1. intros W. apply Q. now left.
    + intros s [->|I]; [|now apply T]. rewrite T0, T1; [reflexivity|exact Na].
    + intros Q. cbn [map In] in Q. rewrite T0, T1 by tauto. destruct a; try reflexivity. exfalso. apply Q. now left.
    + congruence.
    + intros f. rewrite in_app_iff, MN, M. split.
      * intros [(v & -> & X)|(v & I & X)]; exists v; [split; [now left|exact X]|split; [now right|now rewrite <- (B f v I)]].
      * intros (v & [->|I] & X); [left; eauto|right; exists v; split; [exact I|now rewrite (B f v I)]].
    + rewrite in_app_iff, MS, MT. split.
      * intros [(s & -> & X)|(s & I & X)]; exists s; [split; [now left|exact X]|split; [now right|now rewrite <- (BT s I)]].
      * intros (s & [->|I] & X); [left; eauto|right; exists s; split; [exact I|now rewrite (BT s I)]].
    + assert (Hn : n1 = [] \/ exists x, n1 = [x]). { rewrite M1. destruct a; try (now left); [destruct (Reqb _ _)|destruct (String.eqb _ _)]; eauto. }
      destruct Hn as [Hn|(x & Hn)]; rewrite Hn in *; [exact ND|]. cbn [app]. constructor; [|exact ND]. intros J. destruct x as [f|].
      * destruct (proj1 (MN f) (or_introl eq_refl)) as (v & -> & _). destruct (proj1 (M f) J) as (w & I & _). apply Na. change (In (keyword (Given f w)) (map keyword l)). now apply in_map.
      * destruct (proj1 MS (or_introl eq_refl)) as (v & -> & _). destruct (proj1 MT J) as (w & I & _). apply Na. change (In (keyword (OfType w)) (map keyword l)). now apply in_map.
Qed.
Definition stored (name : string) (args : list argument) : bodyt :=
  Body (given "radius" args) (given "r_t" args) (given "r_s" args) (given "r_ts" args) (given "mass" args) (given "inertia_rot" args)
    (given "target_velocity" args) (given "target_angular_velocity" args) (given "ratio_rt" args) (given "ratio_rs" args) (given "ratio_ts" args)
    0 0 0 0 0 0 name 0.
Lemma store_all name args : once args -> Forall in_bounds args -> no_means args -> In (OfType name) args -> name <> ""%string ->
  exists ns, store_arguments args body0 = Ok (ns, stored name args) /\
  (forall f, In (Changed f) ns <-> explicit f /\ given (trait_name f) args <> 0) /\ In TypeChanged ns /\ NoDup ns.
Proof.
  intros N F M T NE. destruct (store_ok args body0 N F) as (ns & b' & E & A & O & Ty & _ & D & C & CT & ND).
  assert (G : forall a, at_key a body0 = 0 -> amount a = 0 \/ True -> (forall s, a <> OfType s) -> at_key a b' = given (keyword a) args).
  { intros a Z _ NT. destruct (in_dec String.string_dec (keyword a) (map keyword args)) as [I|I].
    - apply in_map_iff in I. destruct I as (c & K & I). rewrite <- K, (given_in c args N I).
      assert (Q : at_key a b' = at_key c b').
      { destruct a as [f v|s|v|v|v|v|v], c as [g w|s'|w|w|w|w|w]; cbn in K |- *; try reflexivity; try (exfalso; now apply (NT s)); try (destruct f; discriminate); try (destruct g; discriminate); try discriminate.
        now rewrite (trait_name_inj _ _ K). }
      rewrite Q. now apply A.
    - rewrite (O a I), Z. now rewrite given_out. }
  assert (GF : forall f, bget f b' = given (trait_name f) args).
  { intros f. apply (G (Given f 0)); [now destruct f|auto|discriminate]. }
  assert (GM : forall f, ~ explicit f -> given (trait_name f) args = 0).
  { intros f H. destruct (in_dec String.string_dec (trait_name f) (map keyword args)) as [I|I]; [|now apply given_out]. exfalso. apply H.
    apply in_map_iff in I. destruct I as (c & K & I). destruct c as [g w|s'|w|w|w|w|w]; cbn in K; try (destruct f; discriminate). rewrite <- (trait_name_inj _ _ K). eapply M, I. }
  exists ns. split.
  - rewrite E. do 2 f_equal. pose proof (Ty _ T) as TT. unfold stored.
    pose proof (G (TorsoRadius 0) eq_refl (or_intror Logic.I) ltac:(discriminate)) as G1. pose proof (G (ShoulderRadius 0) eq_refl (or_intror Logic.I) ltac:(discriminate)) as G2.
    pose proof (G (TorsoToShoulder 0) eq_refl (or_intror Logic.I) ltac:(discriminate)) as G3. pose proof (G (Inertia 0) eq_refl (or_intror Logic.I) ltac:(discriminate)) as G4.
    pose proof (G (TurningSpeed 0) eq_refl (or_intror Logic.I) ltac:(discriminate)) as G5.
    pose proof (GF Radius) as F1. pose proof (GF RatioRt) as F2. pose proof (GF RatioRs) as F3. pose proof (GF RatioTs) as F4. pose proof (GF Mass) as F5. pose proof (GF TargetVelocity) as F6.
    pose proof (GF RadiusMean) as F7. pose proof (GF RadiusScale) as F8. pose proof (GF TargetVelocityMean) as F9. pose proof (GF TargetVelocityScale) as F10. pose proof (GF MassMean) as F11. pose proof (GF MassScale) as F12.
    rewrite GM in F7, F8, F9, F10, F11, F12 by (unfold explicit; cbn; intuition discriminate).
    destruct b'. cbn in TT, D, G1, G2, G3, G4, G5, F1, F2, F3, F4, F5, F6, F7, F8, F9, F10, F11, F12. clear - TT D G1 G2 G3 G4 G5 F1 F2 F3 F4 F5 F6 F7 F8 F9 F10 F11 F12. subst. reflexivity.
  - split; [|split; [|exact ND]].
    + intros f. rewrite C. split.
      * intros (v & I & X). split; [eapply M, I|]. change (trait_name f) with (keyword (Given f v)). rewrite (given_in _ _ N I). cbn. destruct f; exact X.
      * intros (H & X). destruct (in_dec String.string_dec (trait_name f) (map keyword args)) as [I|I]; [|now rewrite given_out in X].
        apply in_map_iff in I. destruct I as (c & K & I). destruct c as [g w|s'|w|w|w|w|w]; cbn in K; try (destruct f; discriminate). apply trait_name_inj in K. subst g. exists w. split; [exact I|].
        change (trait_name f) with (keyword (Given f w)) in X. rewrite (given_in _ _ N I) in X. cbn in X. destruct f; exact X.
    + apply CT. exists name. split; [exact T|]. exact NE.
Qed.

(** ** Telling the observers *)
Lemma inertia_pos m r : 0 < m -> 0 < r -> 0 < inertia_of m r.
Proof. intros M Q. unfold inertia_of. pose proof PI_RGT_0. apply Rmult_lt_0_compat; [apply Rmult_lt_0_compat; lra|]. apply Rmult_lt_0_compat; lra. Qed.
Lemma observe_inertia_if r x y z m i v w q1 q2 q3 a b c d e f s n :
  observe_inertia (Body r x y z m i v w q1 q2 q3 a b c d e f s n) =
  Body r x y z m (if Reqb i 0 && Rltb 0 m && Rltb 0 r then inertia_of m r else i) v w q1 q2 q3 a b c d e f s n.
Proof. unfold observe_inertia. cbn -[PI]. now destruct (Reqb i 0 && Rltb 0 m && Rltb 0 r). Qed.

Section Telling.
Variables (zs : nat -> R) (name : string) (gr gm gv gi ga q1 q2 q3 : R).
Hypotheses (Hr : 0 <= gr) (Hm : 0 <= gm) (Hv : 0 <= gv) (Hi : 0 <= gi) (H1 : 0 <= q1) (H2 : 0 <= q2) (H3 : 0 <= q3).
(** Before the observers of the body type have run. *)
Definition before (x y z i : R) : bodyt := Body gr x y z gm i gv ga q1 q2 q3 0 0 0 0 0 0 name 0.
Definition may_be (i : R) : Prop := i = gi \/ (gi = 0 /\ 0 < gm /\ 0 < gr /\ i = inertia_of gm gr).
Definition ready (x y z i : R) : Prop :=
  0 < gr /\ (0 < q1 -> x = q1 * gr) /\ (0 < q2 -> y = q2 * gr) /\ (0 < q3 -> z = q3 * gr) /\ (gi = 0 -> 0 < gm -> i = inertia_of gm gr).
Lemma may_inertia i : may_be i -> may_be (if Reqb i 0 && Rltb 0 gm && Rltb 0 gr then inertia_of gm gr else i) /\
  ((gi = 0 -> 0 < gm -> i = inertia_of gm gr) -> gi = 0 -> 0 < gm -> (if Reqb i 0 && Rltb 0 gm && Rltb 0 gr then inertia_of gm gr else i) = inertia_of gm gr) /\
  (0 < gr -> gi = 0 -> 0 < gm -> (if Reqb i 0 && Rltb 0 gm && Rltb 0 gr then inertia_of gm gr else i) = inertia_of gm gr).
Proof.
  intros M. destruct (Reqb i 0) eqn:E1; [apply Reqb_true in E1|apply Reqb_false in E1]; [|cbn [andb]; repeat split; auto; destruct M as [M|(_ & _ & _ & M)]; intros; [lra|exact M]].
  destruct (Rltb 0 gm) eqn:E2; [apply Rltb_true in E2|apply Rltb_false in E2]; [|cbn [andb]; repeat split; auto; intros; lra].
  destruct (Rltb 0 gr) eqn:E3; [apply Rltb_true in E3|apply Rltb_false in E3]; cbn [andb]; repeat split; auto; try (intros; lra).
  destruct M as [M|(A & B & C & D)]; [|now right; auto]. right. repeat split; auto. lra.
Qed.
Lemma before_step f x y z i : explicit f -> bget f (before x y z i) <> 0 -> may_be i ->
  exists x' y' z' i', notify_trait zs f (before x y z i) = (None, before x' y' z' i') /\ may_be i' /\
    (ready x y z i -> ready x' y' z' i') /\ (f = Radius -> ready x' y' z' i').
Proof.
  intros Hf N M. destruct (may_inertia i M) as (M1 & M2 & M3). unfold before in *. unfold explicit in Hf. cbn [In] in Hf.
  destruct Hf as [<-|[<-|[<-|[<-|[<-|[<-|[]]]]]]]; cbn [notify_trait observe_radius bget b_radius b_ratio_rt b_ratio_rs b_ratio_ts b_r_t b_r_s b_r_ts put_radii b_mass b_target_velocity] in *.
  - rewrite observe_inertia_if. do 4 eexists. split; [reflexivity|]. split; [exact M1|].
    assert (Q : 0 < gr) by lra. assert (X : ready (if Rltb 0 q1 then q1 * gr else x) (if Rltb 0 q2 then q2 * gr else y) (if Rltb 0 q3 then q3 * gr else z)
       (if Reqb i 0 && Rltb 0 gm && Rltb 0 gr then inertia_of gm gr else i)).
    { split; [exact Q|]. split; [intros; now rewrite (proj2 (Rltb_true _ _))|]. split; [intros; now rewrite (proj2 (Rltb_true _ _))|]. split; [intros; now rewrite (proj2 (Rltb_true _ _))|]. auto. }
    split; intros _; exact X.
  - destruct (Rltb 0 gr); do 4 eexists; (split; [reflexivity|]); (split; [exact M|]); (split; [|discriminate]); unfold ready; tauto.
  - destruct (Rltb 0 gr); do 4 eexists; (split; [reflexivity|]); (split; [exact M|]); (split; [|discriminate]); unfold ready; tauto.
  - destruct (Rltb 0 gr); do 4 eexists; (split; [reflexivity|]); (split; [exact M|]); (split; [|discriminate]); unfold ready; tauto.
  - rewrite observe_inertia_if. do 4 eexists. split; [reflexivity|]. split; [exact M1|]. split; [|discriminate]. unfold ready. tauto.
  - do 4 eexists. split; [reflexivity|]. split; [exact M|]. split; [exact (fun H => H)|discriminate].
Qed.
Definition tells (ns : list notice) : Prop := forall n, In n ns -> exists f, n = Changed f /\ explicit f /\ bget f (before 0 0 0 0) <> 0.
Lemma before_all cfg ns : forall x y z i, tells ns -> may_be i ->
  exists x' y' z' i', deliver_all zs cfg ns (before x y z i) = (None, before x' y' z' i') /\ may_be i' /\ (ready x y z i \/ In (Changed Radius) ns -> ready x' y' z' i').
Proof.
  induction ns as [|n ns IH]; intros x y z i T M.
  - exists x, y, z, i. split; [reflexivity|]. split; [exact M|]. intros [H|[]]; exact H.
  - destruct (T n (or_introl eq_refl)) as (f & -> & F & B). destruct (before_step f x y z i F) as (x1 & y1 & z1 & i1 & E & M1 & P & Q); [destruct f; exact B|exact M|].
    destruct (IH x1 y1 z1 i1) as (x2 & y2 & z2 & i2 & E2 & M2 & P2); [intros m I; apply T; now right|exact M1|].
    exists x2, y2, z2, i2. cbn [deliver_all deliver]. rewrite E. cbn [bseq]. split; [exact E2|]. split; [exact M2|].
    intros [H|[H|H]]; apply P2; [left; auto| |now right]. left. apply Q. now injection H.
Qed.

Variables (rt rs ts rm rsc tvm tvs mm ms : R).
Hypotheses (Good : sensible rt rs ts rm rsc tvm tvs mm ms) (Hz : forall n, -3 <= zs n <= 3).
(** The values the person gets, and how many were drawn. *)
Definition n1 : nat := if Reqb gr 0 then 1 else 0.
Definition n2 : nat := if Reqb gv 0 then S n1 else n1.
Definition n3 : nat := if Reqb gm 0 then S n2 else n2.
Definition r' : R := if Reqb gr 0 then truncnorm3 zs 0 rm rsc else gr.
Definition v' : R := if Reqb gv 0 then truncnorm3 zs n1 tvm tvs else gv.
Definition m' : R := if Reqb gm 0 then truncnorm3 zs n2 mm ms else gm.
Definition i' : R := if Reqb gi 0 then inertia_of m' r' else gi.
Lemma reqb_cases g : 0 <= g -> (Reqb g 0 = true /\ g = 0) \/ (Reqb g 0 = false /\ 0 < g).
Proof. intros H. destruct (Reqb g 0) eqn:E; [left; split; auto; now apply Reqb_true|right; split; auto; apply Reqb_false in E; lra]. Qed.
Lemma r_pos : 0 < r'.
Proof. destruct Good as (_ & _ & _ & G & _). unfold r'. destruct (reqb_cases gr Hr) as [(-> & _)|(-> & Q)]; auto. pose proof (truncnorm3_range zs 0 rm rsc (Hz _)). lra. Qed.
Lemma v_pos : 0 < v'.
Proof. destruct Good as (_ & _ & _ & _ & G & _). unfold v'. destruct (reqb_cases gv Hv) as [(-> & _)|(-> & Q)]; auto. pose proof (truncnorm3_range zs n1 tvm tvs (Hz _)). lra. Qed.
Lemma m_pos : 0 < m'.
Proof. destruct Good as (_ & _ & _ & _ & _ & G). unfold m'. destruct (reqb_cases gm Hm) as [(-> & _)|(-> & Q)]; auto. pose proof (truncnorm3_range zs n2 mm ms (Hz _)). lra. Qed.
(** Afterwards. *)
Definition afterwards (x y z i : R) : bodyt := Body r' x y z m' i v' ga rt rs ts rm rsc tvm tvs mm ms name n3.
Definition right (x y z i : R) : Prop := x = rt * r' /\ y = rs * r' /\ z = ts * r' /\ i = i'.
Definition still (i : R) : Prop := i = i' \/ (i = 0 /\ gi = 0).
Lemma inertia_final_pos : 0 < i'.
Proof. unfold i'. destruct (reqb_cases gi Hi) as [(-> & _)|(-> & Q)]; auto. apply inertia_pos; [apply m_pos|apply r_pos]. Qed.
Lemma still_inertia i : still i -> (if Reqb i 0 && Rltb 0 m' && Rltb 0 r' then inertia_of m' r' else i) = i'.
Proof.
  intros [->|(-> & G)].
  - rewrite (proj2 (Reqb_false i' 0)); [reflexivity|]. pose proof inertia_final_pos. lra.
  - rewrite (proj2 (Reqb_true 0 0)), (proj2 (Rltb_true _ _) m_pos), (proj2 (Rltb_true _ _) r_pos) by reflexivity. cbn [andb]. unfold i'. now rewrite (proj2 (Reqb_true gi 0) G).
Qed.
Lemma after_step f x y z i : explicit f -> still i ->
  exists x' y' z' j, notify_trait zs f (afterwards x y z i) = (None, afterwards x' y' z' j) /\ still j /\
    (right x y z i -> right x' y' z' j) /\ (f = Radius -> right x' y' z' j).
Proof.
  intros Hf M. pose proof (still_inertia i M) as SI. destruct Good as (G1 & G2 & G3 & _). pose proof r_pos as RP. unfold afterwards in *. unfold explicit in Hf. cbn [In] in Hf.
  destruct Hf as [<-|[<-|[<-|[<-|[<-|[<-|[]]]]]]]; cbn [notify_trait observe_radius bget b_radius b_ratio_rt b_ratio_rs b_ratio_ts b_r_t b_r_s b_r_ts put_radii b_mass b_target_velocity].
  - rewrite (proj2 (Rltb_true 0 rt)), (proj2 (Rltb_true 0 rs)), (proj2 (Rltb_true 0 ts)) by lra. cbn [put_radii]. rewrite observe_inertia_if, SI. do 4 eexists. split; [reflexivity|].
    split; [now left|]. split; intros _; repeat split.
  - rewrite (proj2 (Rltb_true 0 r')) by exact RP. do 4 eexists. split; [reflexivity|]. split; [exact M|]. split; [|discriminate]. intros (A & B & C & D). repeat split; auto.
  - rewrite (proj2 (Rltb_true 0 r')) by exact RP. do 4 eexists. split; [reflexivity|]. split; [exact M|]. split; [|discriminate]. intros (A & B & C & D). repeat split; auto.
  - rewrite (proj2 (Rltb_true 0 r')) by exact RP. do 4 eexists. split; [reflexivity|]. split; [exact M|]. split; [|discriminate]. intros (A & B & C & D). repeat split; auto.
  - rewrite observe_inertia_if, SI. do 4 eexists. split; [reflexivity|]. split; [now left|]. split; [|discriminate]. intros (A & B & C & D). repeat split; auto.
  - do 4 eexists. split; [reflexivity|]. split; [exact M|]. split; [exact (fun H => H)|discriminate].
Qed.
Lemma after_all cfg ns : forall x y z i, tells ns -> still i -> right x y z i \/ In (Changed Radius) ns ->
  deliver_all zs cfg ns (afterwards x y z i) = (None, afterwards (rt * r') (rs * r') (ts * r') i').
Proof.
  induction ns as [|n ns IH]; intros x y z i T M D.
  - destruct D as [(-> & -> & -> & ->)|[]]. reflexivity.
  - destruct (T n (or_introl eq_refl)) as (f & -> & F & B). destruct (after_step f x y z i F M) as (x1 & y1 & z1 & i1 & E & M1 & P & Q).
    cbn [deliver_all deliver]. rewrite E. cbn [bseq]. apply IH; [intros m I; apply T; now right|exact M1|].
    destruct D as [D|[D|D]]; [left; auto|left; apply Q; now injection D|now right].
Qed.

(** The observers of the body type. *)
Lemma ratio_step (f : bfield) v x y z i m w d e s n p1 p2 p3 u t : (f, v) = (RatioRt, rt) \/ (f, v) = (RatioRs, rs) \/ (f, v) = (RatioTs, ts) ->
  let b := Body gr x y z m i w ga p1 p2 p3 d e s n u t name 0 in
  exists x' y' z', assign zs f v b = (None, bput f v (put_radii x' y' z' b)) /\
    (f = RatioRt -> y' = y /\ z' = z /\ (p1 = v -> x' = x) /\ (p1 <> v -> 0 < gr -> x' = v * gr)) /\
    (f = RatioRs -> x' = x /\ z' = z /\ (p2 = v -> y' = y) /\ (p2 <> v -> 0 < gr -> y' = v * gr)) /\
    (f = RatioTs -> x' = x /\ y' = y /\ (p3 = v -> z' = z) /\ (p3 <> v -> 0 < gr -> z' = v * gr)).
Proof.
  intros D b. destruct Good as (G1 & G2 & G3 & _).
  assert (B : bvalid f v = true) by (apply bvalid_range; destruct D as [D|[D|D]]; injection D as -> ->; unfold trait_range; cbn; split; intros; lra).
  unfold assign. rewrite B. destruct (Reqb v (bget f b)) eqn:E.
  - apply Reqb_true in E. exists x, y, z. split; [destruct D as [D|[D|D]]; injection D as -> ->; cbn in E; subst; reflexivity|].
    destruct D as [D|[D|D]]; injection D as -> ->; cbn in E; repeat split; try discriminate; intros; congruence.
  - apply Reqb_false in E. destruct D as [D|[D|D]]; injection D as -> ->; cbn in E |- *; (destruct (Rltb 0 gr) eqn:Q; [apply Rltb_true in Q|apply Rltb_false in Q]);
      do 3 eexists; (split; [reflexivity|]); repeat split; try discriminate; intros; try lra; try congruence.
Qed.
Lemma radius_steps x y z i items :
  assign_items zs ((RadiusMean, rm) :: (RadiusScale, rsc) :: items) (Body gr x y z gm i gv ga rt rs ts 0 0 0 0 0 0 name 0) =
  assign_items zs items (if Reqb gr 0 then Body r' (rt * r') (rs * r') (ts * r') gm (if Reqb i 0 && Rltb 0 gm then inertia_of gm r' else i) gv ga rt rs ts rm rsc 0 0 0 0 name n1
                         else Body gr x y z gm i gv ga rt rs ts rm rsc 0 0 0 0 name n1).
Proof.
  destruct Good as (G1 & G2 & G3 & G4 & _). pose proof r_pos as RP. unfold n1 in *. unfold r' in *.
  erewrite items_step; [|unfold assign, bvalid, observe_truncnorm; cbn -[truncnorm3 PI]; rdec; cbn -[truncnorm3 PI]; rewrite andb_false_r; reflexivity].
  destruct (reqb_cases gr Hr) as [(E & G)|(E & G)]; rewrite E in *.
  - erewrite items_step; [reflexivity|]. unfold assign, bvalid, observe_truncnorm, assign_drawn, bvalid, observe_radius. cbn -[truncnorm3 PI observe_inertia]. rewrite E.
    repeat (rdec; cbn -[truncnorm3 PI observe_inertia]). rewrite observe_inertia_if. rdec. now rewrite andb_true_r.
  - erewrite items_step; [reflexivity|]. unfold assign, bvalid, observe_truncnorm. cbn -[truncnorm3 PI]. rewrite E. rdec. reflexivity.
Qed.
Lemma velocity_steps r x y z i n items :
  assign_items zs ((TargetVelocityMean, tvm) :: (TargetVelocityScale, tvs) :: items) (Body r x y z gm i gv ga rt rs ts rm rsc 0 0 0 0 name n) =
  assign_items zs items (if Reqb gv 0 then Body r x y z gm i (truncnorm3 zs n tvm tvs) ga rt rs ts rm rsc tvm tvs 0 0 name (S n)
                         else Body r x y z gm i gv ga rt rs ts rm rsc tvm tvs 0 0 name n).
Proof.
  destruct Good as (G1 & G2 & G3 & G4 & G5 & _).
  erewrite items_step; [|unfold assign, bvalid, observe_truncnorm; cbn -[truncnorm3 PI]; rdec; cbn -[truncnorm3 PI]; rewrite andb_false_r; reflexivity].
  pose proof (truncnorm3_range zs n tvm tvs (Hz _) ltac:(lra)) as Q. set (v := truncnorm3 zs n tvm tvs) in *.
  destruct (reqb_cases gv Hv) as [(E & G)|(E & G)]; rewrite E.
  - erewrite items_step; [reflexivity|]. unfold assign, bvalid, observe_truncnorm, assign_drawn, bvalid. cbn -[truncnorm3 PI]. rewrite E. fold v.
    repeat (rdec; cbn -[truncnorm3 PI]; fold v). reflexivity.
  - erewrite items_step; [reflexivity|]. unfold assign, bvalid, observe_truncnorm. cbn -[truncnorm3 PI]. rewrite E. rdec. reflexivity.
Qed.
Lemma mass_steps r x y z i v n :
  assign_items zs [(MassMean, mm); (MassScale, ms)] (Body r x y z gm i v ga rt rs ts rm rsc tvm tvs 0 0 name n) =
  (None, if Reqb gm 0 then Body r x y z (truncnorm3 zs n mm ms) (if Reqb i 0 && Rltb 0 r then inertia_of (truncnorm3 zs n mm ms) r else i) v ga rt rs ts rm rsc tvm tvs mm ms name (S n)
         else Body r x y z gm i v ga rt rs ts rm rsc tvm tvs mm ms name n).
Proof.
  destruct Good as (G1 & G2 & G3 & G4 & G5 & G6).
  erewrite items_step; [|unfold assign, bvalid, observe_truncnorm; cbn -[truncnorm3 PI]; rdec; cbn -[truncnorm3 PI]; rewrite andb_false_r; reflexivity].
  pose proof (truncnorm3_range zs n mm ms (Hz _) ltac:(lra)) as Q. set (m := truncnorm3 zs n mm ms) in *.
  destruct (reqb_cases gm Hm) as [(E & G)|(E & G)]; rewrite E.
  - erewrite items_step; [reflexivity|]. unfold assign, bvalid, observe_truncnorm, assign_drawn, bvalid. cbn -[truncnorm3 PI observe_inertia]. rewrite E. fold m.
    repeat (rdec; cbn -[truncnorm3 PI observe_inertia]; fold m). rewrite observe_inertia_if. rdec. now rewrite andb_true_r.
  - erewrite items_step; [reflexivity|]. unfold assign, bvalid, observe_truncnorm. cbn -[truncnorm3 PI]. rewrite E. rdec. reflexivity.
Qed.
Lemma type_step x y z i : may_be i ->
  exists x' y' z' j, assign_items zs (cfg_section rt rs ts rm rsc tvm tvs mm ms) (before x y z i) = (None, afterwards x' y' z' j) /\ still j /\
    (gr = 0 \/ ready x y z i -> right x' y' z' j).
Proof.
  intros M. unfold cfg_section, before.
  destruct (ratio_step RatioRt rt x y z i gm gv 0 0 0 0 q1 q2 q3 0 0 (or_introl eq_refl)) as (x1 & y1 & z1 & E1 & (-> & -> & A1 & A1') & _). 1: reflexivity.
  rewrite (items_step _ _ _ _ _ _ E1). cbn [bput put_radii]. clear E1.
  destruct (ratio_step RatioRs rs x1 y z i gm gv 0 0 0 0 rt q2 q3 0 0 (or_intror (or_introl eq_refl))) as (x2 & y2 & z2 & E2 & _ & (-> & -> & A2 & A2') & _). 1: reflexivity.
  rewrite (items_step _ _ _ _ _ _ E2). cbn [bput put_radii]. clear E2.
  destruct (ratio_step RatioTs ts x1 y2 z i gm gv 0 0 0 0 rt rs q3 0 0 (or_intror (or_intror eq_refl))) as (x3 & y3 & z3 & E3 & _ & _ & (-> & -> & A3 & A3')). 1: reflexivity.
  rewrite (items_step _ _ _ _ _ _ E3). cbn [bput put_radii]. clear E3.
  rewrite radius_steps. pose proof r_pos as RP. pose proof m_pos as MP. destruct Good as (G1 & G2 & G3 & _).
  destruct (reqb_cases gr Hr) as [(E & G)|(E & G)]; rewrite E.
  - (* the radius is drawn *)
    assert (I : i = gi) by (destruct M as [M|(_ & _ & M & _)]; [exact M|lra]). subst i.
    rewrite velocity_steps. unfold afterwards, right, still, i', m', v', n3, n2 in *. clear A1 A1' A2 A2' A3 A3' M.
    destruct (reqb_cases gv Hv) as [(Ev & Gv)|(Ev & Gv)]; rewrite Ev, mass_steps;
      (destruct (reqb_cases gm Hm) as [(Em & Gm)|(Em & Gm)]; rewrite Em in *; (destruct (reqb_cases gi Hi) as [(Ei & Gi)|(Ei & Gi)]; rewrite Ei in *; cbn [andb];
        repeat rewrite (proj2 (Rltb_true 0 r')) by exact RP; try rewrite (proj2 (Rltb_true 0 gm)) by exact Gm; try rewrite (proj2 (Rltb_false 0 gm)) by lra; rewrite ?Ei; cbn [andb];
        do 4 eexists; (split; [reflexivity|]); (split; [left; reflexivity|]); intros _; repeat split)).
  - (* it was given *)
    assert (RR : r' = gr) by (unfold r'; now rewrite E). rewrite velocity_steps.
    assert (X : forall p v u u', 0 <= p -> (p = v -> u' = u) -> (p <> v -> 0 < gr -> u' = v * gr) -> 0 < v -> (0 < p -> u = p * gr) -> u' = v * r').
    { intros p v u u' P Q1 Q2 V U. rewrite RR. destruct (Req_dec p v) as [->|N]; [rewrite Q1 by reflexivity; auto|auto]. }
    assert (Y : gr = 0 \/ ready x y z i -> x1 = rt * r' /\ y2 = rs * r' /\ z3 = ts * r' /\ (gi = 0 -> 0 < gm -> i = inertia_of gm gr)).
    { intros [W|(_ & U1 & U2 & U3 & U4)]; [lra|]. split; [eapply (X q1); eauto; lra|]. split; [eapply (X q2); eauto; lra|]. split; [eapply (X q3); eauto; lra|exact U4]. }
    clear A1 A1' A2 A2' A3 A3' X. unfold afterwards, right, still, i', m', v', n3, n2 in *. rewrite RR in *. clear RR.
    destruct (reqb_cases gv Hv) as [(Ev & Gv)|(Ev & Gv)]; rewrite Ev, mass_steps;
      (destruct (reqb_cases gm Hm) as [(Em & Gm)|(Em & Gm)]; rewrite Em in *; (destruct (reqb_cases gi Hi) as [(Ei & Gi)|(Ei & Gi)]; rewrite Ei in *)).
    all: try (assert (I : i = gi) by (destruct M as [M|(_ & M & _ & _)]; [exact M|lra]); subst i; rewrite Ei).
    all: try rewrite (proj2 (Rltb_true 0 gr)) by exact G; cbn [andb].
    all: do 4 eexists; (split; [reflexivity|]).
    all: split; [|intros W; destruct (Y W) as (-> & -> & -> & U)]; try (left; reflexivity); try (repeat split; fail); try (now repeat split).
    all: try (destruct M as [->|(_ & _ & _ & ->)]; auto; fail).
    all: try (repeat split; auto; fail).
    all: destruct M as [->|(Q & _)]; [|lra]; repeat split; auto.
Qed.
Lemma told cfg ns x y z : NoDup ns -> In TypeChanged ns -> (forall f, In (Changed f) ns <-> explicit f /\ bget f (before 0 0 0 0) <> 0) ->
  cfg name = Some (cfg_section rt rs ts rm rsc tvm tvs mm ms) ->
  deliver_all zs cfg ns (before x y z gi) = (None, afterwards (rt * r') (rs * r') (ts * r') i').
Proof.
  intros ND I C K. apply in_split in I. destruct I as (l1 & l2 & ->).
  assert (T : forall n, In n (l1 ++ l2) -> exists f, n = Changed f /\ explicit f /\ bget f (before 0 0 0 0) <> 0).
  { intros n J. destruct n as [f|]; [|now apply NoDup_remove_2 in ND]. exists f. split; [reflexivity|]. apply C. rewrite in_app_iff in *. cbn. tauto. }
  assert (T1 : tells l1) by (intros n J; apply T, in_or_app; now left). assert (T2 : tells l2) by (intros n J; apply T, in_or_app; now right).
  assert (D : forall l b, deliver_all zs cfg (l1 ++ l) b = bseq (deliver_all zs cfg l1 b) (deliver_all zs cfg l)).
  { clear. induction l1 as [|n l1 IH]; intros l b; [reflexivity|]. cbn [app deliver_all]. destruct (deliver zs cfg n b) as [[e|] b1]; cbn [bseq]; [reflexivity|apply IH]. }
  rewrite D. destruct (before_all cfg l1 x y z gi T1 (or_introl eq_refl)) as (x1 & y1 & z1 & j1 & E1 & M1 & P1). rewrite E1. cbn [bseq deliver_all deliver].
  change (b_body_type (before x1 y1 z1 j1)) with name. rewrite K.
  destruct (type_step x1 y1 z1 j1 M1) as (x2 & y2 & z2 & j2 & E2 & M2 & P2). rewrite E2. cbn [bseq]. apply after_all; [exact T2|exact M2|].
  destruct (reqb_cases gr Hr) as [(_ & G)|(_ & G)]; [left; apply P2; now left|].
  assert (J : In (Changed Radius) (l1 ++ TypeChanged :: l2)). { apply C. split; [now left|]. cbn. lra. }
  apply in_app_iff in J. destruct J as [J|[J|J]]; [left; apply P2; right; apply P1; now right|discriminate J|now right].
Qed.
End Telling.
