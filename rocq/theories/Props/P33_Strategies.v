(** * Property C127: the data drawn by crowddynamics.testing *)
From Coq Require Import Lra Lia String.
From Flocq Require Import Core.
From Verif Require Import Model.Base Model.Vector2D Model.Sampling Model.AgentObject Model.Strategies.
From Verif Require Import Proofs.VecLemmas Proofs.StrategyProofs Proofs.AgentObjectProofs.
Import StringSyntax.
Open Scope R_scope.

(** C127: a number drawn is one that was asked for: between the bounds, and not one of the
    zeros left out. [floats] is any source of floats that keeps to the bounds. *)
Theorem C127_reals_partial : forall floats lo hi exclude t g n x n', draws_between floats ->
  reals floats lo hi exclude t = Ok g -> g n = Ok (x, n') -> asked lo hi exclude x.
Proof. intros floats lo hi exclude t g n x n' F. now apply elements_asked. Qed.
Print Assumptions C127_reals_partial.
(** And every number asked for can be drawn: it is handed out when hypothesis offers it. *)
Theorem C127_nothing_missing : forall floats lo hi exclude t n, ordered lo hi -> t <> NotFloat ->
  asked lo hi exclude (floats lo hi n) ->
  exists g, reals floats lo hi exclude t = Ok g /\ g n = Ok (floats lo hi n, S n).
Proof. exact elements_any. Qed.
Print Assumptions C127_nothing_missing.

(** An array of doubles has as many entries as the shape, all of them asked for. *)
Theorem C127_array : forall floats lo hi exclude k g n l n', draws_between floats ->
  reals_array floats lo hi exclude Wide k = Ok g -> g n = Ok (l, n') ->
  exists xs, l = map Some xs /\ List.length xs = k /\ Forall (asked lo hi exclude) xs.
Proof.
  intros floats lo hi exclude k g n l n' F E D. unfold reals_array in E.
  destruct (elements floats lo hi exclude Wide) as [e|] eqn:Q; [|discriminate]. cbn in E. injection E as <-.
  apply array_spec in D as (xs & -> & L & A). exists xs. split; [reflexivity|]. split; [exact L|].
  eapply Forall_impl; [|exact A]. intros x (m & m' & H). eapply elements_asked; eauto.
Qed.
Print Assumptions C127_array.

(** Numbers as hypothesis would give them, as near to [x] as the bounds allow. *)
Definition always (x : R) (lo hi : option R) (n : nat) : R :=
  let y := match hi with Some b => Rmin x b | None => x end in
  match lo with Some a => Rmax a y | None => y end.
Lemma always_between : forall x, draws_between (always x).
Proof.
  intros x lo hi n O. unfold always. split.
  - intros a ->. apply Rmax_l.
  - intros b ->. destruct lo as [a|]; [|apply Rmin_r]. apply Rmax_lub; [now apply O|apply Rmin_r].
Qed.
Lemma always_is : forall x lo hi n, in_bounds lo hi x -> always x lo hi n = x.
Proof.
  intros x lo hi n [A B]. unfold always. destruct hi as [b|]; [rewrite Rmin_left by now apply B|];
    (destruct lo as [a|]; [now apply Rmax_right, A|reflexivity]).
Qed.
Lemma draw_one : forall x lo hi exclude t, ordered lo hi -> t <> NotFloat -> asked lo hi exclude x ->
  exists g, reals_array (always x) lo hi exclude t 1 = Ok g /\ g 0%nat = Ok ([cast t x], 1%nat).
Proof.
  intros x lo hi exclude t O T A. assert (E : always x lo hi 0 = x) by (apply always_is, A).
  destruct (elements_any (always x) lo hi exclude t 0 O T) as (g & G & D); [now rewrite E|].
  unfold reals_array. rewrite G. cbn [rbind]. eexists. split; [reflexivity|]. cbn. rewrite D. cbn. now rewrite E.
Qed.

Lemma half_zero : cast half (bpow radix2 (-26)) = Some 0.
Proof.
  unfold cast, half. cbv zeta. rewrite (round_N_small radix2 (FLT_exp (-24) 11) _ _ (-25)).
  - rewrite Rabs_R0. replace (Rltb 0 (bpow radix2 16)) with true; [reflexivity|]. symmetry. apply Rltb_true. apply bpow_gt_0.
  - rewrite Rabs_pos_eq by apply bpow_ge_0. split; [apply Rle_refl|apply bpow_lt; reflexivity].
  - reflexivity.
Qed.
Lemma half_infinite : cast half (bpow radix2 16) = None.
Proof.
  unfold cast, half. cbv zeta. rewrite round_generic; [|typeclasses eauto|].
  - rewrite Rabs_pos_eq by apply bpow_ge_0. replace (Rltb (bpow radix2 16) (bpow radix2 16)) with false; [reflexivity|].
    symmetry. apply Rltb_false. lra.
  - apply generic_format_bpow. cbn. lia.
Qed.
Lemma half_2048 : cast half (2048 + 1 / 2) = Some 2048.
Proof.
  assert (M : mag radix2 (2048 + 1 / 2) = 12%Z :> Z).
  { apply mag_unique. rewrite Rabs_pos_eq by lra. change (bpow radix2 (12 - 1)) with 2048. change (bpow radix2 12) with 4096. lra. }
  assert (Q : round radix2 (FLT_exp (-24) 11) ZnearestE (2048 + 1 / 2) = 2048).
  { unfold round, scaled_mantissa, cexp. rewrite M. replace (FLT_exp (-24) 11 12) with 1%Z by reflexivity.
    rewrite (Znearest_imp _ _ 1024).
    - unfold F2R. cbn. lra.
    - cbn. apply Rabs_def1; lra. }
  unfold cast, half. cbv zeta. rewrite Q. replace (Rltb (Rabs 2048) (bpow radix2 16)) with true; [reflexivity|].
  symmetry. apply Rltb_true. rewrite Rabs_pos_eq by lra. change (bpow radix2 16) with 65536. lra.
Qed.

(** Narrower arrays break all three promises: the entries are rounded after the draw. With
    float16 an entry can be zero though zeros are left out, infinite, and below the bound. *)
Theorem C127_narrow_refuted :
  (exists floats g n', draws_between floats /\ reals_array floats None None (Some "near"%string) half 1 = Ok g /\ g 0%nat = Ok ([Some 0], n')) /\
  (exists floats g n', draws_between floats /\ reals_array floats None None None half 1 = Ok g /\ g 0%nat = Ok ([None], n')) /\
  (exists floats g n', draws_between floats /\ reals_array floats (Some (2048 + 1 / 2)) None None half 1 = Ok g /\ g 0%nat = Ok ([Some 2048], n')).
Proof.
  split; [|split].
  - exists (always (bpow radix2 (-26))). destruct (draw_one (bpow radix2 (-26)) None None (Some "near"%string) half) as (g & G & D);
      [intros a b Q; discriminate Q|discriminate| |exists g, 1%nat; rewrite D, half_zero; auto using always_between].
    split; [split; intros ? Q; discriminate Q|]. intros [[Q _] | [_ Q]]; [discriminate|]. rewrite Rabs_pos_eq in Q by apply bpow_ge_0.
    cbn in Q. lra.
  - exists (always (bpow radix2 16)). destruct (draw_one (bpow radix2 16) None None None half) as (g & G & D);
      [intros a b Q; discriminate Q|discriminate| |exists g, 1%nat; rewrite D, half_infinite; auto using always_between].
    split; [split; intros ? Q; discriminate Q|]. apply left_out_none.
  - exists (always (2048 + 1 / 2)). destruct (draw_one (2048 + 1 / 2) (Some (2048 + 1 / 2)) None None half) as (g & G & D);
      [intros a b _ Q; discriminate Q|discriminate| |exists g, 1%nat; rewrite D, half_2048; auto using always_between].
    split; [split; [intros a [= <-]; lra|intros ? Q; discriminate Q]|]. apply left_out_none.
Qed.
Print Assumptions C127_narrow_refuted.

(** A choice that is misspelt is taken for none: zeros come through. *)
Theorem C127_misspelt_refuted : forall s, s <> "exact"%string -> s <> "near"%string ->
  exists floats g n', draws_between floats /\ reals floats None None (Some s) Wide = Ok g /\ g 0%nat = Ok (0, n').
Proof.
  intros s N1 N2. exists (always 0).
  destruct (elements_any (always 0) None None (Some s) Wide 0) as (g & G & D); [intros a b Q; discriminate Q|discriminate| |].
  - rewrite always_is by (split; intros ? Q; discriminate Q). split; [split; intros ? Q; discriminate Q|]. intros [[Q _] | [Q _]]; congruence.
  - exists g, 1%nat. split; [apply always_between|]. split; [exact G|]. rewrite D. now rewrite always_is by (split; intros ? Q; discriminate Q).
Qed.
Print Assumptions C127_misspelt_refuted.

(** Bounds that leave no room, a single number included, and types other than floats are
    refused. *)
Theorem C127_refused : forall floats lo hi exclude t,
  reals floats lo hi exclude t = Err AssertionError <-> t = NotFloat \/ ~ ordered lo hi.
Proof.
  intros floats lo hi exclude t. unfold reals, elements. split.
  - intros H. destruct t; auto; right; intros O;
      (destruct (match lo, hi with Some a, Some b => Rleb b a | _, _ => false end) eqn:B;
       [destruct lo as [a|], hi as [b|]; try discriminate; apply Rleb_true in B; specialize (O a b eq_refl eq_refl); lra
       |destruct exclude as [s|]; [destruct (String.eqb s "exact"); [|destruct (String.eqb s "near")]|]; discriminate]).
  - intros [-> | H]; [reflexivity|].
    assert (B : match lo, hi with Some a, Some b => Rleb b a | _, _ => false end = true).
    { destruct lo as [a|], hi as [b|]; try (exfalso; apply H; intros a' b'; discriminate).
      apply Rleb_true. apply Rnot_lt_le. intros L. apply H. intros a' b' [= <-] [= <-]. exact L. }
    rewrite B. destruct t; reflexivity.
Qed.
Print Assumptions C127_refused.
(** Bounds that hold only numbers left out give no example at all: three draws, then the
    example is discarded. *)
Theorem C127_nothing_left : forall floats lo hi exclude t g n, draws_between floats ->
  reals floats lo hi exclude t = Ok g -> (forall x, in_bounds lo hi x -> left_out exclude x) ->
  g n = Err (OtherError 1).
Proof.
  intros floats lo hi exclude t g n F E A. destruct (g n) as [[x n']|e] eqn:D.
  - apply (elements_asked _ F _ _ _ _ _ _ _ _ E) in D as [B N]. contradiction (N (A x B)).
  - f_equal.
    assert (O : t <> NotFloat /\ ordered lo hi).
    { split; [intros ->; discriminate E|]. apply Classical_Prop.NNPP. intros O.
      assert (Q : reals floats lo hi exclude t = Err AssertionError) by (apply C127_refused; auto). congruence. }
    destruct O as [T O].
    assert (FL : forall m, exists x, float floats lo hi m = Ok (x, S m)).
    { intros m. unfold float. destruct lo as [a|], hi as [b|]; eauto.
      specialize (O a b eq_refl eq_refl). replace (Rltb b a) with false; [eauto|]. symmetry. apply Rltb_false. lra. }
    assert (TR : forall keep k m e, tries k keep (float floats lo hi) m = Err e -> e = OtherError 1).
    { intros keep k. induction k as [|k IH]; intros m e' H; cbn in H; [congruence|].
      destruct (FL m) as [x X]. rewrite X in H. cbn in H. destruct (keep x); [discriminate|]. eauto. }
    unfold reals, elements in E.
    destruct (match lo, hi with Some a, Some b => Rleb b a | _, _ => false end); [destruct t; discriminate|].
    destruct exclude as [s|].
    + destruct (String.eqb s "exact"); [|destruct (String.eqb s "near")];
        destruct t; try congruence; injection E as <-; try (eapply TR; exact D); destruct (FL n) as [x X]; congruence.
    + destruct t; try congruence; injection E as <-; destruct (FL n) as [x X]; congruence.
Qed.
Print Assumptions C127_nothing_left.
(** The first of three draws that is not to be left out is taken. *)
Theorem C127_three_draws : forall floats lo hi exclude t g n k, ordered lo hi -> reals floats lo hi exclude t = Ok g -> (k < 3)%nat ->
  (forall j, (j < k)%nat -> left_out exclude (floats lo hi (n + j)%nat)) -> ~ left_out exclude (floats lo hi (n + k)%nat) ->
  g n = Ok (floats lo hi (n + k)%nat, S (n + k)).
Proof.
  intros floats lo hi exclude t g n k O E K A N.
  assert (FL : forall m, float floats lo hi m = Ok (floats lo hi m, S m)).
  { intros m. unfold float. destruct lo as [a|], hi as [b|]; try reflexivity. specialize (O a b eq_refl eq_refl).
    replace (Rltb b a) with false; [reflexivity|]. symmetry. apply Rltb_false. lra. }
  assert (TR : forall keep, (forall x, keep x = true <-> ~ left_out exclude x) -> forall c k m, (k < c)%nat ->
    (forall j, (j < k)%nat -> left_out exclude (floats lo hi (m + j)%nat)) -> ~ left_out exclude (floats lo hi (m + k)%nat) ->
    tries c keep (float floats lo hi) m = Ok (floats lo hi (m + k)%nat, S (m + k))).
  { intros keep KP c. induction c as [|c IH]; intros k' m L A' N'; [lia|]. cbn [tries]. rewrite FL. cbn [rbind]. destruct k' as [|k'].
    - rewrite Nat.add_0_r in *. now rewrite (proj2 (KP _) N').
    - destruct (keep (floats lo hi m)) eqn:D.
      + apply KP in D. destruct D. specialize (A' 0%nat). rewrite Nat.add_0_r in A'. apply A'. lia.
      + replace (m + S k')%nat with (S m + k')%nat in * by lia. apply IH; auto; [lia|]. intros j Hj. replace (S m + j)%nat with (m + S j)%nat by lia. apply A'. lia. }
  assert (FREE : (forall x, ~ left_out exclude x) -> k = 0%nat).
  { intros F. destruct k as [|k]; auto. destruct (F (floats lo hi (n + 0)%nat)). apply A. lia. }
  unfold reals, elements in E. destruct (match lo, hi with Some a, Some b => Rleb b a | _, _ => false end); [destruct t; discriminate|].
  assert (PLAIN : (forall x, ~ left_out exclude x) -> float floats lo hi n = Ok (floats lo hi (n + k)%nat, S (n + k))).
  { intros F. rewrite (FREE F), Nat.add_0_r. apply FL. }
  destruct exclude as [s|].
  - destruct (String.eqb_spec s "exact") as [->|N1]; [|destruct (String.eqb_spec s "near") as [->|N2]].
    + assert (G : filtered (float floats lo hi) (fun x => negb (Reqb x 0)) n = Ok (floats lo hi (n + k)%nat, S (n + k))).
      { unfold filtered. apply TR; auto. intros x. rewrite Bool.negb_true_iff, Reqb_false. unfold left_out. split; [intros D [[_ H]|[H _]]; [auto|discriminate]|intros D H; apply D; auto]. }
      destruct t; try discriminate; now injection E as <-.
    + assert (G : filtered (float floats lo hi) (fun x => negb (isclose x 0)) n = Ok (floats lo hi (n + k)%nat, S (n + k))).
      { unfold filtered. apply TR; auto. intros x. rewrite Bool.negb_true_iff, <- Bool.not_true_iff_false, isclose_zero. unfold left_out.
        split; [intros D [[H _]|[_ H]]; [discriminate|auto]|intros D H; apply D; auto]. }
      destruct t; try discriminate; now injection E as <-.
    + assert (F : forall x, ~ left_out (Some s) x) by (intros x [[[= ->] _]|[[= ->] _]]; auto). destruct t; try discriminate; injection E as <-; now apply PLAIN.
  - assert (F : forall x, ~ left_out None x) by (intros x [[[=] _]|[[=] _]]). destruct t; try discriminate; injection E as <-; now apply PLAIN.
Qed.
Print Assumptions C127_three_draws.

(** After three draws that are to be left out the example is discarded. *)
Theorem C127_gives_up : forall floats lo hi exclude t g n, ordered lo hi -> reals floats lo hi exclude t = Ok g ->
  (forall j, (j < 3)%nat -> left_out exclude (floats lo hi (n + j)%nat)) -> g n = Err (OtherError 1).
Proof.
  intros floats lo hi exclude t g n O E A.
  assert (FL : forall m, float floats lo hi m = Ok (floats lo hi m, S m)).
  { intros m. unfold float. destruct lo as [a|], hi as [b|]; try reflexivity. specialize (O a b eq_refl eq_refl).
    replace (Rltb b a) with false; [reflexivity|]. symmetry. apply Rltb_false. lra. }
  assert (TR : forall keep, (forall x, left_out exclude x -> keep x = false) -> filtered (float floats lo hi) keep n = Err (OtherError 1)).
  { intros keep K. unfold filtered. pose proof (K _ (A 0%nat ltac:(lia))) as K0. pose proof (K _ (A 1%nat ltac:(lia))) as K1. pose proof (K _ (A 2%nat ltac:(lia))) as K2.
    replace (n + 0)%nat with n in K0 by lia. replace (n + 1)%nat with (S n) in K1 by lia. replace (n + 2)%nat with (S (S n)) in K2 by lia.
    cbn [tries]. rewrite FL. cbn [rbind]. rewrite K0, FL. cbn [rbind]. rewrite K1, FL. cbn [rbind]. rewrite K2. reflexivity. }
  pose proof (A 0%nat ltac:(lia)) as A0.
  unfold reals, elements in E. destruct (match lo, hi with Some a, Some b => Rleb b a | _, _ => false end); [destruct t; discriminate|].
  destruct exclude as [s|]; [|destruct A0 as [[[=] _]|[[=] _]]].
  destruct (String.eqb_spec s "exact") as [->|N1]; [|destruct (String.eqb_spec s "near") as [->|N2]].
  - assert (G := TR (fun x => negb (Reqb x 0))). destruct t; try discriminate; injection E as <-; apply G; intros x [[_ ->]|[[=] _]]; now rewrite (proj2 (Reqb_true 0 0) eq_refl).
  - assert (G := TR (fun x => negb (isclose x 0))). destruct t; try discriminate; injection E as <-; apply G; intros x [[[=] _]|[_ H]]; apply isclose_zero in H; now rewrite H.
  - destruct A0 as [[[=] _]|[[=] _]]; contradiction.
Qed.
Print Assumptions C127_gives_up.

(** What a narrow array keeps of the number drawn: [y] is stored where [x] was drawn. *)
Definition stored (t : ftype) (x : R) (y : option R) : Prop :=
  exists g n', reals_array (always x) None None None t 1 = Ok g /\ g 0%nat = Ok ([y], n').
Lemma stored_cast t x y : t <> NotFloat -> cast t x = y -> stored t x y.
Proof.
  intros T <-. destruct (draw_one x None None None t) as (g & G & D); [intros a b Q; discriminate Q|exact T| |exists g, 1%nat; auto].
  split; [split; intros ? Q; discriminate Q|]. apply left_out_none.
Qed.
Lemma cast_exact emin prec emax x : FLX.Prec_gt_0 prec -> generic_format radix2 (FLT_exp emin prec) x -> Rabs x < bpow radix2 emax -> cast (Narrow emin prec emax) x = Some x.
Proof. intros P G L. unfold cast. cbv zeta. rewrite round_generic; [|typeclasses eauto|exact G]. now rewrite (proj2 (Rltb_true _ _) L). Qed.
(** float32: whole numbers up to 2^24 are kept, and so are 2^-149 and 2^127; behind 2^24 and
    before 2^-149 there is nothing, and from 2^128 on there is infinity only.  float16: likewise
    with 2^11, 2^-24 and 2^16. *)
Theorem C127_narrow_types : forall t digits least top, (t = single /\ digits = 24%Z /\ least = (-149)%Z /\ top = 128%Z) \/ (t = half /\ digits = 11%Z /\ least = (-24)%Z /\ top = 16%Z) ->
  (forall m : Z, Rabs (IZR m) <= bpow radix2 digits -> stored t (IZR m) (Some (IZR m))) /\
  stored t (bpow radix2 digits + 3/4) (Some (bpow radix2 digits)) /\
  stored t (bpow radix2 least) (Some (bpow radix2 least)) /\ stored t (5/8 * bpow radix2 least) (Some (bpow radix2 least)) /\
  stored t (bpow radix2 (top - 1)) (Some (bpow radix2 (top - 1))) /\ stored t (bpow radix2 top) None.
Proof.
  assert (W : forall emin prec emax, (1 < prec)%Z -> (emin <= 0)%Z -> (prec < emax)%Z -> let t := Narrow emin prec emax in
    (forall m : Z, Rabs (IZR m) <= bpow radix2 prec -> stored t (IZR m) (Some (IZR m))) /\
    stored t (bpow radix2 prec + 3/4) (Some (bpow radix2 prec)) /\
    stored t (bpow radix2 emin) (Some (bpow radix2 emin)) /\ stored t (5/8 * bpow radix2 emin) (Some (bpow radix2 emin)) /\
    stored t (bpow radix2 (emax - 1)) (Some (bpow radix2 (emax - 1))) /\ stored t (bpow radix2 emax) None).
  { intros emin prec emax P Em Ex t. assert (PP : FLX.Prec_gt_0 prec) by (red; lia).
    assert (Q : forall e, (emin <= e < emax)%Z -> stored t (bpow radix2 e) (Some (bpow radix2 e))).
    { intros e He. apply stored_cast; [discriminate|]. apply cast_exact; [exact PP| |rewrite Rabs_pos_eq by apply bpow_ge_0; apply bpow_lt; lia]. apply generic_format_bpow. unfold FLT_exp. lia. }
    repeat match goal with |- _ /\ _ => split end.
    - intros m Hm. destruct (Req_dec (Rabs (IZR m)) (bpow radix2 prec)) as [Eq|Ne].
      + apply stored_cast; [discriminate|]. apply cast_exact; [exact PP| |rewrite Eq; apply bpow_lt; lia]. apply generic_format_abs_inv. rewrite Eq. apply generic_format_bpow. unfold FLT_exp. lia.
      + apply stored_cast; [discriminate|]. apply cast_exact; [exact PP| |apply Rle_lt_trans with (1 := Hm); apply bpow_lt; lia].
        apply generic_format_FLT. exists (Float radix2 m 0); [unfold F2R; cbn; lra| |cbn; lia]. cbn [Fnum]. apply lt_IZR. rewrite abs_IZR, IZR_Zpower by lia. lra.
    - apply stored_cast; [discriminate|]. unfold cast, t. cbv zeta. pose proof (bpow_gt_0 radix2 prec) as B0. assert (B2 : 2 <= bpow radix2 prec) by (change 2 with (bpow radix2 1); apply bpow_le; lia).
      assert (M : mag radix2 (bpow radix2 prec + 3/4) = (prec + 1)%Z :> Z).
      { apply mag_unique. rewrite Rabs_pos_eq by lra. replace (prec + 1 - 1)%Z with prec by lia. rewrite bpow_plus_1. cbn [radix_val radix2]. lra. }
      assert (R : round radix2 (FLT_exp emin prec) ZnearestE (bpow radix2 prec + 3/4) = bpow radix2 prec).
      { unfold round, scaled_mantissa, cexp. rewrite M. replace (FLT_exp emin prec (prec + 1)) with 1%Z by (unfold FLT_exp; lia).
        rewrite (Znearest_imp _ _ (2 ^ (prec - 1))).
        - unfold F2R. cbn [Fnum Fexp]. change (2 ^ (prec - 1))%Z with (Zpower radix2 (prec - 1)). rewrite IZR_Zpower by lia. rewrite <- bpow_plus. f_equal. lia.
        - change (2 ^ (prec - 1))%Z with (Zpower radix2 (prec - 1)). rewrite IZR_Zpower by lia.
          replace (bpow radix2 prec) with (bpow radix2 (prec - 1) * 2) by (change 2 with (bpow radix2 1); rewrite <- bpow_plus; f_equal; lia). replace (bpow radix2 (- (1))) with (/2) by reflexivity. 
          replace ((bpow radix2 (prec - 1) * 2 + 3/4) * / 2 - bpow radix2 (prec - 1)) with (3/8) by field. rewrite Rabs_pos_eq; lra. }
      rewrite R, Rabs_pos_eq by lra. rewrite (proj2 (Rltb_true _ _)); [reflexivity|apply bpow_lt; lia].
    - apply Q. lia.
    - apply stored_cast; [discriminate|]. unfold cast, t. cbv zeta. pose proof (bpow_gt_0 radix2 emin) as B0.
      assert (M : mag radix2 (5/8 * bpow radix2 emin) = emin :> Z).
      { apply mag_unique. rewrite Rabs_pos_eq by lra. replace (bpow radix2 emin) with (bpow radix2 (emin - 1) * 2) in * by (change 2 with (bpow radix2 1); rewrite <- bpow_plus; f_equal; lia). lra. }
      assert (R : round radix2 (FLT_exp emin prec) ZnearestE (5/8 * bpow radix2 emin) = bpow radix2 emin).
      { unfold round, scaled_mantissa, cexp. rewrite M. replace (FLT_exp emin prec emin) with emin by (unfold FLT_exp; lia).
        rewrite (Znearest_imp _ _ 1); [unfold F2R; cbn [Fnum Fexp]; lra|]. rewrite Rmult_assoc, <- bpow_plus. replace (emin + - emin)%Z with 0%Z by lia. cbn [bpow]. apply Rabs_def1; lra. }
      rewrite R, Rabs_pos_eq by lra. rewrite (proj2 (Rltb_true _ _)); [reflexivity|apply bpow_lt; lia].
    - apply Q. lia.
    - apply stored_cast; [discriminate|]. unfold cast, t. cbv zeta. rewrite round_generic; [|typeclasses eauto|apply generic_format_bpow; unfold FLT_exp; lia].
      rewrite Rabs_pos_eq by apply bpow_ge_0. rewrite (proj2 (Rltb_false _ _)); [reflexivity|lra]. }
  intros t digits least top [(-> & -> & -> & ->)|(-> & -> & -> & ->)]; apply W; lia.
Qed.
Print Assumptions C127_narrow_types.

(** Unit vectors have length one and an angle between the two given. *)
Theorem C127_unit_vectors : forall floats lo hi n v n', draws_between floats -> unit_vectors floats lo hi n = Ok (v, n') ->
  edist (V 0 0) v = 1 /\ exists phi, lo <= phi <= hi /\ v = V (cos phi) (sin phi).
Proof.
  intros floats lo hi n v n' F H. unfold unit_vectors in H.
  destruct (float floats (Some lo) (Some hi) n) as [[phi m]|] eqn:D; [|discriminate]. cbn in H. injection H as <- <-.
  apply (float_between _ F) in D as [[A B] _]. split; [|exists phi; auto].
  apply edist_eq; [lra|]. cbn. pose proof (sin2_cos2 phi) as Q. unfold Rsqr in Q. nra.
Qed.
Print Assumptions C127_unit_vectors.
(** Angles in the wrong order are refused by hypothesis. *)
Theorem C127_unit_vectors_refused : forall floats lo hi n, unit_vectors floats lo hi n = Err (OtherError 2) <-> hi < lo.
Proof.
  intros floats lo hi n. unfold unit_vectors, float. split.
  - destruct (Rltb hi lo) eqn:B; [intros _; now apply Rltb_true|discriminate].
  - intros H. now rewrite (proj2 (Rltb_true _ _) H).
Qed.
Print Assumptions C127_unit_vectors_refused.

(** Points and lines: coordinates asked for; a line has as many points as asked, at least
    two, and a closed one ends with its first point once more. *)
Theorem C127_points : forall floats lo hi exclude n p n', draws_between floats ->
  points floats lo hi exclude n = Ok (p, n') -> asked_point lo hi exclude p.
Proof. intros floats lo hi exclude n p n' F. now apply points_spec. Qed.
Print Assumptions C127_points.
Theorem C127_linestrings : forall floats lo hi exclude k closed n l n', draws_between floats ->
  linestrings floats lo hi exclude k closed n = Ok (l, n') ->
  (2 <= k)%nat /\ exists ps p, List.length ps = k /\ nth_error ps 0 = Some p /\ Forall (asked_point lo hi exclude) ps /\
    l = if closed then ps ++ [p] else ps.
Proof. intros floats lo hi exclude k closed n l n' F. now apply linestring_spec. Qed.
Print Assumptions C127_linestrings.
Theorem C127_few_points : forall floats delaunay lo hi exclude k closed holes size us n,
  ((k < 2)%nat -> linestrings floats lo hi exclude k closed n = Err AssertionError) /\
  ((k < 3)%nat -> polygons floats delaunay lo hi exclude k holes size us n = Err AssertionError).
Proof.
  intros. unfold linestrings, polygons. split; intros K.
  - replace (2 <=? k)%nat with false; [reflexivity|]. symmetry. now apply Nat.leb_gt.
  - replace (3 <=? k)%nat with false; [reflexivity|]. symmetry. now apply Nat.leb_gt.
Qed.
Print Assumptions C127_few_points.

(** Polygons: as many corners as asked; there is a hole when one is asked for and the
    corners can be triangulated, and its points are in the convex hull of the corners. *)
Theorem C127_polygons_partial : forall floats delaunay lo hi exclude k holes size us n shell hole n', draws_between floats ->
  (forall vs mesh, delaunay vs = Some mesh -> triangulation vs mesh) ->
  (forall i, let '(x, r1, r2) := us i in 0 <= x < 1 /\ 0 <= r1 <= 1 /\ 0 <= r2 <= 1) ->
  polygons floats delaunay lo hi exclude k holes size us n = Ok ((shell, hole), n') ->
  (3 <= k)%nat /\ List.length shell = k /\ Forall (asked_point lo hi exclude) shell /\
  (hole <> None <-> holes = true /\ delaunay shell <> None) /\
  (forall h, hole = Some h -> List.length h = size /\ Forall (in_hull shell) h).
Proof. intros. eapply polygon_spec; eauto. Qed.
Print Assumptions C127_polygons_partial.

(** The corners of an arrow head, drawn one after the other. *)
Definition arrow_coords : list R := [-2; 2; 0; 0; 2; 2; 0; 1].
Definition arrow : list vec := [V (-2) 2; V 0 0; V 2 2; V 0 1].
Definition arrow_mesh : list (nat * nat * nat) := [(3, 0, 2); (0, 1, 3); (1, 2, 3)]%nat.
Definition arrow_floats (lo hi : option R) (n : nat) : R := always (nth n arrow_coords 0) lo hi n.
Lemma arrow_floats_between : draws_between arrow_floats.
Proof. intros lo hi n O. now apply always_between. Qed.
Definition arrow_delaunay (vs : list vec) : option (list (nat * nat * nat)) :=
  match vs with [_; _; _; _] => Some arrow_mesh | _ => None end.
Lemma arrow_triangulation : forall vs mesh, arrow_delaunay vs = Some mesh -> triangulation vs mesh.
Proof.
  intros vs mesh H. destruct vs as [|? [|? [|? [|? [|? ?]]]]]; try discriminate. injection H as <-.
  split; [discriminate|]. intros i j k [E | [E | [E | []]]]; injection E as <- <- <-; cbn; lia.
Qed.
Lemma arrow_outside : outside arrow (V 0 (3/2)).
Proof.
  exists (V 0 1). split; [intros Q; injection Q; lra|]. intros t T (i & a & b & A & B & s & S' & E). cbn [vx vy] in E.
  destruct i as [|[|[|[|i]]]]; cbn in A, B; [| | | |destruct i; discriminate]; injection A as <-; injection B as <-;
    unfold along in E; cbn in E; injection E as E1 E2; nra.
Qed.

(** But not always in the polygon: the triangles fill the convex hull of the corners. The
    polygon drawn here, an arrow head, has a hole outside of it. *)
Theorem C127_hole_outside_refuted :
  exists floats delaunay us n shell hole n', draws_between floats /\
    (forall vs mesh, delaunay vs = Some mesh -> triangulation vs mesh) /\
    (forall i, let '(x, r1, r2) := us i in 0 <= x < 1 /\ 0 <= r1 <= 1 /\ 0 <= r2 <= 1) /\
    polygons floats delaunay None None None 4 true 3 us n = Ok ((shell, Some hole), n') /\
    Forall (outside shell) hole.
Proof.
  exists arrow_floats, arrow_delaunay, (fun _ => (0, 1/4, 1/2)), 0%nat, arrow, [V 0 (3/2); V 0 (3/2); V 0 (3/2)], 8%nat.
  split; [exact arrow_floats_between|]. split; [exact arrow_triangulation|]. split; [intros _; lra|]. split.
  - assert (P : polygon_sample arrow arrow_mesh 0 (1/4) (1/2) = Ok (V 0 (3/2))).
    { unfold polygon_sample. cbn [mesh_of arrow_mesh arrow nth_error rbind].
      assert (PT : forall a b c m, pick_triangle ((a, b, c) :: m) 0 = Ok (a, b, c) ->
        (do t <- pick_triangle ((a, b, c) :: m) 0; let '(a, b, c) := t in Ok (random_sample_triangle (1/4) (1/2) a b c)) =
        Ok (random_sample_triangle (1/4) (1/2) a b c)) by (intros a b c m ->; reflexivity).
      rewrite PT; clear PT.
      - f_equal. unfold random_sample_triangle. replace (sqrt (1/4)) with (1/2).
        + unfold vadd, vscale. cbn. f_equal; lra.
        + symmetry. apply sqrt_lem_1; lra.
      - unfold pick_triangle, triangle_area_cumsum. cbn [area_cumsum rev app].
        unfold searchsorted. cbn [normalized map List.length binsearch].
        match goal with |- context [Reqb ?x 0] => destruct (Reqb x 0) end; cbn; [reflexivity|].
        assert (R1 : Rabs (0 + -2 * (2 - 1) + 2 * (1 - 2) + 0 * (2 - 2)) = 4) by (rewrite Rabs_left; lra).
        assert (R2 : Rabs (0 + 0 * (1 - 2) + 0 * (2 - 0) + -2 * (0 - 1)) = 2) by (rewrite Rabs_right; lra).
        assert (R3 : Rabs (0 + 2 * (1 - 0) + 0 * (0 - 2) + 0 * (2 - 1)) = 2) by (rewrite Rabs_right; lra).
        rewrite R1, R2, R3.
        repeat match goal with |- context [Rltb ?x 0] => replace (Rltb x 0) with false by (symmetry; apply Rltb_false; lra) end.
        reflexivity. }
    assert (G : exists g, doubles arrow_floats None None None (4 * 2) = Ok g /\ g 0%nat = Ok (arrow_coords, 8%nat))
      by (eexists; split; reflexivity).
    destruct G as (g & G & D). unfold polygons. change (3 <=? 4)%nat with true. cbv iota. rewrite G. cbn [rbind]. rewrite D. cbn [rbind].
    change (rows arrow_coords) with arrow. cbv zeta. change (arrow_delaunay arrow) with (Some arrow_mesh). cbv iota.
    cbn [samples]. rewrite !P. reflexivity.
  - repeat constructor; exact arrow_outside.
Qed.
Print Assumptions C127_hole_outside_refuted.
(** And the corners may lie on one line, so that the polygon has no area. *)
Theorem C127_no_area_refuted :
  exists floats delaunay us n shell n', draws_between floats /\
    polygons floats delaunay None None None 3 false 3 us n = Ok ((shell, None), n') /\ shoelace_area shell = 0.
Proof.
  exists (always 1), (fun _ => None), (fun _ => (0, 0, 0)), 0%nat, [V 1 1; V 1 1; V 1 1], 6%nat.
  split; [apply always_between|]. split; [reflexivity|]. unfold shoelace_area. cbn.
  match goal with |- Rabs ?x / 2 = 0 => replace x with 0 by (unfold outer; cbn; lra) end. rewrite Rabs_R0. lra.
Qed.
Print Assumptions C127_no_area_refuted.

(** Agents: as many rows as the size drawn, row [i] holding the traits of the agent made
    from the [i]-th attributes drawn. *)
Theorem C127_agents : forall A (make : kind -> A -> res aobj) c size attrs l, agents make c size attrs = Ok l ->
  exists k, c = AgentClass k /\ Z.of_nat (List.length l) = size /\
    forall i row, nth_error l i = Some row -> exists o, make k (attrs i) = Ok o /\ row_of_object row o.
Proof.
  intros A make c size attrs l H. destruct c as [| |k]; try discriminate. cbn in H. exists k. split; [reflexivity|].
  destruct (Z.ltb_spec size 0) as [N|N]; [discriminate|]. apply filled_spec in H as [L Q]. split; [lia|].
  intros i row I. assert (J : (i < List.length l)%nat) by (apply nth_error_Some; congruence).
  rewrite L in J. destruct (Q i J) as (o & M & E). exists o. split; [exact M|]. rewrite E in I. injection I as <-. apply obj_row_values.
Qed.
Print Assumptions C127_agents.
(** What is refused: classes that are no agent types, the base class, negative sizes, and
    attributes that the first agent refused refuses. *)
Theorem C127_agents_refused : forall A (make : kind -> A -> res aobj) c size attrs e, agents make c size attrs = Err e ->
  ((forall k, c <> AgentClass k) /\ e = AssertionError) \/ ((size < 0)%Z /\ e = ValueError) \/
  exists k i, c = AgentClass k /\ (Z.of_nat i < size)%Z /\ make k (attrs i) = Err e /\
    forall j, (j < i)%nat -> exists o, make k (attrs j) = Ok o.
Proof.
  intros A make c size attrs e H. destruct c as [| |k]; cbn in H; try (injection H as <-; left; split; [discriminate|reflexivity]).
  destruct (Z.ltb_spec size 0) as [N|N]; [injection H as <-; auto|]. right. right.
  apply filled_err in H as (j & J & M & B). exists k, j. repeat split; auto. lia.
Qed.
Print Assumptions C127_agents_refused.

Example C127_case : exists g n', reals (always (1/2)) (Some 0) (Some 1) (Some "near"%string) Wide = Ok g /\
  g 0%nat = Ok (1/2, n') /\ unit_vectors (always 0) 0 (2 * PI) 3%nat = Ok (V (cos 0) (sin 0), 4%nat) /\
  linestrings (fun _ _ n => INR n) None None None 2 true 0%nat = Ok ([V 0 1; V (1 + 1) (1 + 1 + 1); V 0 1], 4%nat) /\
  agents (fun _ (o : aobj) => Ok o) (AgentClass Circular) 1 (fun _ => AObj Body.body0 Agent.default_row) =
    Ok [obj_row (AObj Body.body0 Agent.default_row)].
Proof.
  destruct (elements_any (always (1/2)) (Some 0) (Some 1) (Some "near"%string) Wide 0) as (g & G & D).
  - intros a b [= <-] [= <-]. lra.
  - discriminate.
  - rewrite always_is by (split; [intros a [= <-]|intros b [= <-]]; lra).
    split; [split; [intros a [= <-]|intros b [= <-]]; lra|]. intros [[Q _] | [_ Q]]; [discriminate|].
    rewrite Rabs_pos_eq in Q by lra. lra.
  - exists g, 1%nat. split; [exact G|]. split; [rewrite D, always_is; [reflexivity|split; [intros a [= <-]|intros b [= <-]]; lra]|].
    split; [|split; reflexivity].
    unfold unit_vectors, float. pose proof PI_RGT_0 as P. replace (Rltb (2 * PI) 0) with false; [|symmetry; apply Rltb_false; lra].
    cbn [rbind]. rewrite always_is; [reflexivity|]. split; [intros a [= <-]|intros b [= <-]]; lra.
Qed.
