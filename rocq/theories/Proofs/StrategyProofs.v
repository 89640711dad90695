(** * Proofs about the strategies of the testing module *)
From Coq Require Import Lra Lia String.
From Flocq Require Import Core.
From Verif Require Import Model.Base Model.Vector2D Model.Sampling Model.AgentObject Model.Strategies.
From Verif Require Export Spec.Drawn Spec.Regions.
From Verif Require Import Proofs.VecLemmas Proofs.SamplingProofs.
Import StringSyntax.
Open Scope R_scope.

Lemma isclose_zero : forall x, isclose x 0 = true <-> Rabs x <= 1 / 100000000.
Proof.
  intros x. unfold isclose. rewrite Rleb_true. rewrite Rminus_0_r, Rabs_R0. split; lra.
Qed.

Lemma left_out_none : forall x, ~ left_out None x.
Proof. intros x [[H _] | [H _]]; discriminate. Qed.

Section P.
  Variable floats : option R -> option R -> nat -> R.
  Hypothesis F : draws_between floats.

  Lemma float_between : forall lo hi n x n', float floats lo hi n = Ok (x, n') -> in_bounds lo hi x /\ n' = S n.
  Proof.
    intros lo hi n x n' H. unfold float in H.
    assert (E : x = floats lo hi n /\ n' = S n /\ forall a b, lo = Some a -> hi = Some b -> a <= b).
    { destruct lo as [a|], hi as [b|]; try (injection H as <- <-; repeat split; intros; congruence).
      destruct (Rltb b a) eqn:L; [discriminate|]. injection H as <- <-. repeat split; auto.
      intros a' b' [= <-] [= <-]. apply Rltb_false in L. lra. }
    destruct E as (-> & -> & O). split; [now apply F|reflexivity].
  Qed.

  Lemma tries_keep : forall A k (keep : A -> bool) g n x n', tries k keep g n = Ok (x, n') ->
    keep x = true /\ exists m m', g m = Ok (x, m').
  Proof.
    intros A k keep g. induction k as [|k IH]; intros n x n' H; cbn in H; [discriminate|].
    destruct (g n) as [[y m]|e] eqn:E; cbn in H; [|discriminate].
    destruct (keep y) eqn:K; [injection H as <- <-|now apply IH in H]. split; [exact K|]. eauto.
  Qed.

  Lemma elements_asked : forall lo hi exclude t g n x n',
    elements floats lo hi exclude t = Ok g -> g n = Ok (x, n') -> asked lo hi exclude x.
  Proof.
    intros lo hi exclude t g n x n' E D. unfold elements in E.
    assert (T : t <> NotFloat) by (intros ->; discriminate).
    assert (E' : match exclude with
          | Some s =>
              if String.eqb s "exact" then Ok (filtered (float floats lo hi) (fun x => negb (Reqb x 0)))
              else if String.eqb s "near" then Ok (filtered (float floats lo hi) (fun x => negb (isclose x 0)))
              else Ok (float floats lo hi)
          | None => Ok (float floats lo hi)
          end = Ok g).
    { destruct t; try congruence; destruct (match lo, hi with Some a, Some b => Rleb b a | _, _ => false end); try discriminate; exact E. }
    clear E. destruct exclude as [s|].
    - destruct (String.eqb_spec s "exact") as [->|N1]; [|destruct (String.eqb_spec s "near") as [->|N2]].
      + injection E' as <-. apply tries_keep in D as (K & m & m' & D). split; [now apply float_between in D|].
        intros [[_ Z] | [Q _]]; [|discriminate]. apply negb_true_iff in K. apply Reqb_false in K. contradiction.
      + injection E' as <-. apply tries_keep in D as (K & m & m' & D). split; [now apply float_between in D|].
        intros [[Q _] | [_ Z]]; [discriminate|]. apply negb_true_iff in K. apply isclose_zero in Z. congruence.
      + injection E' as <-. split; [now apply float_between in D|]. intros [[Q _] | [Q _]]; congruence.
    - injection E' as <-. split; [now apply float_between in D|]. apply left_out_none.
  Qed.

  Lemma elements_any : forall lo hi exclude t n, ordered lo hi -> t <> NotFloat -> asked lo hi exclude (floats lo hi n) ->
    exists g, elements floats lo hi exclude t = Ok g /\ g n = Ok (floats lo hi n, S n).
  Proof.
    intros lo hi exclude t n O T [_ K]. unfold elements.
    assert (B : match lo, hi with Some a, Some b => Rleb b a | _, _ => false end = false).
    { destruct lo as [a|], hi as [b|]; try reflexivity. apply Rleb_false. specialize (O a b eq_refl eq_refl). lra. }
    assert (D : float floats lo hi n = Ok (floats lo hi n, S n)).
    { unfold float. destruct lo as [a|], hi as [b|]; try reflexivity.
      specialize (O a b eq_refl eq_refl). replace (Rltb b a) with false; [reflexivity|]. symmetry. apply Rltb_false. lra. }
    assert (X : forall (g : gen R), g = (match exclude with
          | Some s =>
              if String.eqb s "exact" then filtered (float floats lo hi) (fun x => negb (Reqb x 0))
              else if String.eqb s "near" then filtered (float floats lo hi) (fun x => negb (isclose x 0))
              else float floats lo hi
          | None => float floats lo hi
          end) -> g n = Ok (floats lo hi n, S n)).
    { intros g ->. destruct exclude as [s|]; [|exact D].
      destruct (String.eqb_spec s "exact") as [->|N1]; [|destruct (String.eqb_spec s "near") as [->|N2]; [|exact D]].
      - unfold filtered. cbn. rewrite D. cbn. replace (Reqb (floats lo hi n) 0) with false; [reflexivity|].
        symmetry. apply Reqb_false. intros Z. apply K. left. auto.
      - unfold filtered. cbn. rewrite D. cbn. replace (isclose (floats lo hi n) 0) with false; [reflexivity|].
        symmetry. apply not_true_is_false. intros Z. apply K. right. split; [reflexivity|]. now apply isclose_zero. }
    rewrite B. destruct t; try congruence; (destruct exclude as [s|]; [destruct (String.eqb s "exact"); [|destruct (String.eqb s "near")]|]);
      eexists; (split; [reflexivity|]); apply X; reflexivity.
  Qed.

  Lemma array_spec : forall A (put : R -> A) k g n l n', array put k g n = Ok (l, n') ->
    exists xs, l = map put xs /\ List.length xs = k /\ Forall (fun x => exists m m', g m = Ok (x, m')) xs.
  Proof.
    intros A put k g. induction k as [|k IH]; intros n l n' H; cbn in H.
    - injection H as <- <-. exists []. auto.
    - destruct (g n) as [[x m]|e] eqn:E; cbn in H; [|discriminate].
      destruct (array put k g m) as [[l' m']|e] eqn:E'; cbn in H; [|discriminate]. injection H as <- <-.
      destruct (IH _ _ _ E') as (xs & -> & L & Q). exists (x :: xs). cbn. repeat split; [congruence|]. constructor; eauto.
  Qed.

  Lemma doubles_asked : forall lo hi exclude k g n l n', doubles floats lo hi exclude k = Ok g -> g n = Ok (l, n') ->
    List.length l = k /\ Forall (asked lo hi exclude) l.
  Proof.
    intros lo hi exclude k g n l n' E D. unfold doubles in E.
    destruct (elements floats lo hi exclude Wide) as [e|] eqn:Q; [|discriminate]. cbn in E. injection E as <-.
    apply array_spec in D as (xs & -> & L & A). rewrite map_id. split; [exact L|].
    eapply Forall_impl; [|exact A]. intros x (m & m' & H). eapply elements_asked; eauto.
  Qed.

  Lemma rows_length : forall k l, List.length l = (k * 2)%nat -> List.length (rows l) = k.
  Proof.
    induction k as [|k IH]; intros l H.
    - destruct l; [reflexivity|discriminate].
    - destruct l as [|x [|y l]]; try discriminate. cbn. f_equal. apply IH. cbn in H. lia.
  Qed.
  Lemma rows_asked : forall lo hi exclude k l, List.length l = (k * 2)%nat -> Forall (asked lo hi exclude) l ->
    Forall (asked_point lo hi exclude) (rows l).
  Proof.
    intros lo hi exclude k. induction k as [|k IH]; intros l H A.
    - destruct l; [constructor|discriminate].
    - destruct l as [|x [|y l]]; try discriminate. cbn. inversion A as [|? ? A1 A2]; subst. inversion A2 as [|? ? A3 A4]; subst.
      constructor; [split; assumption|]. apply IH; [cbn in H; lia|exact A4].
  Qed.

  Lemma linestring_spec : forall lo hi exclude k closed n l n', linestrings floats lo hi exclude k closed n = Ok (l, n') ->
    (2 <= k)%nat /\ exists ps p, List.length ps = k /\ nth_error ps 0 = Some p /\ Forall (asked_point lo hi exclude) ps /\
      l = if closed then ps ++ [p] else ps.
  Proof.
    intros lo hi exclude k closed n l n' H. unfold linestrings in H.
    destruct (2 <=? k)%nat eqn:K; [|discriminate]. apply Nat.leb_le in K. split; [exact K|].
    destruct (doubles floats lo hi exclude (k * 2)) as [g|] eqn:G; [|discriminate]. cbn in H.
    destruct (g n) as [[xs m]|] eqn:D; [|discriminate]. cbn in H.
    destruct (doubles_asked _ _ _ _ _ _ _ _ G D) as [L A].
    pose proof (rows_length k xs L) as L'. pose proof (rows_asked _ _ _ k xs L A) as A'.
    destruct (rows xs) as [|p ps]; [cbn in L'; lia|]. exists (p :: ps), p.
    destruct closed; injection H as <- <-; repeat split; auto.
  Qed.

  Lemma points_spec : forall lo hi exclude n p n', points floats lo hi exclude n = Ok (p, n') -> asked_point lo hi exclude p.
  Proof.
    intros lo hi exclude n p n' H. unfold points in H.
    destruct (doubles floats lo hi exclude 2) as [g|] eqn:G; [|discriminate]. cbn [rbind] in H.
    destruct (g n) as [[xs m]|] eqn:D; [|discriminate]. cbn [rbind] in H.
    destruct (doubles_asked _ _ _ _ _ _ _ _ G D) as [L A].
    pose proof (rows_asked lo hi exclude 1 xs L A) as A'.
    destruct (rows xs) as [|q [|? ?]]; try discriminate. injection H as <- <-. now inversion A'.
  Qed.

  Variable delaunay : list vec -> option (list (nat * nat * nat)).
  Hypothesis DT : forall vs mesh, delaunay vs = Some mesh -> triangulation vs mesh.

  Lemma samples_hull : forall shell mesh us k i l, triangulation shell mesh ->
    (forall i, let '(x, r1, r2) := us i in 0 <= x < 1 /\ 0 <= r1 <= 1 /\ 0 <= r2 <= 1) ->
    samples shell mesh us i k = Ok l -> List.length l = k /\ Forall (in_hull shell) l.
  Proof.
    intros shell mesh us k. induction k as [|k IH]; intros i l T U H; cbn in H.
    - injection H as <-. auto.
    - pose proof (U i) as Ui. destruct (us i) as [[x r1] r2]. destruct Ui as (X & R1 & R2).
      destruct (polygon_sample shell mesh x r1 r2) as [p|] eqn:P; cbn in H; [|discriminate].
      destruct (samples shell mesh us (S i) k) as [l'|] eqn:Q; cbn in H; [|discriminate]. injection H as <-.
      destruct (IH _ _ T U Q) as [L A]. split; [cbn; congruence|]. constructor; [|exact A].
      destruct T as [NE T]. destruct (polygon_sample_spec shell mesh x r1 r2 NE T X R1 R2) as (a & b & c & d & e & f & p' & _ & _ & _ & _ & P' & _ & I).
      rewrite P in P'. injection P' as ->. exact I.
  Qed.
  Lemma samples_ok : forall shell mesh us k i, triangulation shell mesh ->
    (forall i, let '(x, r1, r2) := us i in 0 <= x < 1 /\ 0 <= r1 <= 1 /\ 0 <= r2 <= 1) ->
    exists l, samples shell mesh us i k = Ok l.
  Proof.
    intros shell mesh us k. induction k as [|k IH]; intros i T U; cbn; [eauto|].
    pose proof (U i) as Ui. destruct (us i) as [[x r1] r2]. destruct Ui as (X & R1 & R2).
    pose proof T as [NE T']. destruct (polygon_sample_spec shell mesh x r1 r2 NE T' X R1 R2) as (a & b & c & d & e & f & p' & _ & _ & _ & _ & P' & _ & I).
    rewrite P'. cbn. destruct (IH (S i) T U) as [l E]. rewrite E. cbn. eauto.
  Qed.

  Lemma polygon_spec : forall lo hi exclude k holes size us n shell hole n',
    (forall i, let '(x, r1, r2) := us i in 0 <= x < 1 /\ 0 <= r1 <= 1 /\ 0 <= r2 <= 1) ->
    polygons floats delaunay lo hi exclude k holes size us n = Ok ((shell, hole), n') ->
    (3 <= k)%nat /\ List.length shell = k /\ Forall (asked_point lo hi exclude) shell /\
    (hole <> None <-> holes = true /\ delaunay shell <> None) /\
    (forall h, hole = Some h -> List.length h = size /\ Forall (in_hull shell) h).
  Proof.
    intros lo hi exclude k holes size us n shell hole n' U H. unfold polygons in H.
    destruct (3 <=? k)%nat eqn:K; [|discriminate]. apply Nat.leb_le in K. split; [exact K|].
    destruct (doubles floats lo hi exclude (k * 2)) as [g|] eqn:G; [|discriminate]. cbn in H.
    destruct (g n) as [[xs m]|] eqn:D; [|discriminate]. cbn in H.
    destruct (doubles_asked _ _ _ _ _ _ _ _ G D) as [L A].
    pose proof (rows_length k xs L) as L'. pose proof (rows_asked _ _ _ k xs L A) as A'.
    destruct holes.
    - destruct (delaunay (rows xs)) as [mesh|] eqn:M.
      + destruct (samples (rows xs) mesh us 0 size) as [h|] eqn:S'; cbn in H; [|discriminate]. injection H as <- <- <-.
        split; [exact L'|]. split; [exact A'|]. rewrite M. split; [split; intros _; [split|]; congruence|].
        intros h' [= <-]. eapply samples_hull; eauto.
      + injection H as <- <- <-. split; [exact L'|]. split; [exact A'|]. rewrite M. split; [intuition congruence|]. discriminate.
    - injection H as <- <- <-. split; [exact L'|]. split; [exact A'|]. split; [intuition congruence|]. discriminate.
  Qed.
End P.

Lemma filled_spec : forall A (make : A -> res aobj) attrs k i l, filled make attrs i k = Ok l ->
  List.length l = k /\ forall j, (j < k)%nat -> exists o, make (attrs (i + j)%nat) = Ok o /\ nth_error l j = Some (obj_row o).
Proof.
  intros A make attrs k. induction k as [|k IH]; intros i l H; cbn in H.
  - injection H as <-. split; [reflexivity|]. intros; lia.
  - destruct (make (attrs i)) as [o|] eqn:E; cbn in H; [|discriminate].
    destruct (filled make attrs (S i) k) as [l'|] eqn:Q; cbn in H; [|discriminate]. injection H as <-.
    destruct (IH _ _ Q) as [L N]. split; [cbn; congruence|]. intros [|j] J.
    + exists o. rewrite Nat.add_0_r. auto.
    + destruct (N j ltac:(lia)) as (o' & M & R'). exists o'. replace (i + S j)%nat with (S i + j)%nat by lia. auto.
Qed.
Lemma filled_err : forall A (make : A -> res aobj) attrs k i e, filled make attrs i k = Err e ->
  exists j, (j < k)%nat /\ make (attrs (i + j)%nat) = Err e /\ forall j', (j' < j)%nat -> exists o, make (attrs (i + j')%nat) = Ok o.
Proof.
  intros A make attrs k. induction k as [|k IH]; intros i e H; cbn in H; [discriminate|].
  destruct (make (attrs i)) as [o|e'] eqn:E; cbn in H.
  - destruct (filled make attrs (S i) k) as [l'|e'] eqn:Q; cbn in H; [discriminate|]. injection H as <-.
    destruct (IH _ _ Q) as (j & J & M & B). exists (S j). split; [lia|]. split.
    + replace (i + S j)%nat with (S i + j)%nat by lia. exact M.
    + intros [|j'] J'; [exists o; now rewrite Nat.add_0_r|]. replace (i + S j')%nat with (S i + j')%nat by lia. apply B. lia.
  - injection H as <-. exists 0%nat. rewrite Nat.add_0_r. split; [lia|]. split; [exact E|]. lia.
Qed.
