(** * Lemmas on loading configurations and reading signatures *)
From Coq Require Import Lra Lia String.
From Verif Require Import Proofs.VecLemmas Model.Config Spec.Configs.
Open Scope R_scope. Open Scope list_scope.

Lemma lookup_in : forall {A} k (v : A) l, NoDup (map fst l) -> (lookup k l = Some v <-> In (k, v) l).
Proof.
  intros A k v l. unfold lookup. induction l as [|[k' v'] l IH]; intros N; cbn.
  - split; [discriminate|tauto].
  - inversion N; subst. destruct (String.eqb_spec k' k).
    + subst. cbn. split; [intros [= <-]; auto|]. intros [[= <-]|I]; auto. destruct H1. apply in_map_iff. exists (k, v). auto.
    + rewrite IH by auto. split; [auto|]. intros [[= -> ->]|I]; congruence.
Qed.

Lemma is_float_fine : forall c v, is_float c v = true <-> fine c v.
Proof.
  intros [lo hi] [x| |s]; unfold is_float, fine, within; cbn.
  - rewrite andb_true_iff, !negb_true_iff. split.
    + intros [L H]. right. exists x. split; auto. split; intros m E; subst; [apply Rltb_false in L|apply Rltb_false in H]; lra.
    + intros [E|(y & [= <-] & L & H)]; [discriminate|]. split.
      * destruct lo; auto. apply Rltb_false. specialize (L _ eq_refl). lra.
      * destruct hi; auto. apply Rltb_false. specialize (H _ eq_refl). lra.
  - split; auto.
  - split; [discriminate|]. intros [E|(y & E & _)]; discriminate.
Qed.

Definition entry_ok (s : section) (e : string * check) : bool :=
  match lookup (fst e) s with Some v => is_float (snd e) v | None => false end.
Lemma section_fold : forall s spec a b,
  fold_left (fun flags e => validate_entry s e flags) spec (a, b) =
  (a && forallb (entry_ok s) spec, b && forallb (fun e => negb (entry_ok s e)) spec).
Proof.
  intros s. induction spec as [|e spec IH]; intros a b; cbn; [now rewrite !andb_true_r|].
  assert (V : validate_entry s e (a, b) = if entry_ok s e then (a, false) else (false, b)) by reflexivity.
  fold (entry_ok s e). destruct (entry_ok s e); rewrite IH; cbn; destruct a, b; reflexivity.
Qed.
Lemma section_good : forall s spec, NoDup (map fst s) -> (validate_section spec s = AllGood <-> conforms spec s).
Proof.
  intros s spec N. unfold validate_section. rewrite section_fold. cbn.
  assert (G : forallb (entry_ok s) spec = true <-> conforms spec s).
  { rewrite forallb_forall. unfold conforms. split.
    - intros H k c I. specialize (H _ I). unfold entry_ok in H. cbn in H. destruct (lookup k s) as [v|] eqn:L; [|discriminate].
      exists v. split; [apply lookup_in; auto|apply is_float_fine; auto].
    - intros H [k c] I. destruct (H k c I) as (v & J & F). unfold entry_ok. cbn. apply lookup_in in J; auto. rewrite J. apply is_float_fine; auto. }
  rewrite <- G. destruct (forallb (entry_ok s) spec); [tauto|]. destruct (forallb _ spec); split; discriminate.
Qed.

Definition good (spec : many) (e : string * section) : bool :=
  match validate_section spec (snd e) with AllGood => true | _ => false end.
Lemma file_fold : forall spec f a b,
  fold_left (fun (flags : bool * bool) e =>
    let '(ret_true, ret_false) := flags in
    match validate_section spec (snd e) with
    | AllBad => (false, ret_false)
    | AllGood => (ret_true, false)
    | Mixed => (false, ret_false)
    end) f (a, b) =
  (a && forallb (good spec) f, b && forallb (fun e => negb (good spec e)) f).
Proof.
  intros spec. induction f as [|e f IH]; intros a b; cbn; [now rewrite !andb_true_r|].
  unfold good at 1 3. destruct (validate_section spec (snd e)); rewrite IH; cbn; destruct a, b; reflexivity.
Qed.

Lemma validate_cases : forall spec f, well_formed spec f ->
  (validate spec f = AllGood <-> forall n s, In (n, s) f -> conforms spec s) /\
  (validate spec f = AllBad <-> f <> [] /\ forall n s, In (n, s) f -> ~ conforms spec s).
Proof.
  intros spec f (_ & _ & W). unfold validate. rewrite file_fold. cbn.
  assert (S : forall n s, In (n, s) f -> (good spec (n, s) = true <-> conforms spec s)).
  { intros n s I. rewrite <- (section_good s spec (W n s I)). unfold good. cbn. destruct (validate_section spec s); split; congruence. }
  assert (G : forallb (good spec) f = true <-> forall n s, In (n, s) f -> conforms spec s).
  { rewrite forallb_forall. split; [intros H n s I; apply (S n s I); auto|intros H [n s] I; apply (S n s I); eauto]. }
  assert (B : forallb (fun e => negb (good spec e)) f = true <-> forall n s, In (n, s) f -> ~ conforms spec s).
  { rewrite forallb_forall. split.
    - intros H n s I. rewrite <- (S n s I). specialize (H _ I). apply negb_true_iff in H. congruence.
    - intros H [n s] I. apply negb_true_iff. specialize (H n s I). rewrite <- (S n s I) in H. destruct (good spec (n, s)); auto. destruct H; auto. }
  rewrite <- G, <- B. destruct (forallb (good spec) f) eqn:EG, (forallb (fun e => negb (good spec e)) f) eqn:EB; split; split; try discriminate; auto.
  - intros [N _]. destruct f as [|e f]; [congruence|]. cbn in EG, EB. destruct (good spec e); discriminate.
  - intros [_ N]. discriminate.
  - intros _. split; [|auto]. intros ->. discriminate.
  - intros [_ N]. discriminate.
Qed.

Lemma signature_ok : forall {A} (l : list (parameter A)), (forall p, In p l -> p_default p <> EmptyInstance) ->
  parse_signature l = Ok (map (fun p => ArgSpec (p_name p) (empty_to_none (p_default p)) (empty_to_none (p_annotation p)))
                             (filter (fun p => negb (String.eqb (p_name p) "self")) l)).
Proof.
  intros A l. induction l as [|p l IH]; intros H; cbn; auto.
  specialize (IH (fun q I => H q (or_intror I))). destruct (String.eqb (p_name p) "self"); cbn; auto.
  unfold mkspec. destruct (isinstance_empty (p_default p)) eqn:E.
  - destruct (H p (or_introl eq_refl)). destruct (p_default p); try discriminate; auto.
  - cbn. rewrite IH. reflexivity.
Qed.
