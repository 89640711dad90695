(** * Properties C108, C109: configuration files, signatures, deprecated functions *)
From Coq Require Import Lra Lia String.
From Verif Require Import Proofs.VecLemmas Proofs.ConfigProofs Model.Config Spec.Configs.
Open Scope R_scope. Open Scope string_scope. Open Scope list_scope.

(** ** C108 *)
(** A file is refused exactly when none of its sections conforms to the specification. *)
Theorem C108_refused : forall spec f, well_formed spec f ->
  (load_config f (Some spec) = Err ValidationError <-> f <> [] /\ forall n s, In (n, s) f -> ~ conforms spec s).
Proof.
  intros spec f W. destruct (validate_cases spec f W) as [_ B]. rewrite <- B. unfold load_config.
  destruct (validate spec f); split; congruence.
Qed.
Print Assumptions C108_refused.
(** A file with one section, and a file without a conforming section, is accepted exactly if it conforms. *)
Theorem C108_accepted_partial : forall spec f, well_formed spec f ->
  ((exists n s, f = [(n, s)]) \/ forall n s, In (n, s) f -> ~ conforms spec s) ->
  (is_ok (load_config f (Some spec)) <-> forall n s, In (n, s) f -> conforms spec s).
Proof.
  intros spec f W H. destruct (validate_cases spec f W) as [G B]. rewrite <- G. unfold load_config, is_ok.
  destruct (validate spec f) eqn:E.
  - split; [auto|]. eexists; reflexivity.
  - split; [intros [a K]; discriminate|discriminate].
  - split; [|discriminate]. intros _. exfalso. enough (Mixed = AllBad) by discriminate. apply B.
    destruct H as [(n & s & ->)|H].
    + split; [discriminate|]. intros n' s' [[= <- <-]|[]] C. enough (Mixed = AllGood) by discriminate. apply G.
      intros n' s' [[= <- <-]|[]]. exact C.
    + split; [|exact H]. intros ->. enough (Mixed = AllGood) by discriminate. apply G. intros n s [].
Qed.
Print Assumptions C108_accepted_partial.
(** One conforming section is enough for any file: here a ratio of 2 and a mass that is no
    number are accepted beside the shipped body types. *)
Theorem C108_accepted_refuted : exists f s, well_formed body_types_spec f /\ In ("giant", s) f /\
  In ("ratio_rt", Number 2) s /\ In ("mass_mean", Text "heavy") s /\ ~ conforms body_types_spec s /\
  is_ok (load_config f (Some body_types_spec)).
Proof.
  set (s := [("ratio_rt", Number 2); ("mass_mean", Text "heavy")]).
  exists (body_types_file ++ [("giant", s)]), s.
  assert (W : well_formed body_types_spec (body_types_file ++ [("giant", s)])).
  { repeat split; cbn.
    - repeat (constructor; [cbn; intuition discriminate|]). constructor.
    - repeat (constructor; [cbn; intuition discriminate|]). constructor.
    - intros n t H. repeat (destruct H as [[= <- <-]|H]; [cbn; repeat (constructor; [cbn; intuition discriminate|]); constructor|]). destruct H. }
  assert (C : ~ conforms body_types_spec s).
  { intros C. destruct (C "mass_mean" (FloatCheck (Some 0) None)) as (v & I & F); [cbn; tauto|].
    cbn in I. destruct I as [I|[I|[]]]; [discriminate|]. injection I as <-. destruct F as [F|(x & F & _)]; discriminate. }
  repeat match goal with |- _ /\ _ => split end; auto.
  - apply in_or_app. right. cbn. auto.
  - cbn. auto.
  - cbn. auto.
  - destruct (load_config _ _) eqn:E; [eexists; reflexivity|]. exfalso.
    assert (e = ValidationError) as -> by (unfold load_config in E; destruct (validate _ _); congruence).
    apply (C108_refused _ _ W) in E as [_ N]. refine (N "adult" _ _ _); [cbn; left; reflexivity|].
    intros k c I. cbn in I. repeat (destruct I as [[= <- <-]|I]; [eexists; split; [cbn; tauto|right; eexists; split; [reflexivity|split; cbn; intros m [= <-]; lra]]|]). destruct I.
Qed.
Print Assumptions C108_accepted_refuted.
(** ... and "nan" passes every range, also in a file all of whose sections conform. *)
Theorem C108_nan_refuted : exists s, (forall k c, In (k, c) body_types_spec -> In (k, NotANumber) s) /\
  is_ok (load_config [("ghost", s)] (Some body_types_spec)).
Proof.
  exists (map (fun e => (fst e, NotANumber)) body_types_spec). split.
  - intros k c I. apply in_map_iff. exists (k, c). auto.
  - eexists. reflexivity.
Qed.
Print Assumptions C108_nan_refuted.
(** Nothing is lost: sections and keys stay in order; a checked number is a float, every
    other text stays as it was. *)
Theorem C108_contents : forall spec f cfg, well_formed spec f -> load_config f (Some spec) = Ok cfg ->
  Forall2 (fun e e' => fst e' = fst e /\ Forall2 (fun x x' => fst x' = fst x /\
    ((exists c, In (fst x, c) spec /\ fine c (snd x) /\ snd x' = VFloat (match snd x with Number y => Some y | _ => None end)) \/
     ((forall c, In (fst x, c) spec -> ~ fine c (snd x)) /\ snd x' = VText (snd x)))) (snd e) (snd e')) f cfg.
Proof.
  intros spec f cfg (N & _ & W) L.
  assert (E : cfg = map (fun e => (fst e, map (convert spec) (snd e))) f).
  { unfold load_config in L. destruct (validate spec f); congruence. }
  subst cfg. clear L W. induction f as [|[n s] f IH]; cbn; constructor; auto. cbn. split; auto. clear IH.
  induction s as [|[k v] s IH]; cbn; constructor; auto. cbn. split; auto.
  destruct (lookup k spec) as [c|] eqn:Lk.
  - destruct (is_float c v) eqn:F.
    + left. exists c. apply lookup_in in Lk; auto. apply is_float_fine in F. repeat split; auto. destruct v; auto.
    + right. split; auto. intros c' I. apply lookup_in in I; auto. assert (c' = c) as -> by congruence. rewrite <- is_float_fine. congruence.
  - right. split; auto. intros c I. apply lookup_in in I; auto. congruence.
Qed.
Print Assumptions C108_contents.
(** Without a specification every file is accepted as it is. *)
Theorem C108_no_spec : forall f, exists cfg, load_config f None = Ok cfg /\
  Forall2 (fun e e' => fst e' = fst e /\ Forall2 (fun x x' => x' = (fst x, VText (snd x))) (snd e) (snd e')) f cfg.
Proof.
  intros f. eexists. split; [reflexivity|]. induction f as [|[n s] f IH]; cbn; constructor; auto. split; auto. cbn. clear IH. induction s; cbn; constructor; auto.
Qed.
Print Assumptions C108_no_spec.
(** The numbers of the shipped body types. *)
Theorem C108_numbers : let row name := option_map (map snd) (shipped_config name) in
  row "adult" = Some [0.5882; 0.3725; 0.6275; 0.255; 0.035; 1.25; 0.3; 73.5; 8.0] /\
  row "male" = Some [0.5926; 0.3704; 0.6296; 0.27; 0.02; 1.35; 0.2; 80.0; 8.0] /\
  row "female" = Some [0.5833; 0.375; 0.625; 0.24; 0.02; 1.15; 0.2; 67.0; 6.7] /\
  row "child" = Some [0.5714; 0.3333; 0.6667; 0.21; 0.015; 0.9; 0.3; 57.0; 5.7] /\
  row "eldery" = Some [0.6; 0.36; 0.64; 0.25; 0.02; 0.8; 0.3; 70.0; 7.0] /\
  (forall name l, shipped_config name = Some l ->
     map fst l = [RatioRt; RatioRs; RatioTs; RadiusMean; RadiusScale; TargetVelocityMean; TargetVelocityScale; MassMean; MassScale]).
Proof.
  cbn. repeat match goal with |- _ /\ _ => split end; try (f_equal; repeat (f_equal; try lra); fail).
  intros name l H. unfold shipped_config in H. destruct (find _ shipped) as [[n' l']|] eqn:F; [|discriminate]. injection H as <-. apply find_some in F as [F _].
  cbn in F. repeat (destruct F as [F|F]; [injection F as <- <-; reflexivity|]). destruct F.
Qed.
Print Assumptions C108_numbers.
(** The shipped body types load, with the numbers the agents are drawn from, all in range. *)
Theorem C108_shipped : exists cfg, load_config body_types_file (Some body_types_spec) = Ok cfg /\
  map fst cfg = ["adult"; "male"; "female"; "child"; "eldery"] /\
  forall name l f x, shipped_config name = Some l -> In (f, x) l ->
    0 <= x /\ (In f [RatioRt; RatioRs; RatioTs] -> x <= 1) /\
    exists sec k, In (name, sec) cfg /\ key_name f = Some k /\ In (k, VFloat (Some x)) sec.
Proof.
  assert (W : well_formed body_types_spec body_types_file).
  { repeat split; cbn.
    - repeat (constructor; [cbn; intuition discriminate|]). constructor.
    - repeat (constructor; [cbn; intuition discriminate|]). constructor.
    - intros n t H. repeat (destruct H as [[= <- <-]|H]; [cbn; repeat (constructor; [cbn; intuition discriminate|]); constructor|]). destruct H. }
  assert (A : validate body_types_spec body_types_file = AllGood).
  { apply (validate_cases _ _ W). intros n s H. cbn in H.
    repeat (destruct H as [[= <- <-]|H]; [intros k c I; cbn in I; repeat (destruct I as [[= <- <-]|I]; [eexists; split; [cbn; tauto|right; eexists; split; [reflexivity|split; cbn; intros m [= <-]; lra]]|]); destruct I|]). destruct H. }
  destruct (load_config body_types_file (Some body_types_spec)) as [cfg|e] eqn:L; [|unfold load_config in L; rewrite A in L; discriminate].
  exists cfg. split; [reflexivity|].
  pose proof (C108_contents _ _ _ W L) as C. split.
  { clear - C. assert (M : map fst cfg = map fst body_types_file). { revert C. generalize body_types_file. intros file C. induction C; cbn; auto. destruct H as [H _]. f_equal; [exact H|exact IHC]. } rewrite M. reflexivity. }
  intros name l f x S I.
  assert (J : In (name, l) shipped). { unfold shipped_config in S. destruct (find _ shipped) as [[n' l']|] eqn:F; [|discriminate]. injection S as <-. apply find_some in F as [F E]. cbn in E. apply String.eqb_eq in E. subst. auto. }
  assert (R : 0 <= x /\ (In f [RatioRt; RatioRs; RatioTs] -> x <= 1) /\ exists k, key_name f = Some k).
  { cbn in J. repeat (destruct J as [J|J]; [injection J as <- <-; cbn in I; repeat (destruct I as [[= <- <-]|I]; [repeat split; [lra|cbn; intuition (try discriminate; lra)|eexists; reflexivity]|]); destruct I|]). destruct J. }
  destruct R as (R1 & R2 & k & K). repeat match goal with |- _ /\ _ => split end; auto.
  assert (J2 : In (name, flat_map (fun x => match key_name (fst x) with Some k => [(k, Number (snd x))] | None => [] end) l) body_types_file).
  { unfold body_types_file. apply in_map_iff. exists (name, l). auto. }
  assert (X : exists sec, In (name, sec) cfg /\ Forall2 (fun x x' => fst x' = fst x /\
    ((exists c, In (fst x, c) body_types_spec /\ fine c (snd x) /\ snd x' = VFloat (match snd x with Number y => Some y | _ => None end)) \/
     ((forall c, In (fst x, c) body_types_spec -> ~ fine c (snd x)) /\ snd x' = VText (snd x)))) (flat_map (fun x => match key_name (fst x) with Some k => [(k, Number (snd x))] | None => [] end) l) sec).
  { clear - C J2. revert C J2. generalize body_types_file. intros file C J2. induction C as [|e e' f cfg H C IH]; [destruct J2|]. destruct J2 as [->|J2].
    - destruct e' as [n sec]. cbn in H. destruct H as [-> H]. exists sec. split; [left; reflexivity|exact H].
    - destruct (IH J2) as (sec & I & H2). exists sec. split; [right; exact I|exact H2]. }
  destruct X as (sec & I2 & F). exists sec, k. repeat match goal with |- _ /\ _ => split end; auto.
  assert (I3 : In (k, Number x) (flat_map (fun x => match key_name (fst x) with Some k => [(k, Number (snd x))] | None => [] end) l)).
  { apply in_flat_map. exists (f, x). split; auto. cbn. rewrite K. left. reflexivity. }
  clear - F I3 R1 R2 K.
  induction F as [|y y' l1 l2 H F IH]; [destruct I3|]. destruct I3 as [->|I3]; [|right; auto]. left. destruct y' as [k' v]. cbn in *.
  destruct H as [-> [(c & _ & _ & ->)|[H _]]]; [reflexivity|]. exfalso.
  destruct f; cbn in K; try discriminate; injection K as <-; cbn in R2;
  (refine (H _ _ _); [cbn; tauto|right; exists x; split; [reflexivity|split; cbn; intros m [= <-]; (exact R1 || (apply R2; tauto))]]).
Qed.
Print Assumptions C108_shipped.

(** A file that is refused, and a specification that has no checks. *)
Example C108_example : load_config [("a", [("ratio_rt", Number 2)])] (Some body_types_spec) = Err ValidationError /\
  is_ok (load_config [("a", [("ratio_rt", Number 2)])] (Some [])) /\
  well_formed body_types_spec [("a", [("ratio_rt", Number 2)])].
Proof.
  assert (W : well_formed body_types_spec [("a", [("ratio_rt", Number 2)])]).
  { repeat split; cbn.
    - repeat (constructor; [cbn; intuition discriminate|]). constructor.
    - repeat (constructor; [cbn; intuition discriminate|]). constructor.
    - intros n s [[= <- <-]|[]]. cbn. repeat constructor. cbn. tauto. }
  repeat match goal with |- _ /\ _ => split end; auto.
  - apply C108_refused; auto. split; [discriminate|]. intros n s [[= <- <-]|[]] C.
    destruct (C "mass_mean" (FloatCheck (Some 0) None)) as (v & [I|[]] & _); [cbn; tauto|discriminate].
  - eexists. reflexivity.
Qed.

(** ** C109 *)
(** Reading a signature gives the parameters except "self", in order, with their defaults
    and annotations. *)
Theorem C109_signature : forall A (l : list (parameter A)), (forall p, In p l -> p_default p <> EmptyInstance) ->
  exists specs, parse_signature l = Ok specs /\
  map s_name specs = filter (fun n => negb (String.eqb n "self")) (map p_name l) /\
  (forall p, In p l -> p_name p <> "self" -> exists s, In s specs /\ s_name s = p_name p /\
    (p_default p <> EmptyClass -> s_default s = p_default p) /\ (p_annotation p <> EmptyClass -> s_annotation s = p_annotation p) /\
    (p_annotation p = EmptyClass -> s_annotation s = PyNone)).
Proof.
  intros A l H. eexists. split; [apply signature_ok, H|]. split.
  - clear H. induction l as [|p l IH]; cbn; auto. destruct (String.eqb (p_name p) "self"); cbn; congruence.
  - intros p I N. eexists. split; [apply in_map, filter_In; split; [exact I|]|]; cbn.
    + apply negb_true_iff, String.eqb_neq, N.
    + repeat split; intros; destruct (p_default p), (p_annotation p); cbn; congruence.
Qed.
Print Assumptions C109_signature.
(** Parameters without default are to be refused, but are passed on as if the default were None. *)
Theorem C109_no_default_refuted : forall A (l : list (parameter A)),
  (forall p, In p l -> p_default p = EmptyClass) -> exists specs, parse_signature l = Ok specs /\
  (forall s, In s specs -> s_default s = PyNone) /\
  parse_signature (map (fun p => Param (p_name p) PyNone (p_annotation p)) l) = Ok specs.
Proof.
  intros A l H. eexists. repeat match goal with |- _ /\ _ => split end.
  - apply signature_ok. intros p I. rewrite (H p I). discriminate.
  - intros s I. apply in_map_iff in I as (p & <- & I). apply filter_In in I as [I _]. cbn. rewrite (H p I). reflexivity.
  - rewrite signature_ok; [|intros p I; apply in_map_iff in I as (q & <- & _); discriminate].
    f_equal. clear -H. induction l as [|p l IH]; auto. specialize (IH (fun q I => H q (or_intror I))). cbn.
    destruct (String.eqb (p_name p) "self"); cbn; [exact IH|]. rewrite (H p (or_introl eq_refl)). cbn. f_equal. exact IH.
Qed.
Print Assumptions C109_no_default_refuted.
(** Refused is only an instance of the marker for "no default", which no signature has. *)
Theorem C109_refused : forall A (l r : list (parameter A)) p, (forall q, In q l -> p_default q <> EmptyInstance) ->
  p_name p <> "self" -> p_default p = EmptyInstance -> parse_signature (l ++ p :: r) = Err InvalidType.
Proof.
  intros A l r p H N E. induction l as [|q l IH]; cbn.
  - destruct (String.eqb (p_name p) "self") eqn:X; [apply String.eqb_eq in X; contradiction|]. unfold mkspec. rewrite E. reflexivity.
  - rewrite IH by (intros; apply H; now right). destruct (String.eqb (p_name q) "self"); [reflexivity|]. unfold mkspec.
    destruct (isinstance_empty (p_default q)); reflexivity.
Qed.
Print Assumptions C109_refused.
(** A deprecated function is to warn and work, but in Python 3 no call of it gets that far:
    no warning, and an AttributeError whatever the function does. *)
Theorem C109_deprecated_refuted : forall X Y (body : X -> res Y) x,
  deprecated (Func python3_attributes body) x = (0%nat, Err AttributeError).
Proof. reflexivity. Qed.
Print Assumptions C109_deprecated_refuted.
(** With the attribute of Python 2 it would. *)
Theorem C109_deprecated_partial : forall X Y (f : func X Y) x, In "__name__" (attributes_of f) -> In "func_code" (attributes_of f) ->
  deprecated f x = (1%nat, body_of f x).
Proof.
  intros X Y f x I J. unfold deprecated, getattr.
  assert (K : forall n, In n (attributes_of f) -> existsb (String.eqb n) (attributes_of f) = true).
  { intros n H. apply existsb_exists. exists n. split; auto. apply String.eqb_refl. }
  rewrite !K by auto. reflexivity.
Qed.
Print Assumptions C109_deprecated_partial.

Example C109_example : parse_signature [Param "self" EmptyClass EmptyClass; Param "width" (Object 5%Z) EmptyClass; Param "model" EmptyClass (Object 7%Z)]
  = Ok [ArgSpec "width" (Object 5%Z) PyNone; ArgSpec "model" PyNone (Object 7%Z)].
Proof. reflexivity. Qed.
