(** * Property C141: agents made from keyword arguments *)
From Coq Require Import Lra Lia Permutation.
From Verif Require Import Spec.Built Proofs.VecLemmas Proofs.BodyProofs Proofs.BuiltProofs.
Open Scope R_scope.

Lemma given_nonneg key args : Forall in_bounds args -> 0 <= given key args.
Proof.
  induction 1 as [|a l B _ IH]; cbn [given]; [lra|]. destruct (String.eqb key (keyword a)); [|exact IH]. destruct a; cbn in *; try lra. exact (proj1 B).
Qed.
(** The person that is made. *)
Definition person zs name rt rs ts rm rsc tvm tvs mm ms args : bodyt :=
  let gr := given "radius" args in let gm := given "mass" args in let gv := given "target_velocity" args in
  let r := r' zs gr rm rsc in
  afterwards zs name gr gm gv (given "target_angular_velocity" args) rt rs ts rm rsc tvm tvs mm ms (rt * r) (rs * r) (ts * r)
    (i' zs gr gm gv (given "inertia_rot" args) rm rsc mm ms).
Lemma built_person zs cfg name rt rs ts rm rsc tvm tvs mm ms args : (forall n, -3 <= zs n <= 3) -> sensible rt rs ts rm rsc tvm tvs mm ms ->
  cfg name = Some (cfg_section rt rs ts rm rsc tvm tvs mm ms) -> name <> ""%string ->
  once args -> Forall in_bounds args -> no_means args -> In (OfType name) args ->
  body_built zs cfg args = Ok (person zs name rt rs ts rm rsc tvm tvs mm ms args).
Proof.
  intros Hz G K NE N F M T. destruct (store_all name args N F M T NE) as (ns & E & C & CT & ND). unfold body_built. rewrite E. cbn [rbind fst snd].
  pose proof (fun key => given_nonneg key args F) as P.
  change (stored name args) with (before name (given "radius" args) (given "mass" args) (given "target_velocity" args) (given "target_angular_velocity" args)
    (given "ratio_rt" args) (given "ratio_rs" args) (given "ratio_ts" args) (given "r_t" args) (given "r_s" args) (given "r_ts" args) (given "inertia_rot" args)).
  rewrite (told zs name _ _ _ (given "inertia_rot" args) _ _ _ _ (P _) (P _) (P _) (P _) (P _) (P _) (P _) rt rs ts rm rsc tvm tvs mm ms G Hz cfg ns); auto.
  intros f. rewrite C. unfold explicit. cbn [In]. split; intros (H & X); (split; [exact H|]); destruct H as [<-|[<-|[<-|[<-|[<-|[<-|[]]]]]]]; exact X.
Qed.
(** Somebody made from a body type and any other values, in any order: a radius, a mass and a
    walking speed that are given are kept and the others drawn from the type; the proportions,
    means and scales are those of the type, the radii of the parts and the inertia fit. *)
Theorem C141_built : forall zs cfg name rt rs ts rm rsc tvm tvs mm ms args, (forall n, -3 <= zs n <= 3) -> sensible rt rs ts rm rsc tvm tvs mm ms ->
  cfg name = Some (cfg_section rt rs ts rm rsc tvm tvs mm ms) -> name <> ""%string ->
  once args -> Forall in_bounds args -> no_means args -> In (OfType name) args ->
  exists b, body_built zs cfg args = Ok b /\ b_body_type b = name /\
    (forall f v, In f [Radius; Mass; TargetVelocity] -> In (Given f v) args -> v <> 0 -> bget f b = v) /\
    (given "radius" args = 0 -> rm - rsc <= b_radius b <= rm + rsc) /\
    (given "target_velocity" args = 0 -> tvm - tvs <= b_target_velocity b <= tvm + tvs) /\
    (given "mass" args = 0 -> mm - ms <= b_mass b <= mm + ms) /\
    (b_ratio_rt b = rt /\ b_ratio_rs b = rs /\ b_ratio_ts b = ts) /\
    (b_r_t b = rt * b_radius b /\ b_r_s b = rs * b_radius b /\ b_r_ts b = ts * b_radius b) /\
    (forall i, In (Inertia i) args -> i <> 0 -> b_inertia_rot b = i) /\
    (given "inertia_rot" args = 0 -> b_inertia_rot b = 4 * PI * (b_mass b / 80) * (b_radius b / (27/100)) ^ 2) /\
    b_target_angular_velocity b = given "target_angular_velocity" args /\
    (b_radius_mean b = rm /\ b_radius_scale b = rsc /\ b_target_velocity_mean b = tvm /\ b_target_velocity_scale b = tvs /\ b_mass_mean b = mm /\ b_mass_scale b = ms) /\
    b_draws b = ((if Req_EM_T (given "radius" args) 0 then 1 else 0) + (if Req_EM_T (given "target_velocity" args) 0 then 1 else 0) + (if Req_EM_T (given "mass" args) 0 then 1 else 0))%nat.
Proof.
  intros zs cfg name rt rs ts rm rsc tvm tvs mm ms args Hz G K NE N F M T. rewrite (built_person zs cfg name rt rs ts rm rsc tvm tvs mm ms args Hz G K NE N F M T).
  eexists. split; [reflexivity|]. unfold person, afterwards. cbn [b_body_type bget b_radius b_mass b_target_velocity b_ratio_rt b_ratio_rs b_ratio_ts b_r_t b_r_s b_r_ts b_inertia_rot b_target_angular_velocity
    b_radius_mean b_radius_scale b_target_velocity_mean b_target_velocity_scale b_mass_mean b_mass_scale b_draws].
  destruct G as (_ & _ & _ & G4 & G5 & G6). pose proof (fun key => given_nonneg key args F) as P.
  split; [reflexivity|]. split.
  { intros f v Hf I X. pose proof (given_in _ _ N I) as Q. cbn [keyword amount] in Q. cbn [In] in Hf.
    destruct Hf as [<-|[<-|[<-|[]]]]; cbn [trait_name bget b_radius b_mass b_target_velocity] in *; unfold r', m', v'; rewrite Q, (proj2 (Reqb_false v 0) X); reflexivity. }
  split; [intros ->; unfold r'; rewrite (proj2 (Reqb_true 0 0) eq_refl); apply truncnorm3_range; [apply Hz|lra]|].
  split; [intros ->; unfold v'; rewrite (proj2 (Reqb_true 0 0) eq_refl); apply truncnorm3_range; [apply Hz|lra]|].
  split; [intros ->; unfold m'; rewrite (proj2 (Reqb_true 0 0) eq_refl); apply truncnorm3_range; [apply Hz|lra]|].
  split; [auto|]. split; [auto|]. split.
  { intros i I X. pose proof (given_in _ _ N I) as Q. cbn [keyword amount] in Q. unfold i'. rewrite Q, (proj2 (Reqb_false i 0) X). reflexivity. }
  split; [intros ->; unfold i'; rewrite (proj2 (Reqb_true 0 0) eq_refl); unfold inertia_of; ring|]. split; [reflexivity|]. split; [repeat split|].
  unfold n3, n2, n1. destruct (reqb_cases _ (P "radius"%string)) as [(-> & A)|(-> & A)], (reqb_cases _ (P "target_velocity"%string)) as [(-> & B)|(-> & B)], (reqb_cases _ (P "mass"%string)) as [(-> & C)|(-> & C)];
    repeat (destruct (Req_EM_T _ _); try lra); reflexivity.
Qed.
Print Assumptions C141_built.
(** The order of the arguments makes no difference, draw by draw. *)
Lemma given_permuted key args args' : once args -> Permutation args args' -> given key args = given key args'.
Proof.
  intros N P. assert (N' : once args') by (unfold once in *; eapply Permutation_NoDup; [apply Permutation_map, P|exact N]).
  destruct (in_dec String.string_dec key (map keyword args)) as [I|I].
  - apply in_map_iff in I. destruct I as (a & <- & I). rewrite (given_in a args N I). symmetry. apply given_in; [exact N'|]. now apply (Permutation_in _ P).
  - rewrite !given_out; auto. intros J. apply I. apply (Permutation_in _ (Permutation_map keyword (Permutation_sym P)) J).
Qed.
Theorem C141_order : forall zs cfg name rt rs ts rm rsc tvm tvs mm ms args args', (forall n, -3 <= zs n <= 3) -> sensible rt rs ts rm rsc tvm tvs mm ms ->
  cfg name = Some (cfg_section rt rs ts rm rsc tvm tvs mm ms) -> name <> ""%string ->
  once args -> Forall in_bounds args -> no_means args -> In (OfType name) args -> Permutation args args' ->
  body_built zs cfg args' = body_built zs cfg args.
Proof.
  intros zs cfg name rt rs ts rm rsc tvm tvs mm ms args args' Hz G K NE N F M T P.
  rewrite (built_person zs cfg name rt rs ts rm rsc tvm tvs mm ms args Hz G K NE N F M T).
  rewrite (built_person zs cfg name rt rs ts rm rsc tvm tvs mm ms args' Hz G K NE).
  - unfold person. now rewrite !(given_permuted _ _ _ N P).
  - unfold once in *. eapply Permutation_NoDup; [apply Permutation_map, P|exact N].
  - eapply Permutation_Forall; eauto.
  - intros f v I. eapply M. eapply Permutation_in; [apply Permutation_sym, P|exact I].
  - eapply Permutation_in; eauto.
Qed.
Print Assumptions C141_order.
(** A number out of bounds is refused, whatever else is given; so is an unknown body type. *)
Theorem C141_refused : forall zs cfg args, ~ Forall in_bounds args -> body_built zs cfg args = Err TraitError.
Proof.
  intros zs cfg args H. unfold body_built. replace (store_arguments args body0) with (@Err (list notice * bodyt) TraitError); [reflexivity|]. generalize body0.
  induction args as [|a l IH]; intros b; [elim H; constructor|]. cbn [store_arguments].
  assert (Q : in_bounds a \/ store_argument a b = Err TraitError).
  { destruct a as [f v|s|v|v|v|v|v]; cbn; auto; [destruct (bvalid f v) eqn:E; [left; now apply range_bvalid|now right]|..];
      (destruct (Rleb 0 v) eqn:E; [left; now apply Rleb_true|now right]). }
  destruct Q as [Q|Q]; [|now rewrite Q]. destruct (store_one a b Q) as (n & b' & -> & _). cbn [rbind fst snd]. rewrite <- IH; [reflexivity|]. intros J. apply H. now constructor.
Qed.
Print Assumptions C141_refused.
Theorem C141_unknown_type : forall zs cfg name args, cfg name = None -> name <> ""%string -> once args -> Forall in_bounds args -> no_means args -> In (OfType name) args ->
  body_built zs cfg args = Err KeyError.
Proof.
  intros zs cfg name args K NE N F M T. destruct (store_all name args N F M T NE) as (ns & E & C & CT & ND). unfold body_built. rewrite E. cbn [rbind fst snd].
  pose proof (fun key => given_nonneg key args F) as P.
  change (stored name args) with (before name (given "radius" args) (given "mass" args) (given "target_velocity" args) (given "target_angular_velocity" args)
    (given "ratio_rt" args) (given "ratio_rs" args) (given "ratio_ts" args) (given "r_t" args) (given "r_s" args) (given "r_ts" args) (given "inertia_rot" args)).
  apply in_split in CT. destruct CT as (l1 & l2 & ->).
  assert (D : forall l b, deliver_all zs cfg (l1 ++ l) b = bseq (deliver_all zs cfg l1 b) (deliver_all zs cfg l)).
  { clear. induction l1 as [|n l1 IH]; intros l b; [reflexivity|]. cbn [app deliver_all]. destruct (deliver zs cfg n b) as [[e|] b1]; cbn [bseq]; [reflexivity|apply IH]. }
  rewrite D. edestruct (before_all zs name (given "radius" args) (given "mass" args) (given "target_velocity" args) (given "inertia_rot" args) (given "target_angular_velocity" args)
    (given "ratio_rt" args) (given "ratio_rs" args) (given "ratio_ts" args)) as (x1 & y1 & z1 & j1 & E1 & _); auto; try apply P.
  3:{ rewrite E1. cbn [bseq deliver_all deliver]. change (b_body_type _) with name. now rewrite K. }
  - intros n J. destruct n as [f|]; [|exfalso; apply NoDup_remove_2 in ND; apply ND, in_or_app; now left]. exists f. split; [reflexivity|].
    assert (Q : In (Changed f) (l1 ++ TypeChanged :: l2)) by (apply in_or_app; now left). apply C in Q. destruct Q as (H & X). split; [exact H|].
    unfold explicit in H. cbn [In] in H. destruct H as [<-|[<-|[<-|[<-|[<-|[<-|[]]]]]]]; exact X.
  - now left.
Qed.
Print Assumptions C141_unknown_type.
(** With nothing but the body type the object is the one that gets its body type afterwards. *)
Theorem C141_type_alone : forall zs cfg name, name <> ""%string ->
  body_built zs cfg [OfType name] = match assign_body_type zs cfg name body0 with (None, b) => Ok b | (Some e, _) => Err e end.
Proof.
  intros zs cfg name NE. unfold body_built, assign_body_type. cbn [store_arguments store_argument rbind fst snd body0 b_body_type put_body_type app].
  destruct (String.eqb_spec name ""); [contradiction|]. cbn [app deliver_all deliver]. rewrite String.eqb_refl. change (b_body_type (put_body_type name body0)) with name.
  cbn [b_body_type]. destruct (cfg name) as [items|]; [|reflexivity]. now destruct (assign_items zs items _) as [[e|] b].
Qed.
Print Assumptions C141_type_alone.
(** Means and scales are overwritten by those of the body type.  Whether the radius is drawn
    from the mean that was given depends on the order. *)
Theorem C141_means_of_the_type : forall zs, zs 0%nat = 0 -> zs 1%nat = 0 -> zs 2%nat = 0 -> exists b b',
  body_built zs shipped_config [Given RadiusMean (3/10); Given RadiusScale (1/100); OfType "adult"] = Ok b /\
  body_built zs shipped_config [OfType "adult"; Given RadiusMean (3/10); Given RadiusScale (1/100)] = Ok b' /\
  b_radius b = 3/10 /\ b_radius b' = 255/1000 /\ b_radius_mean b = 255/1000 /\ b_radius_mean b' = 255/1000.
Proof.
  intros zs Z0 Z1 Z2. assert (T : forall n m s, (n <= 2)%nat -> truncnorm3 zs n m s = m).
  { intros n m s H. rewrite truncnorm3_eq. destruct n as [|[|[|n]]]; [rewrite Z0|rewrite Z1|rewrite Z2|lia]; ring. }
  assert (Adult : shipped_config "adult"%string = Some (cfg_section (5882/10000) (3725/10000) (6275/10000) (255/1000) (35/1000) (125/100) (3/10) (735/10) 8)) by reflexivity.
  assert (B : forall f v, explicit f \/ True -> 0 <= v <= 1 -> bvalid f v = true) by (intros f v _ H; apply bvalid_range; unfold trait_range; lra).
  do 2 eexists. split; [|split].
  - unfold body_built. cbn [store_arguments store_argument bget b_radius_mean b_radius_scale b_body_type body0 bput rbind fst snd]. repeat (rewrite B by (auto; lra); cbn [rbind fst snd bget bput b_radius_mean b_radius_scale b_body_type put_body_type String.eqb]).
    rewrite (proj2 (Reqb_false (3/10) 0)), (proj2 (Reqb_false (1/100) 0)) by lra. cbn [app fst snd String.eqb put_body_type deliver_all deliver notify_trait].
    unfold observe_truncnorm at 1. cbn [bget b_radius b_radius_mean b_radius_scale b_draws put_draws]. rdec. cbn [andb]. rewrite T by lia. unfold assign_drawn. rewrite B by (auto; lra). cbn [bget b_radius]. rdec.
    unfold observe_radius. cbn [bput b_ratio_rt b_ratio_rs b_ratio_ts b_radius]. rdec. cbn [put_radii b_r_t b_r_s b_r_ts]. rewrite observe_inertia_if. rdec. cbn [andb bseq].
    unfold observe_truncnorm at 1. cbn [bget b_radius]. rdec. cbn [andb bseq b_body_type]. rewrite Adult. unfold cfg_section.
    do 9 (erewrite items_step; [|unfold assign, bvalid, observe_truncnorm, assign_drawn, bvalid, observe_inertia, observe_radius; cbn -[truncnorm3 PI];
      repeat (rdec; cbn -[truncnorm3 PI]; rewrite ?T by lia); reflexivity]).
    cbn [assign_items bseq]. reflexivity.
  - unfold body_built. cbn [store_arguments store_argument bget b_radius_mean b_radius_scale b_body_type body0 bput rbind fst snd String.eqb put_body_type]. repeat (rewrite B by (auto; lra); cbn [rbind fst snd bget bput b_radius_mean b_radius_scale b_body_type put_body_type String.eqb]).
    rewrite (proj2 (Reqb_false (3/10) 0)), (proj2 (Reqb_false (1/100) 0)) by lra. cbn [app fst snd deliver_all deliver b_body_type]. rewrite Adult. unfold cfg_section.
    do 9 (erewrite items_step; [|unfold assign, bvalid, observe_truncnorm, assign_drawn, bvalid, observe_inertia, observe_radius; cbn -[truncnorm3 PI];
      repeat (rdec; cbn -[truncnorm3 PI]; rewrite ?T by lia); reflexivity]).
    cbn [assign_items bseq notify_trait]. do 2 (unfold observe_truncnorm at 1; cbn [bget b_radius]; rdec; cbn [andb bseq]). reflexivity.
  - cbn [b_radius b_radius_mean]. repeat split; lra.
Qed.
Print Assumptions C141_means_of_the_type.
(** Somebody of 90 kg, made as an adult. *)
Example C141_case : forall zs, (forall n, -3 <= zs n <= 3) -> exists b,
  body_built zs shipped_config [Given Mass 90; OfType "adult"; TorsoRadius 1] = Ok b /\ body_built zs shipped_config [OfType "adult"; TorsoRadius 1; Given Mass 90] = Ok b /\
  b_mass b = 90 /\ 22/100 <= b_radius b <= 29/100 /\ b_r_t b = 5882/10000 * b_radius b /\ b_draws b = 2%nat.
Proof.
  intros zs Hz. set (args := [Given Mass 90; OfType "adult"; TorsoRadius 1]).
  assert (N : once args) by (unfold once, args; cbn; repeat constructor; cbn; intuition discriminate).
  assert (F : Forall in_bounds args).
  { unfold args. apply Forall_cons; [unfold in_bounds, trait_range; split; [lra|cbn; intuition discriminate]|]. repeat constructor. cbn. lra. }
  assert (M : no_means args) by (intros f v I; cbn in I; destruct I as [I|[I|[I|[]]]]; try discriminate I; injection I as <- <-; cbn; tauto).
  assert (G : sensible (5882/10000) (3725/10000) (6275/10000) (255/1000) (35/1000) (125/100) (3/10) (735/10) 8) by (unfold sensible; lra).
  destruct (C141_built zs shipped_config "adult" _ _ _ _ _ _ _ _ _ args Hz G eq_refl ltac:(discriminate) N F M) as (b & E & _ & V & R0 & _ & _ & _ & (P & _) & _ & _ & _ & _ & D); [right; now left|].
  exists b. split; [exact E|]. split.
  - rewrite <- E. apply (C141_order zs shipped_config "adult" _ _ _ _ _ _ _ _ _ args _ Hz G eq_refl ltac:(discriminate) N F M); [right; now left|].
    unfold args. eapply perm_trans; [apply perm_swap|]. apply perm_skip, perm_swap.
  - split; [apply (V Mass); cbn; [tauto|now left|lra]|]. split; [specialize (R0 eq_refl); lra|]. split; [exact P|]. rewrite D. change (given "radius" args) with 0. change (given "target_velocity" args) with 0. change (given "mass" args) with 90.
    destruct (Req_EM_T 0 0); [|lra]. destruct (Req_EM_T 90 0); [lra|]. reflexivity.
Qed.
