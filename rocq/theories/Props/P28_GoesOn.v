(** * Property C122: simulations that are set up properly go on *)
From Coq Require Import Lra Lia.
From Verif Require Import Model.Simulation Model.LogicTree Model.ExampleSims Spec.GoesOn Spec.Runs Proofs.VecLemmas Proofs.RunProofs Proofs.GoesOnProofs Proofs.SimulationMore Proofs.Witness11 Props.P18_Crowds.
Open Scope R_scope.

(** ** C122 *)
(** Any tree: after any number of updates there is another one. *)
Theorem C122_goes_on : forall e x s i count, pairs_of_agents e -> (forall n, In n (written_order x) -> provided e n) ->
  Forall (fit (e_kind e) (length (s_agents s))) (s_agents s) ->
  exists dts s', length dts = count /\ updates e x (s, i) dts (s', (i + count)%nat).
Proof. intros e x s i count P Q F. destruct (goes_on e x P Q count s i F) as (dts & s' & L & U & _). eauto. Qed.
Print Assumptions C122_goes_on.
(** The shipped simulations: with everybody placed, every update takes place and the clock
    shows a hundredth of a second for each; with somebody missing, not even the first one
    takes place. *)
Theorem C122_shipped : forall range x e rolled bodies targets spawn walls st, In x (shipped_logics range) -> pairs_of_agents e ->
  (forall n, In n (written_order x) -> provided e n) -> fair_bodies bodies -> started (e_kind e) rolled bodies targets spawn walls st ->
  (complete st -> forall count, exists s, updates e x (new_simulation (ag_array st)) (repeat (1/100) count) (s, count) /\ s_time s = INR count / 100) /\
  (~ complete st -> exists s ex, simulation_update e x (new_simulation (ag_array st)) = (s, Some ex) /\ snd s = 0%nat).
Proof.
  intros range x e rolled bodies targets spawn walls st Hx P Q Hb S. destruct (shipped_parts range x Hx) as (A & l1 & l2 & W & N). split.
  - intros C count. destruct (goes_on e x P Q count (fst (new_simulation (ag_array st))) 0) as (dts & s & L & U & _); [exact (started_fit _ _ _ _ _ _ _ _ Hb S C)|].
    destruct (steady e x l1 (1/100) l2 W N _ _ _ U) as [D T]. rewrite L in D, T. subst dts. exists s. split; [exact U|]. cbn in T. rewrite T. lra.
  - intros C. apply update_never_completes; [exact A|]. exists zero_row. split; [|reflexivity]. exact (started_unplaced _ _ _ _ _ _ _ Hb S C).
Qed.
Print Assumptions C122_shipped.
(** So [run] until a given time ends there, at most a hundredth of a second later, ... *)
Theorem C122_run_until : forall range x e rolled bodies targets spawn walls st until, In x (shipped_logics range) -> pairs_of_agents e ->
  (forall n, In n (written_order x) -> provided e n) -> fair_bodies bodies -> started (e_kind e) rolled bodies targets spawn walls st -> complete st -> 0 < until ->
  exists fuel s k, run (fun _ s => Rleb until (s_time (fst s))) (simulation_update e x) fuel (new_simulation (ag_array st)) = Some ((s, k), None) /\
    until <= s_time s < until + 1/100 /\ s_time s = INR k / 100.
Proof.
  intros range x e rolled bodies targets spawn walls st until Hx P Q Hb St C T. destruct (shipped_parts range x Hx) as (A & l1 & l2 & W & N).
  set (k := Z.to_nat (up (100 * until) - 1)). destruct (archimed (100 * until)) as [U1 U2].
  assert (X : exists k, INR k / 100 < until + 1/100 /\ until <= INR k / 100 /\ forall j, (j < k)%nat -> INR j / 100 < until).
  { assert (Z0 : (0 < up (100 * until))%Z) by (apply lt_IZR; lra). destruct (Req_dec (IZR (up (100 * until)) - 1) (100 * until)) as [E|E].
    - exists k. assert (K : INR k = 100 * until) by (unfold k; rewrite INR_IZR_INZ, Z2Nat.id by lia; rewrite minus_IZR; lra). split; [lra|]. split; [lra|]. intros j L. apply lt_INR in L. lra.
    - exists (S k). assert (K : INR (S k) = IZR (up (100 * until))) by (rewrite S_INR; unfold k; rewrite INR_IZR_INZ, Z2Nat.id by lia; rewrite minus_IZR; lra). split; [lra|]. split; [lra|]. intros j L.
      assert (INR j <= INR k) by (apply le_INR; lia). rewrite S_INR in K. lra. }
  clear k. destruct X as (k & X1 & X2 & X3).
  destruct (goes_on e x P Q k (fst (new_simulation (ag_array st))) 0) as (dts & s & L & U & _); [exact (started_fit _ _ _ _ _ _ _ _ Hb St C)|].
  destruct (steady e x l1 (1/100) l2 W N _ _ _ U) as [D Ti]. cbn in Ti. rewrite L in Ti.
  assert (E : exists fuel, run (fun (_ : nat) (s : sim * nat) => Rleb until (s_time (fst s))) (simulation_update e x) fuel (new_simulation (ag_array st)) = Some ((s, k), None)).
  { apply run_ends. exists k. constructor; [|cbn [fst]; apply Rleb_true; lra]. rewrite <- L at 1. apply updates_steps; [exact U|]. intros j d1 d2 s1 Ed Lj Nd U1'.
    destruct (steady e x l1 (1/100) l2 W N _ _ _ U1') as [_ T1]. cbn in T1. cbn [fst]. assert (J : (j < k)%nat) by (rewrite <- L, Ed, app_length; destruct d2; [contradiction|cbn; lia]).
    specialize (X3 j J). rewrite Lj in T1. destruct (Rleb until (s_time (fst s1))) eqn:R; [|reflexivity]. apply Rleb_true in R. lra. }
  destruct E as [fuel E]. exists fuel, s, k. split; [exact E|]. split; lra.
Qed.
Print Assumptions C122_run_until.
(** Without an exit condition, which is the default, [run] of a shipped simulation never
    returns; it does not even raise. *)
Theorem C122_runs_for_ever : forall range x e rolled bodies targets spawn walls st, In x (shipped_logics range) -> pairs_of_agents e ->
  (forall n, In n (written_order x) -> provided e n) -> fair_bodies bodies -> started (e_kind e) rolled bodies targets spawn walls st -> complete st ->
  forall fuel, run (fun _ _ => false) (simulation_update e x) fuel (new_simulation (ag_array st)) = None.
Proof.
  intros range x e rolled bodies targets spawn walls st Hx P Q Hb S C. apply run_forever. intros k.
  destruct (goes_on e x P Q k (fst (new_simulation (ag_array st))) 0) as (dts & s & L & U & F); [exact (started_fit _ _ _ _ _ _ _ _ Hb S C)|].
  destruct (goes_on e x P Q 1 s k F) as (dts' & s' & L' & U' & _).
  exists (s, k). split; [|split; [reflexivity|]].
  - rewrite <- L at 1. apply updates_steps; [exact U|]. reflexivity.
  - destruct dts' as [|d [|d' dts']]; try discriminate. inversion U'; subst. match goal with H : simulation_update _ _ _ = _ |- _ => now rewrite H end.
Qed.
Print Assumptions C122_runs_for_ever.
(** ... and a worker process that runs one puts the end marker into the queue once it is
    told to stop. *)
Theorem C122_worker : forall range x e rolled bodies targets spawn walls st event k, In x (shipped_logics range) -> pairs_of_agents e ->
  (forall n, In n (written_order x) -> provided e n) -> fair_bodies bodies -> started (e_kind e) rolled bodies targets spawn walls st -> complete st -> event k = true ->
  exists fuel, process_run event (simulation_update e x) fuel (new_simulation (ag_array st)) = Some ([EndProcess], None).
Proof.
  intros range x e rolled bodies targets spawn walls st event k Hx P Q Hb St C K.
  assert (X : exists k, event k = true /\ forall j, (j < k)%nat -> event j = false).
  { clear - K. induction k as [k IH] using lt_wf_ind. destruct (existsb event (seq 0 k)) eqn:E.
    - apply existsb_exists in E. destruct E as (j & I & E). apply in_seq in I. apply (IH j); [lia|exact E].
    - exists k. split; [exact K|]. intros j L. destruct (event j) eqn:V; [|reflexivity]. exfalso. assert (existsb event (seq 0 k) = true) by (apply existsb_exists; exists j; split; [apply in_seq; lia|exact V]). congruence. }
  clear k K. destruct X as (k & K & Kj). destruct (goes_on e x P Q k (fst (new_simulation (ag_array st))) 0) as (dts & s & L & U & _); [exact (started_fit _ _ _ _ _ _ _ _ Hb St C)|].
  assert (E : exists fuel, run (fun (k : nat) (_ : sim * nat) => event k) (simulation_update e x) fuel (new_simulation (ag_array st)) = Some ((s, (0 + k)%nat), None)).
  { apply run_ends. exists k. constructor; [|exact K]. rewrite <- L at 1. apply updates_steps; [exact U|]. intros j d1 d2 s1 Ed Lj Nd _. cbn. apply Kj. rewrite <- L, Ed, app_length. destruct d2; [contradiction|cbn; lia]. }
  destruct E as [fuel E]. exists fuel. unfold process_run. rewrite E. reflexivity.
Qed.
Print Assumptions C122_worker.

(** A hundred people outdoors on a lattice run for a minute, and go on as long as one likes. *)
Example C122_case : exists st, outdoor_crowd Circular calm_rolls average_bodies lattice 100 = Ok st /\ length (ag_array st) = 100%nat /\
  (forall count, exists s, updates (plain_env everywhere) logic_outdoor (new_simulation (ag_array st)) (repeat (1/100) count) (s, count) /\ s_time s = INR count / 100) /\
  exists fuel s k, run (fun _ s => Rleb 60 (s_time (fst s))) (simulation_update (plain_env everywhere) logic_outdoor) fuel (new_simulation (ag_array st)) = Some ((s, k), None) /\ 60 <= s_time s < 60 + 1/100.
Proof.
  destruct (C97_outdoor Circular calm_rolls average_bodies lattice calm_fair average_fair 100) as (st & E & L & _); [lia|apply lattice_endless|].
  assert (C : complete st) by (eapply C97_everyone_outdoor; [apply average_fair|apply lattice_endless|apply lattice_far|exact E]).
  assert (S : started Circular calm_rolls average_bodies 0 lattice [] st) by (right; eapply By_outdoor; exact E).
  assert (X : In logic_outdoor (shipped_logics 10)) by (cbn; tauto).
  assert (P : pairs_of_agents (plain_env everywhere)) by (intros p c i j []).
  assert (Q : forall n, In n (written_order logic_outdoor) -> provided (plain_env everywhere) n) by (cbn; intros n [<-|[<-|[<-|[<-|[<-|[<-|[]]]]]]]; exact Logic.I).
  exists st. split; [exact E|]. split; [exact L|]. split.
  - apply (proj1 (C122_shipped 10 logic_outdoor (plain_env everywhere) calm_rolls average_bodies 0 lattice [] st X P Q average_fair S) C).
  - destruct (C122_run_until 10 logic_outdoor (plain_env everywhere) calm_rolls average_bodies 0 lattice [] st 60 X P Q average_fair S C) as (f & s & k & R & T & _); [lra|]. eauto 6.
Qed.
