(** * Property C142: recording a run *)
From Coq Require Import Lra Lia.
From Coq Require Import String.
Import StringSyntax.
From Verif Require Import Spec.Recorded Spec.Resume Proofs.RecordedProofs Proofs.ResumeProofs Proofs.SimulationProofs Proofs.StorageProofs Proofs.Witness11 Props.P38_Resume.
Open Scope list_scope.
Open Scope nat_scope.

(** A simulation to which a node that saves was added does exactly what it does without. *)
Theorem C142_same_run : forall e x save agents, reset_on_top x ->
  (forall l, history e x (new_simulation agents) l ->
     exists v, recording e x save (List.length l) (new_recorded agents) ((fst (last l (new_simulation agents)), v), List.length l)) /\
  (forall n s v k, recording e x save n (new_recorded agents) ((s, v), k) ->
     exists l, history e x (new_simulation agents) l /\ List.length l = n /\ k = n /\ s = fst (last l (new_simulation agents))).
Proof.
  intros e x save agents Hx. split.
  - intros l H. destruct (recorded_files e x save agents l Hx H) as (n & c & R & _). now exists (n, c).
  - intros n s v k H. destruct (recording_back e x save Hx n _ _ H) as (l & L & Z & F & K). cbn [fst snd new_recorded] in *. exists l. auto.
Qed.
Print Assumptions C142_same_run.
(** Also when it fails: with the same exception, and nothing of that update is written. *)
Theorem C142_same_exceptions : forall e x save s k s' k' v ex, reset_on_top x -> simulation_update e x (s, k) = ((s', k'), Some ex) ->
  recorded_update e x save ((s, v), k) = (((s', v), k'), Some ex).
Proof. exact recorded_raise. Qed.
Print Assumptions C142_same_exceptions.

(** The data file: a line for every update up to the last one that saved.  The line of the
    first update says that there were 0 iterations, though the time is the one after it. *)
Theorem C142_data_file : forall e x save agents l, reset_on_top x -> history e x (new_simulation agents) l ->
  exists n c rows, recording e x save (List.length l) (new_recorded agents) ((fst (last l (new_simulation agents)), (n, c)), List.length l) /\
    List.length rows = List.length l /\
    (forall k s, nth_error l k = Some s -> exists row, nth_error rows k = Some row /\ data_row x k (fst s) row) /\
    let written := concat (save_groups [] (combine rows (flags save 0 l))) in
    c_file c = (match written with [] => [] | first :: _ => [Names (map fst first)] end) ++ map (fun row => Values (map snd row)) written.
Proof.
  intros e x save agents l Hx H. destruct (recorded_files e x save agents l Hx H) as (n & c & R & _ & C). exists n, c, (entries x 0 l). split; [exact R|].
  split; [apply entries_length|]. split; [|exact C]. intros k s E. exists (entry_of x (fst s) k). split; [apply (entries_nth x l 0 k s E)|apply entry_row].
Qed.
Print Assumptions C142_data_file.
(** So the time of line number [k] is the sum of the first [k + 1] time steps, and the simulation
    had then completed one iteration more than the line says. *)
Theorem C142_clock : forall e x l1 l2 dmin dmax agents l k s, written_order x = l1 ++ Integrator dmin dmax :: l2 -> (forall n, In n (l1 ++ l2) -> plain n \/ n = Reset) ->
  history e x (new_simulation agents) l -> nth_error l k = Some s ->
  snd s = k + 1 /\ s_time (fst s) = rsum (map (fun u => s_dt (fst u)) (firstn (k + 1) l)).
Proof.
  intros e x l1 l2 dmin dmax agents l k s Hx P H E. replace (k + 1) with (S k) by lia. pose proof (history_updates e x l _ H k s E) as U.
  destruct (updates_time e x l1 l2 dmin dmax Hx P _ _ _ U) as [A B]. cbn [fst snd new_simulation s_time] in A, B. rewrite map_length, firstn_length in B.
  assert (k < List.length l) by (apply nth_error_Some; congruence). split; [lia|lra].
Qed.
Print Assumptions C142_clock.

(** The array files: every save makes one, with a row for every update since the one before.  All
    rows are the agents after the update that saved, and show no forces and torques. *)
Theorem C142_array_files : forall e x save agents l, reset_on_top x -> history e x (new_simulation agents) l ->
  exists n c, recording e x save (List.length l) (new_recorded agents) ((fst (last l (new_simulation agents)), (n, c)), List.length l) /\
    n_files n = numbered (map (fun group => repeat (last group []) (List.length group)) (save_groups [] (combine (agents_after l) (flags save 0 l)))) /\
    forall i rows row a, In (i, rows) (n_files n) -> In row rows -> In a row -> at_ease (e_kind e) a.
Proof.
  intros e x save agents l Hx H. destruct (recorded_files e x save agents l Hx H) as (n & c & R & F & _). exists n, c. split; [exact R|]. split; [exact F|].
  intros i rows row a I J K. rewrite F in I. unfold numbered in I. apply in_combine_r in I. apply in_map_iff in I as (g & <- & G). apply repeat_spec in J. subst row.
  destruct g as [|y g _] using rev_ind; [destruct K|]. rewrite last_last in K.
  destruct (groups_all _ [] y _ G ltac:(apply in_or_app; right; now left)) as [[]|Q]. apply in_map_iff in Q as ([z b] & <- & Q). apply in_combine_l in Q. unfold agents_after in Q.
  apply in_map_iff in Q as (t & <- & Q). now apply (history_at_ease e x Hx l _ H t).
Qed.
Print Assumptions C142_array_files.

(** With the condition of the documentation, to save every [f] updates: as many files as the
    number of updates divided by [f], each with [f] rows that are the state after the last of
    its updates; the data file has a line for each of these updates. *)
Theorem C142_every : forall e x agents l f, reset_on_top x -> f <> 0 -> history e x (new_simulation agents) l ->
  exists n c, recording e x (every f) (List.length l) (new_recorded agents) ((fst (last l (new_simulation agents)), (n, c)), List.length l) /\
    List.length (n_files n) = List.length l / f /\
    (forall i, i < List.length l / f -> exists s, nth_error l (i * f + f - 1) = Some s /\ nth_error (n_files n) i = Some (i, repeat (s_agents (fst s)) f)) /\
    List.length (c_file c) = (if List.length l / f =? 0 then 0 else 1 + f * (List.length l / f)).
Proof.
  intros e x agents l f Hx Hf H. destruct (recorded_files e x (every f) agents l Hx H) as (n & c & R & F & C). exists n, c. split; [exact R|].
  assert (G : forall {X} (us : list X), List.length us = List.length l ->
    let gs := save_groups [] (combine us (flags (every f) 0 l)) in
    (forall g, In g gs -> List.length g = f) /\ List.length gs = List.length l / f /\ exists rest, us = concat gs ++ rest).
  { intros X us L. pose proof (every_groups f (fun s k => every f (fst s) k) Hf (fun _ _ => eq_refl) us l (flags (every f) 0 l) 0 []) as G. cbv zeta in G |- *.
    rewrite Nat.mod_0_l, L in G by exact Hf. cbn [plus app] in G. apply G; auto; [|now rewrite flags_length]. intros i y E. apply (flags_nth (every f) l 0 i y E). }
  destruct (G _ (agents_after l)) as (G1 & G2 & rest & G3); [unfold agents_after; now rewrite map_length|].
  assert (Z : List.length (n_files n) = List.length l / f).
  { rewrite F. unfold numbered. rewrite combine_length, seq_length, map_length, G2. lia. }
  split; [exact Z|]. split.
  - intros i Hi. destruct (nth_error (save_groups [] (combine (agents_after l) (flags (every f) 0 l))) i) as [g|] eqn:Eg.
    2:{ apply nth_error_None in Eg. lia. }
    pose proof (group_last f [] Hf _ rest i g G1 Eg) as Q. rewrite <- G3 in Q. unfold agents_after in Q. rewrite nth_error_map in Q.
    destruct (nth_error l (i * f + f - 1)) as [s|] eqn:Es; [|discriminate]. exists s. split; [reflexivity|]. cbn in Q. injection Q as Q.
    rewrite F. apply numbered_nth. rewrite nth_error_map, Eg. cbn. rewrite Q. rewrite (G1 g) by (now apply nth_error_In in Eg). reflexivity.
  - destruct (G _ (entries x 0 l) (entries_length x l 0)) as (E1 & E2 & _). cbv zeta in C. rewrite C.
    assert (Y : forall {X} (gs : list (list X)), (forall g, In g gs -> List.length g = f) -> List.length (concat gs) = f * List.length gs).
    { clear. induction gs as [|g gs IH]; intros K; [cbn; lia|]. cbn [concat List.length]. rewrite app_length, IH by (intros; apply K; now right). rewrite (K g) by now left. lia. }
    specialize (Y _ _ E1). rewrite E2 in Y. set (w := concat (save_groups [] (combine (entries x 0 l) (flags (every f) 0 l)))) in *. rewrite app_length, map_length. unfold dict in *. rewrite Y. destruct (Nat.eqb_spec (List.length l / f) 0) as [Q|Q].
    + rewrite Q, Nat.mul_0_r in *. now destruct w.
    + destruct w; [cbn in Y; nia|reflexivity].
Qed.
Print Assumptions C142_every.

(** A run can be taken up again from any file of such a recording: the agents read from it go on
    as they did in the recorded run. *)
Theorem C142_resume : forall e x agents l f, reset_on_top x -> f <> 0 -> history e x (new_simulation agents) l ->
  exists n c, recording e x (every f) (List.length l) (new_recorded agents) ((fst (last l (new_simulation agents)), (n, c)), List.length l) /\
    forall i rows row s m s', nth_error (n_files n) i = Some (i, rows) -> In row rows ->
      nth_error l (i * f + f - 1) = Some s -> nth_error l (i * f + f - 1 + m) = Some s' ->
      exists t, after (later (s_draws (fst s)) e) x m (new_simulation row) (t, m) /\ s_agents t = s_agents (fst s').
Proof.
  intros e x agents l f Hx Hf H. destruct (C142_every e x agents l f Hx Hf H) as (n & c & R & Z & F & _). exists n, c. split; [exact R|].
  intros i rows row s m s' E J Es E'. assert (Hi : i < List.length l / f) by (rewrite <- Z; apply nth_error_Some; congruence).
  destruct (F i Hi) as (s0 & Es0 & Ef). rewrite Es in Es0. injection Es0 as <-. rewrite Ef in E. injection E as <-. apply repeat_spec in J. subst row.
  set (k := i * f + f - 1) in *. clearbody k. clear - H Es E'.
  assert (S1 : after e x (S k) (new_simulation agents) s) by (now apply (history_steps e x l _ H 0 k s)).
  assert (S2 : after e x m s s').
  { clear S1. revert k H Es E'. generalize (new_simulation agents). induction l as [|u l IH]; intros s0 k H Es E'; [destruct k; discriminate|].
    inversion H as [|? ? ? U H1]; subst. destruct k as [|k].
    - injection Es as ->. destruct m as [|m]; [injection E' as ->; constructor|]. cbn in E'. now apply (history_steps e x l _ H1 0 m s').
    - apply (IH u k H1 Es E'). }
  destruct s as [s k1], s' as [s' k2]. destruct (C136_goes_on e x agents (S k) m s k1 s' k2 S1 S2) as (t & A & B & _). exists t. auto.
Qed.
Print Assumptions C142_resume.
(** Somebody who passes a notch of the domain, saved every two updates: of three updates the first
    two are saved, both with the agents after the second. *)
Example C142_case : reset_on_top logic_count /\ (forall range x, In x (shipped_logics range) -> reset_on_top x) /\
  history (plain_env notched) logic_count (new_simulation [drifter 0 true]) thrice /\
  exists n c, recording (plain_env notched) logic_count (every 2) 3 (new_recorded [drifter 0 true]) ((fst (last thrice (new_simulation [])), (n, c)), 3) /\
    n_files n = [(0%nat, [[drifter (0 + 3/2 + 3/2) false]; [drifter (0 + 3/2 + 3/2) false]])]%R /\
    c_file c = [Names ["iterations"; "time_tot"; "dt"; "inactive"]; Values [Count 0; Amount (0 + 1); Amount 1; Count 0]; Values [Count 1; Amount (0 + 1 + 1); Amount 1; Count 1]]%string%R.
Proof.
  assert (Hx : reset_on_top logic_count) by (eexists; reflexivity). split; [exact Hx|]. split; [|split; [exact thrice_history|]].
  - intros range x H. repeat (destruct H as [<-|H]; [eexists; reflexivity|]). destruct H.
  - destruct (recorded_files (plain_env notched) logic_count (every 2) [drifter 0 true] thrice Hx thrice_history) as (n & c & R & F & C). exists n, c. split; [exact R|].
    split; [exact F|exact C].
Qed.
