(** The run loop and the worker process. *)
From Coq Require Import Lia.
From Verif Require Export Spec.Runs Spec.Trees Proofs.TreeOrderProofs.
Open Scope nat_scope.

Section Loop.
  Context {St : Type} (exit : nat -> St -> bool) (upd : St -> St * option exn).
  Lemma run_from_spec fuel : forall k0 s,
    match run_from exit upd k0 fuel s with
    | None => exists s', steps exit upd k0 fuel s s'
    | Some (s', None) => exists k, k < fuel /\ steps exit upd k0 k s s' /\ exit (k0 + k) s' = true
    | Some (s', Some e) => exists k s1, k < fuel /\ steps exit upd k0 k s s1 /\ exit (k0 + k) s1 = false /\ upd s1 = (s', Some e)
    end.
  Proof.
    induction fuel as [|fuel IH]; intros k0 s; cbn; [exists s; constructor|]. destruct (exit k0 s) eqn:E.
    - exists 0. rewrite Nat.add_0_r. repeat split; auto; [lia|constructor].
    - destruct (upd s) as [s1 [e|]] eqn:U.
      + exists 0, s. rewrite Nat.add_0_r. repeat split; auto; [lia|constructor].
      + specialize (IH (S k0) s1). destruct (run_from exit upd (S k0) fuel s1) as [[s' [e|]]|].
        * destruct IH as (k & s2 & L & H & X & Y). exists (S k), s2. rewrite Nat.add_succ_r. repeat split; auto; [lia|econstructor; eauto].
        * destruct IH as (k & L & H & X). exists (S k). rewrite Nat.add_succ_r. repeat split; auto; [lia|econstructor; eauto].
        * destruct IH as (s' & H). exists s'. econstructor; eauto.
  Qed.
  Lemma steps_fun k : forall k0 s s1 s2, steps exit upd k0 k s s1 -> steps exit upd k0 k s s2 -> s1 = s2.
  Proof.
    induction k as [|k IH]; intros k0 s s1 s2 H K; inversion H; inversion K; subst; auto.
    match goal with A : upd s = (?x, None), B : upd s = (?y, None) |- _ => rewrite A in B; injection B as <- end. eapply IH; eauto.
  Qed.
  (** A loop that takes [k] steps and stops does so under any larger bound. *)
  Lemma run_from_complete k : forall k0 s r fuel,
    (exists s', steps exit upd k0 k s s' /\ ((exit (k0 + k) s' = true /\ r = (s', None)) \/ (exit (k0 + k) s' = false /\ exists s2 e, upd s' = (s2, Some e) /\ r = (s2, Some e)))) ->
    k < fuel -> run_from exit upd k0 fuel s = Some r.
  Proof.
    induction k as [|k IH]; intros k0 s r fuel (s' & H & E) L; destruct fuel as [|fuel]; try lia; inversion H; subst; cbn.
    - rewrite Nat.add_0_r in E. destruct E as [[-> ->]|[-> (s2 & e & -> & ->)]]; auto.
    - match goal with A : exit k0 s = false |- _ => rewrite A end. match goal with A : upd s = _ |- _ => rewrite A end.
      apply IH; [|lia]. exists s'. split; auto. now rewrite Nat.add_succ_r in E.
  Qed.
  Lemma run_ends s r : (exists fuel, run exit upd fuel s = Some r) <-> (exists k, loop_end exit upd k s r).
  Proof.
    split.
    - intros [fuel H]. unfold run in H. pose proof (run_from_spec fuel 0 s) as R. rewrite H in R. destruct r as [s' [e|]].
      + destruct R as (k & s1 & _ & A & B & C). exists k. econstructor; eauto.
      + destruct R as (k & _ & A & B). exists k. econstructor; eauto.
    - intros [k [s' A B|s1 s' e A B C]]; exists (S k); apply (run_from_complete k); auto.
      + exists s'. split; auto.
      + exists s1. split; auto. right. split; auto. eauto.
  Qed.
  Lemma run_forever s : (forall fuel, run exit upd fuel s = None) <-> (forall k, exists s', steps exit upd 0 k s s' /\ exit k s' = false /\ snd (upd s') = None).
  Proof.
    split.
    - intros H k. pose proof (run_from_spec (S k) 0 s) as R. unfold run in H. rewrite H in R. destruct R as [s2 R].
      assert (Q : forall k k0 s s2, steps exit upd k0 (S k) s s2 -> exists s', steps exit upd k0 k s s' /\ exit (k0 + k) s' = false /\ snd (upd s') = None).
      { clear. induction k as [|k IH]; intros k0 s s2 R; inversion R; subst.
        - exists s. rewrite Nat.add_0_r. split; [constructor|]. split; auto. match goal with A : upd s = _ |- _ => now rewrite A end.
        - match goal with A : steps exit upd (S k0) (S k) _ _ |- _ => destruct (IH _ _ _ A) as (s' & B & C & D) end.
          exists s'. rewrite Nat.add_succ_r. split; auto. econstructor; eauto. }
      exact (Q k 0 s s2 R).
    - intros H fuel. destruct (run exit upd fuel s) as [[s' [e|]]|] eqn:E; auto; exfalso; unfold run in E; pose proof (run_from_spec fuel 0 s) as R; rewrite E in R.
      + destruct R as (k & s1 & _ & A & B & C). destruct (H k) as (s2 & A' & _ & C'). rewrite (steps_fun k 0 s s1 s2 A A') in C. rewrite C in C'. discriminate.
      + destruct R as (k & _ & A & B). destruct (H k) as (s2 & A' & B' & _). rewrite (steps_fun k 0 s s' s2 A A') in B. cbn in B. congruence.
  Qed.
End Loop.

(** Each completed [update] counts one iteration. *)
Lemma steps_iterations {St} (eff : nat -> St -> St * option exn) f i exit k : forall k0 s s',
  steps exit (update eff f i) k0 k s s' -> snd s' = snd s + k.
Proof.
  induction k as [|k IH]; intros k0 s s' H; inversion H; subst; [lia|].
  match goal with A : steps _ _ _ k _ _ |- _ => rewrite (IH _ _ _ A) end.
  match goal with A : update eff f i s = _ |- _ => unfold update in A; destruct (update_nodes _ _ _) as [? [?|]] in A; inversion A; subst end. cbn. lia.
Qed.
Lemma loop_iterations {St} (eff : nat -> St -> St * option exn) f i exit k s r :
  loop_end exit (update eff f i) k s r -> snd (fst r) = snd s + k.
Proof.
  intros [s' A B|s1 s' e A B C]; cbn.
  - now apply steps_iterations in A.
  - apply steps_iterations in A. rewrite <- A. unfold update in C. destruct (update_nodes _ _ _) as [? [?|]] in C; inversion C; subst; auto.
Qed.
Lemma process_ends {St} (event : nat -> bool) (upd : St -> St * option exn) fuel s ms e :
  process_run event upd fuel s = Some (ms, e) ->
  (e = None /\ ms = [EndProcess]) \/ (exists x, e = Some x /\ is_crowddynamics x = false /\ ms = []).
Proof.
  unfold process_run. destruct (run _ _ _ _) as [[s' [x|]]|]; [|intros [= <- <-]; auto|discriminate].
  destruct (is_crowddynamics x) eqn:E; intros [= <- <-]; eauto.
Qed.
Lemma process_signals {St} (event : nat -> bool) (upd : St -> St * option exn) k s s' e :
  loop_end (fun k _ => event k) upd k s (s', e) -> match e with None => True | Some x => is_crowddynamics x = true end ->
  exists n, forall fuel, n <= fuel -> process_run event upd fuel s = Some ([EndProcess], None).
Proof.
  intros H C. exists (S k). intros fuel L. unfold process_run, run. rewrite (run_from_complete _ upd k 0 s (s', e) fuel); [|inversion H; subst; eauto 10|lia].
  destruct e as [x|]; auto. now rewrite C.
Qed.

Lemma package_errors_iff : forall x, is_crowddynamics x = true <-> In x package_errors.
Proof.
  intros x. unfold package_errors. split.
  - destruct x; cbn; intros; try discriminate; tauto.
  - cbn. intros [<-|[<-|[<-|[<-|[]]]]]; reflexivity.
Qed.
