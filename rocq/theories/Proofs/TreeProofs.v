(** Logic trees. *)
From Coq Require Import Lia Permutation.
From Verif Require Export Spec.Trees Proofs.ListLemmas.
Open Scope nat_scope.

(** ** Chains from a node to its root *)
Inductive chain (f : tree_state) : nat -> list nat -> Prop :=
| chain_root i : par f i = None -> chain f i [i]
| chain_step i p l : par f i = Some p -> chain f p l -> chain f i (i :: l).
Definition wf (f : tree_state) : Prop :=
  (forall i p, par f i = Some p -> i < size f /\ p < size f /\ In i (kids f p)) /\
  (forall p, NoDup (kids f p)) /\
  (forall p c, In c (kids f p) -> par f c = Some p) /\
  (forall i, exists l, chain f i l).

Lemma chain_ancestor f i l : chain f i l -> ancestor f (length l) i = None.
Proof. induction 1 as [i H|i p l H _ IH]; cbn; rewrite H; auto. Qed.
Lemma ancestor_chain f n : forall i, ancestor f n i = None -> exists l, chain f i l.
Proof.
  induction n as [|n IH]; intros i; cbn; [discriminate|]. destruct (par f i) as [p|] eqn:E.
  - intros H. destruct (IH p H) as [l Hl]. exists (i :: l). econstructor; eauto.
  - intros _. exists [i]. now constructor.
Qed.
Lemma wf_iff f : wf f <-> is_forest f.
Proof.
  split.
  - intros (A & B & C & D). split; [|split].
    + intros i p H. destruct (A i p H) as (A1 & A2 & A3). repeat split; auto. apply NoDup_count_occ'; auto.
    + exact C.
    + intros i. destruct (D i) as [l Hl]. exists (length l). now apply chain_ancestor.
  - intros (A & B & C). split; [|split; [|split]].
    + intros i p H. destruct (A i p H) as (A1 & A2 & A3). repeat split; auto. apply (count_occ_In Nat.eq_dec). lia.
    + intros p. apply (NoDup_count_occ' Nat.eq_dec). intros c Hc. now apply A, B.
    + exact B.
    + intros i. destruct (C i) as [n Hn]. eapply ancestor_chain; eauto.
Qed.

Lemma chain_fun f i l l' : chain f i l -> chain f i l' -> l = l'.
Proof.
  intros H. revert l'. induction H as [i H|i p l H _ IH]; intros l' H'; inversion H'; subst; auto; try congruence.
  f_equal. apply IH. congruence.
Qed.
(** A node of the chain starts its own chain. *)
Lemma chain_in f i l j : chain f i l -> In j l -> exists pre l', l = pre ++ l' /\ chain f j l'.
Proof.
  induction 1 as [i H|i p l H Hc IH]; cbn.
  - intros [<-|[]]. exists [], [i]. split; auto. now constructor.
  - intros [<-|Hj].
    + exists [], (i :: l). split; auto. econstructor; eauto.
    + destruct (IH Hj) as (pre & l' & -> & K). exists (i :: pre), l'. auto.
Qed.
Lemma chain_cons f i l : chain f i l -> exists l', l = i :: l'.
Proof. destruct 1; eauto. Qed.
Lemma chain_nodup f i l : chain f i l -> NoDup l.
Proof.
  induction 1 as [i H|i p l H Hc IH]; [repeat constructor; auto|]. constructor; auto. intros Hin.
  destruct (chain_in f p l i Hc Hin) as (pre & l' & E & K).
  assert (K' : chain f i (i :: l)) by (econstructor; eauto). pose proof (chain_fun _ _ _ _ K K') as E'. subst l'.
  apply (f_equal (@length nat)) in E. rewrite app_length in E. cbn in E. lia.
Qed.
Lemma chain_range f i l : wf f -> i < size f -> chain f i l -> forall j, In j l -> j < size f.
Proof.
  intros (A & _) Hi H. induction H as [i H|i p l H Hc IH]; cbn; intros j [<-|Hj]; auto; [tauto|]. apply IH; auto. now apply (A i p H).
Qed.
Lemma chain_length f i l : wf f -> i < size f -> chain f i l -> length l <= size f.
Proof.
  intros W Hi H. rewrite <- (seq_length (size f) 0). apply NoDup_incl_length; [eapply chain_nodup; eauto|].
  intros j Hj. apply in_seq. pose proof (chain_range f i l W Hi H j Hj). lia.
Qed.
Lemma climb_chain f i l : chain f i l -> forall n, length l <= n -> climb n f i = l.
Proof.
  induction 1 as [i H|i p l H Hc IH]; intros [|n] L; cbn in *; try lia; rewrite H; auto. f_equal. apply IH. lia.
Qed.
Lemma path_chain f i : wf f -> i < size f -> chain f i (path f i).
Proof.
  intros W Hi. pose proof W as (_ & _ & _ & D). destruct (D i) as [l Hl]. unfold path.
  rewrite (climb_chain f i l Hl); auto. now apply (chain_length f i).
Qed.
Lemma root_chain f i l : chain f i l -> par f (last l i) = None /\ chain f (last l i) [last l i].
Proof.
  induction 1 as [i H|i p l H Hc IH]; [cbn; split; auto; now constructor|].
  destruct (chain_cons f p l Hc) as [l' ->]. cbn [last] in *. destruct l'; auto.
  assert (E : last (n :: l') i = last (n :: l') p). { clear. revert n. induction l' as [|m l' IH]; intros n; auto. cbn in *. apply IH. }
  now rewrite E.
Qed.

(** ** Elementary maps *)
Lemma put_eq {A} (f : nat -> A) i x : put f i x i = x.
Proof. unfold put. now rewrite Nat.eqb_refl. Qed.
Lemma put_neq {A} (f : nat -> A) i j x : j <> i -> put f i x j = f j.
Proof. unfold put. intros N. now rewrite (proj2 (Nat.eqb_neq _ _) N). Qed.
Lemma mem_iff i l : mem i l = true <-> In i l.
Proof. unfold mem. rewrite existsb_exists. split; [intros (x & Hx & E); apply Nat.eqb_eq in E; now subst|intros; exists i; split; auto; apply Nat.eqb_refl]. Qed.
Lemma remove_in i j l : NoDup l -> (In j (remove_first i l) <-> In j l /\ j <> i).
Proof.
  induction l as [|k l IH]; cbn; [tauto|]. intros H. inversion H as [|? ? H1 H2]; subst. destruct (Nat.eqb_spec i k) as [->|N].
  - split; [intros K; split; auto; intros ->; contradiction|]. intros [[->|K] N]; auto; congruence.
  - cbn. rewrite IH by auto. intuition congruence.
Qed.
Lemma remove_nodup i l : NoDup l -> NoDup (remove_first i l).
Proof.
  induction l as [|k l IH]; cbn; auto. intros H. inversion H as [|? ? H1 H2]; subst. destruct (Nat.eqb_spec i k); auto.
  constructor; auto. rewrite remove_in by auto. tauto.
Qed.
Lemma remove_split i A B : ~ In i A -> remove_first i (A ++ i :: B) = A ++ B.
Proof.
  induction A as [|a A IH]; cbn; intros H; [now rewrite Nat.eqb_refl|]. destruct (Nat.eqb_spec i a) as [->|N]; [exfalso; auto|].
  f_equal. apply IH. auto.
Qed.
Lemma same_parent_iff a b : same_parent a b = true <-> a = b.
Proof. destruct a, b; cbn; try (split; congruence). rewrite Nat.eqb_eq. split; congruence. Qed.

(** ** The parent setter *)
Lemma chain_transfer f g i l : (forall j, In j l -> par g j = par f j) -> chain f i l -> chain g i l.
Proof.
  intros H C. induction C as [i E|i p l E C IH].
  - constructor. rewrite H; auto. now left.
  - econstructor; [rewrite H; [exact E|now left]|]. apply IH. intros; apply H. now right.
Qed.
(** Everything the setter does when it does not raise. *)
Definition reparented (f g : tree_state) (i : nat) (v : option nat) : Prop :=
  size g = size f /\ name g = name f /\ par g i = v /\ (forall j, j <> i -> par g j = par f j) /\
  (forall q, kids g q = (if same_parent (Some q) v then remove_first i (kids f q) ++ [i]
                         else if same_parent (Some q) (par f i) then remove_first i (kids f q) else kids f q)).
Lemma remove_absent i l : ~ In i l -> remove_first i l = l.
Proof. induction l as [|k l IH]; cbn; auto. intros H. destruct (Nat.eqb_spec i k) as [->|N]; [exfalso; auto|]. f_equal. auto. Qed.
Lemma set_parent_cases f i v : wf f -> i < size f -> match v with Some p => p < size f | None => True end ->
  (par f i = v /\ set_parent f i v = (f, None)) \/
  (par f i <> v /\ (exists p, v = Some p /\ In i (path f p)) /\ set_parent f i v = (f, Some LoopError)) \/
  (par f i <> v /\ (forall p, v = Some p -> ~ In i (path f p)) /\ exists g, set_parent f i v = (g, None) /\ reparented f g i v).
Proof.
  intros W Hi Hv. pose proof W as (A & B & C & D). unfold set_parent.
  destruct (same_parent (par f i) v) eqn:SP; [left; apply same_parent_iff in SP; auto|].
  assert (N : par f i <> v) by (intros E; apply same_parent_iff in E; congruence). right.
  destruct (match v with Some p => Nat.eqb p i || mem i (path f p) | None => false end) eqn:L.
  { left. split; auto. split; auto. destruct v as [p|]; [|discriminate]. exists p. split; auto. apply orb_true_iff in L as [L|L].
    - apply Nat.eqb_eq in L. subst. pose proof (path_chain f i W Hi) as K. destruct (chain_cons _ _ _ K) as [l ->]. now left.
    - now apply mem_iff. }
  right. split; auto.
  assert (NP : forall p, v = Some p -> ~ In i (path f p)).
  { intros p ->. apply orb_false_iff in L as [_ L]. rewrite <- mem_iff, L. discriminate. }
  split; auto. clear L.
  assert (Step : exists g, match par f i with
      | None => Some f
      | Some q => if mem i (kids f q) then Some (TS (size f) (name f) (put (par f) i None) (put (kids f) q (remove_first i (kids f q)))) else None
      end = Some g /\ size g = size f /\ name g = name f /\ par g i = None /\ (forall j, j <> i -> par g j = par f j) /\
      (forall q, ~ In i (kids g q)) /\
      (forall q, kids g q = if same_parent (Some q) (par f i) then remove_first i (kids f q) else kids f q)).
  { destruct (par f i) as [q|] eqn:E.
    - destruct (A i q E) as (_ & _ & Hin). rewrite (proj2 (mem_iff _ _) Hin). eexists. split; [reflexivity|]. cbn. repeat split; auto.
      + apply put_eq.
      + intros j Nj. now apply put_neq.
      + intros q'. destruct (Nat.eq_dec q' q) as [->|Nq].
        * rewrite put_eq, remove_in by auto. tauto.
        * rewrite put_neq by auto. intros K. apply C in K. congruence.
      + intros q'. destruct (Nat.eqb_spec q' q) as [->|Nq]; [now rewrite put_eq|now rewrite put_neq].
    - exists f. split; auto. repeat split; auto. intros q K. apply C in K. congruence. }
  destruct Step as (g & -> & G1 & G2 & G3 & G4 & G5 & G6). destruct v as [p|].
  - destruct (mem i (kids g p)) eqn:M; [apply mem_iff in M; now apply G5 in M|]. eexists. split; [reflexivity|].
    unfold reparented. cbn [size name par kids]. repeat split; auto.
    + apply put_eq.
    + intros j Nj. rewrite put_neq; auto.
    + intros q. cbn [same_parent]. destruct (Nat.eqb_spec q p) as [->|Nq]; [|rewrite put_neq by auto; apply G6].
      rewrite put_eq. f_equal. rewrite G6. destruct (same_parent (Some p) (par f i)) eqn:E; auto.
      symmetry. apply remove_absent. intros K. apply C in K. rewrite K in E. cbn in E. rewrite Nat.eqb_refl in E. discriminate.
  - eexists. split; [reflexivity|]. repeat split; auto.
Qed.
Lemma reparented_wf f g i v : wf f -> i < size f -> match v with Some p => p < size f | None => True end ->
  (forall p, v = Some p -> ~ In i (path f p)) -> reparented f g i v -> wf g.
Proof.
  intros W Hi Hv NP (G1 & _ & G2 & G3 & G4). pose proof W as (A & B & C & D).
  assert (Rem : forall j q, In j (remove_first i (kids f q)) <-> In j (kids f q) /\ j <> i) by (intros; apply remove_in; auto).
  split; [|split; [|split]].
  - intros j p E. rewrite G1. destruct (Nat.eq_dec j i) as [->|N].
    + rewrite G2 in E. rewrite E in *. split; [exact Hi|]. split; [exact Hv|]. rewrite G4. cbn. rewrite Nat.eqb_refl. apply in_app_iff. right. now left.
    + rewrite G3 in E by auto. destruct (A j p E) as (A1 & A2 & A3). split; auto. split; auto. rewrite G4.
      destruct (same_parent (Some p) v); [apply in_app_iff; left; now apply Rem|]. destruct (same_parent _ _); auto. now apply Rem.
  - intros p. rewrite G4. destruct (same_parent (Some p) v) eqn:E.
    + apply (Permutation_NoDup (Permutation_cons_append _ i)). constructor; [rewrite Rem; tauto|now apply remove_nodup].
    + destruct (same_parent (Some p) (par f i)); auto. now apply remove_nodup.
  - intros p c. rewrite G4. destruct (same_parent (Some p) v) eqn:E.
    + apply same_parent_iff in E. rewrite <- E in *. rewrite in_app_iff. intros [K|[<-|[]]]; auto. apply Rem in K as [K N]. rewrite G3 by auto. auto.
    + destruct (same_parent (Some p) (par f i)) eqn:E2.
      * intros K. apply Rem in K as [K N]. rewrite G3; auto.
      * intros K. rewrite G3; auto. intros ->. apply C in K. rewrite K in E2. cbn in E2. rewrite Nat.eqb_refl in E2. discriminate.
  - assert (Ci : exists l, chain g i l).
    { destruct v as [p|].
      - pose proof (path_chain f p W Hv) as K. exists (i :: path f p). econstructor; [exact G2|].
        apply (chain_transfer f g); auto. intros j Hj. apply G3. intros ->. now apply (NP p eq_refl).
      - exists [i]. now constructor. }
    intros j. destruct (D j) as [l Hl]. induction Hl as [j E|j p l E _ IH].
    + destruct (Nat.eq_dec j i) as [->|N]; auto. exists [j]. constructor. now rewrite G3.
    + destruct (Nat.eq_dec j i) as [->|N]; auto. destruct IH as [l' Hl']. exists (j :: l'). econstructor; [|exact Hl']. now rewrite G3.
Qed.

(** ** All calls *)
Definition good_result (f : tree_state) (r : tree_state * option exn) : Prop :=
  wf (fst r) /\ size (fst r) = size f /\ (snd r = None \/ snd r = Some LoopError).
Lemma good_refl f : wf f -> good_result f (f, None).
Proof. intros H. split; [exact H|split; auto]. Qed.
Lemma set_parent_good f i v : wf f -> i < size f -> match v with Some p => p < size f | None => True end -> good_result f (set_parent f i v).
Proof.
  intros W Hi Hv. destruct (set_parent_cases f i v W Hi Hv) as [(_ & ->)|[(_ & _ & ->)|(_ & NP & g & -> & RG)]].
  - now apply good_refl.
  - split; [exact W|]. split; auto.
  - split; [exact (reparented_wf f g i v W Hi Hv NP RG)|]. split; [apply RG|now left].
Qed.
Lemma andthen_good f r k : good_result f r -> (forall g, wf g -> size g = size f -> good_result g (k g)) -> good_result f (andthen r k).
Proof.
  intros (A & B & C) H. destruct r as [g [e|]]; cbn in *; [split; [exact A|split; auto]|].
  destruct (H g A B) as (A' & B' & C'). split; [exact A'|split; auto]. congruence.
Qed.
Lemma lshift_good os : forall f s, wf f -> s < size f -> (forall o, In o os -> o < size f) -> good_result f (lshift f s os).
Proof.
  induction os as [|o os IH]; intros f s W Hs Ho; cbn [lshift]; [now apply good_refl|].
  apply andthen_good.
  - apply set_parent_good; auto. apply Ho. now left.
  - intros g Wg E. apply IH; rewrite ?E; auto. intros; apply Ho; now right.
Qed.
Lemma move_good cs : forall f m, wf f -> m < size f -> (forall c, In c cs -> c < size f) -> good_result f (move_all f cs m).
Proof.
  induction cs as [|c cs IH]; intros f m W Hs Ho; cbn [move_all]; [now apply good_refl|].
  apply andthen_good.
  - apply set_parent_good; auto. apply Ho. now left.
  - intros g Wg E. apply IH; rewrite ?E; auto. intros; apply Ho; now right.
Qed.
Lemma kids_range f p c : wf f -> In c (kids f p) -> c < size f.
Proof. intros (A & _ & C & _) H. apply C in H. now apply (A c p H). Qed.
Lemma par_range f i p : wf f -> par f i = Some p -> p < size f.
Proof. intros (A & _) H. now apply (A i p H). Qed.
Lemma new_wf f nm : wf f -> wf (new_node nm f).
Proof.
  intros W. pose proof W as (A & B & C & D). unfold new_node.
  assert (Np : forall c, par f c <> Some (size f)). { intros c H. destruct (A _ _ H) as (_ & K & _). lia. }
  split; [|split; [|split]]; cbn [size par kids].
  - intros i p H. destruct (Nat.eq_dec i (size f)) as [->|N]; [rewrite put_eq in H; discriminate|]. rewrite put_neq in H by auto.
    destruct (A i p H) as (A1 & A2 & A3). repeat split; try lia. rewrite put_neq by lia. auto.
  - intros p. destruct (Nat.eq_dec p (size f)) as [->|N]; [rewrite put_eq; constructor|]. rewrite put_neq; auto.
  - intros p c H. destruct (Nat.eq_dec p (size f)) as [->|N]; [rewrite put_eq in H; destruct H|]. rewrite put_neq in H by auto.
    pose proof (kids_range f p c W H). rewrite put_neq by lia. auto.
  - intros i. destruct (D i) as [l Hl]. induction Hl as [i E|i p l E _ IH].
    + exists [i]. constructor. cbn. unfold put. destruct (Nat.eqb i (size f)); auto.
    + destruct IH as [l' Hl']. exists (i :: l'). econstructor; [|exact Hl']. cbn. rewrite put_neq; auto.
      intros ->. destruct (A _ _ E). lia.
Qed.
Lemma call_good f c : wf f -> call_ok f c -> wf (fst (call f c)) /\ (snd (call f c) = None \/ snd (call f c) = Some LoopError).
Proof.
  intros W OK. destruct c as [nm|i v|s n|s os|s n|s n]; cbn in OK |- *.
  - split; [now apply new_wf|now left].
  - destruct (set_parent_good f i v W) as (A & _ & B); tauto.
  - destruct (set_parent_good f n (Some s) W) as (A & _ & B); tauto.
  - destruct (lshift_good os f s W) as (A & _ & B); tauto.
  - unfold inject_before. assert (G : good_result f (andthen (set_parent f s (Some n)) (fun f0 => set_parent f0 n (par f s)))).
    { apply andthen_good; [apply set_parent_good; tauto|]. intros g Wg E. apply set_parent_good; auto; [lia|].
      destruct (par f s) as [p|] eqn:Ep; auto. rewrite E. now apply (par_range f s). }
    destruct G as (A & _ & B). auto.
  - unfold inject_after. assert (G : good_result f (andthen (move_all f (kids f s) n) (fun f0 => set_parent f0 n (Some s)))).
    { apply andthen_good; [apply move_good; try tauto; intros c; now apply kids_range|]. intros g Wg E. apply set_parent_good; auto; lia. }
    destruct G as (A & _ & B). auto.
Qed.
Lemma no_nodes_wf : wf no_nodes.
Proof. split; [|split; [|split]]; cbn; try discriminate; [constructor|tauto|]. intros i. exists [i]. now constructor. Qed.
Lemma reachable_wf f : reachable f -> wf f.
Proof. induction 1 as [|f c H IH OK]; [exact no_nodes_wf|]. now apply call_good. Qed.
Lemma reachable_forest f : reachable f -> is_forest f.
Proof. intros H. now apply wf_iff, reachable_wf. Qed.
Lemma call_raises f c : reachable f -> call_ok f c -> snd (call f c) = None \/ snd (call f c) = Some LoopError.
Proof. intros H OK. now apply call_good; [apply reachable_wf|]. Qed.
(** What a call of [add_children] or [parent = ...] does. *)
Lemma set_parent_effect f i v : reachable f -> call_ok f (SetParent i v) ->
  let g := fst (call f (SetParent i v)) in
  match snd (call f (SetParent i v)) with
  | Some _ => g = f /\ exists p n, v = Some p /\ ancestor f n p = Some i
  | None => par g i = v /\ (forall j, j <> i -> par g j = par f j) /\
      (par f i <> v -> forall p, v = Some p -> exists l, kids g p = l ++ [i] /\ ~ In i l) /\
      (forall p, Some p <> v -> forall j, In j (kids g p) <-> In j (kids f p) /\ j <> i)
  end.
Proof.
  intros HR [Hi Hv]. pose proof (reachable_wf f HR) as W. pose proof W as (A & B & C & D). cbn [call].
  destruct (set_parent_cases f i v W Hi Hv) as [(E & ->)|[(N & (p & -> & Hin) & ->)|(N & NP & g & -> & G1 & _ & G2 & G3 & G4)]]; cbn [fst snd].
  - split; auto. split; auto. split; [congruence|]. intros p Np j. split; [|tauto]. intros H. split; auto. intros ->. apply C in H. congruence.
  - split; auto. exists p. cbn in Hv. pose proof (path_chain f p W Hv) as K. clear - K Hin.
    induction K as [j E|j q l E K IH]; cbn in Hin.
    + destruct Hin as [<-|[]]. exists 0. auto.
    + destruct Hin as [<-|Hin]; [exists 0; auto|]. destruct (IH Hin) as (n & _ & Hn). exists (S n). split; auto. cbn. now rewrite E.
  - split; auto. split; auto. split.
    + intros _ p ->. exists (remove_first i (kids f p)). rewrite G4. cbn. rewrite Nat.eqb_refl. split; auto. rewrite remove_in by auto. tauto.
    + intros p Np j. rewrite G4. destruct (same_parent (Some p) v) eqn:E; [apply same_parent_iff in E; congruence|].
      destruct (same_parent (Some p) (par f i)) eqn:E2; [now apply remove_in|].
      split; [|tauto]. intros K. split; auto. intros ->. apply C in K. rewrite K in E2. cbn in E2. rewrite Nat.eqb_refl in E2. discriminate.
Qed.
