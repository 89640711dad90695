(** * Proofs about recorded runs *)
From Coq Require Import Lia Lra Permutation.
From Coq Require String.
From Verif Require Import Spec.Recorded Spec.Trees Spec.Runs Spec.Resume Proofs.SavingProofs Proofs.WrittenProofs Proofs.TreeProofs Proofs.TreeOrderProofs Proofs.SimulationProofs Proofs.SimulationMore Proofs.GoesOnProofs Proofs.StorageProofs Proofs.Witness11 Proofs.VecLemmas.
Open Scope list_scope.
Open Scope nat_scope.

(** ** Names and numbers of the nodes made *)
Lemma set_parent_names f i v : name (fst (set_parent f i v)) = name f /\ size (fst (set_parent f i v)) = size f.
Proof.
  unfold set_parent. destruct (same_parent _ _); [auto|]. destruct (match v with Some p => _ | None => false end); [auto|].
  destruct (par f i) as [q|]; [destruct (mem i (kids f q)); [|auto]|]; destruct v as [p|]; auto; destruct (mem i _); auto.
Qed.
Lemma lshift_names os : forall f s, name (fst (lshift f s os)) = name f /\ size (fst (lshift f s os)) = size f.
Proof.
  induction os as [|o os IH]; intros f s; [auto|]. cbn [lshift]. destruct (set_parent_names f o (Some s)) as [N Z]. unfold add_children, andthen.
  destruct (set_parent f o (Some s)) as [g [x|]]; cbn [fst] in *; [auto|]. destruct (IH g s) as [N' Z']. split; congruence.
Qed.

Section Made.
  Context {A : Type} (cls : A -> String.string).
  Definition made (f f' : tree_state) (ns ns' items : list A) : Prop :=
    size f <= size f' /\ (forall j, j < size f -> name f' j = name f j) /\ exists l, ns' = ns ++ l /\ Permutation l items.
  Lemma made_trans f f1 f2 ns ns1 ns2 a b : made f f1 ns ns1 a -> made f1 f2 ns1 ns2 b -> made f f2 ns ns2 (a ++ b).
  Proof.
    intros (S1 & N1 & l1 & -> & P1) (S2 & N2 & l2 & -> & P2). split; [lia|]. split; [intros j Hj; rewrite N2 by lia; auto|].
    exists (l1 ++ l2). split; [now rewrite app_assoc|now apply Permutation_app].
  Qed.
  Lemma made_refl f ns : made f f ns ns [].
  Proof. split; [lia|]. split; auto. exists []. split; [now rewrite app_nil_r|constructor]. Qed.
  Lemma construct_made x : forall f ns r f' ns', construct cls x f ns = Ok (r, f', ns') ->
    made f f' ns ns' (written_order x) /\ r = size f /\ forall a gs, x = Make a gs -> name f' (size f) = cls a.
  Proof.
    induction x as [a gs IH] using expr_nested_ind. intros f ns r f' ns' E. rewrite construct_eq in E.
    assert (T : forall g, (forall y, In y g -> forall f ns r f' ns', construct cls y f ns = Ok (r, f', ns') -> made f f' ns ns' (written_order y)) ->
      forall f ns is f' ns', tuple_ cls g f ns = Ok (is, f', ns') -> made f f' ns ns' (flat_map written_order g)).
    { clear. induction g as [|y g IHg]; intros Hg f ns is f' ns' E; cbn [tuple_] in E.
      - injection E as <- <- <-. apply made_refl.
      - destruct (construct cls y f ns) as [[[i f1] ns1]|] eqn:E1; [|discriminate]. cbn [rbind] in E.
        destruct (tuple_ cls g f1 ns1) as [[[js f2] ns2]|] eqn:E2; [|discriminate]. cbn [rbind] in E. injection E as <- <- <-.
        cbn [flat_map]. apply (made_trans f f1 f2 ns ns1 ns2); [apply (Hg y (or_introl eq_refl) _ _ _ _ _ E1)|].
        apply (IHg (fun z Hz => Hg z (or_intror Hz)) _ _ _ _ _ E2). }
    assert (Sh : forall self gs, (forall g y, In g gs -> In y g -> forall f ns r f' ns', construct cls y f ns = Ok (r, f', ns') -> made f f' ns ns' (written_order y)) ->
      forall f ns r f' ns', shifts_ cls self gs f ns = Ok (r, f', ns') -> r = self /\ made f f' ns ns' (flat_map (flat_map written_order) gs)).
    { clear - T. induction gs as [|g gs IHg]; intros Hg f ns r f' ns' E; cbn [shifts_] in E.
      - injection E as <- <- <-. split; [reflexivity|apply made_refl].
      - destruct (tuple_ cls g f ns) as [[[is f1] ns1]|] eqn:E1; [|discriminate]. cbn [rbind] in E.
        destruct (lshift f1 self is) as [f2 [x|]] eqn:E2; [discriminate|]. destruct (lshift_names is f1 self) as [N Z]. rewrite E2 in N, Z. cbn [fst] in N, Z.
        destruct (IHg (fun g' y Hg' => Hg g' y (or_intror Hg')) _ _ _ _ _ E) as [-> M]. split; [reflexivity|]. cbn [flat_map].
        apply (made_trans f f2 f' ns ns1 ns'); [|exact M].
        destruct (T g (fun y Hy => Hg g y (or_introl eq_refl) Hy) _ _ _ _ _ E1) as (S1 & N1 & K). split; [lia|]. split; [intros j Hj; rewrite N; auto|exact K]. }
    destruct (Sh (size f) gs (fun g y Hg Hy f ns r f' ns' E => proj1 (IH g y Hg Hy f ns r f' ns' E)) _ _ _ _ _ E) as [-> (S & N & l & -> & P)].
    cbn [size new_node] in S, N. split; [|split; [reflexivity|]].
    - split; [lia|]. split; [intros j Hj; rewrite N by lia; cbn; now rewrite put_neq by lia|].
      exists (a :: l). split; [now rewrite <- app_assoc|]. cbn [written_order]. rewrite <- Permutation_cons_append. now constructor.
    - intros b hs [= <- <-]. rewrite N by lia. cbn. now rewrite put_eq.
  Qed.
End Made.

(** ** The tree with the new node on top *)
Lemma recorded_tree x : reset_on_top x ->
  exists l f ns g, logic_of x = Ok (l, f, ns) /\ root f l = l /\ recorded_logic x = Ok (l, g, ns, size f) /\ Permutation ns (written_order x) /\
    postorder g (root g l) = postorder f l ++ [size f] /\ (forall i, In i (postorder f l) -> i < size f) /\
    map (nth_error ns) (postorder f l) = map Some (written_order x).
Proof.
  intros [gs Hx]. unfold recorded_logic, logic_of.
  destruct (construct_postorder class_name x no_nodes [] reach_start eq_refl) as (l & f & ns & E & R & Hr & Er & M).
  destruct (construct_made class_name x _ _ _ _ _ E) as ((_ & _ & ns' & En & P) & _ & N). cbn [app] in En. subst ns'.
  destruct (construct_made class_name x _ _ _ _ _ E) as (_ & El & _). specialize (N _ _ Hx). cbn [size no_nodes] in *. subst l.
  exists 0, f, ns. rewrite E. cbn [rbind].
  set (f1 := new_node "SaveSimulationData"%string f).
  assert (R1 : reachable f1) by (apply (reach_call f (NewNode "SaveSimulationData"%string)); cbn; auto).
  pose proof (reachable_wf _ R) as W. pose proof (reachable_wf _ R1) as W1.
  destruct (root_top f 0 W Hr) as [T _]. rewrite Er in T.
  assert (K1 : forall j, j < size f -> kids f1 j = kids f j) by (intros j Hj; cbn; now rewrite put_neq by lia).
  assert (P1 : par f1 0 = None) by (cbn; rewrite put_neq by lia; apply T).
  destruct (order_tree f 0 W Hr) as (t & Rt & Ht & Pt & _).
  assert (I : forall i, In i (postorder f 0) -> i < size f).
  { intros i Hi. destruct (postorder_members f 0 W Hr) as (t' & A1 & A2 & A3 & _ & _ & A5). rewrite Er in A3. rewrite A3 in Hi. now apply A5. }
  destruct (add_to_logic_last f1 0 (size f) R1) as (g & L & Eg & O1 & O2); try (cbn; lia); auto.
  - cbn. rewrite put_neq by lia. exact N.
  - cbn. now rewrite put_eq.
  - cbn. now rewrite put_eq.
  - exists g. rewrite Eg. split; [reflexivity|]. split; [exact Er|]. split; [reflexivity|]. split; [exact P|]. split; [|split; [exact I|exact M]].
    destruct O1 as (t1 & T1 & H1 & ->). destruct O2 as (t2 & T2 & H2 & E2). rewrite Pt.
    assert (Eq : t1 = t).
    { symmetry. apply (shape_unique f f1); auto.
      - rewrite Rt. pose proof (top_root f1 0 _ W1 ltac:(cbn; lia) T1) as Q1.
        assert (Z : top_of f1 0 0) by (split; [now exists 0|exact P1]). pose proof (top_root f1 0 _ W1 ltac:(cbn; lia) Z). congruence.
      - intros j Hj. apply K1. apply I. now rewrite Pt. }
    subst t1. rewrite E2.
    assert (Rg : reachable g /\ size g = size f1).
    { revert Eg. unfold add_to_simulation_logic. destruct (getitem f1 0 "Reset"%string) as [j|] eqn:Ej; [|discriminate]. intros Eg.
      destruct (getitem_ok f1 0 "Reset"%string W1 ltac:(cbn; lia)) as (t' & _ & _ & A & B). rewrite Ej in B. destruct B as (l1 & l2 & B1 & _).
      assert (Hj : j < size f1) by (apply (A j); rewrite B1; apply in_or_app; right; now left).
      split.
      - pose proof (reach_call f1 (InjectBefore j (size f)) R1 ltac:(split; [exact Hj|cbn; lia])) as Q. cbn [LogicTree.call] in Q. now rewrite Eg in Q.
      - revert Eg. unfold inject_before, andthen. destruct (set_parent_names f1 j (Some (size f))) as [_ Z1]. destruct (set_parent f1 j (Some (size f))) as [f2 [x2|]]; [discriminate|].
        destruct (set_parent_names f2 (size f) (par f1 j)) as [_ Z2]. intros Eg. rewrite Eg in Z2. cbn [fst] in *. congruence. }
    destruct Rg as [Rg Zg]. pose proof (reachable_wf _ Rg) as Wg. assert (H0 : 0 < size g) by (rewrite Zg; cbn; lia).
    destruct (postorder_members g 0 Wg H0) as (t3 & A1 & A2 & A3 & _). rewrite A3.
    rewrite (shape_unique g g t3 t2); auto. rewrite A1. symmetry. now apply top_root.
Qed.

(** ** One update *)
Lemma recorded_nodes e ns m save k : forall is s v, (forall i, In i is -> i < m) ->
  update_nodes (recorded_effect e ns m save k) is (s, v) = (let (s', x) := update_nodes (node_effect e ns) is s in ((s', v), x)).
Proof.
  induction is as [|i is IH]; intros s v H; [reflexivity|]. cbn [update_nodes]. unfold recorded_effect at 1.
  replace (Nat.eqb i m) with false by (symmetry; apply Nat.eqb_neq; specialize (H i (or_introl eq_refl)); lia).
  destruct (node_effect e ns i s) as [s1 [x|]]; [reflexivity|]. apply IH. intros j Hj. apply H. now right.
Qed.
Lemma update_nodes_app {St} (eff : nat -> St -> St * option exn) a : forall b s,
  update_nodes eff (a ++ b) s = (let (s', x) := update_nodes eff a s in match x with None => update_nodes eff b s' | Some y => (s', Some y) end).
Proof. induction a as [|i a IH]; intros b s; [reflexivity|]. cbn [app update_nodes]. destruct (eff i s) as [s1 [x|]]; [reflexivity|]. apply IH. Qed.

Definition entry_of (x : expr node) (s : sim) (k : nat) : dict String.string datum :=
  [("iterations"%string, Count k); ("time_tot"%string, Amount (s_time s)); ("dt"%string, Amount (s_dt s))]
  ++ if counts_inactive (written_order x) then [("inactive"%string, Count (s_inactive s))] else [].
Lemma counts_perm ns ns' : Permutation ns ns' -> counts_inactive ns = counts_inactive ns'.
Proof.
  intros P. unfold counts_inactive. destruct (existsb _ ns') eqn:E.
  - apply existsb_exists in E as (n & I & Q). apply existsb_exists. exists n. split; [|exact Q]. now apply (Permutation_in n (Permutation_sym P)).
  - destruct (existsb _ ns) eqn:E'; [|reflexivity]. apply existsb_exists in E' as (n & I & Q). rewrite <- E. symmetry. apply existsb_exists. exists n.
    split; [|exact Q]. now apply (Permutation_in n P).
Qed.
Lemma data_entry ns x s k : Permutation ns (written_order x) -> simulation_data ns s k = entry_of x s k.
Proof. intros P. unfold simulation_data, entry_of. now rewrite (counts_perm _ _ P). Qed.
Lemma entry_row x s k : data_row x k s (entry_of x s k).
Proof.
  unfold data_row, entry_of, counts. eexists. split; [reflexivity|]. unfold counts_inactive. destruct (existsb _ _) eqn:E; split; intros C; try reflexivity; exfalso.
  - apply C. apply existsb_exists in E as ([] & I & Q); try discriminate. exact I.
  - assert (F : existsb (fun n => match n with InsideDomain => true | _ => false end) (written_order x) = true) by (apply existsb_exists; now exists InsideDomain).
    congruence.
Qed.

Lemma recorded_step e x save s k s' k' v v' : reset_on_top x -> simulation_update e x (s, k) = ((s', k'), None) ->
  saver_update v (s_agents s', entry_of x s' k, save s' k) = Ok v' -> recorded_update e x save ((s, v), k) = (((s', v'), k'), None).
Proof.
  intros Hx H V. destruct (recorded_tree x Hx) as (l & f & ns & g & E & Er & E' & P & O & I & _). unfold recorded_update. rewrite E'.
  unfold simulation_update in H. rewrite E in H. unfold update in *. rewrite Er in H. cbn [fst snd] in *. rewrite O, update_nodes_app, recorded_nodes by exact I.
  destruct (update_nodes (node_effect e ns) (postorder f l) s) as [s1 [ex|]]; [discriminate|]. injection H as -> <-.
  cbn [update_nodes]. unfold recorded_effect. rewrite Nat.eqb_refl, (data_entry ns x s' k P), V. reflexivity.
Qed.
Lemma recorded_raise e x save s k s' k' v ex : reset_on_top x -> simulation_update e x (s, k) = ((s', k'), Some ex) ->
  recorded_update e x save ((s, v), k) = (((s', v), k'), Some ex).
Proof.
  intros Hx H. destruct (recorded_tree x Hx) as (l & f & ns & g & E & Er & E' & P & O & I & _). unfold recorded_update. rewrite E'.
  unfold simulation_update in H. rewrite E in H. unfold update in *. rewrite Er in H. cbn [fst snd] in *. rewrite O, update_nodes_app, recorded_nodes by exact I.
  destruct (update_nodes (node_effect e ns) (postorder f l) s) as [s1 [ex1|]]; [|discriminate]. now injection H as -> <- ->.
Qed.

(** ** Whole runs *)
Lemma last_first {X} (l : list X) : forall a d, last (a :: l) d = last l a.
Proof.
  induction l as [|b l IH]; intros a d; [reflexivity|]. change (last (a :: b :: l) d) with (last (b :: l) d). now rewrite !IH.
Qed.
Fixpoint sent (x : expr node) (save : sim -> nat -> bool) (k : nat) (l : list (sim * nat)) : list (list agent * dict String.string datum * bool) :=
  match l with
  | [] => []
  | s :: l' => (s_agents (fst s), entry_of x (fst s) k, save (fst s) k) :: sent x save (S k) l'
  end.
Lemma history_size e x : forall l s, history e x s l -> forall t, In t l -> length (s_agents (fst t)) = length (s_agents (fst s)).
Proof.
  induction l as [|u l IH]; intros s H t I; [destruct I|]. inversion H as [|? s1 ? U H1]; subst.
  assert (Z : length (s_agents (fst u)) = length (s_agents (fst s))).
  { destruct s as [s k], u as [u k']. apply update_runs in U as [_ [log U]]. cbn [fst]. clear - U. induction U as [|n ? s s1 ? ? H U IH]; [reflexivity|].
    rewrite IH. now apply (keeps_length e n). }
  destruct I as [<-|I]; [exact Z|]. rewrite (IH u H1 t I). exact Z.
Qed.
Lemma recording_run e x save : reset_on_top x -> forall l s k v v', history e x (s, k) l -> saver_run v (sent x save k l) = Ok v' ->
  recording e x save (length l) ((s, v), k) ((fst (last l (s, k)), v'), k + length l).
Proof.
  intros Hx. induction l as [|[s1 k1] l IH]; intros s k v v' H V.
  - cbn in *. injection V as <-. rewrite Nat.add_0_r. constructor.
  - inversion H as [|? ? ? U H1]; subst. cbn [sent saver_run fst] in V. destruct (saver_update v _) as [v1|] eqn:V1; [|discriminate]. cbn [rbind] in V.
    cbn [length]. apply recording_next with (w1 := ((s1, v1), k1)); [now apply recorded_step|].
    apply update_runs in U as [-> _]. specialize (IH s1 (S k) v1 v' H1 V). replace (k + S (length l)) with (S k + length l) by lia.
    rewrite last_first. exact IH.
Qed.

Lemma sent_states x save : forall l k, map (fun '(a, _, b) => (a, b)) (sent x save k l) = combine (agents_after l) (flags save k l).
Proof. induction l as [|s l IH]; intros k; [reflexivity|]. cbn [sent map agents_after flags combine]. f_equal. apply IH. Qed.
Fixpoint entries (x : expr node) (k : nat) (l : list (sim * nat)) : list (dict String.string datum) :=
  match l with [] => [] | s :: l' => entry_of x (fst s) k :: entries x (S k) l' end.
Lemma sent_rows x save : forall l k, map (fun '(_, d, b) => (d, b)) (sent x save k l) = combine (entries x k l) (flags save k l).
Proof. induction l as [|s l IH]; intros k; [reflexivity|]. cbn [sent map entries flags combine]. f_equal. apply IH. Qed.
Lemma entries_length x : forall l k, length (entries x k l) = length l.
Proof. induction l as [|s l IH]; intros k; [reflexivity|]. cbn. now rewrite IH. Qed.
Lemma entries_nth x : forall l k i s, nth_error l i = Some s -> nth_error (entries x k l) i = Some (entry_of x (fst s) (k + i)).
Proof.
  induction l as [|t l IH]; intros k [|i] s H; try discriminate.
  - injection H as ->. cbn. now rewrite Nat.add_0_r.
  - cbn [nth_error entries] in *. rewrite (IH (S k) i s H). do 2 f_equal. lia.
Qed.
Lemma recorded_files e x save agents l : reset_on_top x -> history e x (new_simulation agents) l ->
  exists n c, recording e x save (length l) (new_recorded agents) ((fst (last l (new_simulation agents)), (n, c)), length l) /\
    n_files n = numbered (map (fun group => repeat (last group []) (length group)) (save_groups [] (combine (agents_after l) (flags save 0 l)))) /\
    let rows := concat (save_groups [] (combine (entries x 0 l) (flags save 0 l))) in
    c_file c = (match rows with [] => [] | first :: _ => [Names (map fst first)] end) ++ map (fun row => Values (map snd row)) rows.
Proof.
  intros Hx H. destruct (saver_spec (length agents) agents (sent x save 0 l)) as (n & c & E & N & C).
  { intros a d b I. assert (J : exists t, In t l /\ a = s_agents (fst t)).
    { clear - I. revert I. generalize 0. induction l as [|s l IH]; intros k I; [destruct I|]. cbn [sent] in I. destruct I as [[= <- _ _]|I]; [exists s; split; auto; now left|].
      destruct (IH _ I) as (t & J & ->). exists t. split; auto. now right. }
    destruct J as (t & J & ->). now apply (history_size e x l (new_simulation agents)). }
  exists n, c. split; [|split].
  - apply (recording_run e x save Hx l (fst (new_simulation agents)) 0 (saver_start agents) (n, c) H E).
  - rewrite N. unfold state_of. now rewrite sent_states.
  - cbv zeta. rewrite C. unfold row_of. now rewrite sent_rows.
Qed.

(** ** Saving every so many updates *)
Lemma groups_all {X} : forall (us : list (X * bool)) pending x g, In g (save_groups pending us) -> In x g -> In x pending \/ In x (map fst us).
Proof.
  induction us as [|[y []] us IH]; intros pending x g G I; cbn [save_groups] in G; [destruct G| |].
  - destruct G as [<-|G].
    + apply in_app_iff in I as [I|[<-|[]]]; [now left|]. right. now left.
    + destruct (IH [] x g G I) as [[]|J]. right. now right.
  - destruct (IH _ x g G I) as [J|J]; [|right; now right]. apply in_app_iff in J as [J|[<-|[]]]; [now left|right; now left].
Qed.
Lemma every_groups {Y} (f : nat) (h : Y -> nat -> bool) : f <> 0 -> (forall y k, h y k = Nat.eqb ((k + 1) mod f) 0) ->
  forall {X} (l : list X) (ys : list Y) fl k pending, length pending = k mod f -> length ys = length l ->
  (forall i y, nth_error ys i = Some y -> nth_error fl i = Some (h y (k + i))) -> length fl = length l ->
  let gs := save_groups pending (combine l fl) in
  (forall g, In g gs -> length g = f) /\ length gs = (k mod f + length l) / f /\ exists rest, pending ++ l = concat gs ++ rest.
Proof.
  intros Hf Hh X. induction l as [|x l IH]; intros ys fl k pending Hp Hy Hn Hl.
  - cbn. split; [intros g []|]. split; [|now exists (pending ++ [])]. rewrite Nat.add_0_r. symmetry. apply Nat.div_small. now apply Nat.mod_upper_bound.
  - destruct ys as [|y ys], fl as [|b fl]; try discriminate. cbn [length] in Hy, Hl.
    pose proof (Hn 0 y eq_refl) as Hb. cbn in Hb. injection Hb as ->. rewrite Nat.add_0_r, Hh.
    assert (Hn' : forall i y0, nth_error ys i = Some y0 -> nth_error fl i = Some (h y0 (S k + i))).
    { intros i y0 E. specialize (Hn (S i) y0 E). cbn [nth_error] in Hn. rewrite Hn. do 2 f_equal. lia. }
    pose proof (Nat.mod_upper_bound k f Hf) as B. pose proof (Nat.mod_upper_bound (S k) f Hf) as B'.
    assert (M : (k + 1) mod f = if Nat.eqb (S (k mod f)) f then 0 else S (k mod f)).
    { destruct (Nat.eqb_spec (S (k mod f)) f) as [E|E].
      - rewrite (Nat.div_mod k f Hf) at 1. replace (f * (k / f) + k mod f + 1) with (0 + (k / f + 1) * f) by nia. rewrite Nat.mod_add by exact Hf. now apply Nat.mod_0_l.
      - symmetry. apply (Nat.mod_unique (k + 1) f (k / f)); [lia|]. pose proof (Nat.div_mod k f Hf). lia. }
    cbn [combine save_groups]. rewrite M. destruct (Nat.eqb_spec (S (k mod f)) f) as [E|E].
    + cbn [Nat.eqb]. destruct (IH ys fl (S k) []) as (G & L & rest & R); auto; try lia.
      { replace (S k) with (k + 1) by lia. now rewrite M. }
      split; [|split].
      * intros g [<-|I]; [rewrite app_length; cbn; lia|now apply G].
      * cbn [length]. rewrite L. replace (S k) with (k + 1) by lia. rewrite M. cbn [plus].
        replace (k mod f + S (length l)) with (length l + 1 * f) by lia. rewrite Nat.div_add by exact Hf. lia.
      * exists rest. cbn [concat]. rewrite <- !app_assoc. cbn [app] in *. do 2 f_equal. exact R.
    + replace (Nat.eqb (S (k mod f)) 0) with false by reflexivity.
      destruct (IH ys fl (S k) (pending ++ [x])) as (G & L & rest & R); auto; try lia.
      { rewrite app_length. cbn. replace (S k) with (k + 1) by lia. rewrite M. lia. }
      split; [exact G|]. split.
      * rewrite L. replace (S k) with (k + 1) by lia. rewrite M. f_equal. cbn [length]. lia.
      * exists rest. rewrite <- R, <- app_assoc. reflexivity.
Qed.
Lemma flags_nth save : forall l k i s, nth_error l i = Some s -> nth_error (flags save k l) i = Some (save (fst s) (k + i)).
Proof.
  induction l as [|t l IH]; intros k [|i] s H; try discriminate.
  - injection H as ->. cbn. now rewrite Nat.add_0_r.
  - cbn [nth_error flags] in *. rewrite (IH (S k) i s H). do 2 f_equal. lia.
Qed.
Lemma flags_length save : forall l k, length (flags save k l) = length l.
Proof. induction l as [|s l IH]; intros k; [reflexivity|]. cbn. now rewrite IH. Qed.
(** Group number [i] of groups of equal size ends at a known place. *)
Lemma group_last {X} (f : nat) (d : X) : f <> 0 -> forall (gs : list (list X)) rest i g, (forall g, In g gs -> length g = f) -> nth_error gs i = Some g ->
  nth_error (concat gs ++ rest) (i * f + f - 1) = Some (last g d).
Proof.
  intros Hf. induction gs as [|h gs IH]; intros rest [|i] g G H; try discriminate.
  - injection H as ->. cbn [concat]. rewrite <- app_assoc. specialize (G g (or_introl eq_refl)). destruct g as [|y g _] using rev_ind; [cbn in G; lia|].
    rewrite app_length in G. cbn in G. rewrite last_last, <- app_assoc, nth_error_app2 by lia. replace (0 * f + f - 1 - length g) with 0 by lia. reflexivity.
  - cbn [nth_error concat] in *. rewrite <- app_assoc, nth_error_app2 by (rewrite (G h (or_introl eq_refl)); lia). rewrite (G h (or_introl eq_refl)).
    rewrite <- (IH rest i g (fun g' Hg => G g' (or_intror Hg)) H). f_equal. lia.
Qed.

(** ** Back from a recorded run *)
Lemma recorded_back e x save s v k s1 v1 k1 : reset_on_top x -> recorded_update e x save ((s, v), k) = (((s1, v1), k1), None) ->
  simulation_update e x (s, k) = ((s1, k1), None).
Proof.
  intros Hx H. destruct (recorded_tree x Hx) as (l & f & ns & g & E & Er & E' & P & O & I & _). unfold recorded_update in H. rewrite E' in H.
  unfold simulation_update. rewrite E. unfold update in *. rewrite Er. cbn [fst snd] in *. rewrite O, update_nodes_app, recorded_nodes in H by exact I.
  destruct (update_nodes (node_effect e ns) (postorder f l) s) as [s2 [ex|]]; [discriminate|].
  cbn [update_nodes] in H. unfold recorded_effect in H. rewrite Nat.eqb_refl in H. destruct (saver_update v _) as [v2|ex]; [|discriminate]. now injection H as -> <- <-.
Qed.
Lemma recording_back e x save : reset_on_top x -> forall n w w', recording e x save n w w' ->
  exists l, history e x (fst (fst w), snd w) l /\ length l = n /\ fst (fst w') = fst (last l (fst (fst w), snd w)) /\ snd w' = snd w + n.
Proof.
  intros Hx n w w' H. induction H as [w|n [[s v] k] [[s1 v1] k1] w' U H (l & L & Z & F & K)].
  - exists []. split; [constructor|]. split; [reflexivity|]. split; [reflexivity|lia].
  - apply (recorded_back e x save s v k s1 v1 k1 Hx) in U. cbn [fst snd] in *. exists ((s1, k1) :: l). split; [now constructor|]. split; [cbn; lia|].
    rewrite last_first. split; [exact F|]. apply update_runs in U as [-> _]. lia.
Qed.

(** ** Where the updates end *)
Lemma history_updates e x : forall l s, history e x s l -> forall k t, nth_error l k = Some t -> updates e x s (map (fun u => s_dt (fst u)) (firstn (S k) l)) t.
Proof.
  induction l as [|u l IH]; intros s H k t E; [destruct k; discriminate|]. inversion H as [|? ? ? U H1]; subst. destruct k as [|k].
  - injection E as ->. cbn. apply (updates_next e x s t [] t U). constructor.
  - cbn [nth_error] in E. change (firstn (S (S k)) (u :: l)) with (u :: firstn (S k) l). cbn [map]. apply (updates_next e x s u _ t U). now apply IH.
Qed.
Lemma updates_history e x s dts s' : updates e x s dts s' -> exists l, history e x s l /\ last l s = s' /\ map (fun u => s_dt (fst u)) l = dts.
Proof.
  induction 1 as [s|s s1 dts s' U H (l & L & E & D)]; [exists []; repeat split; constructor|]. exists (s1 :: l). split; [now constructor|]. split; [now rewrite last_first|].
  cbn. now rewrite D.
Qed.
Lemma history_at_ease e x : reset_on_top x -> forall l s, history e x s l -> forall t a, In t l -> In a (s_agents (fst t)) -> at_ease (e_kind e) a.
Proof.
  intros [gs Hx]. induction l as [|u l IH]; intros s H t a I Ia; [destruct I|]. inversion H as [|? ? ? U H1]; subst u l0 s0. destruct I as [<-|I]; [|now apply (IH s1 H1 t)].
  destruct s as [s k], s1 as [s1 k1]. apply update_runs in U as [_ [log U]]. rewrite Hx in U. cbn [written_order] in U.
  apply runs_app in U as (l1 & m & l2 & _ & _ & U). apply run_one in U as [U _]. exact (reset_clears e m s1 U a Ia).
Qed.
Lemma history_steps e x : forall l s, history e x s l -> forall k0 k t, nth_error l k = Some t -> steps (fun _ _ => false) (simulation_update e x) k0 (S k) s t.
Proof.
  induction l as [|u l IH]; intros s H k0 k t E; [destruct k; discriminate|]. inversion H as [|? ? ? U H1]; subst. destruct k as [|k].
  - injection E as ->. apply (steps_more _ _ _ _ s t t); auto. constructor.
  - cbn [nth_error] in E. apply (steps_more _ _ _ _ s u t); auto.
Qed.
Lemma numbered_nth {X} (l : list X) i y : nth_error l i = Some y -> nth_error (numbered l) i = Some (i, y).
Proof.
  unfold numbered. change i with (0 + i) at 3. generalize 0. revert i. induction l as [|z l IH]; intros [|i] k E; try discriminate.
  - injection E as ->. cbn. now rewrite Nat.add_0_r.
  - cbn [length seq combine nth_error] in *. rewrite (IH i (S k) E). do 2 f_equal. lia.
Qed.

(** ** Three updates, saved every two *)
Definition thrice : list (sim * nat) :=
  [(Sim [drifter (0 + 3/2) true] 1 (0 + 1) 0 0, 1%nat); (Sim [drifter (0 + 3/2 + 3/2) false] 1 (0 + 1 + 1) 1 0, 2%nat); (Sim [drifter (0 + 3/2 + 3/2 + 3/2) true] 1 (0 + 1 + 1 + 1) 2 0, 3%nat)]%R.
Lemma thrice_history : history (plain_env notched) logic_count (new_simulation [drifter 0 true]) thrice.
Proof.
  assert (N0 : notched (V 0 0) = true) by (unfold notched; cbn [vx]; now rewrite (proj2 (Rltb_true 0 1)) by lra).
  assert (N1 : notched (V (0 + 3/2) 0) = false) by (unfold notched; cbn [vx]; now rewrite (proj2 (Rltb_false (0 + 3/2) 1)), (proj2 (Rltb_false 2 (0 + 3/2))) by lra).
  assert (N2 : notched (V (0 + 3/2 + 3/2) 0) = true) by (unfold notched; cbn [vx]; now rewrite (proj2 (Rltb_true 2 (0 + 3/2 + 3/2))), Bool.orb_true_r by lra).
  pose proof (drift_once 0 true 0 0 0 0 0) as U1. rewrite N0 in U1. pose proof (drift_once (0 + 3/2) true 1 (0 + 1) 0 0 1) as U2. rewrite N1 in U2.
  pose proof (drift_once (0 + 3/2 + 3/2) false 1 (0 + 1 + 1) 1 0 2) as U3. rewrite N2 in U3.
  exact (history_next _ _ _ _ _ U1 (history_next _ _ _ _ _ U2 (history_next _ _ _ _ _ U3 (history_none _ _ _)))).
Qed.
