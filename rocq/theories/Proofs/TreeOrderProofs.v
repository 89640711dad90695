(** Traversal orders of logic trees. *)
From Coq Require Import Lia Permutation.
From Coq Require String.
From Verif Require Export Proofs.TreeProofs.
Open Scope nat_scope.
Ltac splits := repeat match goal with |- _ /\ _ => split end.

Section OtreeInd.
  Variable P : otree -> Prop.
  Hypothesis H : forall i ts, (forall t, In t ts -> P t) -> P (Node i ts).
  Fixpoint otree_nested_ind (t : otree) : P t :=
    match t with
    | Node i ts => H i ts ((fix go (l : list otree) : forall t, In t l -> P t :=
        match l with
        | [] => fun t K => match K with end
        | u :: l' => fun t K => match K with or_introl E => eq_ind u P (otree_nested_ind u) t E | or_intror K' => go l' t K' end
        end) ts)
    end.
End OtreeInd.

Lemma shape_node f i ts : shape f (Node i ts) <-> kids f i = map oroot ts /\ forall t, In t ts -> shape f t.
Proof.
  cbn. split; intros [A B]; split; auto.
  - clear A. induction ts as [|t ts IH]; cbn in *; [tauto|]. intros u [<-|Hu]; [tauto|]. apply IH; tauto.
  - clear A. induction ts as [|t ts IH]; cbn in *; auto.
Qed.

(** ** Existence and uniqueness of the tree below a node *)
Fixpoint build (n : nat) (f : tree_state) (i : nat) : otree :=
  match n with O => Node i [] | S n' => Node i (map (build n' f) (kids f i)) end.
Lemma build_root n f i : oroot (build n f i) = i.
Proof. now destruct n. Qed.
Lemma path_child f i c : wf f -> i < size f -> In c (kids f i) -> c < size f /\ path f c = c :: path f i.
Proof.
  intros W Hi Hc. pose proof (kids_range f i c W Hc) as Rc. split; auto. pose proof W as (_ & _ & C & _).
  apply (chain_fun f c); [now apply path_chain|]. apply (chain_step f c i); [now apply C|now apply path_chain].
Qed.
Lemma build_ok n : forall f i, wf f -> i < size f -> size f < n + length (path f i) ->
  shape f (build n f i) /\ post_iter n f i = opost (build n f i) /\ pre_iter n f i = opre (build n f i).
Proof.
  induction n as [|n IH]; intros f i W Hi L.
  - pose proof (chain_length f i _ W Hi (path_chain f i W Hi)). lia.
  - assert (K : forall c, In c (kids f i) -> shape f (build n f c) /\ post_iter n f c = opost (build n f c) /\ pre_iter n f c = opre (build n f c)).
    { intros c Hc. destruct (path_child f i c W Hi Hc) as [Rc E]. apply IH; auto. rewrite E. cbn. lia. }
    change (build (S n) f i) with (Node i (map (build n f) (kids f i))). split; [|split].
    + apply shape_node. split.
      * rewrite map_map. rewrite (map_ext _ (fun x => x)); [now rewrite map_id|]. intros; apply build_root.
      * intros t Ht. apply in_map_iff in Ht as (c & <- & Hc). now apply K.
    + cbn. f_equal. clear L. induction (kids f i) as [|c cs IHc]; cbn; auto. rewrite IHc by (intros; apply K; now right). f_equal. apply K. now left.
    + cbn. f_equal. clear L. induction (kids f i) as [|c cs IHc]; cbn; auto. rewrite IHc by (intros; apply K; now right). f_equal. apply K. now left.
Qed.
Lemma path_pos f i : wf f -> i < size f -> 0 < length (path f i).
Proof. intros W Hi. destruct (chain_cons _ _ _ (path_chain f i W Hi)) as [l ->]. cbn. lia. Qed.
Lemma order_tree f i : wf f -> i < size f -> exists t, oroot t = i /\ shape f t /\ postorder f i = opost t /\ preorder f i = opre t.
Proof.
  intros W Hi. exists (build (size f) f i). split; [apply build_root|]. apply build_ok; auto. pose proof (path_pos f i W Hi). lia.
Qed.
Lemma shape_unique f f' t : forall t', shape f t -> shape f' t' -> oroot t = oroot t' ->
  (forall j, In j (opost t) -> kids f' j = kids f j) -> t = t'.
Proof.
  induction t as [i ts IH] using otree_nested_ind. intros [i' ts'] H H' E K. cbn in E. subst i'. f_equal.
  apply shape_node in H as [H1 H2]. apply shape_node in H' as [H1' H2'].
  assert (M : map oroot ts = map oroot ts'). { rewrite <- H1, <- H1'. symmetry. apply K. cbn. apply in_app_iff. right. now left. }
  clear H1 H1'. assert (K' : forall t j, In t ts -> In j (opost t) -> kids f' j = kids f j).
  { intros t j Ht Hj. apply K. cbn. apply in_app_iff. left. apply in_flat_map. eauto. }
  clear K. revert ts' M H2'. induction ts as [|t ts IHl]; intros [|t' ts'] M H2'; cbn in M; try discriminate; auto. injection M as M1 M2. f_equal.
  - apply IH; auto; try (now left). apply H2; now left. apply H2'; now left. intros j Hj. apply (K' t); auto. now left.
  - apply IHl; auto.
    + intros u Hu. apply IH. now right.
    + intros; apply H2; now right.
    + intros u j Hu. apply K'. now right.
    + intros; apply H2'; now right.
Qed.

(** ** Members of the traversal *)
Lemma opre_opost t : forall j, In j (opre t) <-> In j (opost t).
Proof.
  induction t as [i ts IH] using otree_nested_ind. intros j. cbn. rewrite in_app_iff, !in_flat_map. cbn. split.
  - intros [<-|(t & Ht & Hj)]; [tauto|]. left. exists t. split; auto. now apply IH.
  - intros [(t & Ht & Hj)|[<-|[]]]; [|tauto]. right. exists t. split; auto. now apply IH.
Qed.
Lemma opost_root t : In (oroot t) (opost t).
Proof. destruct t. cbn. apply in_app_iff. right. now left. Qed.
Lemma shape_root_kids f t ts i : shape f t -> t = Node i ts -> forall u, In u ts -> In (oroot u) (kids f i).
Proof. intros H -> u Hu. apply shape_node in H as [-> _]. now apply in_map. Qed.
Lemma in_path_trans f i j k : wf f -> i < size f -> In k (path f j) -> j < size f -> In i (path f k) -> k < size f -> In i (path f j).
Proof.
  intros W Hi Hk Hj Hik Rk. destruct (chain_in f j (path f j) k (path_chain f j W Hj) Hk) as (pre & l' & E & C).
  rewrite (chain_fun f k _ _ C (path_chain f k W Rk)) in E. rewrite E. apply in_app_iff. now right.
Qed.
Lemma path_self f i : wf f -> i < size f -> In i (path f i).
Proof. intros W Hi. destruct (chain_cons _ _ _ (path_chain f i W Hi)) as [l ->]. now left. Qed.
Lemma opost_range f t : wf f -> shape f t -> oroot t < size f -> forall j, In j (opost t) -> j < size f /\ In (oroot t) (path f j).
Proof.
  intros W. induction t as [i ts IH] using otree_nested_ind. intros H Hi j. cbn [oroot] in *. cbn [opost]. rewrite in_app_iff, in_flat_map.
  intros [(t & Ht & Hj)|[<-|[]]]; [|split; auto; now apply path_self].
  pose proof (shape_root_kids f _ ts i H eq_refl t Ht) as Hc. destruct (path_child f i _ W Hi Hc) as [Rc E].
  apply shape_node in H as [_ H]. destruct (IH t Ht (H t Ht) Rc j Hj) as [Rj P]. split; auto.
  apply (in_path_trans f i j (oroot t)); auto. rewrite E. right. now apply path_self.
Qed.
Lemma opost_closed f t : shape f t -> forall p c, In p (opost t) -> In c (kids f p) -> In c (opost t).
Proof.
  induction t as [i ts IH] using otree_nested_ind. intros H p c. cbn [opost]. rewrite !in_app_iff, !in_flat_map.
  pose proof H as H0. apply shape_node in H as [H1 H2]. intros [(t & Ht & Hp)|[<-|[]]] Hc; left.
  - exists t. split; auto. apply (IH t Ht (H2 t Ht) p); auto.
  - rewrite H1 in Hc. apply in_map_iff in Hc as (t & <- & Ht). exists t. split; auto. apply opost_root.
Qed.
Lemma opost_all f t : wf f -> shape f t -> oroot t < size f -> forall j, j < size f -> In (oroot t) (path f j) -> In j (opost t).
Proof.
  intros W H Hi j Hj. pose proof (path_chain f j W Hj) as C. revert C. generalize (path f j). intros l C. revert Hj.
  induction C as [j E|j p l E C IH]; intros Hj.
  - intros [->|[]]. apply opost_root.
  - pose proof W as (A & _). destruct (A j p E) as (_ & Rp & Hin). intros [->|Hl]; [apply opost_root|].
    apply (opost_closed f t H p); auto.
Qed.
Lemma NoDup_app_intro {A} (l1 l2 : list A) : NoDup l1 -> NoDup l2 -> (forall x, In x l1 -> ~ In x l2) -> NoDup (l1 ++ l2).
Proof.
  induction l1 as [|x l1 IH]; cbn; auto. intros H1 H2 D. inversion H1; subst. constructor.
  - rewrite in_app_iff. intros [K|K]; auto. now apply (D x (or_introl eq_refl)).
  - apply IH; auto.
Qed.
Lemma sibling_disjoint f i c d j : wf f -> i < size f -> j < size f -> In c (kids f i) -> In d (kids f i) -> In c (path f j) -> In d (path f j) -> c = d.
Proof.
  intros W Hi Hj Hc Hd Pc Pd. destruct (path_child f i c W Hi Hc) as [Rc Ec], (path_child f i d W Hi Hd) as [Rd Ed].
  pose proof (path_chain f j W Hj) as C.
  destruct (chain_in f j _ c C Pc) as (pre & l & E & Cc). destruct (chain_in f j _ d C Pd) as (pre' & l' & E' & Cd).
  rewrite (chain_fun f c _ _ Cc (path_chain f c W Rc)), Ec in E. rewrite (chain_fun f d _ _ Cd (path_chain f d W Rd)), Ed in E'.
  rewrite E in E'. assert (L : length pre = length pre').
  { apply (f_equal (@length nat)) in E'. rewrite !app_length in E'. cbn in E'. lia. }
  clear - E' L. revert pre' L E'. induction pre as [|x pre IH]; intros [|y pre'] L E; cbn in *; try lia; [congruence|]. injection E as _ E. apply (IH pre'); auto.
Qed.
Lemma opost_nodup f t : wf f -> shape f t -> oroot t < size f -> NoDup (opost t).
Proof.
  intros W. induction t as [i ts IH] using otree_nested_ind. intros H Hi. cbn [oroot] in Hi. pose proof H as H0. apply shape_node in H as [H1 H2].
  assert (Kc : forall t, In t ts -> In (oroot t) (kids f i)) by (intros; rewrite H1; now apply in_map).
  cbn. apply NoDup_app_intro.
  - assert (N : NoDup (map oroot ts)) by (rewrite <- H1; apply W). clear H0 H1.
    induction ts as [|t ts IHl]; cbn; [constructor|]. inversion N as [|? ? N1 N2]; subst. apply NoDup_app_intro.
    + apply IH; [now left|apply H2; now left|]. apply (kids_range f i); auto. apply Kc. now left.
    + apply IHl; auto; intros; [apply IH|apply H2|apply Kc]; auto; now right.
    + intros j Hj Hj'. apply in_flat_map in Hj' as (u & Hu & Hj').
      assert (Rt : oroot t < size f) by (apply (kids_range f i); auto; apply Kc; now left).
      assert (Ru : oroot u < size f) by (apply (kids_range f i); auto; apply Kc; now right).
      destruct (opost_range f t W (H2 t (or_introl eq_refl)) Rt j Hj) as [Rj P].
      destruct (opost_range f u W (H2 u (or_intror Hu)) Ru j Hj') as [_ P'].
      pose proof (sibling_disjoint f i _ _ j W Hi Rj (Kc t (or_introl eq_refl)) (Kc u (or_intror Hu)) P P') as E.
      apply N1. rewrite E. now apply in_map.
  - repeat constructor. tauto.
  - intros j Hj [<-|[]]. apply in_flat_map in Hj as (t & Ht & Hj).
    assert (Rt : oroot t < size f) by (apply (kids_range f i); auto).
    destruct (opost_range f t W (H2 t Ht) Rt i Hj) as [_ P]. destruct (path_child f i _ W Hi (Kc t Ht)) as [_ E].
    pose proof (chain_nodup f _ _ (path_chain f _ W Rt)) as N. rewrite E in N. inversion N; contradiction.
Qed.

(** ** Tops *)
Lemma ancestor_path f n i j : wf f -> i < size f -> ancestor f n i = Some j -> In j (path f i).
Proof.
  intros W Hi. pose proof (path_chain f i W Hi) as C. revert C. generalize (path f i). intros l C. revert n.
  induction C as [i E|i p l E C IH]; intros [|n]; cbn; try (intros [= ->]; now left); rewrite E; [discriminate|].
  intros K. right. pose proof W as (A & _). destruct (A i p E) as (_ & Rp & _). now apply (IH Rp n).
Qed.
Lemma path_ancestor f i j : wf f -> i < size f -> In j (path f i) -> exists n, ancestor f n i = Some j.
Proof.
  intros W Hi. pose proof (path_chain f i W Hi) as C. revert C. generalize (path f i). intros l C.
  induction C as [i E|i p l E C IH].
  - intros [->|[]]. now exists 0.
  - intros [->|K]; [now exists 0|]. pose proof W as (A & _). destruct (A i p E) as (_ & Rp & _). destruct (IH Rp K) as [n Hn]. exists (S n). cbn. now rewrite E.
Qed.
Lemma last_in {A} (l : list A) d : l <> [] -> In (last l d) l.
Proof. induction l as [|x l IH]; [congruence|]. intros _. destruct l as [|y l]; [now left|]. right. apply IH. discriminate. Qed.
Lemma root_top f i : wf f -> i < size f -> top_of f i (root f i) /\ root f i < size f.
Proof.
  intros W Hi. pose proof (path_chain f i W Hi) as C. unfold root. pose proof (root_chain f i _ C) as [E _].
  assert (N : In (last (path f i) i) (path f i)) by (apply last_in; destruct (chain_cons _ _ _ C) as [l ->]; discriminate).
  split; [split; auto; now apply path_ancestor|]. now apply (chain_range f i (path f i)).
Qed.
Lemma chain_root_last f i l r : chain f i l -> In r l -> par f r = None -> r = last l i.
Proof.
  induction 1 as [i E|i p l E C IH]; cbn [In].
  - intros [->|[]]; auto.
  - intros [->|K] N; [congruence|]. specialize (IH K N). destruct (chain_cons _ _ _ C) as [l' ->]. cbn [last] in *. destruct l'; auto.
    rewrite IH. clear. revert n. induction l' as [|m l' IH]; intros n; auto. cbn in *. apply IH.
Qed.
Lemma top_root f i r : wf f -> i < size f -> top_of f i r -> r = root f i.
Proof.
  intros W Hi [[n Hn] N]. apply ancestor_path in Hn; auto. unfold root. apply (chain_root_last f i); auto. now apply path_chain.
Qed.
(** The nodes processed are exactly those of the same tree, each once. *)
Lemma postorder_members f i : wf f -> i < size f ->
  exists t, oroot t = root f i /\ shape f t /\ postorder f (root f i) = opost t /\ preorder f (root f i) = opre t /\ NoDup (opost t) /\
  forall j, In j (opost t) <-> j < size f /\ top_of f j (root f i).
Proof.
  intros W Hi. destruct (root_top f i W Hi) as [T R]. destruct (order_tree f (root f i) W R) as (t & E1 & E2 & E3 & E4).
  exists t. rewrite <- E1 in *. repeat split; auto.
  - now apply (opost_nodup f).
  - now apply (opost_range f t).
  - apply path_ancestor; auto; now apply (opost_range f t).
  - apply T.
  - intros [Hj Tj]. apply (opost_all f); auto. destruct Tj as [[n Hn] _]. apply (ancestor_path f n); auto.
Qed.

(** ** Running the nodes *)
Section Exec.
  Context {St : Type} (eff : nat -> St -> St * option exn).
  Lemma update_nodes_executes l : forall s,
    match update_nodes eff l s with
    | (s', None) => executes eff l s s'
    | (s', Some e) => exists l1 i l2 s1, l = l1 ++ i :: l2 /\ executes eff l1 s s1 /\ eff i s1 = (s', Some e)
    end.
  Proof.
    induction l as [|i l IH]; intros s; cbn; [constructor|]. destruct (eff i s) as [s1 [e|]] eqn:E.
    - exists [], i, l, s. repeat split; auto. constructor.
    - specialize (IH s1). destruct (update_nodes eff l s1) as [s' [e|]].
      + destruct IH as (l1 & j & l2 & s2 & -> & H & K). exists (i :: l1), j, l2, s2. repeat split; auto. econstructor; eauto.
      + econstructor; eauto.
  Qed.
  Lemma executes_fun l : forall s s1 s2, executes eff l s s1 -> executes eff l s s2 -> s1 = s2.
  Proof.
    intros s s1 s2 H. revert s2. induction H as [s|i l s s1 s2 E H IH]; intros s3 K; inversion K; subst; auto. apply IH. congruence.
  Qed.
  Lemma update_order f i s k : wf f -> i < size f ->
    exists t, top_of f i (oroot t) /\ shape f t /\ NoDup (opost t) /\ (forall j, In j (opost t) <-> j < size f /\ top_of f j (oroot t)) /\
    match update eff f i (s, k) with
    | ((s', k'), None) => k' = S k /\ executes eff (opost t) s s'
    | ((s', k'), Some e) => k' = k /\ exists l1 j l2 s1, opost t = l1 ++ j :: l2 /\ executes eff l1 s s1 /\ eff j s1 = (s', Some e)
    end.
  Proof.
    intros W Hi. destruct (postorder_members f i W Hi) as (t & E1 & E2 & E3 & _ & E4 & E5). exists t. rewrite <- E1 in *.
    split; [rewrite E1; now apply root_top|]. split; auto. split; auto. split; auto.
    unfold update. cbn [fst snd]. rewrite <- E1, E3. pose proof (update_nodes_executes (opost t) s) as U. destruct (update_nodes eff (opost t) s) as [s' [e|]]; auto.
  Qed.
  Lemma update_any_node f i j s : wf f -> i < size f -> j < size f -> (exists r, top_of f i r /\ top_of f j r) -> update eff f i s = update eff f j s.
  Proof. intros W Hi Hj (r & Ti & Tj). unfold update. now rewrite <- (top_root f i r), <- (top_root f j r). Qed.
End Exec.

(** ** Lookup by name *)
Lemma find_first {A} (p : A -> bool) l x : find p l = Some x <-> exists l1 l2, l = l1 ++ x :: l2 /\ p x = true /\ forall y, In y l1 -> p y = false.
Proof.
  split.
  - induction l as [|y l IH]; cbn; [discriminate|]. destruct (p y) eqn:E.
    + intros [= ->]. exists [], l. repeat split; auto. intros y [].
    + intros K. destruct (IH K) as (l1 & l2 & -> & P & Q). exists (y :: l1), l2. repeat split; auto. intros z [<-|Hz]; auto.
  - intros (l1 & l2 & -> & P & Q). induction l1 as [|y l1 IH]; cbn; [now rewrite P|]. rewrite (Q y (or_introl eq_refl)). apply IH. intros; apply Q; now right.
Qed.
Lemma getitem_ok f i item : wf f -> i < size f ->
  exists t, top_of f i (oroot t) /\ shape f t /\ (forall j, In j (opre t) <-> j < size f /\ top_of f j (oroot t)) /\
  match getitem f i item with
  | Ok j => exists l1 l2, opre t = l1 ++ j :: l2 /\ name f j = item /\ forall h, In h l1 -> name f h <> item
  | Err e => e = KeyError /\ forall j, j < size f -> top_of f j (oroot t) -> name f j <> item
  end.
Proof.
  intros W Hi. destruct (postorder_members f i W Hi) as (t & E1 & E2 & _ & E3 & E4 & E5). exists t. rewrite <- E1 in *.
  assert (M : forall j, In j (opre t) <-> j < size f /\ top_of f j (oroot t)) by (intros; rewrite opre_opost; auto).
  split; [rewrite E1; now apply root_top|]. split; auto. split; auto. unfold getitem. rewrite <- E1, E3.
  destruct (find _ (opre t)) as [j|] eqn:F.
  - apply find_first in F as (l1 & l2 & E & P & Q). exists l1, l2. repeat split; auto; [now apply String.eqb_eq|].
    intros h Hh. apply String.eqb_neq. auto.
  - split; auto. intros j Hj Tj. apply String.eqb_neq. apply (find_none _ _ F j). now apply M.
Qed.

(** ** Changing a part of the tree *)
Lemma list_split_eq {A B} (g : A -> B) l1 x l2 l' : map g (l1 ++ x :: l2) = map g l' -> exists l1' x' l2', l' = l1' ++ x' :: l2' /\ map g l1 = map g l1' /\ g x = g x' /\ map g l2 = map g l2'.
Proof.
  revert l'. induction l1 as [|y l1 IH]; intros [|y' l'] E; cbn in E; try discriminate; injection E as E1 E2.
  - exists [], y', l'. auto.
  - destruct (IH l' E2) as (l1' & x' & l2' & -> & A1 & A2 & A3). exists (y' :: l1'), x', l2'. cbn. repeat split; auto. now f_equal.
Qed.
Lemma same_trees f f' ts : forall ts', map oroot ts = map oroot ts' -> (forall t, In t ts -> shape f t) -> (forall t, In t ts' -> shape f' t) ->
  (forall t j, In t ts -> In j (opost t) -> kids f' j = kids f j) -> ts = ts'.
Proof.
  induction ts as [|t ts IH]; intros [|t' ts'] M H H' K; cbn in M; try discriminate; auto. injection M as M1 M2. f_equal.
  - apply (shape_unique f f'); auto; [apply H; now left|apply H'; now left|]. intros j. apply K. now left.
  - apply IH; auto; intros; [apply H|apply H'|eapply K]; eauto; now right.
Qed.
Lemma decompose f t tp : wf f -> shape f t -> oroot t < size f -> shape f tp -> In (oroot tp) (opost t) ->
  exists X Z, forall f' t' tp', shape f' t' -> shape f' tp' -> oroot t' = oroot t -> oroot tp' = oroot tp ->
    (forall j, In j (opost t) -> ~ In j (opost tp) -> kids f' j = kids f j) -> opost t' = X ++ opost tp' ++ Z.
Proof.
  intros W. induction t as [i ts IH] using otree_nested_ind. intros H Hi Hp Hin. cbn [oroot] in *.
  destruct (Nat.eq_dec (oroot tp) i) as [E|N].
  - exists [], []. intros f' t' tp' H' Hp' E1 E2 _. rewrite app_nil_r. cbn. f_equal. apply (shape_unique f' f'); auto. congruence.
  - cbn [opost] in Hin. apply in_app_iff in Hin as [Hin|[Hin|[]]]; [|congruence]. apply in_flat_map in Hin as (tc & Hc & Hin).
    pose proof H as H0. apply shape_node in H as [H1 H2].
    assert (Kc : forall t, In t ts -> In (oroot t) (kids f i)) by (intros; rewrite H1; now apply in_map).
    assert (Rc : forall t, In t ts -> oroot t < size f) by (intros; apply (kids_range f i); auto).
    destruct (IH tc Hc (H2 tc Hc) (Rc tc Hc) Hp Hin) as (X & Z & D).
    apply in_split in Hc as (T1 & T2 & ->). exists (flat_map opost T1 ++ X), (Z ++ flat_map opost T2 ++ [i]).
    intros f' [i' ts'] tp' H' Hp' E1 E2 K. cbn in E1. subst i'. apply shape_node in H' as [H1' H2'].
    assert (Rp : oroot tp < size f).
    { apply (opost_range f tc W); auto; [apply H2|apply Rc]; apply in_app_iff; right; now left. }
    assert (Hc : In tc (T1 ++ tc :: T2)) by (apply in_app_iff; right; now left).
    assert (Sub : forall j, In j (opost tp) -> In j (opost tc)).
    { intros j Hj. destruct (opost_range f tp W Hp Rp j Hj) as [Rj P]. apply (opost_all f); auto.
      apply (in_path_trans f _ j (oroot tp)); auto. now apply (opost_range f tc W (H2 tc Hc) (Rc tc Hc)). }
    assert (ND : NoDup (opost (Node i (T1 ++ tc :: T2)))) by now apply (opost_nodup f).
    cbn [opost] in ND. rewrite flat_map_app in ND. cbn [flat_map] in ND.
    assert (Ki : kids f' i = kids f i).
    { apply K; [cbn; apply in_app_iff; right; now left|]. intros Q. apply Sub in Q. apply NoDup_remove_2 in ND. rewrite app_nil_r in ND.
      apply ND. apply in_app_iff. right. apply in_app_iff. now left. }
    assert (Out : forall t j, In t T1 \/ In t T2 -> In j (opost t) -> ~ In j (opost tp)).
    { intros t j Ht Hj Q. apply Sub in Q. apply NoDup_remove_1 in ND. rewrite app_nil_r in ND. clear - ND Ht Hj Q. destruct Ht as [Ht|Ht].
      - assert (A : In j (flat_map opost T1)) by (apply in_flat_map; eauto). apply in_split in A as (u & v & A). rewrite A in ND.
        rewrite <- !app_assoc in ND. cbn in ND. apply NoDup_remove_2 in ND. apply ND. rewrite !in_app_iff. auto.
      - assert (A : In j (flat_map opost T2)) by (apply in_flat_map; eauto). apply in_split in A as (u & v & A). rewrite A in ND.
        rewrite app_assoc, app_assoc in ND. apply NoDup_remove_2 in ND. apply ND. rewrite !in_app_iff. auto. }
    rewrite Ki, H1 in H1'. apply list_split_eq in H1' as (T1' & tc' & T2' & -> & M1 & M2 & M3).
    assert (E1 : T1 = T1').
    { apply (same_trees f f'); auto.
      - intros; apply H2; apply in_app_iff; auto.
      - intros; apply H2'; apply in_app_iff; auto.
      - intros t j Ht Hj. apply K; [cbn; rewrite in_app_iff, in_flat_map; left; exists t; rewrite in_app_iff; auto|]. apply (Out t); auto. }
    assert (E3 : T2 = T2').
    { apply (same_trees f f'); auto.
      - intros; apply H2; apply in_app_iff; right; now right.
      - intros; apply H2'; apply in_app_iff; right; now right.
      - intros t j Ht Hj. apply K; [cbn; rewrite in_app_iff, in_flat_map; left; exists t; rewrite in_app_iff; cbn; auto|]. apply (Out t); auto. }
    subst T1' T2'. cbn [opost]. rewrite flat_map_app. cbn [flat_map].
    rewrite (D f' tc' tp'); auto.
    + rewrite <- !app_assoc. reflexivity.
    + apply H2'. apply in_app_iff. right. now left.
    + intros j Hj. apply K. cbn. rewrite in_app_iff, in_flat_map. left. exists tc. auto.
Qed.

Lemma shape_transfer f f' t : shape f t -> (forall j, In j (opost t) -> kids f' j = kids f j) -> shape f' t.
Proof.
  induction t as [i ts IH] using otree_nested_ind. intros H K. apply shape_node in H as [H1 H2]. apply shape_node. split.
  - rewrite <- H1. apply K. cbn. apply in_app_iff. right. now left.
  - intros t Ht. apply IH; auto. intros j Hj. apply K. cbn. rewrite in_app_iff, in_flat_map. eauto.
Qed.
Lemma not_above f m s : wf f -> s < size f -> kids f m = [] -> s <> m -> ~ In m (path f s).
Proof.
  intros W Hs Km. pose proof (path_chain f s W Hs) as C. revert C. generalize (path f s). intros l C. induction C as [i E|i p l E C IH]; intros N.
  - intros [K|[]]. congruence.
  - pose proof W as (A & _). destruct (A i p E) as (_ & Rp & Hin). intros [K|K]; [congruence|]. revert K. apply IH; auto. intros ->. rewrite Km in Hin. destruct Hin.
Qed.
Lemma path_no_child f s c : wf f -> s < size f -> In c (kids f s) -> ~ In c (path f s).
Proof.
  intros W Hs Hc K. destruct (path_child f s c W Hs Hc) as [Rc E]. pose proof (chain_nodup f c _ (path_chain f c W Rc)) as N.
  rewrite E in N. inversion N; contradiction.
Qed.
Lemma path_alone f m : wf f -> m < size f -> par f m = None -> path f m = [m].
Proof. intros W Hm P. apply (chain_fun f m); [now apply path_chain|]. now constructor. Qed.
(** A lone leaf is in no tree but its own. *)
Lemma alone_outside f m t : wf f -> m < size f -> par f m = None -> shape f t -> oroot t < size f -> oroot t <> m -> ~ In m (opost t).
Proof.
  intros W Hm P H R N K. destruct (opost_range f t W H R m K) as [_ Q]. rewrite (path_alone f m W Hm P) in Q. destruct Q as [Q|[]]. congruence.
Qed.
Lemma subtree_in_whole f s t : wf f -> s < size f -> shape f t -> top_of f s (oroot t) -> oroot t < size f /\ In s (opost t).
Proof.
  intros W Hs H T. pose proof (top_root f s _ W Hs T) as E. pose proof (proj2 (root_top f s W Hs)) as R. rewrite <- E in R. split; auto.
  apply (opost_all f); auto. destruct T as [[n Hn] _]. now apply (ancestor_path f n).
Qed.
Lemma top_transfer f g s r : wf f -> s < size f -> (forall j, In j (path f s) -> par g j = par f j) -> top_of f s r -> top_of g s r.
Proof.
  intros W Hs K [[n Hn] N]. assert (P : In r (path f s)) by now apply (ancestor_path f n). split; [|rewrite K; auto]. exists n. revert n Hn.
  pose proof (path_chain f s W Hs) as C. revert C K P. generalize (path f s). intros l C. induction C as [i E|i p l E C IH]; intros K _ [|n]; cbn; auto; rewrite E; try discriminate.
  rewrite (K i (or_introl eq_refl)), E. intros Hn. pose proof W as (A & _). destruct (A i p E) as (_ & Rp & _). apply IH; auto.
  - intros; apply K; now right.
  - rewrite (chain_fun f p l (path f p) C (path_chain f p W Rp)). now apply (ancestor_path f n).
Qed.

(** ** inject_after *)
Lemma move_all_effect f s m : wf f -> s < size f -> m < size f -> m <> s -> par f m = None ->
  forall cs done g, wf g -> size g = size f -> par g m = None -> kids g s = cs -> kids g m = done ->
  exists g', move_all g cs m = (g', None) /\ wf g' /\ size g' = size f /\ par g' m = None /\ kids g' s = [] /\ kids g' m = done ++ cs /\
    (forall q, q <> s -> q <> m -> kids g' q = kids g q) /\ (forall j, ~ In j cs -> par g' j = par g j) /\ name g' = name g.
Proof.
  intros W Hs Hm N P. induction cs as [|c cs IH]; intros done g Wg Sg Pm Ks Km.
  - exists g. cbn. rewrite app_nil_r. splits; auto.
  - assert (Hc : In c (kids g s)) by (rewrite Ks; now left). pose proof Wg as (A & B & C & D). pose proof (C s c Hc) as Pc. destruct (A c s Pc) as (Rc & _ & _).
    cbn [move_all]. destruct (set_parent_cases g c (Some m) Wg Rc) as [(E & _)|[(_ & (p & [= <-] & Q) & _)|(_ & NP & g1 & -> & RG)]]; [lia|congruence| |].
    { rewrite (path_alone g m Wg) in Q by (auto; lia). destruct Q as [->|[]]; congruence. }
    pose proof (reparented_wf g g1 c (Some m) Wg Rc ltac:(cbn; lia) NP RG) as W1. destruct RG as (G1 & G0 & G2 & G3 & G4). cbn [andthen].
    assert (Nc : c <> m) by congruence. assert (NDs : NoDup (kids g s)) by auto. rewrite Ks in NDs. inversion NDs as [|? ? ND1 ND2]; subst.
    destruct (IH (kids g m ++ [c]) g1) as (g' & F1 & F2 & F3 & F4 & F5 & F6 & F7 & F8 & F9); auto; try congruence.
    + rewrite G3; auto.
    + rewrite G4. cbn. destruct (Nat.eqb_spec s m); [congruence|]. rewrite Pc. cbn. rewrite Nat.eqb_refl, Ks. cbn. now rewrite Nat.eqb_refl.
    + rewrite G4. cbn. rewrite Nat.eqb_refl. f_equal. apply remove_absent. intros K. apply C in K. congruence.
    + exists g'. rewrite F1. splits; auto.
      * rewrite F6, <- app_assoc. reflexivity.
      * intros q Nq1 Nq2. rewrite F7 by auto. rewrite G4. cbn. destruct (Nat.eqb_spec q m); [congruence|]. rewrite Pc. cbn. destruct (Nat.eqb_spec q s); [congruence|auto].
      * intros j Hj. cbn in Hj. rewrite F8 by tauto. apply G3. intros ->. tauto.
      * congruence.
Qed.
Lemma inject_after_effect f s m : wf f -> s < size f -> m < size f -> m <> s -> par f m = None -> kids f m = [] ->
  exists g, inject_after f s m = (g, None) /\ wf g /\ size g = size f /\ kids g s = [m] /\ kids g m = kids f s /\
    (forall q, q <> s -> q <> m -> kids g q = kids f q) /\ (forall j, In j (path f s) -> par g j = par f j).
Proof.
  intros W Hs Hm N P Km. destruct (move_all_effect f s m W Hs Hm N P (kids f s) [] f W eq_refl P eq_refl Km)
    as (g1 & F1 & W1 & F3 & F4 & F5 & F6 & F7 & F8 & _). unfold inject_after. rewrite F1. cbn [andthen].
  assert (PE : forall j, In j (path f s) -> par g1 j = par f j) by (intros j Hj; apply F8; intros K; revert Hj; now apply path_no_child).
  assert (Path : path g1 s = path f s).
  { apply (chain_fun g1 s); [apply path_chain; auto; lia|]. apply (chain_transfer f g1); auto. now apply path_chain. }
  destruct (set_parent_cases g1 m (Some s) W1) as [(E & _)|[(_ & (p & [= <-] & Q) & _)|(_ & NP & g & -> & RG)]]; try lia; [congruence| |].
  { rewrite Path in Q. exfalso. revert Q. apply not_above; auto. }
  pose proof (reparented_wf g1 g m (Some s) W1 ltac:(cbn; lia) ltac:(cbn; lia) NP RG) as Wg. destruct RG as (G1 & G0 & G2 & G3 & G4).
  exists g. split; auto. split; auto. split; [lia|]. split; [|split; [|split]].
  - rewrite G4. cbn. rewrite Nat.eqb_refl, F5. reflexivity.
  - rewrite G4. cbn. destruct (Nat.eqb_spec m s); [congruence|]. rewrite F4. exact F6.
  - intros q Nq1 Nq2. rewrite G4. cbn. destruct (Nat.eqb_spec q s); [congruence|]. rewrite F4. cbn. auto.
  - intros j Hj. rewrite G3; auto. intros ->. revert Hj. apply not_above; auto.
Qed.
Lemma inject_after_order f s m : wf f -> s < size f -> m < size f -> m <> s -> par f m = None -> kids f m = [] ->
  exists g X K Z, inject_after f s m = (g, None) /\ subtree_order f s (K ++ [s]) /\
    whole_order f s (X ++ K ++ [s] ++ Z) /\ whole_order g s (X ++ K ++ [m; s] ++ Z).
Proof.
  intros W Hs Hm N P Km. destruct (inject_after_effect f s m W Hs Hm N P Km) as (g & E & Wg & Sg & Ks & Kgm & Kq & PE).
  destruct (root_top f s W Hs) as [T R]. destruct (order_tree f (root f s) W R) as (t & Rt & Ht & _). rewrite <- Rt in *.
  destruct (order_tree f s W Hs) as ([s' ts] & Rp & Hp & _). cbn in Rp. subst s'.
  destruct (subtree_in_whole f s t W Hs Ht T) as [_ Hin].
  assert (Rm : oroot t <> m). { intros Q. rewrite Q in T. destruct T as [[n Hn] _]. apply ancestor_path in Hn; auto. revert Hn. apply not_above; auto. }
  assert (Om : ~ In m (opost t)) by now apply (alone_outside f).
  assert (Op : ~ In m (opost (Node s ts))) by (apply (alone_outside f); auto).
  destruct (decompose f t (Node s ts) W Ht R Hp Hin) as (X & Z & D).
  pose proof (opost_nodup f (Node s ts) W Hp Hs) as ND. cbn in ND. apply NoDup_remove_2 in ND. rewrite app_nil_r in ND.
  pose proof Hp as Hp0. apply shape_node in Hp as [Hp1 Hp2].
  assert (Hp' : shape g (Node s [Node m ts])).
  { apply shape_node. split; [exact Ks|]. intros u [<-|[]]. apply shape_node. split; [congruence|]. intros u Hu. apply (shape_transfer f); auto.
    intros j Hj. assert (Fj : In j (flat_map opost ts)) by (apply in_flat_map; eauto). apply Kq.
    - intros ->. auto.
    - intros ->. apply Op. cbn. apply in_app_iff. now left. }
  assert (Tg : top_of g s (oroot t)) by (now apply (top_transfer f)).
  destruct (order_tree g (oroot t) Wg) as (t' & Rt' & Ht' & _); [lia|].
  exists g, X, (flat_map opost ts), Z. split; auto. split; [exists (Node s ts); auto|]. split.
  - exists t. split; auto. split; auto. rewrite (D f t (Node s ts)); auto. cbn. rewrite <- !app_assoc. reflexivity.
  - exists t'. rewrite Rt'. split; auto. split; auto. rewrite (D g t' (Node s [Node m ts])); auto.
    + cbn. rewrite app_nil_r, <- !app_assoc. reflexivity.
    + intros j Hj Nj. apply Kq; [intros ->; apply Nj, (opost_root (Node s ts))|intros ->; auto].
Qed.

(** ** inject_before *)
Lemma inject_before_first f s m : wf f -> s < size f -> m < size f -> m <> s -> par f m = None -> kids f m = [] ->
  exists g, set_parent f s (Some m) = (g, None) /\ wf g /\ reparented f g s (Some m).
Proof.
  intros W Hs Hm N P Km. pose proof W as (A & B & C & D).
  destruct (set_parent_cases f s (Some m) W Hs Hm) as [(E & _)|[(_ & (p & [= <-] & Q) & _)|(_ & NP & g & -> & RG)]].
  - destruct (A s m E) as (_ & _ & K). rewrite Km in K. destruct K.
  - rewrite (path_alone f m) in Q by auto. destruct Q as [Q|[]]. congruence.
  - exists g. split; auto. split; auto. now apply (reparented_wf f g s (Some m)).
Qed.
Lemma inject_before_root_order f s m : wf f -> s < size f -> m < size f -> m <> s -> par f m = None -> kids f m = [] -> par f s = None ->
  exists g L, inject_before f s m = (g, None) /\ subtree_order f s L /\ whole_order f s L /\ whole_order g s (L ++ [m]).
Proof.
  intros W Hs Hm N P Km Ps. destruct (inject_before_first f s m W Hs Hm N P Km) as (g & E & Wg & G1 & _ & G2 & G3 & G4).
  destruct (order_tree f s W Hs) as (t & Rt & Ht & _). exists g, (opost t). unfold inject_before. rewrite E, Ps. cbn [andthen].
  assert (Pm : par g m = None) by (rewrite G3; auto).
  assert (Om : ~ In m (opost t)) by (apply (alone_outside f); auto; congruence).
  split; [unfold set_parent; rewrite Pm; reflexivity|]. split; [exists t; auto|]. split.
  - exists t. rewrite Rt. split; auto. split; auto. now exists 0.
  - exists (Node m [t]). split; [|split].
    + cbn [oroot]. split; auto. exists 1. cbn. now rewrite G2.
    + apply shape_node. split.
      * rewrite G4. cbn. rewrite Nat.eqb_refl, Km. cbn. now rewrite Rt.
      * intros u [<-|[]]. apply (shape_transfer f); auto. intros j Hj. rewrite G4. cbn. destruct (Nat.eqb_spec j m) as [->|_]; [contradiction|]. now rewrite Ps.
    + cbn. now rewrite app_nil_r.
Qed.
Lemma inject_before_effect f s m p : wf f -> s < size f -> m < size f -> m <> s -> par f m = None -> kids f m = [] -> par f s = Some p ->
  exists g, inject_before f s m = (g, None) /\ wf g /\ size g = size f /\ kids g m = [s] /\ kids g p = remove_first s (kids f p) ++ [m] /\
    (forall q, q <> p -> q <> m -> kids g q = kids f q) /\ par g s = Some m /\ par g m = Some p /\ (forall j, In j (path f p) -> par g j = par f j).
Proof.
  intros W Hs Hm N P Km Ps. destruct (inject_before_first f s m W Hs Hm N P Km) as (g1 & E & W1 & G1 & _ & G2 & G3 & G4).
  pose proof W as (A & B & C & D). destruct (A s p Ps) as (_ & Rp & Hin). assert (Np : p <> m) by (intros ->; rewrite Km in Hin; destruct Hin).
  unfold inject_before. rewrite E, Ps. cbn [andthen].
  assert (PE : forall j, In j (path f p) -> par g1 j = par f j) by (intros j Hj; apply G3; intros ->; revert Hj; now apply path_no_child).
  assert (Path : path g1 p = path f p).
  { apply (chain_fun g1 p); [apply path_chain; auto; lia|]. apply (chain_transfer f g1); auto. now apply path_chain. }
  assert (Pm : par g1 m = None) by (rewrite G3; auto).
  destruct (set_parent_cases g1 m (Some p) W1) as [(K & _)|[(_ & (q & [= <-] & Q) & _)|(_ & NP & g & -> & RG)]]; try lia; [congruence| |].
  { rewrite Path in Q. exfalso. revert Q. apply not_above; auto. }
  pose proof (reparented_wf g1 g m (Some p) W1 ltac:(cbn; lia) ltac:(cbn; lia) NP RG) as Wg. destruct RG as (H1 & _ & H2 & H3 & H4).
  exists g. split; auto. split; auto. split; [lia|]. split; [|split; [|split; [|split; [|split]]]]; auto.
  - rewrite H4. cbn. destruct (Nat.eqb_spec m p); [congruence|]. rewrite Pm, G4. cbn. rewrite Nat.eqb_refl, Km. reflexivity.
  - rewrite H4. cbn. rewrite Nat.eqb_refl. f_equal. rewrite remove_absent.
    + rewrite G4. cbn. destruct (Nat.eqb_spec p m); [congruence|]. rewrite Ps. cbn. now rewrite Nat.eqb_refl.
    + intros K. destruct W1 as (_ & _ & C1 & _). apply C1 in K. congruence.
  - intros q Nq1 Nq2. rewrite H4. cbn. destruct (Nat.eqb_spec q p); [congruence|]. rewrite Pm, G4. cbn. destruct (Nat.eqb_spec q m); [congruence|].
    rewrite Ps. cbn. destruct (Nat.eqb_spec q p); [congruence|auto].
  - rewrite H3; auto.
  - intros j Hj. rewrite H3; auto. intros ->. revert Hj. apply not_above; auto.
Qed.
Lemma inject_before_order f s m p : wf f -> s < size f -> m < size f -> m <> s -> par f m = None -> kids f m = [] -> par f s = Some p ->
  exists g X L B Z older younger, inject_before f s m = (g, None) /\ subtree_order f s L /\
    kids f p = older ++ s :: younger /\ siblings_order f younger B /\
    whole_order f s (X ++ L ++ B ++ p :: Z) /\ whole_order g s (X ++ B ++ L ++ m :: p :: Z).
Proof.
  intros W Hs Hm N P Km Ps. destruct (inject_before_effect f s m p W Hs Hm N P Km Ps) as (g & E & Wg & Sg & Kgm & Kgp & Kq & Pgs & Pgm & PE).
  pose proof W as (A & BB & C & D0). destruct (A s p Ps) as (_ & Rp & Hsp). assert (Np : p <> m) by (intros ->; rewrite Km in Hsp; destruct Hsp).
  destruct (root_top f p W Rp) as [T R]. destruct (order_tree f (root f p) W R) as (t & Rt & Ht & _). rewrite <- Rt in *.
  destruct (order_tree f p W Rp) as ([p' ts] & Rp' & Hp & _). cbn in Rp'. subst p'.
  destruct (subtree_in_whole f p t W Rp Ht T) as [_ Hin].
  assert (Rm : oroot t <> m). { intros Q. rewrite Q in T. destruct T as [[n Hn] _]. apply ancestor_path in Hn; auto. revert Hn. apply not_above; auto. }
  assert (Om : ~ In m (opost t)) by now apply (alone_outside f).
  assert (Op : ~ In m (opost (Node p ts))) by (apply (alone_outside f); auto).
  destruct (decompose f t (Node p ts) W Ht R Hp Hin) as (X & Z & D).
  pose proof (opost_nodup f (Node p ts) W Hp Rp) as ND. cbn in ND. apply NoDup_remove_2 in ND. rewrite app_nil_r in ND.
  pose proof Hp as Hp0. apply shape_node in Hp as [Hp1 Hp2].
  assert (Hs' := Hsp). rewrite Hp1 in Hs'. apply in_map_iff in Hs' as (tn & En & Hn). apply in_split in Hn as (T1 & T2 & ->).
  assert (Hsub : forall u, In u (T1 ++ tn :: T2) -> shape g u).
  { intros u Hu. apply (shape_transfer f); auto.
    intros j Hj. assert (Fj : In j (flat_map opost (T1 ++ tn :: T2))) by (apply in_flat_map; eauto). apply Kq.
    - intros ->. auto.
    - intros ->. apply Op. cbn. apply in_app_iff. now left. }
  assert (Nold : ~ In s (map oroot T1)).
  { pose proof (BB p) as NK. rewrite Hp1, map_app in NK. cbn in NK. rewrite En in NK. apply NoDup_remove_2 in NK. rewrite in_app_iff in NK. tauto. }
  assert (Hp' : shape g (Node p (T1 ++ T2 ++ [Node m [tn]]))).
  { apply shape_node. split.
    - rewrite Kgp, Hp1, !map_app. cbn. rewrite En, remove_split by auto. now rewrite <- app_assoc.
    - intros u Hu. rewrite !in_app_iff in Hu. cbn in Hu. destruct Hu as [Hu|[Hu|[<-|[]]]].
      + apply Hsub. apply in_app_iff. auto.
      + apply Hsub. apply in_app_iff. right. now right.
      + apply shape_node. split; [cbn; now rewrite En|]. intros u [<-|[]]. apply Hsub. apply in_app_iff. right. now left. }
  assert (Tg : top_of g p (oroot t)) by (now apply (top_transfer f)).
  destruct (order_tree g (oroot t) Wg) as (t' & Rt' & Ht' & _); [lia|].
  exists g, (X ++ flat_map opost T1), (opost tn), (flat_map opost T2), Z, (map oroot T1), (map oroot T2).
  assert (Htn : shape f tn) by (apply Hp2; apply in_app_iff; right; now left).
  split; auto. split; [exists tn; auto|]. split; [rewrite Hp1, map_app; cbn; now rewrite En|].
  split; [exists T2; repeat split; auto; intros u Hu; apply Hp2; apply in_app_iff; right; now right|]. split.
  - exists t. split; [|split; auto].
    + destruct T as [[n Hn] Nr]. split; auto. exists (Datatypes.S n). cbn. now rewrite Ps.
    + rewrite (D f t (Node p (T1 ++ tn :: T2))); auto. cbn. rewrite flat_map_app. cbn. rewrite <- !app_assoc. reflexivity.
  - exists t'. rewrite Rt'. split; [|split; auto].
    + destruct Tg as [[n Hn] Nr]. split; auto. exists (Datatypes.S (Datatypes.S n)). cbn. now rewrite Pgs, Pgm.
    + rewrite (D g t' (Node p (T1 ++ T2 ++ [Node m [tn]]))); auto.
      * cbn. rewrite !flat_map_app. cbn. rewrite !app_nil_r, <- !app_assoc. reflexivity.
      * intros j Hj Nj. apply Kq; [intros ->; apply Nj, (opost_root (Node p (T1 ++ tn :: T2)))|intros ->; auto].
Qed.

(** ** [<<] with fresh branches *)
Lemma lshift_fresh os : forall f s, wf f -> s < size f -> NoDup os -> (forall o, In o os -> o < size f /\ par f o = None /\ ~ In o (path f s)) ->
  exists g, lshift f s os = (g, None) /\ kids g s = kids f s ++ os /\ (forall q, q <> s -> kids g q = kids f q) /\
    (forall o, In o os -> par g o = Some s) /\ (forall j, ~ In j os -> par g j = par f j).
Proof.
  induction os as [|o os IH]; intros f s W Hs ND H.
  - exists f. cbn. rewrite app_nil_r. splits; auto; tauto.
  - destruct (H o (or_introl eq_refl)) as (Ro & Po & Qo). cbn [lshift]. unfold add_children. inversion ND as [|? ? ND1 ND2]; subst.
    destruct (set_parent_cases f o (Some s) W Ro Hs) as [(E & _)|[(_ & (p & [= <-] & Q) & _)|(_ & NP & g1 & -> & RG)]]; [congruence|contradiction|].
    pose proof (reparented_wf f g1 o (Some s) W Ro Hs NP RG) as W1. destruct RG as (G1 & _ & G2 & G3 & G4). cbn [andthen].
    assert (Path : path g1 s = path f s).
    { apply (chain_fun g1 s); [apply path_chain; auto; lia|]. apply (chain_transfer f g1); [|now apply path_chain]. intros j Hj. apply G3. intros ->. contradiction. }
    destruct (IH g1 s) as (g & F1 & F2 & F3 & F4 & F5); auto; try lia.
    + intros q Hq. destruct (H q (or_intror Hq)) as (A1 & A2 & A3). rewrite G1, Path. splits; auto. rewrite G3; auto. intros ->. contradiction.
    + exists g. splits; auto.
      * rewrite F2, G4. cbn. rewrite Nat.eqb_refl, remove_absent, <- app_assoc; auto. intros K. pose proof W as (_ & _ & C & _). apply C in K. congruence.
      * intros q Nq. rewrite F3 by auto. rewrite G4. cbn. destruct (Nat.eqb_spec q s); [congruence|]. now rewrite Po.
      * intros q [<-|Hq]; auto. rewrite F5; auto.
      * intros j Hj. rewrite F5; [|intros K; apply Hj; now right]. apply G3. intros ->. apply Hj. now left.
Qed.
