(** Logic trees written with [<<] run their nodes in the written order. *)
From Coq Require Import Lia.
From Coq Require String.
From Verif Require Export Spec.Written Proofs.TreeOrderProofs.
Open Scope nat_scope.

Section ExprInd.
  Context {A : Type}.
  Variable P : expr A -> Prop.
  Hypothesis H : forall a gs, (forall g x, In g gs -> In x g -> P x) -> P (Make a gs).
  Fixpoint expr_nested_ind (x : expr A) : P x :=
    match x with
    | Make a gs => H a gs (fun g x Hg Hx =>
        (fix go (gs : list (list (expr A))) : In g gs -> P x :=
           match gs with
           | [] => fun K => match K with end
           | g' :: gs' => fun K =>
               match K with
               | or_introl E => (fix each (xs : list (expr A)) : In x xs -> P x :=
                                   match xs with
                                   | [] => fun K => match K with end
                                   | y :: xs' => fun K => match K with or_introl E => eq_ind y P (expr_nested_ind y) x E | or_intror K' => each xs' K' end
                                   end) g' (eq_ind_r (fun z => In x z) Hx E)
               | or_intror K' => go gs' K'
               end
           end) gs Hg)
    end.
End ExprInd.

Section Construct.
  Context {A : Type} (cls : A -> String.string).
  Fixpoint tuple_ (xs : list (expr A)) (f : tree_state) (ns : list A) : res (list nat * tree_state * list A) :=
    match xs with
    | [] => Ok ([], f, ns)
    | x :: xs' =>
        do r1 <- construct cls x f ns;
        let '(i, f1, ns1) := r1 in
        do r2 <- tuple_ xs' f1 ns1;
        let '(is, f2, ns2) := r2 in
        Ok (i :: is, f2, ns2)
    end.
  Definition shifts_ (self : nat) := fix shifts_ (gs : list (list (expr A))) (f : tree_state) (ns : list A) : res (nat * tree_state * list A) :=
    match gs with
    | [] => Ok (self, f, ns)
    | g :: gs' =>
        do r <- tuple_ g f ns;
        let '(is, f', ns') := r in
        match lshift f' self is with
        | (f'', None) => shifts_ gs' f'' ns'
        | (_, Some e) => Err e
        end
    end.
  Lemma construct_eq a gs f ns : construct cls (Make a gs) f ns = shifts_ (size f) gs (new_node (cls a) f) (ns ++ [a]).
  Proof. reflexivity. Qed.

  (** [f'] has, besides the nodes of [f] whose links are the same, the trees [ts],
      whose nodes in processing order are [items]. *)
  Record built (f f' : tree_state) (ns ns' : list A) (ts : list otree) (items : list A) : Prop := Built {
    b_reach : reachable f';
    b_len : length ns' = size f';
    b_size : size f <= size f';
    b_ns : exists l, ns' = ns ++ l;
    b_old : forall j, j < size f -> par f' j = par f j /\ kids f' j = kids f j;
    b_trees : forall t, In t ts -> shape f' t /\ par f' (oroot t) = None /\ forall j, In j (opost t) -> size f <= j < size f';
    b_nodup : NoDup (map oroot ts);
    b_items : map (nth_error ns') (flat_map opost ts) = map Some items }.

  Lemma nth_error_ext_app (ns l : list A) is : (forall i, In i is -> i < length ns) -> map (nth_error (ns ++ l)) is = map (nth_error ns) is.
  Proof. intros K. apply map_ext_in. intros i Hi. now rewrite nth_error_app1 by auto. Qed.

  Definition construct_good (x : expr A) : Prop := forall f ns, reachable f -> length ns = size f ->
    exists f' ns' t, construct cls x f ns = Ok (oroot t, f', ns') /\ built f f' ns ns' [t] (written_order x).

  Lemma tuple_good xs : (forall x, In x xs -> construct_good x) -> forall f ns, reachable f -> length ns = size f ->
    exists f' ns' ts, tuple_ xs f ns = Ok (map oroot ts, f', ns') /\ built f f' ns ns' ts (flat_map written_order xs).
  Proof.
    induction xs as [|x xs IH]; intros G f ns R L.
    - exists f, ns, []. split; auto. constructor; auto; cbn; try tauto; try constructor. exists []. now rewrite app_nil_r.
    - destruct (G x (or_introl eq_refl) f ns R L) as (f1 & ns1 & t & E1 & B1).
      destruct (IH (fun y Hy => G y (or_intror Hy)) f1 ns1 (b_reach _ _ _ _ _ _ B1) (b_len _ _ _ _ _ _ B1)) as (f2 & ns2 & ts & E2 & B2).
      exists f2, ns2, (t :: ts). cbn [tuple_]. rewrite E1. cbn [rbind]. rewrite E2. split; [reflexivity|].
      destruct B1 as [R1 L1 S1 [l1 N1] O1 T1 D1 I1], B2 as [R2 L2 S2 [l2 N2] O2 T2 D2 I2].
      destruct (T1 t (or_introl eq_refl)) as (T1a & T1b & T1c).
      constructor; auto; try lia.
      + exists (l1 ++ l2). rewrite N2, N1, app_assoc. reflexivity.
      + intros j Hj. destruct (O1 j Hj) as [P K]. destruct (O2 j ltac:(lia)) as [P' K']. split; congruence.
      + intros u [<-|Hu].
        * splits.
          -- apply (shape_transfer f1); auto. intros j Hj. apply O2. now apply T1c.
          -- rewrite (proj1 (O2 (oroot t) (proj2 (T1c _ (opost_root t))))). auto.
          -- intros j Hj. specialize (T1c j Hj). lia.
        * destruct (T2 u Hu) as (Q1 & Q2 & Q3). splits; auto. intros j Hj. specialize (Q3 j Hj). lia.
      + cbn. constructor; auto. intros K. apply in_map_iff in K as (u & E & Hu). destruct (T2 u Hu) as (_ & _ & Q3).
        pose proof (Q3 _ (opost_root u)). pose proof (T1c _ (opost_root t)). lia.
      + cbn [flat_map]. rewrite !map_app. rewrite I2. f_equal. rewrite N2, nth_error_ext_app.
        * cbn in I1. rewrite app_nil_r in I1. exact I1.
        * intros i Hi. rewrite L1. now apply T1c.
  Qed.

  Lemma lshift_reach f s os : reachable f -> s < size f -> (forall o, In o os -> o < size f) -> reachable (fst (lshift f s os)).
  Proof. intros R Hs K. change (lshift f s os) with (call f (LShift s os)). apply reach_call; auto. split; auto. Qed.

  Lemma shifts_good gs : (forall g x, In g gs -> In x g -> construct_good x) -> forall f0 f ns0 ns self a ts items,
    built f0 f ns0 ns [Node self ts] (items ++ [a]) ->
    exists f' ns' ts', shifts_ self gs f ns = Ok (self, f', ns') /\
      built f0 f' ns0 ns' [Node self ts'] (items ++ flat_map (flat_map written_order) gs ++ [a]).
  Proof.
    induction gs as [|g gs IH]; intros G f0 f ns0 ns self a ts items B.
    - exists f, ns, ts. split; auto.
    - destruct B as [R L S [l N] O T D I]. destruct (T _ (or_introl eq_refl)) as (Ta & Tb & Tc). cbn [oroot] in Tb.
      pose proof (Tc self (opost_root (Node self ts))) as Rs.
      destruct (tuple_good g (fun x Hx => G g x (or_introl eq_refl) Hx) f ns R L) as (f1 & ns1 & us & E1 & B1).
      cbn [shifts_]. rewrite E1. cbn [rbind]. destruct B1 as [R1 L1 S1 [l1 N1] O1 T1 D1 I1].
      pose proof (reachable_wf _ R1) as W1. assert (P1 : par f1 self = None) by (rewrite (proj1 (O1 self ltac:(lia))); auto).
      assert (Ru : forall o, In o (map oroot us) -> size f <= o < size f1 /\ par f1 o = None).
      { intros o Ho. apply in_map_iff in Ho as (u & <- & Hu). destruct (T1 u Hu) as (_ & Q & K). split; auto. apply K, opost_root. }
      destruct (lshift_fresh (map oroot us) f1 self W1 ltac:(lia) D1) as (f2 & E2 & K2 & K2' & P2 & P2').
      { intros o Ho. destruct (Ru o Ho) as [Q Q']. splits; auto; [lia|]. intros K.
        pose proof (path_chain f1 self W1 ltac:(lia)) as C. rewrite (chain_fun f1 self _ [self] C ltac:(constructor; auto)) in K. destruct K as [K|[]]. lia. }
      pose proof (lshift_reach f1 self (map oroot us) R1 ltac:(lia) (fun o Ho => proj2 (proj1 (Ru o Ho)))) as R2. rewrite E2 in R2. cbn in R2.
      destruct (lshift_good (map oroot us) f1 self W1 ltac:(lia) (fun o Ho => proj2 (proj1 (Ru o Ho)))) as (_ & S2 & _). rewrite E2 in S2. cbn in S2.
      rewrite E2. apply shape_node in Ta as [Tk Ts].
      assert (No : forall u, In u us -> ~ In self (opost u)). { intros u Hu K. destruct (T1 u Hu) as (_ & _ & Q). specialize (Q _ K). lia. }
      assert (Ns : forall t, In t ts -> ~ In self (opost t)).
      { intros t Ht K. pose proof (opost_nodup f (Node self ts) (reachable_wf _ R) (proj2 (shape_node _ _ _) (conj Tk Ts)) ltac:(cbn; lia)) as ND.
        cbn in ND. apply NoDup_remove_2 in ND. apply ND. rewrite app_nil_r. apply in_flat_map. eauto. }
      destruct (IH (fun g' x Hg => G g' x (or_intror Hg)) f0 f2 ns0 ns1 self a (ts ++ us) (items ++ flat_map written_order g)) as (f3 & ns3 & ts3 & E3 & B3).
      + cbn in I. rewrite app_nil_r, !map_app in I. cbn in I. apply app_inj_tail in I as [I Ia].
        assert (Ot : forall t, In t ts -> forall j, In j (opost t) -> size f0 <= j < size f).
        { intros t Ht j Hj. apply Tc. cbn. apply in_app_iff. left. apply in_flat_map. eauto. }
        constructor; auto; try lia.
        * exists (l ++ l1). rewrite N1, N, app_assoc. reflexivity.
        * intros j Hj. destruct (O j Hj) as [Oa Ob]. destruct (O1 j ltac:(lia)) as [Oc Od]. split.
          -- rewrite P2'; [congruence|]. intros K. destruct (Ru j K). lia.
          -- rewrite K2' by lia. congruence.
        * intros t [<-|[]]. splits.
          -- apply shape_node. split; [rewrite K2, map_app, (proj2 (O1 self ltac:(lia))), Tk; reflexivity|].
             intros t Ht. apply in_app_iff in Ht as [Ht|Ht].
             ++ apply (shape_transfer f); auto. intros j Hj. rewrite K2' by (intros ->; now apply (Ns t)). apply O1. now apply (Ot t).
             ++ apply (shape_transfer f1); [now apply T1|]. intros j Hj. apply K2'. intros ->. now apply (No t).
          -- cbn. rewrite P2'; auto. intros K. destruct (Ru self K). lia.
          -- intros j Hj. cbn in Hj. rewrite in_app_iff in Hj. destruct Hj as [Hj|[<-|[]]]; [|lia]. apply in_flat_map in Hj as (t & Ht & Hj).
             apply in_app_iff in Ht as [Ht|Ht]; [specialize (Ot t Ht j Hj); lia|]. destruct (T1 t Ht) as (_ & _ & Q). specialize (Q j Hj). lia.
        * cbn. rewrite app_nil_r, flat_map_app, !map_app. rewrite I1. cbn. repeat f_equal.
          -- rewrite N1, nth_error_ext_app; auto. intros i Hi. apply in_flat_map in Hi as (t & Ht & Hi). rewrite L. now apply (Ot t).
          -- rewrite N1, nth_error_app1 by lia. auto.
      + exists f3, ns3, ts3. split; [exact E3|]. rewrite <- app_assoc in B3. cbn [flat_map]. rewrite <- app_assoc. exact B3.
  Qed.

  Lemma construct_ok x : construct_good x.
  Proof.
    induction x as [a gs IH] using expr_nested_ind. intros f ns R L. rewrite construct_eq.
    destruct (shifts_good gs IH f (new_node (cls a) f) ns (ns ++ [a]) (size f) a [] []) as (f' & ns' & ts' & E & B).
    - cbn [app]. constructor.
      + change (new_node (cls a) f) with (fst (call f (NewNode (cls a)))). apply reach_call; cbn; auto.
      + rewrite app_length. cbn. lia.
      + cbn. lia.
      + eauto.
      + intros j Hj. cbn. rewrite !put_neq by lia. auto.
      + intros t [<-|[]]. splits; cbn; rewrite ?put_eq; auto. intros j [<-|[]]. lia.
      + repeat constructor. intros [].
      + cbn. rewrite nth_error_app2 by lia. rewrite L, Nat.sub_diag. reflexivity.
    - exists f', ns', (Node (size f) ts'). split; auto.
  Qed.

  (** The tree of an expression, with the nodes made before it. *)
  Lemma construct_postorder x f ns : reachable f -> length ns = size f ->
    exists r f' ns', construct cls x f ns = Ok (r, f', ns') /\ reachable f' /\ r < size f' /\ root f' r = r /\
      map (nth_error ns') (postorder f' r) = map Some (written_order x).
  Proof.
    intros R L. destruct (construct_ok x f ns R L) as (f' & ns' & t & E & [R' L' S _ _ T _ I]).
    destruct (T t (or_introl eq_refl)) as (Ta & Tb & Tc). exists (oroot t), f', ns'. pose proof (reachable_wf _ R') as W.
    pose proof (Tc _ (opost_root t)) as Rr. splits; auto; [lia| |].
    - symmetry. apply top_root; auto; [lia|]. split; auto. exists 0. reflexivity.
    - destruct (order_tree f' (oroot t) W ltac:(lia)) as (t' & Q1 & Q2 & Q3 & _). rewrite Q3.
      assert (t = t') as <- by (apply (shape_unique f' f'); auto). cbn in I. now rewrite app_nil_r in I.
  Qed.
End Construct.
