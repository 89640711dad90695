(** Exit capacity, ranks and exit detection. *)
From Coq Require Import Lra Lia Permutation.
From Verif Require Export Spec.Sight Model.Evacuation Proofs.Geom2DProofs Proofs.ListLemmas.
Open Scope R_scope.

(** ** Capacity *)
Lemma floordiv_spec x c : 0 < c -> IZR (floordiv x c) * c <= x < (IZR (floordiv x c) + 1) * c.
Proof.
  intros H. unfold floordiv. destruct (base_Int_part (x / c)) as [A B].
  assert (E : x = x / c * c) by (field; lra). split.
  - rewrite E at 2. apply Rmult_le_compat_r; lra.
  - rewrite E at 1. apply Rmult_lt_compat_r; lra.
Qed.
Lemma floor_unique (n m : Z) c x : 0 < c -> IZR n * c <= x < (IZR n + 1) * c -> IZR m * c <= x < (IZR m + 1) * c -> n = m.
Proof.
  intros H [A B] [C D]. assert (L1 : IZR n * c < (IZR m + 1) * c) by lra. assert (L2 : IZR m * c < (IZR n + 1) * c) by lra.
  apply Rmult_lt_reg_r in L1, L2; auto. change 1 with (IZR 1) in *. rewrite <- !plus_IZR in *. apply lt_IZR in L1, L2. lia.
Qed.
Lemma capacity_narrow d_door d_agent d_layer coeff : d_door < d_agent -> narrow_exit_capacity d_door d_agent d_layer coeff = Ok 0.
Proof. intros H. unfold narrow_exit_capacity. now rewrite (proj2 (Rltb_true _ _) H). Qed.
Lemma capacity_simple d_door d_agent coeff (n : Z) : 0 < d_agent ->
  IZR n * d_agent <= d_door < (IZR n + 1) * d_agent -> (1 <= n)%Z ->
  narrow_exit_capacity d_door d_agent None coeff = Ok (coeff * IZR n).
Proof.
  intros H B Hn. unfold narrow_exit_capacity. apply IZR_le in Hn.
  assert (d_agent <= d_door) by nra. rdec. do 3 f_equal.
  apply (floor_unique _ _ d_agent d_door); auto. now apply floordiv_spec.
Qed.
Lemma capacity_layers d_door d_agent d_layer coeff (n : Z) : 0 < d_layer ->
  d_agent + (IZR n - 1) * d_layer <= d_door < d_agent + IZR n * d_layer -> (1 <= n)%Z ->
  narrow_exit_capacity d_door d_agent (Some d_layer) coeff = Ok (coeff * IZR n).
Proof.
  intros H B Hn. unfold narrow_exit_capacity. apply IZR_le in Hn.
  assert (d_agent <= d_door) by nra. rdec. do 3 f_equal.
  apply (floor_unique _ _ d_layer (d_door - (d_agent - d_layer))); auto; [now apply floordiv_spec|lra].
Qed.
Lemma capacity_exists d_door d_agent d_layer coeff : match d_layer with None => 0 < d_agent | Some d => 0 < d end ->
  exists n : Z, (0 <= n)%Z /\ narrow_exit_capacity d_door d_agent d_layer coeff = Ok (coeff * IZR n) /\
    (n = 0%Z <-> d_door < d_agent).
Proof.
  intros H. destruct (Rlt_le_dec d_door d_agent) as [L|L].
  { exists 0%Z. rewrite capacity_narrow by auto. split; [lia|]. split; [f_equal; ring|tauto]. }
  destruct d_layer as [d|].
  - pose proof (floordiv_spec (d_door - (d_agent - d)) d H) as S. exists (floordiv (d_door - (d_agent - d)) d).
    assert (1 <= floordiv (d_door - (d_agent - d)) d)%Z.
    { assert (0 < (IZR (floordiv (d_door - (d_agent - d)) d)) * d) by nra.
      assert (0 < IZR (floordiv (d_door - (d_agent - d)) d)) by nra. apply lt_IZR in H1. lia. }
    split; [lia|]. split; [|split; [lia|lra]]. apply capacity_layers; auto. lra.
  - pose proof (floordiv_spec d_door d_agent H) as S. exists (floordiv d_door d_agent).
    assert (1 <= floordiv d_door d_agent)%Z.
    { assert (0 < IZR (floordiv d_door d_agent)) by nra. apply lt_IZR in H0. lia. }
    split; [lia|]. split; [|split; [lia|lra]]. apply capacity_simple; auto.
Qed.
Lemma capacity_nonneg d_door d_agent d_layer coeff c : match d_layer with None => 0 < d_agent | Some d => 0 < d end -> 0 <= coeff ->
  narrow_exit_capacity d_door d_agent d_layer coeff = Ok c -> 0 <= c.
Proof.
  intros H Hc E. destruct (capacity_exists d_door d_agent d_layer coeff H) as (n & Hn & E' & _). rewrite E' in E. injection E as <-.
  apply IZR_le in Hn. nra.
Qed.
Lemma Zfloor_mono x y c : 0 < c -> x <= y -> (floordiv x c <= floordiv y c)%Z.
Proof.
  intros H L. pose proof (floordiv_spec x c H). pose proof (floordiv_spec y c H).
  assert (L1 : IZR (floordiv x c) * c < (IZR (floordiv y c) + 1) * c) by lra. apply Rmult_lt_reg_r in L1; auto.
  change 1 with (IZR 1) in L1. rewrite <- plus_IZR in L1. apply lt_IZR in L1. lia.
Qed.
Lemma capacity_monotone d_door d_door' d_agent d_layer coeff c c' : match d_layer with None => 0 < d_agent | Some d => 0 < d end -> 0 <= coeff ->
  d_door <= d_door' ->
  narrow_exit_capacity d_door d_agent d_layer coeff = Ok c -> narrow_exit_capacity d_door' d_agent d_layer coeff = Ok c' -> c <= c'.
Proof.
  intros H Hc L E E'. destruct (Rlt_le_dec d_door d_agent) as [L1|L1].
  { rewrite capacity_narrow in E by auto. injection E as <-. now apply (capacity_nonneg d_door' d_agent d_layer coeff). }
  revert E E'. unfold narrow_exit_capacity. rdec. destruct d_layer as [d|]; rdec; intros [= <-] [= <-];
  apply Rmult_le_compat_l; auto; apply IZR_le, Zfloor_mono; lra.
Qed.
Lemma capacity_relation d_door d_agent coeff : 0 < d_agent ->
  narrow_exit_capacity d_door d_agent (Some d_agent) coeff = narrow_exit_capacity d_door d_agent None coeff.
Proof.
  intros H. unfold narrow_exit_capacity. destruct (Rltb d_door d_agent); auto. rdec. now replace (d_door - (d_agent - d_agent)) with d_door by ring.
Qed.
Lemma capacity_raises d_door d_agent coeff : d_agent <= d_door ->
  narrow_exit_capacity d_door d_agent (Some 0) coeff = Err ZeroDivisionError /\
  (d_agent = 0 -> narrow_exit_capacity d_door d_agent None coeff = Err ZeroDivisionError).
Proof. intros H. unfold narrow_exit_capacity. rdec. split; auto. intros ->. now rdec. Qed.

(** ** Ranks *)
Lemma nth_error_eq_nth {A} (l : list A) i d : (i < length l)%nat -> nth_error l i = Some (nth i l d).
Proof. intros. now apply nth_error_nth'. Qed.
(** Sorting a permutation of [0..n-1] by its values inverts it. *)
Lemma sorted_nat_seq : forall (l : list nat) a, Permutation l (seq a (length l)) ->
  (forall i j u v, (i < j)%nat -> nth_error l i = Some u -> nth_error l j = Some v -> (u <= v)%nat) -> l = seq a (length l).
Proof.
  induction l as [|x l IH]; intros a P S; auto. cbn [length seq] in *.
  assert (x = a).
  { assert (Ia : In a (x :: l)) by (apply (Permutation_in a (Permutation_sym P)); now left).
    assert (Ix : In x (a :: seq (Datatypes.S a) (length l))) by (apply (Permutation_in x P); now left).
    destruct Ia as [|Ia]; auto. destruct Ix as [|Ix]; auto. apply in_seq in Ix.
    apply In_nth_error in Ia as [k Hk]. specialize (S 0%nat (Datatypes.S k) x a ltac:(lia) eq_refl Hk). lia. }
  subst x. f_equal. apply IH.
  - now apply Permutation_cons_inv in P.
  - intros i j u v Hij Hi Hj. apply (S (Datatypes.S i) (Datatypes.S j)); auto. lia.
Qed.
Lemma argsort_inverse (p q : list nat) n : Permutation p (seq 0 n) -> is_argsort le p q ->
  forall i, (i < n)%nat -> exists r, nth_error q i = Some r /\ (r < n)%nat /\ nth_error p r = Some i.
Proof.
  intros P [Q S] i Hi. assert (Lp : length p = n) by (rewrite (Permutation_length P); apply seq_length).
  assert (Lq : length q = n) by (rewrite (Permutation_length Q), seq_length; auto).
  assert (Rq : forall r, In r q -> (r < n)%nat).
  { intros r Hr. apply (Permutation_in r Q) in Hr. apply in_seq in Hr. lia. }
  set (m := map (fun r => nth r p 0%nat) q).
  assert (E : m = seq 0 n).
  { assert (Lm : length m = n) by (unfold m; now rewrite map_length).
    rewrite <- Lm. apply sorted_nat_seq; rewrite ?Lm.
    - unfold m. eapply perm_trans; [apply Permutation_map, Q|].
      assert (map (fun r => nth r p 0%nat) (seq 0 (length p)) = p) as ->; auto.
      apply nth_error_ext. intros k. rewrite nth_error_map. destruct (lt_dec k (length p)).
      + rewrite (nth_error_nth' (seq 0 (length p)) 0%nat) by (rewrite seq_length; auto). rewrite seq_nth by auto. cbn.
        symmetry. now apply nth_error_eq_nth.
      + rewrite (proj2 (nth_error_None (seq 0 (length p)) k)) by (rewrite seq_length; lia). cbn. symmetry. apply nth_error_None. lia.
    - intros a b u v Hab Ha Hb. unfold m in Ha, Hb. rewrite nth_error_map in Ha, Hb.
      destruct (nth_error q a) as [ra|] eqn:Ea; [|discriminate]. destruct (nth_error q b) as [rb|] eqn:Eb; [|discriminate].
      injection Ha as <-. injection Hb as <-. apply (S a b ra rb); auto; apply nth_error_eq_nth; rewrite Lp; apply Rq; eapply nth_error_In; eauto. }
  destruct (nth_error q i) as [r|] eqn:Er; [|apply nth_error_None in Er; lia].
  exists r. split; auto. assert (Hr : (r < n)%nat) by (apply Rq; eapply nth_error_In; eauto). split; auto.
  rewrite (nth_error_eq_nth p r 0%nat) by lia. f_equal.
  assert (K : nth_error m i = Some (nth r p 0%nat)) by (unfold m; rewrite nth_error_map, Er; auto).
  rewrite E in K. rewrite (nth_error_nth' (seq 0 n) 0%nat) in K by (rewrite seq_length; auto). rewrite seq_nth in K by auto. injection K; auto.
Qed.
Lemma filter_split_le {A} (P Q : A -> bool) l : (forall a, In a l -> P a = true -> Q a = true) -> (count P l <= count Q l)%nat.
Proof.
  unfold count. induction l as [|a l IH]; intros H; cbn; auto. pose proof (H a (or_introl eq_refl)) as Ha.
  assert (IH' := IH (fun b Hb => H b (or_intror Hb))). destruct (P a); [rewrite (Ha eq_refl); cbn; lia|]. destruct (Q a); cbn; lia.
Qed.
Lemma count_perm {A} (P : A -> bool) l l' : Permutation l l' -> count P l = count P l'.
Proof.
  unfold count. intros H. induction H; cbn; auto.
  - destruct (P x); cbn; auto.
  - destruct (P x), (P y); cbn; auto.
  - congruence.
Qed.
Lemma filter_none {A} (P : A -> bool) l : (forall a, In a l -> P a = false) -> filter P l = [].
Proof. induction l as [|a l IH]; intros H; cbn; auto. rewrite H by now left. apply IH. intros; apply H; now right. Qed.
Lemma filter_all {A} (P : A -> bool) l : (forall a, In a l -> P a = true) -> filter P l = l.
Proof. induction l as [|a l IH]; intros H; cbn; auto. rewrite H by now left. f_equal. apply IH. intros; apply H; now right. Qed.
Lemma count_ltb_seq r n : (r <= n)%nat -> count (fun k => (k <? r)%nat) (seq 0 n) = r.
Proof.
  intros H. unfold count. replace n with (r + (n - r))%nat by lia. rewrite seq_app, filter_app, app_length.
  rewrite (filter_all _ (seq 0 r)), (filter_none _ (seq (0 + r) (n - r))), seq_length; [cbn; lia| |].
  - intros k Hk. apply in_seq in Hk. apply Nat.ltb_ge. lia.
  - intros k Hk. apply in_seq in Hk. apply Nat.ltb_lt. lia.
Qed.
Lemma count_map {A B} (f : A -> B) P l : count P (map f l) = count (fun a => P (f a)) l.
Proof. unfold count. induction l as [|a l IH]; cbn; auto. destruct (P (f a)); cbn; auto. Qed.
Lemma list_as_nth {A} (l : list A) d : l = map (fun i => nth i l d) (seq 0 (length l)).
Proof.
  induction l as [|a l IH]; cbn; auto. f_equal. rewrite <- seq_shift, map_map. exact IH.
Qed.
Lemma rank_spec argsort_f8 argsort_i8 c position :
  (forall l, is_argsort Rle l (argsort_f8 l)) -> (forall l, is_argsort le l (argsort_i8 l)) ->
  let ranks := agent_closer_to_exit argsort_f8 argsort_i8 c position in
  Permutation ranks (seq 0 (length position)) /\
  (forall i x, nth_error position i = Some x -> exists r, nth_error ranks i = Some r /\
     (count (fun y => if Rlt_dec (edist y c) (edist x c) then true else false) position <= r)%nat /\
     (r < count (fun y => if Rle_dec (edist y c) (edist x c) then true else false) position)%nat) /\
  (forall i j x y ri rj, nth_error position i = Some x -> nth_error position j = Some y ->
     nth_error ranks i = Some ri -> nth_error ranks j = Some rj -> edist x c < edist y c -> (ri < rj)%nat).
Proof.
  intros H1 H2. unfold agent_closer_to_exit. set (ds := map (fun x => vlength (vsub c x)) position).
  set (p := argsort_f8 ds). set (q := argsort_i8 p). cbv zeta. set (n := length position).
  destruct (H1 ds) as [P S]. fold p in P, S. assert (Ld : length ds = n) by (unfold ds; now rewrite map_length). rewrite Ld in P.
  pose proof (H2 p) as Q. fold q in Q. assert (Lp : length p = n) by (rewrite (Permutation_length P); apply seq_length).
  assert (Dn : forall i x, nth_error position i = Some x -> nth_error ds i = Some (edist x c)).
  { intros i x Hx. unfold ds. rewrite nth_error_map, Hx. cbn. f_equal. rewrite edist_sym. reflexivity. }
  assert (Pn : forall i, (i < n)%nat -> exists x, nth_error position i = Some x).
  { intros i Hi. destruct (nth_error position i) eqn:E; eauto. apply nth_error_None in E. unfold n in Hi. lia. }
  assert (Rk : forall i, (i < n)%nat -> exists r, nth_error q i = Some r /\ (r < n)%nat /\ nth_error p r = Some i).
  { apply argsort_inverse; auto. }
  assert (Ord : forall k r u v x y, nth_error p k = Some u -> nth_error p r = Some v -> nth_error position u = Some x ->
     nth_error position v = Some y -> (k <= r)%nat -> edist x c <= edist y c).
  { intros k r u v x y Hu Hv Hx Hy Hkr. destruct (Nat.eq_dec k r) as [->|].
    - assert (u = v) by congruence. subst. assert (x = y) by congruence. subst. lra.
    - apply (S k r u v); auto. lia. }
  assert (Cnt : forall (F : vec -> bool), count F position = count (fun k => F (nth (nth k p 0%nat) position vzero)) (seq 0 n)).
  { intros F. rewrite (list_as_nth position vzero) at 1. rewrite count_map. fold n.
    rewrite <- (count_perm _ _ _ P). rewrite (list_as_nth p 0%nat) at 1. rewrite count_map, Lp. reflexivity. }
  assert (Pin : forall k, (k < n)%nat -> exists u x, nth_error p k = Some u /\ nth k p 0%nat = u /\ nth_error position u = Some x /\ nth u position vzero = x).
  { intros k Hk. assert (E : nth_error p k = Some (nth k p 0%nat)) by (apply nth_error_eq_nth; lia).
    assert (nth k p 0 < n)%nat. { apply nth_error_In in E. apply (Permutation_in _ P) in E. apply in_seq in E. lia. }
    destruct (Pn _ H) as [x Hx]. exists (nth k p 0%nat), x. repeat split; auto. apply nth_error_nth with (d := vzero) in Hx. auto. }
  split; [|split].
  - destruct Q as [Q _]. now rewrite Lp in Q.
  - intros i x Hx. assert (Hi : (i < n)%nat) by (unfold n; apply nth_error_Some; congruence).
    destruct (Rk i Hi) as (r & Er & Hr & Epr). exists r. split; auto. split.
    + rewrite Cnt. apply Nat.le_trans with (count (fun k => (k <? r)%nat) (seq 0 n)); [|rewrite count_ltb_seq; lia]. apply filter_split_le. intros k Hk. apply in_seq in Hk.
      destruct (Pin k) as (u & y & Eu & -> & Ey & ->); [lia|]. destruct (Rlt_dec _ _) as [L|]; [|discriminate]. intros _.
      apply Nat.ltb_lt. destruct (le_lt_dec r k); auto. pose proof (Ord r k i u x y Epr Eu Hx Ey l). lra.
    + rewrite Cnt. unfold lt. apply Nat.le_trans with (count (fun k => (k <? Datatypes.S r)%nat) (seq 0 n)); [rewrite count_ltb_seq; lia|].
      apply filter_split_le. intros k Hk. apply in_seq in Hk.
      intros Hlt. apply Nat.ltb_lt in Hlt. destruct (Pin k) as (u & y & Eu & -> & Ey & ->); [lia|].
      destruct (Rle_dec _ _) as [|N]; auto. exfalso. apply N. apply (Ord k r u i y x); auto. lia.
  - intros i j x y ri rj Hx Hy Hi Hj L.
    assert (i < n)%nat by (unfold n; apply nth_error_Some; congruence). assert (j < n)%nat by (unfold n; apply nth_error_Some; congruence).
    destruct (Rk i) as (r & Er & _ & Epr); auto. destruct (Rk j) as (r' & Er' & _ & Epr'); auto.
    assert (r = ri) by congruence. assert (r' = rj) by congruence. subst r r'.
    destruct (le_lt_dec rj ri); auto. pose proof (Ord rj ri j i y x Epr' Epr Hy Hx l). lra.
Qed.

(** ** Exit detection *)
Lemma sees_iff obs a b : sees obs a b <-> is_obstacle_between_points a b obs = false.
Proof.
  rewrite <- not_true_iff_false, between_iff. unfold sees, hides. split.
  - intros H (o & Ho & E). apply (H o Ho). now apply line_intersect_iff.
  - intros H o Ho E. apply H. exists o. split; auto. now apply line_intersect_iff.
Qed.
Definition detected (obs : list obstacle) (range : R) (done : list vec) (x : vec) (st : R * option nat) : Prop :=
  match snd st with
  | None => fst st = range /\ none_seen obs range done x
  | Some c => nearest_seen obs range done x c /\ exists p, nth_error done c = Some p /\ fst st = edist x p
  end.
Lemma detect_inv obs range x : forall rest done st, detected obs range done x st ->
  detected obs range (done ++ rest) x (detect (length done) rest x obs st).
Proof.
  induction rest as [|p rest IH]; intros done st H; cbn [detect]; [now rewrite app_nil_r|].
  replace (done ++ p :: rest) with ((done ++ [p]) ++ rest) by now rewrite <- app_assoc.
  replace (S (length done)) with (length (done ++ [p])) by (rewrite app_length; cbn; lia). apply IH. clear IH rest.
  destruct st as [d oc]. unfold detected in *. cbn [fst snd] in *.
  assert (Dx : vlength (vsub p x) = edist x p) by (rewrite edist_sym; reflexivity).
  assert (Sn : forall c' p', nth_error (done ++ [p]) c' = Some p' -> nth_error done c' = Some p' \/ (c' = length done /\ p' = p)).
  { intros c' p' E. destruct (lt_dec c' (length done)).
    - rewrite nth_error_app1 in E by auto. auto.
    - rewrite nth_error_app2 in E by lia. destruct (c' - length done)%nat eqn:K; cbn in E.
      + right. injection E as <-. split; [lia|auto].
      + destruct n0; discriminate. }
  assert (Sl : forall c', nth_error done c' <> None -> nth_error (done ++ [p]) c' = nth_error done c').
  { intros c' E. apply nth_error_app1. now apply nth_error_Some. }
  assert (Keep : (sees obs x p -> d <= edist x p) ->
     match oc with None => d = range /\ none_seen obs range (done ++ [p]) x
     | Some c => nearest_seen obs range (done ++ [p]) x c /\ exists p0, nth_error (done ++ [p]) c = Some p0 /\ d = edist x p0 end).
  { intros F. destruct oc as [c|].
    - destruct H as [(q & Eq & S1 & S2 & S3) (q' & Eq' & Ed)]. assert (q' = q) by congruence. subst q'. split.
      + exists q. rewrite Sl by congruence. repeat split; auto.
        * destruct (Sn c' p' H) as [E|[-> ->]]; [now apply (S3 c')|]. rewrite <- Ed. auto.
        * intros L. destruct (Sn c' p' H) as [E|[-> ->]]; [now apply (S3 c')|]. exfalso.
          assert (c < length done)%nat by (apply nth_error_Some; congruence). lia.
      + exists q. rewrite Sl by congruence. auto.
    - destruct H as [-> N]. split; auto. intros p' Hp' Hs. apply in_app_iff in Hp' as [Hp'|[<-|[]]]; auto. }
  destruct (is_obstacle_between_points x p obs) eqn:B.
  - cbn [fst snd]. apply Keep. intros Hs. apply sees_iff in Hs. congruence.
  - apply sees_iff in B. cbv zeta. rewrite Dx. destruct (Rltb_spec (edist x p) d) as [L|L]; cbn [fst snd].
    + assert (E : nth_error (done ++ [p]) (length done) = Some p) by (rewrite nth_error_app2, Nat.sub_diag; auto).
      split; [|eauto]. exists p. split; auto. split; auto.
      assert (M : d <= range /\ forall c' p', nth_error done c' = Some p' -> sees obs x p' -> d <= edist x p').
      { destruct oc as [c|].
        - destruct H as [(q & Eq & S1 & S2 & S3) (q' & Eq' & Ed)]. assert (q' = q) by congruence. subst q' d. split; [lra|].
          intros c' p' E' Hs. now apply (S3 c').
        - destruct H as [-> N]. split; [lra|]. intros c' p' E' Hs. apply N; auto. eapply nth_error_In; eauto. }
      destruct M as [M1 M2]. split; [lra|]. intros c' p' E' Hs. destruct (Sn c' p' E') as [E2|[-> ->]].
      * specialize (M2 c' p' E2 Hs). split; [|intros _]; lra.
      * split; [lra|lia].
    + apply Keep. intros _. exact L.
Qed.
Lemma detect_spec obs range points x : match snd (detect 0 points x obs (range, None)) with
  | Some c => nearest_seen obs range points x c
  | None => none_seen obs range points x
  end.
Proof.
  pose proof (detect_inv obs range x points [] (range, None)) as H. cbn [length app] in H. unfold detected in H at 2.
  destruct (snd (detect 0 points x obs (range, None))); apply H; split; auto; intros p [].
Qed.
Lemma nearest_not_none obs range points x c : nearest_seen obs range points x c -> ~ none_seen obs range points x.
Proof. intros (p & E & S & L & _) N. apply nth_error_In in E. specialize (N p E S). lra. Qed.
Lemma nearest_unique obs range points x c c' : nearest_seen obs range points x c -> nearest_seen obs range points x c' -> c = c'.
Proof.
  intros (p & E & S & L & M) (p' & E' & S' & L' & M'). destruct (Nat.lt_trichotomy c c') as [K|[K|K]]; auto.
  - destruct (M c' p' E' S') as [A _]. destruct (M' c p E S) as [_ B]. specialize (B K). lra.
  - destruct (M' c p E S) as [A _]. destruct (M c' p' E' S') as [_ B]. specialize (B K). lra.
Qed.
Lemma exit_detection_spec centers positions obs range :
  Forall2 (fun x r =>
     (snd r = true <-> ~ none_seen obs range centers x) /\
     (forall c, fst r = Z.of_nat c <-> nearest_seen obs range centers x c) /\
     (fst r = (-1)%Z <-> none_seen obs range centers x)) positions (exit_detection centers positions obs range).
Proof.
  unfold exit_detection. induction positions as [|x l IH]; cbn; constructor; auto.
  pose proof (detect_spec obs range centers x) as D. destruct (snd (detect 0 centers x obs (range, None))) as [c|]; cbn [fst snd].
  - pose proof (nearest_not_none _ _ _ _ _ D). split; [tauto|]. split; [|split; [lia|tauto]].
    intros c'. split; intros K; [apply Nat2Z.inj in K; now subst|]. f_equal. now apply (nearest_unique obs range centers x).
  - split; [split; [discriminate|tauto]|]. split; [|tauto]. intros c. split; [lia|]. intros K. now apply nearest_not_none in K.
Qed.
Lemma exit_node_spec targets obs range agents : targets <> [] ->
  exists agents', exit_detection_node targets obs range agents = Ok agents' /\
  Forall2 (fun a b =>
    (a_is_follower a = false \/ none_seen obs range (map vmean targets) (a_position a) -> b = a) /\
    (forall c, a_is_follower a = true -> nearest_seen obs range (map vmean targets) (a_position a) c ->
       b = set_is_follower false (set_target (Z.of_nat c) a))) agents agents'.
Proof.
  intros HT. unfold exit_detection_node. destruct targets as [|t0 ts]; [tauto|]. eexists. split; [reflexivity|].
  set (cs := map vmean (t0 :: ts)). clearbody cs. clear HT. unfold exit_detection. rewrite map_map.
  induction agents as [|a l IH]; cbn; constructor; auto.
  pose proof (detect_spec obs range cs (a_position a)) as D. destruct (snd (detect 0 cs (a_position a) obs (range, None))) as [c|].
  - split.
    + intros [-> |N]; [reflexivity|]. now apply nearest_not_none in D.
    + intros c' -> K. cbn [andb]. rewrite (nearest_unique _ _ _ _ _ _ K D). reflexivity.
  - rewrite andb_false_r. split; auto. intros c' _ K. now apply nearest_not_none in K.
Qed.
