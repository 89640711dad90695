(** Proofs about the completion of Voronoi diagrams. *)
From Coq Require Import Lra Lia Permutation.
From Verif Require Import Proofs.VecLemmas Proofs.Vector2DProofs Proofs.ListLemmas Proofs.DensityProofs.
From Verif Require Import Spec.Voronoi.
Open Scope R_scope.

(** ** Geometry *)
Definition sq (a b : vec) : R := (vx a - vx b) ^ 2 + (vy a - vy b) ^ 2.
Lemma edist_sq a b c d : edist a b <= edist c d <-> sq a b <= sq c d.
Proof.
  unfold edist, sq. assert (P : forall u v, 0 <= u * u + v * v) by (intros u v; nra).
  replace ((vx a - vx b) ^ 2 + (vy a - vy b) ^ 2) with ((vx a - vx b) * (vx a - vx b) + (vy a - vy b) * (vy a - vy b)) by ring.
  replace ((vx c - vx d) ^ 2 + (vy c - vy d) ^ 2) with ((vx c - vx d) * (vx c - vx d) + (vy c - vy d) * (vy c - vy d)) by ring.
  split; [apply sqrt_le_0; apply P|apply sqrt_le_1_alt].
Qed.
Lemma vsum_cons a l : vsum (a :: l) = vadd a (vsum l).
Proof. reflexivity. Qed.
Lemma turn_total a b l : turn a b (mean l) * INR (length l) = rsum (map (turn a b) l) \/ l = [].
Proof.
  destruct l as [|x l]; [auto|left]. set (m := x :: l). assert (N : INR (length m) <> 0) by (apply not_0_INR; cbn; lia).
  assert (T : turn a b (mean m) * INR (length m) =
    (vx b - vx a) * (vy (vsum m) - INR (length m) * vy a) - (vy b - vy a) * (vx (vsum m) - INR (length m) * vx a)).
  { unfold turn, mean, vdiv. cbn [vx vy]. field. exact N. }
  rewrite T. clear T N. clearbody m. clear x l.
  induction m as [|q m IH]; [cbn; ring|]. rewrite vsum_cons. cbn [map length]. rewrite S_INR.
  change (rsum (turn a b q :: map (turn a b) m)) with (turn a b q + rsum (map (turn a b) m)). rewrite <- IH. unfold turn, vadd. cbn [vx vy]. ring.
Qed.

Lemma rsum_pos l : (forall x, In x l -> 0 <= x) -> 0 <= rsum l /\ ((exists x, In x l /\ x <> 0) -> 0 < rsum l).
Proof.
  induction l as [|a l IH]; intros H; [cbn; split; [lra|intros (x & [] & _)]|].
  change (rsum (a :: l)) with (a + rsum l). destruct IH as (I & J); [intros x Hx; apply H; now right|]. pose proof (H a (or_introl eq_refl)).
  split; [lra|]. intros (x & [->|Hx] & Nx); [lra|]. enough (0 < rsum l) by lra. eauto.
Qed.
Lemma rsum_map_opp {A} (f : A -> R) l : rsum (map (fun x => - f x) l) = - rsum (map f l).
Proof. induction l as [|a l IH]; cbn [map]; [cbn; lra|]. change (- f a + rsum (map (fun x => - f x) l) = - (f a + rsum (map f l))). rewrite IH. lra. Qed.
(** The mean of the points is on the same side as they are. *)
Lemma turn_mean a b l : hull_edge l a b ->
  ((forall q, In q l -> 0 <= turn a b q) /\ 0 < turn a b (mean l)) \/ ((forall q, In q l -> turn a b q <= 0) /\ turn a b (mean l) < 0).
Proof.
  intros (_ & S & q & Hq & Nq).
  destruct (turn_total a b l) as [T|E]; [|subst; destruct Hq].
  assert (N : 0 < INR (length l)) by (apply lt_0_INR; destruct l; [destruct Hq|cbn; lia]).
  destruct S as [S|S]; [left|right]; (split; [exact S|]).
  - destruct (rsum_pos (map (turn a b) l)) as (_ & P); [intros x Hx; apply in_map_iff in Hx; destruct Hx as (u & <- & Hu); auto|].
    assert (0 < rsum (map (turn a b) l)) by (apply P; exists (turn a b q); split; [apply in_map; exact Hq|exact Nq]). nra.
  - destruct (rsum_pos (map (fun u => - turn a b u) l)) as (_ & P); [intros x Hx; apply in_map_iff in Hx; destruct Hx as (u & <- & Hu); specialize (S u Hu); lra|].
    assert (Q : 0 < rsum (map (fun u => - turn a b u) l)) by (apply P; exists (- turn a b q); split; [apply (in_map (fun u => - turn a b u)); exact Hq|lra]).
    rewrite rsum_map_opp in Q. nra.
Qed.
(** What lines 121-130 compute. *)
Definition far_point (center : vec) (radius : R) (a b v : vec) : vec :=
  let t := vdiv (vsub b a) (vlength (vsub b a)) in
  let n := V (- vy t) (vx t) in
  vadd v (vscale radius (vscale (sign (dot (vsub (mean [a; b]) center) n)) n)).
Lemma sign_pos x : 0 < x -> sign x = 1.
Proof. intros H. unfold sign. rewrite (proj2 (Rltb_true 0 x)) by exact H. reflexivity. Qed.
Lemma sign_neg x : x < 0 -> sign x = -1.
Proof. intros H. unfold sign. rewrite (proj2 (Rltb_false 0 x)) by lra. rewrite (proj2 (Rltb_true x 0)) by exact H. reflexivity. Qed.
Lemma far_direction a b l : hull_edge l a b -> exists u,
  (forall radius v, far_point (mean l) radius a b v = V (vx v + radius * vx u) (vy v + radius * vy u)) /\
  vx u ^ 2 + vy u ^ 2 = 1 /\ vx u * (vx b - vx a) + vy u * (vy b - vy a) = 0 /\
  (forall q, In q l -> vx u * (vx q - vx a) + vy u * (vy q - vy a) <= 0) /\
  exists q, In q l /\ vx u * (vx q - vx a) + vy u * (vy q - vy a) < 0.
Proof.
  intros H. pose proof (turn_mean a b l H) as M. destruct H as (N & _ & q0 & Hq0 & Nq0).
  set (L := vlength (vsub b a)).
  assert (LL : L * L = (vx b - vx a) ^ 2 + (vy b - vy a) ^ 2).
  { unfold L, vlength. rewrite sqrt_sqrt; unfold vsub; cbn [vx vy]; [ring|apply Rplus_le_le_0_compat; apply Rle_0_sqr]. }
  assert (LP : 0 < L).
  { assert (0 <= L) by apply vlength_nonneg. destruct (Req_dec L 0) as [E|E]; [|lra]. exfalso. apply N. rewrite E in LL. destruct a as [ax ay], b as [bx by_]. cbn [vx vy] in LL. pose proof (pow2_ge_0 (bx - ax)). pose proof (pow2_ge_0 (by_ - ay)).
    assert (X : (bx - ax) ^ 2 = 0) by lra. assert (Y : (by_ - ay) ^ 2 = 0) by lra. rewrite <- Rsqr_pow2 in X, Y. apply Rsqr_0_uniq in X. apply Rsqr_0_uniq in Y. f_equal; lra. }
  set (n := V (- ((vy b - vy a) / L)) ((vx b - vx a) / L)).
  assert (D : forall q, vx n * (vx q - vx a) + vy n * (vy q - vy a) = turn a b q / L) by (intros q; unfold n, turn; cbn [vx vy]; field; lra).
  assert (Nn : vx n ^ 2 + vy n ^ 2 = 1).
  { unfold n. cbn [vx vy]. replace ((- ((vy b - vy a) / L)) ^ 2 + ((vx b - vx a) / L) ^ 2) with (((vx b - vx a) ^ 2 + (vy b - vy a) ^ 2) / (L * L)) by (field; lra). rewrite <- LL. field. lra. }
  assert (Nb : vx n * (vx b - vx a) + vy n * (vy b - vy a) = 0) by (rewrite D; unfold turn; field; lra).
  assert (F : forall radius v, far_point (mean l) radius a b v = vadd v (vscale radius (vscale (sign (- (turn a b (mean l) / L))) n))).
  { intros radius v. unfold far_point. fold L. cbn [vdiv vsub vx vy]. fold n. do 4 f_equal.
    rewrite <- D. unfold dot, mean, vdiv, vsub, vsum, vadd. cbn [fold_right length vx vy vzero INR]. unfold n in Nb |- *. cbn [vx vy] in Nb |- *. nra. }
  assert (I : forall x, 0 < x -> 0 < x / L) by (intros x Hx; apply Rdiv_lt_0_compat; lra).
  destruct M as [(S & P)|(S & P)].
  - exists (V (- vx n) (- vy n)). cbn [vx vy]. split; [|split; [|split; [|split]]].
    + intros radius v. rewrite F, sign_neg by (specialize (I _ P); lra). unfold vadd, vscale. cbn [vx vy]. f_equal; ring.
    + rewrite <- Nn. ring.
    + lra.
    + intros q Hq. specialize (S q Hq). specialize (D q). assert (0 <= turn a b q / L) by (destruct (Req_dec (turn a b q) 0) as [->|]; [unfold Rdiv; lra|left; apply I; lra]). lra.
    + exists q0. split; [exact Hq0|]. specialize (S q0 Hq0). specialize (D q0). assert (0 < turn a b q0 / L) by (apply I; lra). lra.
  - exists n. split; [|split; [|split; [|split]]].
    + intros radius v. rewrite F, sign_pos. { unfold vadd, vscale. cbn [vx vy]. f_equal; ring. }
      specialize (I (- turn a b (mean l)) ltac:(lra)). unfold Rdiv in *. lra.
    + exact Nn.
    + lra.
    + intros q Hq. specialize (S q Hq). specialize (D q). assert (0 <= - turn a b q / L) by (destruct (Req_dec (turn a b q) 0) as [->|]; [unfold Rdiv; lra|left; apply I; lra]). unfold Rdiv in *. lra.
    + exists q0. split; [exact Hq0|]. specialize (S q0 Hq0). specialize (D q0). assert (0 < - turn a b q0 / L) by (apply I; lra). unfold Rdiv in *. lra.
Qed.
Lemma far_point_spec a b l radius x : 0 <= radius -> hull_edge l a b -> In a l -> In b l -> nearest_to l a x -> nearest_to l b x ->
  let y := far_point (mean l) radius a b x in opened l radius a b x y /\ nearest_to l a y /\ nearest_to l b y.
Proof.
  intros R H Ha Hb Na Nb. cbv zeta. destruct (far_direction a b l H) as (u & F & U & O & S & q0 & Hq0 & S0). rewrite F. clear F.
  assert (E : sq x a = sq x b) by (apply Rle_antisym; apply edist_sq; auto).
  assert (Near : forall c, (c = a \/ c = b) -> nearest_to l c (V (vx x + radius * vx u) (vy x + radius * vy u))).
  { intros c Hc q Hq. apply edist_sq. assert (sq x c <= sq x q) by (apply edist_sq; destruct Hc; subst; auto). specialize (S q Hq).
    assert (G : vx u * (vx q - vx c) + vy u * (vy q - vy c) <= 0) by (destruct Hc; subst; lra). unfold sq in *. cbn [vx vy].
    assert (K : 0 <= radius * - (vx u * (vx q - vx c) + vy u * (vy q - vy c))) by (apply Rmult_le_pos; lra). nra. }
  split; [|split; apply Near; auto]. unfold opened. cbn [vx vy]. split; [|split; [|split]].
  - unfold edist. cbn [vx vy]. replace (_ + _) with (radius * radius * (vx u ^ 2 + vy u ^ 2)) by ring. rewrite U, Rmult_1_r. apply sqrt_square. exact R.
  - replace (_ + _) with (radius * (vx u * (vx b - vx a) + vy u * (vy b - vy a))) by ring. rewrite O. ring.
  - intros q Hq. replace (_ + _) with (radius * (vx u * (vx q - vx a) + vy u * (vy q - vy a))) by ring. specialize (S q Hq). nra.
  - intros P. exists q0. split; [exact Hq0|]. replace (_ + _) with (radius * (vx u * (vx q0 - vx a) + vy u * (vy q0 - vy a))) by ring. nra.
Qed.
(** The same point from both sides. *)
Lemma hull_edge_sym l a b : hull_edge l a b -> hull_edge l b a.
Proof.
  intros (N & S & q & Hq & T). assert (X : forall p, turn b a p = - turn a b p) by (intros p; unfold turn; ring).
  split; [congruence|]. split; [destruct S as [S|S]; [right|left]; intros p Hp; rewrite X; specialize (S p Hp); lra|]. exists q. rewrite X. split; [exact Hq|lra].
Qed.
Lemma far_point_sym center radius a b v : a <> b -> far_point center radius a b v = far_point center radius b a v.
Proof.
  intros N. unfold far_point.
  assert (L : vlength (vsub a b) = vlength (vsub b a)) by (unfold vlength, vsub; cbn [vx vy]; f_equal; ring).
  assert (M : mean [b; a] = mean [a; b]).
  { unfold mean. replace (vsum [b; a]) with (vsum [a; b]); [reflexivity|]. unfold vsum, vadd. cbn [fold_right vx vy]. f_equal; ring. }
  rewrite L, M. set (m := vsub (mean [a; b]) center). set (t := vdiv (vsub b a) (vlength (vsub b a))).
  assert (T : vdiv (vsub a b) (vlength (vsub b a)) = V (- vx t) (- vy t)) by (unfold t, vdiv, vsub; cbn [vx vy]; f_equal; unfold Rdiv; ring).
  rewrite T. cbn [vx vy]. f_equal. f_equal.
  assert (D : dot m (V (- - vy t) (- vx t)) = - dot m (V (- vy t) (vx t))) by (unfold dot; cbn [vx vy]; ring). rewrite D.
  set (z := dot m _). unfold sign. unfold vscale. cbn [vx vy].
  destruct (Rltb 0 z) eqn:E1; [apply Rltb_true in E1|apply Rltb_false in E1]; (destruct (Rltb z 0) eqn:E2; [apply Rltb_true in E2|apply Rltb_false in E2]);
  (destruct (Rltb 0 (- z)) eqn:E3; [apply Rltb_true in E3|apply Rltb_false in E3]); (destruct (Rltb (- z) 0) eqn:E4; [apply Rltb_true in E4|apply Rltb_false in E4]);
    try lra; f_equal; ring.
Qed.

(** ** The loop over the ridges *)
Lemma item_nat {A} (l : list A) k x : nth_error l k = Some x -> item l (Z.of_nat k) = Ok x.
Proof.
  intros H. assert (L : (k < length l)%nat) by (apply nth_error_Some; congruence). unfold item, np_index.
  replace (Z.leb (- Z.of_nat (length l)) (Z.of_nat k)) with true by (symmetry; apply Z.leb_le; lia).
  replace (Z.ltb (Z.of_nat k) (Z.of_nat (length l))) with true by (symmetry; apply Z.ltb_lt; lia). cbn [andb rbind].
  replace (Z.ltb (Z.of_nat k) 0) with false by (symmetry; apply Z.ltb_ge; lia). cbn [rbind]. rewrite Nat2Z.id, H. reflexivity.
Qed.
Lemma item_vertex l v x : vertex l v x -> item l v = Ok x.
Proof. intros (H & E). rewrite <- (Z2Nat.id v H). apply item_nat. exact E. Qed.
Lemma vertex_app l m v x : vertex l v x -> vertex (l ++ m) v x.
Proof. intros (H & E). split; [exact H|]. rewrite nth_error_app1; [exact E|]. apply nth_error_Some. congruence. Qed.
Lemma vertex_fun l v x y : vertex l v x -> vertex l v y -> x = y.
Proof. intros (_ & A) (_ & B). congruence. Qed.
Lemma ridges_of_sound d k q v w : In (q, v, w) (ridges_of d k) -> ridge d k q v w.
Proof.
  unfold ridges_of. intros H. apply in_flat_map in H. destruct H as ([[p1 p2] [v1 v2]] & Hi & H). apply In_nth_error in Hi. destruct Hi as (i & Hi).
  assert (X : nth_error (d_ridge_points d) i = Some (p1, p2) /\ nth_error (d_ridge_vertices d) i = Some (v1, v2)).
  { clear H. revert Hi. generalize (d_ridge_points d) (d_ridge_vertices d). induction i as [|i IH]; intros [|x l] [|y m]; cbn; try discriminate; [intros [= -> ->]; auto|apply IH]. }
  destruct X as (X & Y). exists i. apply in_app_or in H. destruct H as [H|H].
  - destruct (Nat.eqb_spec p1 k); [|destruct H]. destruct H as [[= <- <- <-]|[]]. subst. auto.
  - destruct (Nat.eqb_spec p2 k); [|destruct H]. destruct H as [[= <- <- <-]|[]]. subst. auto.
Qed.
Lemma ridges_of_complete d k q v w : length (d_ridge_points d) = length (d_ridge_vertices d) -> ridge d k q v w -> In (q, v, w) (ridges_of d k) \/ In (q, w, v) (ridges_of d k).
Proof.
  intros L (i & P & Q).
  assert (C : forall a b, nth_error (d_ridge_points d) i = Some a -> nth_error (d_ridge_vertices d) i = Some b -> In (a, b) (combine (d_ridge_points d) (d_ridge_vertices d))).
  { clear. generalize (d_ridge_points d) (d_ridge_vertices d). induction i as [|i IH]; intros [|x l] [|y m] a b; cbn; try discriminate; [intros [= ->] [= ->]; auto|eauto]. }
  unfold ridges_of. rewrite !in_flat_map.
  destruct P as [P|P], Q as [Q|Q]; [left|right|left|right]; eexists; (split; [apply (C _ _ P Q)|]); apply in_or_app; rewrite Nat.eqb_refl; cbn; auto.
Qed.
Section Loops.
  Variables (d : diagram) (radius : R).
  Hypotheses (Hd : is_voronoi d) (Hr : 0 <= radius).
  Notation pts := (d_points d).
  Notation from_ridge k a y := (exists q v w b x, ridge d k q v w /\ (v < 0)%Z /\ nth_error pts q = Some b /\ vertex (d_vertices d) w x /\
    opened pts radius a b x y /\ nearest_to pts a y).
  Lemma ridge_swap k q v w : ridge d k q v w -> ridge d k q w v.
  Proof. intros (i & P & Q). exists i. tauto. Qed.
  Lemma open_step k a q v w b reg vs : nth_error pts k = Some a -> ridge d k q v w -> (v < 0)%Z -> nth_error pts q = Some b ->
    exists x, vertex (d_vertices d) w x /\ (0 <= w)%Z /\
    let y := far_point (mean pts) radius a b x in
    finish_ridge d (mean pts) radius k (reg, vs) (q, v, w) = Ok (reg ++ [Z.of_nat (length vs)], vs ++ [y]) /\
    finish_ridge d (mean pts) radius k (reg, vs) (q, w, v) = Ok (reg ++ [Z.of_nat (length vs)], vs ++ [y]) /\
    opened pts radius a b x y /\ nearest_to pts a y.
  Proof using Hd Hr.
    intros Ha R V Hb. destruct (iv_open_ridge d Hd k q v w a b R V Ha Hb) as (x & X & Na & Nb & E). exists x.
    split; [exact X|]. split; [exact (proj1 X)|]. cbv zeta.
    destruct (far_point_spec a b pts radius x Hr E (nth_error_In _ _ Ha) (nth_error_In _ _ Hb) Na Nb) as (O & N1 & _).
    unfold finish_ridge. replace (Z.ltb w 0) with false by (symmetry; apply Z.ltb_ge; apply X). replace (Z.ltb v 0) with true by (symmetry; apply Z.ltb_lt; exact V).
    replace (Z.leb 0 v) with false by (symmetry; apply Z.leb_gt; exact V). rewrite (item_nat _ _ _ Ha), (item_nat _ _ _ Hb), (item_vertex _ _ _ X). cbn [rbind fst snd].
    repeat split; [exact O|exact N1] || auto.
  Qed.
  Lemma ridges_loop k a : nth_error pts k = Some a -> forall rs, (forall q v w, In (q, v, w) rs -> ridge d k q v w) -> forall reg vs, exists extra,
    each rs (finish_ridge d (mean pts) radius k) (reg, vs) = Ok (reg ++ map Z.of_nat (seq (length vs) (length extra)), vs ++ extra) /\
    (forall y, In y extra -> from_ridge k a y) /\
    (forall q v w b, In (q, v, w) rs \/ In (q, w, v) rs -> (v < 0)%Z -> nth_error pts q = Some b ->
       exists x y, vertex (d_vertices d) w x /\ In y extra /\ opened pts radius a b x y).
  Proof using Hd Hr.
    intros Ha. induction rs as [|[[q v] w] rs IH]; intros H reg vs.
    - exists []. cbn. rewrite !app_nil_r. split; [reflexivity|]. split; [intros y []|intros ? ? ? ? [[]|[]]].
    - assert (R : ridge d k q v w) by (apply H; now left). assert (H' : forall q v w, In (q, v, w) rs -> ridge d k q v w) by (intros; apply H; now right).
      destruct (iv_ridge d Hd k q v w R) as (a' & b & Ha' & Hb & _). cbn [each].
      assert (Open : forall v1 w1, ridge d k q v1 w1 -> (v1 < 0)%Z -> (v1 = v /\ w1 = w) \/ (v1 = w /\ w1 = v) -> exists extra,
        (do s <- finish_ridge d (mean pts) radius k (reg, vs) (q, v, w); each rs (finish_ridge d (mean pts) radius k) s) =
          Ok (reg ++ map Z.of_nat (seq (length vs) (length extra)), vs ++ extra) /\ (forall y, In y extra -> from_ridge k a y) /\
        (forall q' v' w' b', In (q', v', w') ((q, v, w) :: rs) \/ In (q', w', v') ((q, v, w) :: rs) -> (v' < 0)%Z -> nth_error pts q' = Some b' ->
          exists x y, vertex (d_vertices d) w' x /\ In y extra /\ opened pts radius a b' x y)).
      { intros v1 w1 R1 V1 E1. destruct (open_step k a q v1 w1 b reg vs Ha R1 V1 Hb) as (x & X & W1 & F1 & F2 & O & N).
        assert (F : finish_ridge d (mean pts) radius k (reg, vs) (q, v, w) = Ok (reg ++ [Z.of_nat (length vs)], vs ++ [far_point (mean pts) radius a b x]))
          by (destruct E1 as [(-> & ->)|(-> & ->)]; [exact F1|exact F2]).
        rewrite F. cbn [rbind]. destruct (IH H' (reg ++ [Z.of_nat (length vs)]) (vs ++ [far_point (mean pts) radius a b x])) as (extra & -> & I1 & I2).
        exists (far_point (mean pts) radius a b x :: extra). rewrite app_length, Nat.add_1_r, <- !app_assoc. split; [reflexivity|]. split.
        - intros y [<-|Hy]; [|auto]. exists q, v1, w1, b, x. auto 10.
        - intros q' v' w' b' Hin V' Hb'. 
          assert (C : (q' = q /\ v' = v1 /\ w' = w1) \/ (In (q', v', w') rs \/ In (q', w', v') rs)).
          { destruct Hin as [[[= -> -> ->]|Hin]|[[= -> -> ->]|Hin]]; auto; left; destruct E1 as [(-> & ->)|(-> & ->)]; auto; lia. }
          destruct C as [(-> & -> & ->)|C].
          + rewrite Hb in Hb'. injection Hb' as <-. exists x, (far_point (mean pts) radius a b x). split; [exact X|]. split; [now left|exact O].
          + destruct (I2 q' v' w' b' C V' Hb') as (x' & y' & X' & Y' & O'). exists x', y'. split; [exact X'|]. split; [now right|exact O']. }
      destruct (Z_lt_le_dec v 0) as [V|V]; [apply (Open v w R V); auto|]. destruct (Z_lt_le_dec w 0) as [W|W]; [apply (Open w v (ridge_swap _ _ _ _ R) W); auto|].
      assert (F : finish_ridge d (mean pts) radius k (reg, vs) (q, v, w) = Ok (reg, vs)).
      { unfold finish_ridge. replace (Z.ltb w 0) with false by (symmetry; apply Z.ltb_ge; exact W). replace (Z.leb 0 v) with true by (symmetry; apply Z.leb_le; exact V). reflexivity. }
      rewrite F. cbn [rbind]. destruct (IH H' reg vs) as (extra & E & I1 & I2). exists extra. split; [exact E|]. split; [exact I1|].
      intros q' v' w' b' Hin V' Hb'. apply (I2 q' v' w' b'); auto. destruct Hin as [[[= -> -> ->]|Hin]|[[= -> -> ->]|Hin]]; auto; lia.
  Qed.
End Loops.

(** ** The loop over the points *)
Lemma rmap_ok {A B} (f : A -> res B) l m : Forall2 (fun x y => f x = Ok y) l m -> rmap f l = Ok m.
Proof. induction 1 as [|x y l m H _ IH]; [reflexivity|]. cbn [rmap]. rewrite H. cbn [rbind]. rewrite IH. reflexivity. Qed.
Lemma forall_pick {A B} (P : A -> B -> Prop) l : (forall x, In x l -> exists y, P x y) -> exists m, Forall2 P l m.
Proof.
  induction l as [|x l IH]; intros H; [exists []; constructor|]. destruct (H x (or_introl eq_refl)) as (y & Hy).
  destruct IH as (m & Hm); [intros z Hz; apply H; now right|]. exists (y :: m). now constructor.
Qed.
Lemma vsum_perm l m : Permutation l m -> vsum l = vsum m.
Proof. induction 1; try congruence; rewrite ?vsum_cons; [congruence|]. unfold vadd. cbn [vx vy]. f_equal; ring. Qed.
Lemma Forall2_nth {A B} (P : A -> B -> Prop) l m : Forall2 P l m -> forall i x, nth_error l i = Some x -> exists y, nth_error m i = Some y /\ P x y.
Proof. induction 1 as [|x y l m H _ IH]; intros [|i] z E; cbn in *; try discriminate; [injection E as <-; eauto|eauto]. Qed.
Lemma Forall2_nth' {A B} (P : A -> B -> Prop) l m : Forall2 P l m -> forall i y, nth_error m i = Some y -> exists x, nth_error l i = Some x /\ P x y.
Proof. induction 1 as [|x y l m H _ IH]; intros [|i] z E; cbn in *; try discriminate; [injection E as <-; eauto|eauto]. Qed.
Lemma Forall2_in {A B} (P : A -> B -> Prop) l m x : Forall2 P l m -> In x l -> exists y, In y m /\ P x y.
Proof. induction 1 as [|a b l m H _ IH]; intros []; [subst; eexists; split; [now left|assumption]|]. destruct IH as (y & A1 & A2); auto. exists y. split; [now right|exact A2]. Qed.
(** Picking the elements of [l] in the order of [p]. *)
Lemma picked {A} (dflt : A) (l : list A) p : Permutation p (seq 0 (length l)) ->
  Forall2 (fun i x => nth_error l i = Some x) p (map (fun i => nth i l dflt) p) /\ Permutation (map (fun i => nth i l dflt) p) l.
Proof.
  intros H. split.
  - assert (B : forall i, In i p -> (i < length l)%nat) by (intros i Hi; apply (Permutation_in _ H) in Hi; apply in_seq in Hi; lia).
    clear H. induction p as [|i p IH]; cbn; constructor; [apply nth_error_nth'; apply B; now left|apply IH; intros; apply B; now right].
  - rewrite H. clear H. induction l as [|x l IH]; [constructor|]. cbn [length seq map nth]. constructor. rewrite <- seq_shift, map_map. exact IH.
Qed.
Section Loop2.
  Variables (argsort : list R -> list nat) (d : diagram) (radius : R).
  Hypotheses (Hs : sorts argsort) (Hd : is_voronoi d) (Hr : 0 <= radius).
  Notation pts := (d_points d).
  Lemma finished_more vs extra k p old region : finished d radius vs k p old region -> 
    (forall v, In v region -> exists x, vertex vs v x) -> finished d radius (vs ++ extra) k p old region.
  Proof.
    intros [C B K O N S] V. constructor.
    - intros v Hv. destruct (C v Hv) as (x & X & Y). exists x. split; [apply vertex_app; exact X|exact Y].
    - exact B.
    - exact K.
    - intros q v w b R Hv U Hb. destruct (O q v w b R Hv U Hb) as (x & u & y & X1 & X2 & X3 & X4). exists x, u, y. split; [exact X1|]. split; [exact X2|]. split; [apply vertex_app; exact X3|exact X4].
    - intros u Hu. destruct (N u Hu) as [I|(q & v & w & b & x & y & X1 & X2 & X3 & X4 & X5 & X6)]; [now left|right]. exists q, v, w, b, x, y. repeat (split; [assumption|]). split; [apply vertex_app; exact X5|exact X6].
    - intros U xs F. apply (S U). clear - F V. induction F as [|v x l m H F IH]; constructor.
      + destruct (V v (or_introl eq_refl)) as (y & Y). rewrite (vertex_fun _ _ _ _ H (vertex_app _ extra _ _ Y)). exact Y.
      + apply IH. intros u Hu. apply V. now right.
  Qed.
  Lemma region_step k p r old regs more : nth_error pts k = Some p -> (0 <= r)%Z -> nth_error (d_point_region d) k = Some r -> nth_error (d_regions d) (Z.to_nat r) = Some old ->
    exists region extra, finish_region argsort d (mean pts) radius (regs, d_vertices d ++ more) (k, r) = Ok (regs ++ [region], d_vertices d ++ more ++ extra) /\
    finished d radius (d_vertices d ++ more ++ extra) k p old region.
  Proof using Hs Hd Hr.
    intros Hp R0 Hpr Ho. assert (RO : region_of d k old) by (exists r; auto).
    unfold finish_region. assert (I : item (d_regions d) r = Ok old) by (rewrite <- (Z2Nat.id r R0); apply item_nat; exact Ho). rewrite I. cbn [rbind fst snd].
    destruct (forallb (Z.leb 0) old) eqn:B.
    - rewrite forallb_forall in B. exists old, []. rewrite app_nil_r. split; [reflexivity|]. 
      assert (NB : ~ exists u, In u old /\ (u < 0)%Z) by (intros (u & U1 & U2); apply B in U1; apply Z.leb_le in U1; lia).
      constructor; auto.
      + intros v Hv. destruct (iv_corner d Hd k p old v Hp RO Hv) as (x & X & Y); [apply Z.leb_le; auto|]. exists x. split; [apply vertex_app; exact X|exact Y].
      + intros; contradiction.
      + intros; contradiction.
    - assert (U : exists u, In u old /\ (u < 0)%Z).
      { clear - B. induction old as [|z l IH]; [discriminate|]. cbn in B. apply andb_false_iff in B. destruct B as [B|B].
        - exists z. split; [now left|]. apply Z.leb_gt in B. exact B.
        - destruct (IH B) as (u & U1 & U2). exists u. split; [now right|exact U2]. }
      destruct U as (u0 & U0 & Un). destruct (iv_unbounded d Hd k old u0 RO U0 Un) as (q0 & v0 & w0 & R1 & V0).
      destruct (ridges_loop d radius Hd Hr k p Hp (ridges_of d k) (fun q v w => ridges_of_sound d k q v w) (filter (Z.leb 0) old) (d_vertices d ++ more)) as (extra & E & N & O).
      pose proof (ridges_of_complete d k q0 v0 w0 (iv_ridges d Hd) R1) as RC.
      destruct (iv_ridge d Hd k q0 v0 w0 R1) as (_ & b0 & _ & Hb0 & _). destruct (O q0 v0 w0 b0 RC V0 Hb0) as (x0 & y0 & _ & Y0 & _).
      destruct (ridges_of d k) as [|r1 rs] eqn:RS; [destruct RC as [[]|[]]|]. rewrite <- RS in *. rewrite E. cbn [rbind fst snd]. clear r1 rs RS.
      set (start := length (d_vertices d ++ more)) in *. set (reg := filter (Z.leb 0) old ++ map Z.of_nat (seq start (length extra))) in *. rewrite <- app_assoc.
      set (vs := d_vertices d ++ more ++ extra).
      assert (New : forall i y, nth_error extra i = Some y -> vertex vs (Z.of_nat (start + i)) y).
      { intros i y Hy. split; [lia|]. rewrite Nat2Z.id. unfold vs, start. rewrite app_assoc, nth_error_app2 by lia. rewrite <- Hy. f_equal. lia. }
      assert (NewIn : forall v, In v (map Z.of_nat (seq start (length extra))) -> exists y, vertex vs v y /\ In y extra).
      { intros v Hv. apply in_map_iff in Hv. destruct Hv as (i & <- & Hi). apply in_seq in Hi. destruct (nth_error extra (i - start)) as [y|] eqn:Y.
        - exists y. split; [|eapply nth_error_In; eauto]. replace i with (start + (i - start))%nat by lia. apply New. exact Y.
        - apply nth_error_None in Y. lia. }
      assert (Corner : forall v, In v reg -> exists x, vertex vs v x /\ nearest_to pts p x).
      { intros v Hv. apply in_app_or in Hv. destruct Hv as [Hv|Hv].
        - apply filter_In in Hv. destruct Hv as (Hv & Z0). destruct (iv_corner d Hd k p old v Hp RO Hv) as (x & X & Y); [apply Z.leb_le; exact Z0|]. exists x. split; [apply vertex_app; exact X|exact Y].
        - destruct (NewIn v Hv) as (y & Y & Hy). exists y. split; [exact Y|]. destruct (N y Hy) as (q & v' & w & b & x & _ & _ & _ & _ & _ & Q). exact Q. }
      destruct (forall_pick (fun v x => vertex vs v x) reg) as (xs & Fx); [intros v Hv; destruct (Corner v Hv) as (x & X & _); eauto|].
      rewrite (rmap_ok _ reg xs) by (clear - Fx; induction Fx; constructor; [apply item_vertex; assumption|assumption]). cbn [rbind].
      assert (Le : length reg = length xs) by (clear - Fx; induction Fx; cbn; congruence).
      assert (Nx : exists x1 xs1, xs = x1 :: xs1).
      { destruct xs as [|x1 xs1]; [|eauto]. exfalso. apply In_nth_error in Y0. destruct Y0 as (i0 & Y0). assert (L0 : (i0 < length extra)%nat) by (apply nth_error_Some; congruence).
        unfold reg in Le. rewrite app_length, map_length, seq_length in Le. cbn in Le. lia. }
      destruct Nx as (x1 & xs1 & Ex). match goal with |- context [match xs with [] => _ | _ :: _ => ?b end] => replace (match xs with [] => Err IndexError | _ :: _ => b end) with b by (rewrite Ex; reflexivity) end. set (angles := map (fun v => angle (vsub v (mean xs))) xs).
      destruct (Hs angles) as (P & Q). assert (Lp : Permutation (argsort angles) (seq 0 (length reg))) by (unfold angles in P at 2; rewrite map_length in P; rewrite Le; exact P).
      destruct (picked 0%Z reg (argsort angles) Lp) as (P1 & P2).
      set (region := map (fun i => nth i reg 0%Z) (argsort angles)) in *.
      rewrite (rmap_ok _ (argsort angles) region) by (clear - P1; induction P1; constructor; [apply item_nat; assumption|assumption]). cbn [rbind].
      exists region, extra. split; [reflexivity|].
      assert (In_reg : forall v, In v region <-> In v reg) by (intros v; split; apply Permutation_in; [exact P2|apply Permutation_sym; exact P2]).
      constructor.
      + intros v Hv. apply Corner. apply In_reg. exact Hv.
      + intros B'. specialize (B' u0 U0). lia.
      + intros v Hv V. apply In_reg. apply in_or_app. left. apply filter_In. split; [exact Hv|apply Z.leb_le; exact V].
      + intros q v w b Rq Hv _ Hb. destruct (O q v w b (ridges_of_complete d k q v w (iv_ridges d Hd) Rq) Hv Hb) as (x & y & X & Hy & Op).
        apply In_nth_error in Hy. destruct Hy as (i & Hy). assert (Li : (i < length extra)%nat) by (apply nth_error_Some; congruence).
        exists x, (Z.of_nat (start + i)), y. split; [exact X|]. split; [|split; [apply New; exact Hy|exact Op]].
        apply In_reg. apply in_or_app. right. apply in_map. apply in_seq. lia.
      + intros u Hu. apply In_reg in Hu. apply in_app_or in Hu. destruct Hu as [Hu|Hu]; [left; apply filter_In in Hu; apply Hu|right].
        destruct (NewIn u Hu) as (y & Y & Hy). destruct (N y Hy) as (q & v' & w & b & x & T1 & T2 & T3 & T4 & T5 & _). exists q, v', w, b, x, y. auto 10.
      + intros _ ys Fy.
        (* the corners of the sorted region are the sorted corners *)
        destruct (picked vzero xs (argsort angles)) as (X1 & X2); [rewrite <- Le; exact Lp|].
        assert (Eys : ys = map (fun i => nth i xs vzero) (argsort angles)).
        { clear - Fy Fx P1 X1. unfold region in *. clear region. revert ys Fy. revert P1 X1. generalize (argsort angles) as idx. clear angles.
          induction idx as [|i idx IH]; intros P1 X1 ys Fy; cbn [map] in *; inversion Fy; subst; [reflexivity|]. inversion P1; subst. inversion X1; subst. f_equal; [|apply IH; auto].
          match goal with Hi : nth_error reg i = Some _ |- _ => destruct (Forall2_nth _ _ _ Fx _ _ Hi) as (z & Z1 & Z2) end.
          match goal with Hx : nth_error xs i = Some _ |- _ => rewrite Hx in Z1; injection Z1 as Z1 end. rewrite Z1. eapply vertex_fun; eauto. }
        assert (M : mean ys = mean xs).
        { rewrite Eys. unfold mean. rewrite (vsum_perm _ _ X2), (Permutation_length X2). reflexivity. }
        unfold counterclockwise. rewrite M. intros i j x y L Hx Hy. rewrite Eys in Hx, Hy.
        destruct (Forall2_nth' _ _ _ X1 _ _ Hx) as (a1 & A1 & A2). destruct (Forall2_nth' _ _ _ X1 _ _ Hy) as (b1 & B1 & B2).
        apply (Q i j a1 b1 _ _ L A1 B1); unfold angles; [apply (map_nth_error (fun v => angle (vsub v (mean xs))) a1 xs A2)|apply (map_nth_error (fun v => angle (vsub v (mean xs))) b1 xs B2)].
  Qed.
  Lemma regions_loop : forall n k regs more, (k + n = length pts)%nat -> length regs = k ->
    (forall j p old region, (j < k)%nat -> nth_error pts j = Some p -> region_of d j old -> nth_error regs j = Some region -> finished d radius (d_vertices d ++ more) j p old region) ->
    exists regions extra, each (combine (seq k n) (skipn k (d_point_region d))) (finish_region argsort d (mean pts) radius) (regs, d_vertices d ++ more) = Ok (regions, d_vertices d ++ extra) /\
    length regions = length pts /\
    (forall j p old region, nth_error pts j = Some p -> region_of d j old -> nth_error regions j = Some region -> finished d radius (d_vertices d ++ extra) j p old region).
  Proof using Hs Hd Hr.
    induction n as [|n IH]; intros k regs more Hk Lr Inv.
    - exists regs, more. cbn [seq combine each]. split; [reflexivity|]. split; [lia|]. intros j p old region Hp. intros. apply Inv; auto.
      assert ((j < length pts)%nat) by (apply nth_error_Some; congruence). lia.
    - assert (Lk : (k < length pts)%nat) by lia. destruct (iv_region d Hd k Lk) as (old & r & Hpr & R0 & Ho).
      destruct (nth_error pts k) as [p|] eqn:Hp; [|apply nth_error_None in Hp; lia].
      assert (Sk : skipn k (d_point_region d) = r :: skipn (S k) (d_point_region d)).
      { clear - Hpr. revert Hpr. generalize (d_point_region d) as l. induction k as [|k IH]; intros [|z l]; cbn; try discriminate; [intros [= ->]; reflexivity|apply IH]. }
      cbn [seq]. rewrite Sk. cbn [combine each].
      destruct (region_step k p r old regs more Hp R0 Hpr Ho) as (region & extra & -> & F). cbn [rbind].
      apply (IH (S k) (regs ++ [region]) (more ++ extra)); [lia|rewrite app_length; cbn; lia|].
      intros j pj oj rj Hj Hpj Roj Hrj. destruct (Nat.eq_dec j k) as [->|Nj].
      + rewrite nth_error_app2, Lr, Nat.sub_diag in Hrj by lia. injection Hrj as <-. rewrite Hp in Hpj. injection Hpj as <-.
        destruct Roj as (r' & E1 & _ & E2). rewrite Hpr in E1. injection E1 as <-. rewrite Ho in E2. injection E2 as <-. exact F.
      + rewrite nth_error_app1 in Hrj by lia. specialize (Inv j pj oj rj ltac:(lia) Hpj Roj Hrj). rewrite app_assoc. apply finished_more; [exact Inv|].
        intros v Hv. destruct (fin_corners _ _ _ _ _ _ _ Inv v Hv) as (x & X & _). eauto.
  Qed.
End Loop2.
Lemma finite_spec argsort d radius : sorts argsort -> is_voronoi d -> 0 <= radius -> exists regions extra,
  voronoi_finite_polygons_2d argsort d (Some radius) = Ok (regions, d_vertices d ++ extra) /\ length regions = length (d_points d) /\
  forall k p old region, nth_error (d_points d) k = Some p -> region_of d k old -> nth_error regions k = Some region -> finished d radius (d_vertices d ++ extra) k p old region.
Proof.
  intros Hs Hd Hr. destruct (regions_loop argsort d radius Hs Hd Hr (length (d_points d)) 0 [] []) as (regions & extra & E & L & F); [reflexivity|reflexivity|intros; lia|].
  exists regions, extra. split; [|auto]. unfold voronoi_finite_polygons_2d. cbn [rbind]. rewrite (iv_regions d Hd). rewrite app_nil_r in E. exact E.
Qed.

(** ** Consequences *)
Lemma nearest_mixture pts p l y : (forall x, In x l -> nearest_to pts p x) -> mixture l y -> nearest_to pts p y.
Proof.
  intros H M. induction M as [x l Hx|l x y t _ IHx _ IHy T]; [auto|].
  intros q Hq. specialize (IHx H q Hq). specialize (IHy H q Hq). apply edist_sq in IHx, IHy. apply edist_sq. unfold sq in *. cbn [vx vy].
  assert (0 <= (1 - t) * (((vx x - vx q) ^ 2 + (vy x - vy q) ^ 2) - ((vx x - vx p) ^ 2 + (vy x - vy p) ^ 2))) by (apply Rmult_le_pos; lra).
  assert (0 <= t * (((vx y - vx q) ^ 2 + (vy y - vy q) ^ 2) - ((vx y - vx p) ^ 2 + (vy y - vy p) ^ 2))) by (apply Rmult_le_pos; lra). nra.
Qed.
Lemma opened_unique pts radius a b x y y' : a <> b -> opened pts radius a b x y -> opened pts radius b a x y' -> y = y'.
Proof.
  intros N (E & O & S & P) (E' & O' & S' & P').
  assert (Q : forall z, edist x z = radius -> (vx z - vx x) ^ 2 + (vy z - vy x) ^ 2 = radius ^ 2).
  { intros z <-. unfold edist. rewrite pow2_sqrt; [ring|apply Rplus_le_le_0_compat; apply Rle_0_sqr]. }
  assert (R0 : 0 <= radius) by (rewrite <- E; apply sqrt_pos).
  apply Q in E, E'. set (dx := vx y - vx x) in *. set (dy := vy y - vy x) in *. set (ex := vx y' - vx x) in *. set (ey := vy y' - vy x) in *.
  set (bx := vx b - vx a) in *. set (by_ := vy b - vy a) in *.
  assert (O1 : ex * bx + ey * by_ = 0) by (unfold bx, by_; lra).
  assert (Nb : 0 < bx ^ 2 + by_ ^ 2).
  { destruct (Req_dec bx 0) as [Zx|Zx]; [destruct (Req_dec by_ 0) as [Zy|Zy]|].
    - exfalso. apply N. destruct a, b. unfold bx, by_ in *. cbn in *. f_equal; lra.
    - pose proof (pow2_ge_0 bx). assert (0 < by_ ^ 2) by (rewrite <- Rsqr_pow2; apply Rsqr_pos_lt; exact Zy). lra.
    - pose proof (pow2_ge_0 by_). assert (0 < bx ^ 2) by (rewrite <- Rsqr_pow2; apply Rsqr_pos_lt; exact Zx). lra. }
  (* both are multiples of the normal *)
  assert (M : forall u v, u * bx + v * by_ = 0 -> exists c, u = - c * by_ /\ v = c * bx).
  { intros u v H. exists ((v * bx - u * by_) / (bx ^ 2 + by_ ^ 2)). split.
    - apply (Rmult_eq_reg_r (bx ^ 2 + by_ ^ 2)); [|lra]. replace (_ * by_ * _) with (- (v * bx - u * by_) * by_) by (field; lra).
      replace (u * (bx ^ 2 + by_ ^ 2)) with ((u * bx) * bx + u * by_ ^ 2) by ring. replace (u * bx) with (- (v * by_)) by lra. ring.
    - apply (Rmult_eq_reg_r (bx ^ 2 + by_ ^ 2)); [|lra]. replace (_ / _ * bx * _) with ((v * bx - u * by_) * bx) by (field; lra).
      replace (v * (bx ^ 2 + by_ ^ 2)) with ((v * by_) * by_ + v * bx ^ 2) by ring. replace (v * by_) with (- (u * bx)) by lra. ring. }
  destruct (M dx dy O) as (c & C1 & C2). destruct (M ex ey O1) as (e & D1 & D2).
  assert (CE : c ^ 2 = e ^ 2).
  { apply (Rmult_eq_reg_r (bx ^ 2 + by_ ^ 2)); [|lra]. transitivity (radius ^ 2); [rewrite <- E, C1, C2; ring|rewrite <- E', D1, D2; ring]. }
  assert (CE' : c = e \/ c = - e) by (assert (Z : (c - e) * (c + e) = 0) by lra; apply Rmult_integral in Z; lra).
  assert (Same : c = e -> y = y').
  { intros ->. destruct y as [y1 y2], y' as [z1 z2]. unfold dx, dy, ex, ey in *. cbn [vx vy] in *. f_equal; lra. }
  destruct CE' as [CE'|CE']; [auto|]. destruct (Req_dec e 0) as [Ze|Ze]; [apply Same; lra|].
  exfalso. assert (R : radius <> 0).
  { intros ->. assert (Z : e ^ 2 * (bx ^ 2 + by_ ^ 2) = 0) by (transitivity (0 ^ 2); [rewrite <- E', D1, D2; ring|ring]).
    assert (0 < e ^ 2) by (rewrite <- Rsqr_pow2; apply Rsqr_pos_lt; exact Ze). nra. }
  assert (RP : 0 < radius) by lra.
  destruct (P RP) as (q & Hq & T). specialize (S' q Hq). rewrite C1, C2 in T. rewrite D1, D2 in S'. 
  replace (- e * by_ * (vx q - vx b) + e * bx * (vy q - vy b)) with (- e * by_ * (vx q - vx a) + e * bx * (vy q - vy a)) in S' by (unfold bx, by_; ring).
  rewrite CE' in T. lra.
Qed.
(** The default radius. *)
Lemma default_radius argsort d : d_points d <> [] -> exists lo hi,
  (forall p, In p (d_points d) -> lo <= vx p <= hi /\ lo <= vy p <= hi) /\
  (exists p, In p (d_points d) /\ (vx p = lo \/ vy p = lo)) /\ (exists p, In p (d_points d) /\ (vx p = hi \/ vy p = hi)) /\ lo <= hi /\
  voronoi_finite_polygons_2d argsort d None = voronoi_finite_polygons_2d argsort d (Some (2 * (hi - lo))).
Proof.
  intros N. set (cs := flat_map (fun p => [vx p; vy p]) (d_points d)).
  assert (C : forall x, In x cs <-> exists p, In p (d_points d) /\ (vx p = x \/ vy p = x)).
  { intros x. unfold cs. rewrite in_flat_map. split; intros (p & Hp & H); exists p; (split; [exact Hp|]); cbn in *; tauto. }
  destruct (rmin cs) as [lo|] eqn:L; [|unfold cs in L; destruct (d_points d); [contradiction|discriminate]].
  destruct (rmax cs) as [hi|] eqn:H; [|unfold cs in H; destruct (d_points d); [contradiction|discriminate]].
  pose proof (rmin_inv cs lo L) as (L1 & L2). pose proof (rmax_inv cs hi H) as (H1 & H2).
  exists lo, hi. split; [|split; [|split; [|split]]].
  - intros p Hp. assert (In (vx p) cs) by (apply C; eauto). assert (In (vy p) cs) by (apply C; eauto). auto.
  - apply C. exact L1.
  - apply C. exact H1.
  - auto.
  - unfold voronoi_finite_polygons_2d. fold cs. rewrite L, H. cbn [rbind]. rewrite (Rmult_comm (hi - lo) 2). reflexivity.
Qed.
(** Reading areas by scipy's region numbers. *)
Lemma each_ok {A S} (body : S -> A -> res S) l : forall s t, each l body s = Ok t -> forall x, In x l -> exists s1 s2, body s1 x = Ok s2.
Proof.
  induction l as [|a l IH]; intros s t H x []; cbn [each] in H; destruct (body s a) as [s'|] eqn:E; try discriminate; [subst; eauto|eapply IH; eauto].
Qed.
Lemma rmap_length {A B} (f : A -> res B) l : forall m, rmap f l = Ok m -> length m = length l.
Proof.
  induction l as [|x l IH]; cbn [rmap]; intros m H; [injection H as <-; reflexivity|]. destruct (f x); [|discriminate]. destruct (rmap f l) as [m'|]; [|discriminate].
  injection H as <-. cbn. rewrite (IH m' eq_refl). reflexivity.
Qed.
Lemma last_region d : is_voronoi d -> NoDup (d_point_region d) -> length (d_regions d) = S (length (d_points d)) ->
  (exists e, (e < length (d_points d))%nat /\ ~ In (Z.of_nat e) (d_point_region d)) -> In (Z.of_nat (length (d_points d))) (d_point_region d).
Proof.
  intros Hd Nd Lr (e & Le & Ne). pose proof (iv_regions d Hd) as Lp. set (n := length (d_points d)) in *.
  destruct (in_dec Z.eq_dec (Z.of_nat n) (d_point_region d)) as [I|I]; [exact I|exfalso].
    assert (B : forall r, In r (d_point_region d) -> (0 <= r < Z.of_nat n)%Z).
    { intros r Hr. apply In_nth_error in Hr as (k & Hk). assert (Lk : (k < n)%nat) by (rewrite <- Lp; apply nth_error_Some; congruence).
      destruct (iv_region d Hd k Lk) as (vs & r' & E & R0 & Q). rewrite Hk in E. injection E as <-.
      assert (Z.to_nat r < length (d_regions d))%nat by (apply nth_error_Some; congruence).
      assert (r <> Z.of_nat n) by (intros ->; apply I; eapply nth_error_In; eauto). lia. }
    assert (Hi : incl (d_point_region d) (map Z.of_nat (remove Nat.eq_dec e (seq 0 n)))).
    { intros r Hr. apply in_map_iff. exists (Z.to_nat r). specialize (B r Hr). split; [lia|]. apply in_in_remove; [|apply in_seq; lia]. intros Q. apply Ne. rewrite <- Q, Z2Nat.id by lia. exact Hr. }
    pose proof (NoDup_incl_length Nd Hi) as L. rewrite map_length in L.
    assert (Q : (length (remove Nat.eq_dec e (seq 0 n)) < length (seq 0 n))%nat) by (apply remove_length_lt; apply in_seq; lia). rewrite seq_length in Q. lia.
Qed.
Lemma overrun argsort d c : is_voronoi d -> sorts argsort -> d_points d <> [] -> In (Z.of_nat (length (d_points d))) (d_point_region d) ->
  forall density, density_of_diagram argsort d c <> Ok density.
Proof.
  intros Hd Hs Hn Last density H. pose proof (iv_regions d Hd) as Lp. set (n := length (d_points d)) in *.
  unfold density_of_diagram in H. destruct (default_radius argsort d Hn) as (lo & hi & _ & _ & _ & Lh & Def). rewrite Def in H.
  destruct (finite_spec argsort d (2 * (hi - lo)) Hs Hd ltac:(lra)) as (regions & extra & E & L & _). rewrite E in H. cbn [rbind fst snd] in H.
  destruct (rmap (rmap (item (d_vertices d ++ extra))) regions) as [cells|] eqn:C; [|discriminate]. cbn [rbind] in H. apply rmap_length in C.
  destruct (rmap _ (d_point_region d)) as [rs|] eqn:R in H; [|discriminate]. cbn [rbind] in H.
  assert (In_rs : In n rs).
  { clear - R Last. revert rs R Last. generalize (d_point_region d) as l. induction l as [|z l IH]; cbn [rmap]; intros rs R []; destruct (Z.ltb_spec z 0); try discriminate; cbn [rbind] in R;
      destruct (rmap _ l) as [m|] eqn:M in R; try discriminate; injection R as <-; [left; subst; apply Nat2Z.id|right; eauto]. }
  unfold density_voronoi_2, core_2 in H. destruct (Reqb c 0); [discriminate|]. cbv zeta in H.
  repeat match type of H with rbind ?r _ = _ => let E := fresh "E" in destruct r eqn:E in H; [|discriminate]; cbn [rbind] in H end.
  match goal with Q : each (combine (combine ?x ?y) rs) _ _ = Ok _ |- _ => assert (I : exists p, In (p, n) (combine (combine x y) rs)) end.
  { apply In_nth_error in In_rs. destruct In_rs as (k & K). assert (Lk : (k < length rs)%nat) by (apply nth_error_Some; congruence). apply rmap_length in R.
    match goal with |- exists p, In _ (combine ?xy rs) => assert (length xy = length rs) by (rewrite combine_length, !map_length; lia); destruct (nth_error xy k) as [p|] eqn:P; [|apply nth_error_None in P; lia];
      exists p; revert K P; generalize xy rs k end.
    clear. induction l as [|a l IH]; intros [|b m] [|k]; cbn; try discriminate; [intros [= ->] [= ->]; auto|intros K P; right; eauto]. }
  destruct I as ([i j] & I). match goal with Q : each _ _ _ = Ok _ |- _ => destruct (each_ok _ _ _ _ Q _ I) as (s1 & s2 & B) end.
  unfold count_point in B. destruct (add_at (fst s1) _ _ _); [|discriminate]. cbn [rbind] in B. destruct (nth_error (map polygon_area cells) n) eqn:F; [|discriminate].
  assert (n < length (map polygon_area cells))%nat by (apply nth_error_Some; congruence). rewrite map_length in *. lia.
Qed.
