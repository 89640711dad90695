(** * Proofs about geometries as segments, arrays and pictures *)
From Coq Require Import Lra Lia.
From Verif Require Import Spec.Shapes Proofs.VecLemmas.
Open Scope R_scope.

(** Induction over nested collections. *)
Fixpoint geom_ind' (P : geom -> Prop)
    (HP : forall p, P (Point p)) (HL : forall l, P (LineString l)) (HG : forall e h, P (Polygon e h))
    (HM : forall l, (forall g, In g l -> P g) -> P (Multipart l)) (HN : P NoGeometry) (g : geom) : P g :=
  match g with
  | Point p => HP p
  | LineString l => HL l
  | Polygon e h => HG e h
  | Multipart l => HM l ((fix all (l : list geom) : forall g, In g l -> P g :=
      match l with
      | [] => fun g H => match H with end
      | x :: r => fun g H => match H with
          | or_introl E => eq_ind x P (geom_ind' P HP HL HG HM HN x) g E
          | or_intror H' => all r g H' end
      end) l)
  | NoGeometry => HN
  end.

(** ** Segments *)
Lemma zip_pairs_cons a b l : zip_pairs (a :: b :: l) = (a, b) :: zip_pairs (b :: l).
Proof. reflexivity. Qed.
Lemma zip_pairs_consecutive l : consecutive l (zip_pairs l).
Proof.
  induction l as [|a l IH].
  - intros i u v. destruct i; cbn; split; try discriminate; intros [X _]; discriminate.
  - destruct l as [|b l].
    + intros i u v. change (zip_pairs [a]) with (@nil (vec * vec)).
      split; [destruct i; discriminate|]. intros [_ X]. destruct i; discriminate.
    + intros i u v. rewrite zip_pairs_cons. destruct i as [|i].
      * cbn. split; [intros E; injection E as -> ->; auto|].
        intros [E1 E2]. injection E1 as ->. injection E2 as ->. reflexivity.
      * change (nth_error (zip_pairs (b :: l)) i = Some (u, v) <->
                nth_error (b :: l) i = Some u /\ nth_error (b :: l) (S i) = Some v).
        apply IH.
Qed.
Lemma traces_one l : traces [l] (zip_pairs l).
Proof.
  exists [zip_pairs l]. split; [cbn; now rewrite app_nil_r|].
  constructor; [apply zip_pairs_consecutive|constructor].
Qed.
Lemma traces_app l1 l2 p1 p2 : traces l1 p1 -> traces l2 p2 -> traces (l1 ++ l2) (p1 ++ p2).
Proof.
  intros (g1 & -> & F1) (g2 & -> & F2). exists (g1 ++ g2). split; [now rewrite concat_app|].
  now apply Forall2_app.
Qed.
Lemma segments_spec g : proper g ->
  exists pairs, geom_to_linesegment g = Ok pairs /\ traces (outer_lines g) pairs.
Proof.
  induction g as [p | l | e h | l IH |] using geom_ind'; intros P.
  - exists []. split; [reflexivity|]. exists []. split; [reflexivity|constructor].
  - exists (zip_pairs l). split; [reflexivity|]. apply traces_one.
  - inversion P; subst. exists (zip_pairs (v :: e0)). split; [reflexivity|]. apply traces_one.
  - inversion P as [| | | ? H]; subst. clear P.
    induction l as [|x l IHl].
    + exists []. split; [reflexivity|]. exists []. split; [reflexivity|constructor].
    + destruct (IH x (or_introl eq_refl)) as (p1 & E1 & T1); [apply H; now left|].
      destruct IHl as (p2 & E2 & T2); [intros; apply IH; [now right|assumption]|intros; apply H; now right|].
      exists (p1 ++ p2). split; [|now apply traces_app].
      cbn [geom_to_linesegment]. rewrite E1. cbn [rbind].
      cbn [geom_to_linesegment] in E2. rewrite E2. reflexivity.
  - inversion P.
Qed.
Lemma without_holes_lines g : without_holes g -> all_lines g = outer_lines g.
Proof.
  induction g as [p | l | e h | l IH |] using geom_ind'; intros W; try reflexivity.
  - inversion W; reflexivity.
  - inversion W as [| | | ? H]; subst. clear W. cbn. induction l as [|x l IHl]; [reflexivity|].
    cbn. rewrite (IH x), IHl; try reflexivity; try (now left);
      [intros; apply IH; [now right|assumption]|intros; apply H; now right|apply H; now left].
Qed.

(** Shape of the pairs of one line. *)
Lemma consecutive_length l pairs : consecutive l pairs -> length pairs = (length l - 1)%nat.
Proof.
  intros H. destruct (Nat.lt_trichotomy (length pairs) (length l - 1)) as [L | [L | L]]; [|exact L|].
  - exfalso. assert (N : nth_error pairs (length pairs) = None) by (apply nth_error_None; lia).
    destruct (nth_error l (length pairs)) as [a|] eqn:A; [|apply nth_error_None in A; lia].
    destruct (nth_error l (S (length pairs))) as [b|] eqn:B; [|apply nth_error_None in B; lia].
    assert (X : nth_error pairs (length pairs) = Some (a, b)) by now apply H. congruence.
  - exfalso. destruct (nth_error pairs (length l - 1)) as [[a b]|] eqn:E; [|apply nth_error_None in E; lia].
    apply H in E as [_ B]. assert (nth_error l (S (length l - 1)) <> None) by congruence.
    apply nth_error_Some in H0. lia.
Qed.
Lemma consecutive_chain l pairs : consecutive l pairs ->
  (forall i a b c d, nth_error pairs i = Some (a, b) -> nth_error pairs (S i) = Some (c, d) -> b = c) /\
  (forall a b, nth_error pairs 0 = Some (a, b) -> nth_error l 0 = Some a) /\
  (forall a b, nth_error pairs (length pairs - 1) = Some (a, b) -> nth_error l (length l - 1) = Some b).
Proof.
  intros H. split; [|split].
  - intros i a b c d A B. apply H in A as [_ A]. apply H in B as [B _]. congruence.
  - intros a b A. now apply H in A as [A _].
  - intros a b A. pose proof (consecutive_length _ _ H) as L.
    assert (nth_error pairs (length pairs - 1) <> None) as N by congruence. apply nth_error_Some in N.
    apply H in A as [_ A]. replace (length l - 1)%nat with (S (length pairs - 1)) by lia. exact A.
Qed.

(** ** Arrays *)
Lemma rows_split l l' (f f' : R) t t' :
  coord_rows l ++ (None, f) :: t = coord_rows l' ++ (None, f') :: t' -> l = l' /\ f = f' /\ t = t'.
Proof.
  revert l'. induction l as [|p l IH]; intros [|p' l'] E; cbn in E; try discriminate.
  - now injection E as -> ->.
  - injection E as E1 E2 E. destruct (IH _ E) as (-> & -> & ->). repeat split.
    f_equal. now apply vec_eq.
Qed.
Lemma coord_rows_inj l l' : coord_rows l = coord_rows l' -> l = l'.
Proof.
  revert l'. induction l as [|p l IH]; intros [|p' l'] E; cbn in E; try discriminate; [reflexivity|].
  injection E as E1 E2 E. f_equal; [now apply vec_eq|now apply IH].
Qed.
Lemma polygon_rows_inj e h e' h' :
  concat (flat_map (fun i => [flag_row flag_hole; coord_rows i]) h ++ [flag_row flag_shell; coord_rows e]) =
  concat (flat_map (fun i => [flag_row flag_hole; coord_rows i]) h' ++ [flag_row flag_shell; coord_rows e']) ->
  e = e' /\ h = h'.
Proof.
  assert (N : flag_hole <> flag_shell) by (unfold flag_hole, flag_shell; lra).
  assert (U : forall e h, concat (flat_map (fun i => [flag_row flag_hole; coord_rows i]) h ++ [flag_row flag_shell; coord_rows e])
    = match h with [] => (None, flag_shell) :: coord_rows e
      | i :: r => (None, flag_hole) :: coord_rows i ++
          concat (flat_map (fun i => [flag_row flag_hole; coord_rows i]) r ++ [flag_row flag_shell; coord_rows e]) end).
  { intros x [|i r]; cbn [flat_map app concat flag_row]; rewrite ?app_nil_r; reflexivity. }
  assert (Hd : forall e h, exists f t, (h = [] -> f = flag_shell) /\ (h <> [] -> f = flag_hole) /\
    concat (flat_map (fun i => [flag_row flag_hole; coord_rows i]) h ++ [flag_row flag_shell; coord_rows e]) = (None, f) :: t).
  { intros x [|i r]; rewrite U.
    - exists flag_shell. eexists. split; [|split]; intros; try congruence; reflexivity.
    - exists flag_hole. eexists. split; [|split]; intros; try congruence; reflexivity. }
  revert h'. induction h as [|i r IH]; intros h' E.
  - rewrite U in E. rewrite (U e' h') in E. destruct h' as [|i' r'].
    + injection E as E. split; [now apply coord_rows_inj|reflexivity].
    + injection E as E _. congruence.
  - rewrite U in E. rewrite (U e' h') in E. destruct h' as [|i' r'].
    + injection E as E _. congruence.
    + injection E as E.
      destruct (Hd e r) as (f & t & F1 & F2 & F). destruct (Hd e' r') as (f' & t' & F1' & F2' & F').
      rewrite F, F' in E. destruct (rows_split _ _ _ _ _ _ E) as (-> & -> & ->).
      destruct (IH r') as [-> ->]; [now rewrite F, F'|]. auto.
Qed.
Definition single (g : geom) : Prop :=
  match g with Point _ | LineString _ => True | Polygon e _ => e <> [] | _ => False end.
Lemma geom_to_array_ok g : single g -> exists a, geom_to_array g = Ok a.
Proof.
  destruct g as [p|l|[|v e] h|l|]; cbn; intros H; try easy; try (eexists; reflexivity).
  unfold geom_to_array. cbn.
  destruct (flat_map (fun i => [flag_row flag_hole; coord_rows i]) h); cbn; eexists; reflexivity.
Qed.
Lemma geom_to_array_rows g a : geom_to_array g = Ok a ->
  match g with
  | Point p => a = (None, flag_point) :: coord_rows [p]
  | LineString l => a = (None, flag_linestring) :: coord_rows l
  | Polygon e h => a = concat (flat_map (fun i => [flag_row flag_hole; coord_rows i]) h ++ [flag_row flag_shell; coord_rows e])
  | _ => False
  end.
Proof.
  unfold geom_to_array. destruct g as [p|l|e h|l|]; cbn [geom_arrays rbind]; intros H; try discriminate.
  - injection H as <-. reflexivity.
  - injection H as <-. cbn. now rewrite app_nil_r.
  - destruct e as [|v e]; [discriminate|]. cbn [rbind] in H.
    destruct (flat_map _ h ++ _) eqn:E; [destruct (flat_map (fun i => [flag_row flag_hole; coord_rows i]) h); discriminate|].
    injection H as <-. reflexivity.
Qed.
Lemma geom_to_array_inj g g' a : geom_to_array g = Ok a -> geom_to_array g' = Ok a -> g = g'.
Proof.
  intros H H'. apply geom_to_array_rows in H. apply geom_to_array_rows in H'.
  assert (S : forall e h, exists f t, (f = flag_shell \/ f = flag_hole) /\
    concat (flat_map (fun i => [flag_row flag_hole; coord_rows i]) h ++ [flag_row flag_shell; coord_rows e]) = (None, f) :: t).
  { intros x [|i r]; cbn; eexists; eexists; split; [left|reflexivity|right|reflexivity]; reflexivity. }
  destruct g as [p|l|e h|l|], g' as [p'|l'|e' h'|l'|]; try easy; subst a;
    try (destruct (S e h) as (f & t & [-> | ->] & X); rewrite X in H');
    try (destruct (S e' h') as (f' & t' & [-> | ->] & X'); rewrite X' in H');
    try (injection H'; intros; unfold flag_point, flag_linestring, flag_hole, flag_shell in *; exfalso; lra).
  - injection H' as E1 E2. f_equal. now apply vec_eq.
  - injection H' as E. apply coord_rows_inj in E. congruence.
  - rewrite <- X, <- X' in H'. apply polygon_rows_inj in H' as [-> ->]; reflexivity.
  - rewrite <- X, <- X' in H'. apply polygon_rows_inj in H' as [-> ->]; reflexivity.
Qed.

(** ** Pictures *)
From Coq Require Import Classical.
Definition painted {A} (S : Z * Z -> Prop) (v : A) (g g' : grid A) : Prop :=
  rows g' = rows g /\ cols g' = cols g /\
  forall i j, (S (cell_of i j) -> at_ g' i j = v) /\ (~ S (cell_of i j) -> at_ g' i j = at_ g i j).
Lemma painted_nothing {A} (S : Z * Z -> Prop) (v : A) g : (forall c, ~ S c) -> painted S v g g.
Proof.
  intros H. split; [reflexivity|]. split; [reflexivity|]. intros i j.
  split; intros X; [exfalso; now apply (H _ X)|reflexivity].
Qed.
Lemma painted_twice {A} (S T U : Z * Z -> Prop) (v : A) g g1 g2 :
  painted S v g g1 -> painted T v g1 g2 -> (forall c, U c <-> S c \/ T c) -> painted U v g g2.
Proof.
  intros (R1 & C1 & P1) (R2 & C2 & P2) H. split; [congruence|]. split; [congruence|].
  intros i j. destruct (P1 i j) as [A1 B1]. destruct (P2 i j) as [A2 B2]. split; intros X.
  - destruct (classic (T (cell_of i j))) as [Y|Y]; [now apply A2|].
    apply H in X as [X|X]; [|now apply A2]. rewrite (B2 Y). now apply A1.
  - rewrite B2 by (intros Y; apply X, H; now right). apply B1. intros Y; apply X, H; now left.
Qed.
Lemma painted_over {A} (S T : Z * Z -> Prop) (v w : A) g g1 g2 :
  painted S v g g1 -> painted T w g1 g2 ->
  rows g2 = rows g /\ cols g2 = cols g /\ forall i j,
    (T (cell_of i j) -> at_ g2 i j = w) /\
    (~ T (cell_of i j) -> S (cell_of i j) -> at_ g2 i j = v) /\
    (~ T (cell_of i j) -> ~ S (cell_of i j) -> at_ g2 i j = at_ g i j).
Proof.
  intros (R1 & C1 & P1) (R2 & C2 & P2). split; [congruence|]. split; [congruence|].
  intros i j. destruct (P1 i j) as [A1 B1]. destruct (P2 i j) as [A2 B2].
  split; [exact A2|]. split; intros X Y; rewrite (B2 X); auto.
Qed.
Lemma painted_grid {A} S (v : A) g g' c : painted S v g g' -> in_grid g c -> in_grid g' c.
Proof. intros (R & C & _). unfold in_grid. now rewrite R, C. Qed.

Lemma axis_index_in n i : (0 <= i < Z.of_nat n)%Z -> axis_index n i = Some (Z.to_nat i).
Proof.
  intros H. unfold axis_index. replace (Z.leb 0 i) with true by (symmetry; apply Z.leb_le; lia).
  replace (Z.ltb i (Z.of_nat n)) with true by (symmetry; apply Z.ltb_lt; lia). reflexivity.
Qed.
Lemma put_cells_spec {A} (v : A) : forall cells g, (forall c, In c cells -> in_grid g c) ->
  exists g', put_cells cells v g = Ok g' /\ painted (fun c => In c cells) v g g'.
Proof.
  induction cells as [|[x y] cells IH]; intros g H.
  - exists g. split; [reflexivity|]. apply painted_nothing. intros c [].
  - destruct (H (x, y) (or_introl eq_refl)) as [HX HY]. cbn in HX, HY.
    cbn [put_cells]. rewrite (axis_index_in _ _ HX), (axis_index_in _ _ HY).
    assert (P : painted (eq (x, y)) v g (put_cell (Z.to_nat y) (Z.to_nat x) v g)).
    { split; [reflexivity|]. split; [reflexivity|]. intros i j. cbn [put_cell at_ Steering.at_].
      unfold cell_of. split.
      - intros E. injection E as -> ->. cbn. now rewrite !Nat2Z.id, !Nat.eqb_refl.
      - intros E. cbn. destruct (Nat.eqb_spec i (Z.to_nat y)), (Nat.eqb_spec j (Z.to_nat x)); cbn; try reflexivity.
        exfalso. apply E. subst. rewrite !Z2Nat.id by lia. reflexivity. }
    destruct (IH (put_cell (Z.to_nat y) (Z.to_nat x) v g)) as (g' & E & Q).
    { intros c I. apply (painted_grid _ _ _ _ _ P). apply H. now right. }
    exists g'. split; [exact E|]. apply (painted_twice _ _ _ _ _ _ _ P Q). intros c. cbn. tauto.
Qed.

Section DrawProofs.
  Context {A : Type} (line : Z * Z -> Z * Z -> list (Z * Z)) (fill perimeter : list (Z * Z) -> list (Z * Z)).
  Context (indicer : vec -> Z * Z) (value zero : A).
  Notation inkof := (ink line fill perimeter indicer).
  Notation draw := (draw_geom line fill perimeter indicer value zero).

  Lemma draw_lines_spec : forall segments g,
    (forall a b c, In (a, b) segments -> In c (line (indicer a) (indicer b)) -> in_grid g c) ->
    exists g', draw_lines line indicer value segments g = Ok g' /\
      painted (fun c => exists a b, In (a, b) segments /\ In c (line (indicer a) (indicer b))) value g g'.
  Proof.
    induction segments as [|[a b] l IH]; intros g H.
    - exists g. split; [reflexivity|]. apply painted_nothing. intros c (a & b & [] & _).
    - cbn [draw_lines]. destruct (put_cells_spec value (line (indicer a) (indicer b)) g) as (g1 & E & P).
      { intros c I. apply (H a b c); [now left|exact I]. }
      rewrite E. cbn [rbind]. destruct (IH g1) as (g2 & E2 & P2).
      { intros u w c I J. apply (painted_grid _ _ _ _ _ P). apply (H u w); [now right|exact J]. }
      exists g2. split; [exact E2|]. apply (painted_twice _ _ _ _ _ _ _ P P2). intros c. split.
      + intros (u & w & [I | I] & J); [injection I as -> ->; now left|right; exists u, w; auto].
      + intros [J | (u & w & I & J)]; [exists a, b|exists u, w]; split; auto; [now left|now right].
  Qed.
  Lemma in_pairs l a b : In (a, b) (zip_pairs l) <-> exists i, nth_error l i = Some a /\ nth_error l (S i) = Some b.
  Proof.
    split.
    - intros H. apply In_nth_error in H as (i & H). exists i. now apply zip_pairs_consecutive.
    - intros (i & H). apply (nth_error_In _ i). now apply zip_pairs_consecutive.
  Qed.
  Lemma painted_ext (S T : Z * Z -> Prop) (v : A) g g' : (forall c, S c <-> T c) -> painted S v g g' -> painted T v g g'.
  Proof.
    intros E (R & C & P). split; [exact R|]. split; [exact C|]. intros i j. destruct (P i j) as [X Y].
    split; intros H; [apply X|apply Y]; rewrite E; assumption.
  Qed.

  (** Without holes and inside the grid. *)
  Lemma draw_spec s : proper s -> without_holes s -> forall g,
    (forall c, inkof s c -> in_grid g c) ->
    exists g', draw s g = Ok g' /\ painted (inkof s) value g g'.
  Proof.
    induction s as [p | l | e h | l IH |] using geom_ind'; intros P W g H.
    - exists g. split; [reflexivity|]. apply painted_nothing. intros c X. inversion X.
    - cbn [draw_geom]. destruct (draw_lines_spec (zip_pairs l) g) as (g' & E & Q).
      { intros a b c I J. apply in_pairs in I as (i & I1 & I2). apply H. now apply (ink_line _ _ _ _ l i a b). }
      exists g'. split; [exact E|]. refine (painted_ext _ _ _ _ _ _ Q). intros c. split.
      + intros (a & b & I & J). apply in_pairs in I as (i & I1 & I2). now apply (ink_line _ _ _ _ l i a b).
      + intros X. inversion X as [? i a b ? I1 I2 J| | |]; subst. exists a, b. split; [|exact J].
        apply in_pairs. now exists i.
    - inversion P as [| |v e' h' |]; subst. inversion W; subst. cbn [draw_geom].
      destruct (put_cells_spec value (fill (map indicer (v :: e'))) g) as (g1 & E1 & P1).
      { intros c I. apply H. now apply ink_fill. }
      rewrite E1. cbn [rbind].
      destruct (put_cells_spec value (perimeter (map indicer (v :: e'))) g1) as (g2 & E2 & P2).
      { intros c I. apply (painted_grid _ _ _ _ _ P1). apply H. now apply ink_edge. }
      rewrite E2. cbn [rbind draw_holes]. exists g2. split; [reflexivity|].
      apply (painted_twice _ _ _ _ _ _ _ P1 P2). intros c. split.
      + intros X. inversion X; subst; auto.
      + intros [X | X]; [now apply ink_fill|now apply ink_edge].
    - inversion P as [| | | ? Pl]; subst. inversion W as [| | | ? Wl]; subst. clear P W.
      revert g H. induction l as [|x l IHl]; intros g H.
      + exists g. split; [reflexivity|]. apply painted_nothing. intros c X. inversion X as [| | | ? ? ? I]; destruct I.
      + destruct (IH x (or_introl eq_refl) (Pl x (or_introl eq_refl)) (Wl x (or_introl eq_refl)) g) as (g1 & E1 & P1).
        { intros c X. apply H. apply (ink_part _ _ _ _ _ x); [now left|exact X]. }
        destruct IHl with (g := g1) as (g2 & E2 & P2).
        { intros; apply IH; auto. now right. }
        { intros; apply Pl; now right. }
        { intros; apply Wl; now right. }
        { intros c X. apply (painted_grid _ _ _ _ _ P1). apply H. inversion X as [| | | ? y ? I J]; subst.
          apply (ink_part _ _ _ _ _ y); [now right|exact J]. }
        exists g2. split.
        * cbn [draw_geom]. rewrite E1. cbn [rbind]. exact E2.
        * apply (painted_twice _ _ _ _ _ _ _ P1 P2). intros c. split.
          -- intros X. inversion X as [| | | ? y ? I J]; subst. destruct I as [<- | I]; [now left|].
             right. now apply (ink_part _ _ _ _ _ y).
          -- intros [X | X]; [apply (ink_part _ _ _ _ _ x); [now left|exact X]|].
             inversion X as [| | | ? y ? I J]; subst. apply (ink_part _ _ _ _ _ y); [now right|exact J].
    - inversion P.
  Qed.

  (** The holes of one polygon. *)
  Lemma draw_holes_spec : forall holes g,
    (forall i c, In i holes -> In c (fill (map indicer i)) -> in_grid g c) ->
    exists g', draw_holes fill indicer zero holes g = Ok g' /\
      painted (fun c => exists i, In i holes /\ In c (fill (map indicer i))) zero g g'.
  Proof.
    induction holes as [|i l IH]; intros g H.
    - exists g. split; [reflexivity|]. apply painted_nothing. intros c (a & [] & _).
    - cbn [draw_holes]. destruct (put_cells_spec zero (fill (map indicer i)) g) as (g1 & E & P).
      { intros c I. apply (H i c); [now left|exact I]. }
      rewrite E. cbn [rbind]. destruct (IH g1) as (g2 & E2 & P2).
      { intros u c I J. apply (painted_grid _ _ _ _ _ P). apply (H u); [now right|exact J]. }
      exists g2. split; [exact E2|]. apply (painted_twice _ _ _ _ _ _ _ P P2). intros c. split.
      + intros (u & [I | I] & J); [subst; now left|right; exists u; auto].
      + intros [J | (u & I & J)]; [exists i|exists u]; split; auto; [now left|now right].
  Qed.
  Lemma draw_polygon_spec v e holes g :
    (forall c, inkof (Polygon (v :: e) holes) c -> in_grid g c) ->
    (forall i c, In i holes -> In c (fill (map indicer i)) -> in_grid g c) ->
    exists g', draw (Polygon (v :: e) holes) g = Ok g' /\
      rows g' = rows g /\ cols g' = cols g /\ forall i j,
      let c := cell_of i j in
      let hole := exists h, In h holes /\ In c (fill (map indicer h)) in
      (hole -> at_ g' i j = zero) /\
      (~ hole -> inkof (Polygon (v :: e) holes) c -> at_ g' i j = value) /\
      (~ hole -> ~ inkof (Polygon (v :: e) holes) c -> at_ g' i j = at_ g i j).
  Proof.
    intros H1 H2. cbn [draw_geom].
    destruct (put_cells_spec value (fill (map indicer (v :: e))) g) as (g1 & E1 & P1).
    { intros c I. apply H1. now apply ink_fill. }
    rewrite E1. cbn [rbind].
    destruct (put_cells_spec value (perimeter (map indicer (v :: e))) g1) as (g2 & E2 & P2).
    { intros c I. apply (painted_grid _ _ _ _ _ P1). apply H1. now apply ink_edge. }
    rewrite E2. cbn [rbind].
    assert (P : painted (inkof (Polygon (v :: e) holes)) value g g2).
    { apply (painted_twice _ _ _ _ _ _ _ P1 P2). intros c. split.
      + intros X. inversion X; subst; auto.
      + intros [X | X]; [now apply ink_fill|now apply ink_edge]. }
    destruct (draw_holes_spec holes g2) as (g3 & E3 & P3).
    { intros i c I J. apply (painted_grid _ _ _ _ _ P). now apply (H2 i c). }
    exists g3. split; [exact E3|]. apply (painted_over _ _ _ _ _ _ _ P P3).
  Qed.

  (** What the last part erases stays erased. *)
  Lemma hole_erases s v e h g g' i j :
    draw (Multipart [s; Polygon (v :: e) [h]]) g = Ok g' ->
    (forall c, In c (fill (map indicer h)) -> in_grid g' c) ->
    In (cell_of i j) (fill (map indicer h)) -> at_ g' i j = zero.
  Proof.
    intros E G I. cbn [draw_geom] in E. destruct (draw s g) as [g1|]; [|discriminate].
    cbn [rbind] in E. destruct (put_cells (fill (map indicer (v :: e))) value g1) as [g2|]; [|discriminate].
    cbn [rbind] in E. destruct (put_cells (perimeter (map indicer (v :: e))) value g2) as [g3|]; [|discriminate].
    cbn [rbind draw_holes] in E.
    destruct (put_cells (fill (map indicer h)) zero g3) as [g4|] eqn:F; [|discriminate].
    cbn [rbind] in E. injection E as <-.
    assert (Sh : rows g4 = rows g3 /\ cols g4 = cols g3).
    { clear -F. revert g3 F. induction (fill (map indicer h)) as [|[x y] l IH]; intros g3 F.
      - injection F as <-. auto.
      - cbn [put_cells] in F. destruct (axis_index (rows g3) y) as [a|]; [|discriminate].
        destruct (axis_index (cols g3) x) as [b|]; [|discriminate]. apply IH in F. exact F. }
    destruct (put_cells_spec zero (fill (map indicer h)) g3) as (g5 & F5 & P).
    { intros c C. destruct Sh as [S1 S2]. specialize (G c C). unfold in_grid in *. now rewrite <- S1, <- S2. }
    rewrite F in F5. injection F5 as <-. now apply (proj2 (proj2 P)).
  Qed.
End DrawProofs.

(** Negative indices wrap around, larger ones raise. *)
Lemma put_cells_wraps {A} (v : A) x y g : (- Z.of_nat (cols g) <= x < 0)%Z -> (0 <= y < Z.of_nat (rows g))%Z ->
  exists g', put_cells [(x, y)] v g = Ok g' /\ at_ g' (Z.to_nat y) (Z.to_nat (x + Z.of_nat (cols g))) = v.
Proof.
  intros X Y. cbn [put_cells]. rewrite (axis_index_in _ _ Y).
  assert (E : axis_index (cols g) x = Some (Z.to_nat (x + Z.of_nat (cols g)))).
  { unfold axis_index. replace (Z.leb 0 x) with false by (symmetry; apply Z.leb_gt; lia).
    replace (Z.leb (- Z.of_nat (cols g)) x) with true by (symmetry; apply Z.leb_le; lia).
    replace (Z.ltb x 0) with true by (symmetry; apply Z.ltb_lt; lia). reflexivity. }
  rewrite E. eexists. split; [reflexivity|]. cbn. now rewrite !Nat.eqb_refl.
Qed.
Lemma put_cells_outside {A} (v : A) x y : forall cells g, In (x, y) cells ->
  (Z.of_nat (cols g) <= x \/ Z.of_nat (rows g) <= y)%Z -> put_cells cells v g = Err IndexError.
Proof.
  induction cells as [|[x0 y0] cells IH]; intros g I O; [destruct I|].
  cbn [put_cells]. destruct I as [I | I].
  - injection I as -> ->.
    assert (N : forall n i, (Z.of_nat n <= i)%Z -> axis_index n i = None).
    { intros n i L. unfold axis_index. replace (Z.ltb i (Z.of_nat n)) with false by (symmetry; apply Z.ltb_ge; lia).
      replace (Z.ltb i 0) with false by (symmetry; apply Z.ltb_ge; lia). now rewrite !andb_false_r. }
    destruct O as [O | O]; rewrite (N _ _ O); [|reflexivity]. now destruct (axis_index (rows g) y).
  - destruct (axis_index (rows g) y0) as [a|]; [|reflexivity].
    destruct (axis_index (cols g) x0) as [b|]; [|reflexivity]. apply IH; assumption.
Qed.

(** ** Unions *)
Lemma union_spec {G P} (join : G -> G -> G) (mem : G -> P -> Prop) :
  (forall a b p, mem (join a b) p <-> mem a p \/ mem b p) -> forall l, l <> [] ->
  exists g, union join l = Ok g /\ forall p, mem g p <-> exists x, In x l /\ mem x p.
Proof.
  intros J [|g l] N; [easy|]. exists (fold_left join l g). split; [reflexivity|]. clear N.
  revert g. induction l as [|x l IH]; intros g p; cbn [fold_left].
  - split; [intros H; exists g; split; [now left|exact H]|]. intros (x & [<- | []] & H). exact H.
  - rewrite IH. split.
    + intros (y & [<- | I] & H).
      * apply J in H as [H | H]; [exists g|exists x]; split; auto; [now left|right; now left].
      * exists y. split; [right; now right|exact H].
    + intros (y & [<- | [<- | I]] & H).
      * exists (join g x). split; [now left|]. apply J. now left.
      * exists (join g x). split; [now left|]. apply J. now right.
      * exists y. split; [now right|exact H].
Qed.
