(** Plots and names of files. *)
From Coq Require Import Lra Lia Ascii String.
From Verif Require Export Spec.Plots.
From Verif Require Proofs.ToolProofs.
From Verif Require Import Proofs.VecLemmas Proofs.Vector2DProofs Proofs.ListLemmas Proofs.GeometryProofs Proofs.InteractionProofs Proofs.TreeProofs Proofs.TreeOrderProofs.
Open Scope R_scope. Open Scope string_scope. Open Scope list_scope.

(** ** Geometries *)
Lemma add_multi kw parts fig : add_geom kw (Multipart parts) fig = add_each (map (pair kw) parts) fig.
Proof.
  revert fig. induction parts as [|g l IH]; intros fig; [reflexivity|]. cbn [map add_each]. rewrite <- (app_nil_r l) in *. clear IH.
  change (add_geom kw (Multipart (g :: l ++ [])) fig) with (next (add_geom kw g fig) (add_geom kw (Multipart (l ++ [])))).
  rewrite app_nil_r. destruct (add_geom kw g fig) as [fig' [e|]]; cbn [next]; [reflexivity|]. revert fig'. 
  induction l as [|h l IH]; intros fig'; [reflexivity|]. cbn [map add_each].
  change (add_geom kw (Multipart (h :: l)) fig') with (next (add_geom kw h fig') (add_geom kw (Multipart l))).
  destruct (add_geom kw h fig') as [f' [e|]]; cbn [next]; auto.
Qed.
(** What a drawing does: either all parts are drawn, or it stops at one that cannot. *)
Definition draws (parts : list (kwargs * geom)) (fig : list glyph) (r : list glyph * option exn) : Prop :=
  exists glyphs, fst r = fig ++ glyphs /\
  match snd r with
  | None => Forall2 drawn_with parts glyphs
  | Some e => (e = AttributeError \/ e = TypeError) /\ exists l1 kw bad l2, parts = l1 ++ (kw, bad) :: l2 /\ Forall2 drawn_with l1 glyphs /\ forall kw' g, ~ drawn kw' bad g
  end.
Lemma draws_app p1 p2 fig r k : draws p1 fig r -> (forall fig', draws p2 fig' (k fig')) -> draws (p1 ++ p2) fig (next r k).
Proof.
  intros (g1 & E1 & H1) K. destruct r as [fig1 [e|]]; cbn [fst snd next] in *; subst fig1.
  - exists g1. split; [reflexivity|]. cbn [snd]. destruct H1 as (He & l1 & kw & bad & l2 & -> & F & B). split; [exact He|].
    exists l1, kw, bad, (l2 ++ p2). split; [now rewrite <- app_assoc|auto].
  - destruct (K (fig ++ g1)) as (g2 & E2 & H2). exists (g1 ++ g2). rewrite app_assoc. split; [exact E2|].
    destruct (snd (k (fig ++ g1))) as [e|].
    + destruct H2 as (He & l1 & kw & bad & l2 & -> & F & B). split; [exact He|]. exists (p1 ++ l1), kw, bad, l2. rewrite app_assoc. split; [reflexivity|]. split; [now apply Forall2_app|exact B].
    + now apply Forall2_app.
Qed.
Lemma draws_each l : (forall kw g, In (kw, g) l -> forall fig, draws (map (pair kw) (simple_parts g)) fig (add_geom kw g fig)) ->
  forall fig, draws (parts_of l) fig (add_each l fig).
Proof.
  induction l as [|[kw g] l IH]; intros H fig.
  - exists []. cbn. rewrite app_nil_r. split; auto.
  - cbn [add_each parts_of flat_map]. apply draws_app; [apply H; now left|]. intros fig'. apply IH. intros; apply H; now right.
Qed.
Lemma draws_geom g : forall kw fig, draws (map (pair kw) (simple_parts g)) fig (add_geom kw g fig).
Proof.
  induction g as [p | l | e i | parts IH |] using geom_ind'; intros kw fig.
  - exists [GCircle [vx p] [vy p] kw]. split; [reflexivity|]. cbn. constructor; [constructor|constructor].
  - destruct l as [|a l].
    + exists []. cbn. rewrite app_nil_r. split; [reflexivity|]. split; [now left|]. exists [], kw, (LineString []), []. split; [reflexivity|]. split; [constructor|]. intros kw' g D. inversion D. contradiction.
    + exists [GLine (map vx (a :: l)) (map vy (a :: l)) kw]. split; [reflexivity|]. cbn [add_geom snd simple_parts map]. constructor; [|constructor]. apply (drawn_line kw (a :: l)). discriminate.
  - destruct e as [|a l].
    + exists []. cbn. rewrite app_nil_r. split; [reflexivity|]. split; [now left|]. exists [], kw, (Polygon [] i), []. split; [reflexivity|]. split; [constructor|]. intros kw' g D. inversion D. contradiction.
    + exists [GPatch (map vx (a :: l)) (map vy (a :: l)) kw]. split; [reflexivity|]. cbn [add_geom snd simple_parts map]. constructor; [|constructor]. apply (drawn_polygon kw (a :: l) i). discriminate.
  - rewrite add_multi. replace (map (pair kw) (simple_parts (Multipart parts))) with (parts_of (map (pair kw) parts)).
    + apply draws_each. intros kw' g I fig'. apply in_map_iff in I as (g' & [= <- <-] & I). auto.
    + unfold parts_of. cbn [simple_parts]. clear. induction parts as [|g l IH]; [reflexivity|]. cbn [map flat_map]. rewrite IH, map_app. reflexivity.
  - exists []. cbn. rewrite app_nil_r. split; [reflexivity|]. split; [now right|]. exists [], kw, NoGeometry, []. split; [reflexivity|]. split; [constructor|]. intros kw' g D. inversion D.
Qed.
Lemma draws_all l fig : draws (parts_of l) fig (add_each l fig).
Proof. apply draws_each. intros. apply draws_geom. Qed.
Lemma drawable_draws l fig r : draws l fig r -> (forall kw g, In (kw, g) l -> exists glyph, drawn [] g glyph) ->
  exists glyphs, r = (fig ++ glyphs, None) /\ Forall2 drawn_with l glyphs.
Proof.
  intros (glyphs & E & H) D. destruct r as [fig' e]. cbn [fst snd] in *. subst fig'. exists glyphs. destruct e as [e|]; [exfalso|auto].
  destruct H as (_ & l1 & kw & bad & l2 & -> & _ & B). destruct (D kw bad) as (g & K); [apply in_or_app; right; now left|]. exact (B [] g K).
Qed.
Lemma parts_app l m : parts_of (l ++ m) = parts_of l ++ parts_of m.
Proof. apply flat_map_app. Qed.
Lemma parts_one kw g : parts_of [(kw, g)] = map (pair kw) (simple_parts g).
Proof. apply app_nil_r. Qed.
Lemma draws_field f fig : draws (parts_of (field_items f)) fig (add_field f fig).
Proof.
  unfold field_items, add_field. rewrite !parts_app, !parts_one.
  repeat (apply draws_app; [first [apply draws_geom|apply draws_all]|intros ?]). apply draws_geom.
Qed.

(** ** Arrows *)
Lemma stride_in freq n i : (0 < freq)%nat -> In i (stride freq n) <-> (i < n)%nat /\ exists k, (i = k * freq)%nat.
Proof.
  intros F. unfold stride. rewrite in_map_iff. split.
  - intros (k & <- & K). apply in_seq in K. split; [|eauto]. destruct K as [_ K]. cbn in K.
    assert (Q : (k + 1 <= (n + freq - 1) / freq)%nat) by lia. apply (Nat.mul_le_mono_l _ _ freq) in Q. pose proof (Nat.mul_div_le (n + freq - 1) freq ltac:(lia)). lia.
  - intros (L & k & ->). exists k. split; [reflexivity|]. apply in_seq. split; [lia|]. cbn. assert (k + 1 <= (n + freq - 1) / freq)%nat; [|lia].
    apply Nat.div_le_lower_bound; lia.
Qed.
Lemma stride_nodup freq n : (0 < freq)%nat -> NoDup (stride freq n).
Proof.
  intros F. unfold stride. apply FinFun.Injective_map_NoDup; [|apply seq_NoDup]. intros a b E. apply (Nat.mul_cancel_r a b freq); lia.
Qed.
Definition arrow_nodes (freq n m : nat) : list (nat * nat) := flat_map (fun i => map (pair i) (stride freq m)) (stride freq n).
Lemma sliced_map {A} freq n m (a : nat -> nat -> A) : sliced freq n m a = map (fun '(i, j) => a i j) (arrow_nodes freq n m).
Proof.
  unfold sliced, arrow_nodes. induction (stride freq n) as [|i l IH]; [reflexivity|]. cbn [flat_map]. rewrite IH, map_app. f_equal. rewrite map_map. reflexivity.
Qed.
Lemma nodes_in freq n m i j : (0 < freq)%nat -> In (i, j) (arrow_nodes freq n m) <-> (i < n /\ j < m)%nat /\ (exists k, (i = k * freq)%nat) /\ exists k, (j = k * freq)%nat.
Proof.
  intros F. unfold arrow_nodes. rewrite in_flat_map. split.
  - intros (i' & I & J). apply in_map_iff in J as (j' & [= -> ->] & J). apply stride_in in I; auto. apply stride_in in J; auto. tauto.
  - intros ((A & B) & C & D). exists i. split; [now apply stride_in|]. apply in_map_iff. exists j. split; [reflexivity|now apply stride_in].
Qed.
Lemma nodes_nodup freq n m : (0 < freq)%nat -> NoDup (arrow_nodes freq n m).
Proof.
  intros F. unfold arrow_nodes. pose proof (stride_nodup freq n F) as N. induction (stride freq n) as [|i l IH]; cbn [flat_map]; [constructor|].
  inversion N as [|? ? N1 N2]; subst. apply NoDup_app_disjoint; auto.
  - apply FinFun.Injective_map_NoDup; [|now apply stride_nodup]. intros a b [= ->]. reflexivity.
  - intros [a b] A B. apply in_map_iff in A as (b' & [= <- <-] & _). apply in_flat_map in B as (i' & I & B). apply in_map_iff in B as (c & [= -> ->] & _). contradiction.
Qed.

Lemma nth_map2 {A B C D} (f : A -> B) (g : A -> C) (h : B * C -> D) l k x : nth_error l k = Some x -> nth_error (map h (combine (map f l) (map g l))) k = Some (h (f x, g x)).
Proof.
  revert k. induction l as [|y l IH]; intros [|k] E; cbn in *; try discriminate; [injection E as ->; reflexivity|auto].
Qed.
Lemma map2_length {A B C D} (f : A -> B) (g : A -> C) (h : B * C -> D) l : List.length (map h (combine (map f l) (map g l))) = List.length l.
Proof. rewrite map_length, combine_length, !map_length. apply Nat.min_id. Qed.
Lemma arrows_spec m directions freq kw fig : (0 < freq)%nat -> rows directions = m_rows m -> cols directions = m_cols m ->
  exists nodes x0 y0 x1 y1 angles, add_direction_map m directions freq kw fig = (fig ++ [GSegment x0 y0 x1 y1 kw; GTriangle x1 y1 4 angles], None) /\
  (forall i j, In (i, j) nodes <-> (i < m_rows m /\ j < m_cols m)%nat /\ (exists k, (i = k * freq)%nat) /\ exists k, (j = k * freq)%nat) /\ NoDup nodes /\
  List.length x0 = List.length nodes /\ List.length y0 = List.length nodes /\ List.length x1 = List.length nodes /\ List.length y1 = List.length nodes /\ List.length angles = List.length nodes /\
  forall k i j, nth_error nodes k = Some (i, j) -> exists a b c d e,
    nth_error x0 k = Some a /\ nth_error y0 k = Some b /\ nth_error x1 k = Some c /\ nth_error y1 k = Some d /\ nth_error angles k = Some e /\
    arrow m freq i j (at_ directions i j) a b c d e.
Proof.
  intros F HR HC. unfold add_direction_map. destruct (Nat.eqb_spec freq 0); [lia|]. rewrite HR, HC, !sliced_map, !map_length, Nat.eqb_refl. cbn [negb].
  set (nodes := arrow_nodes freq (m_rows m) (m_cols m)). exists nodes. do 5 eexists. split; [reflexivity|].
  split; [intros; now apply nodes_in|]. split; [now apply nodes_nodup|]. rewrite !map2_length, !map_length. do 5 (split; [reflexivity|]).
  intros k i j Hk. do 5 eexists. do 2 (split; [rewrite nth_error_map, Hk; reflexivity|]).
  do 3 (split; [apply (nth_map2 _ _ _ nodes k (i, j) Hk)|]). cbn iota beta.
  unfold arrow. cbn [m_node vx vy]. split; [reflexivity|]. split; [reflexivity|]. destruct (at_ directions i j) as [d|]; cbn [omap]; [|auto].
  do 2 (split; [reflexivity|]). eexists. split; [reflexivity|]. intros D. replace (_ - PI / 2 + PI / 2) with (angle (V (vx d) (vy d))) by ring.
  destruct d as [dx dy]. cbn [vx vy]. pose proof (unit_vector_angle (V dx dy) D) as U. rewrite elen_vlength. unfold vscale, unit_vector in U. cbn [vx vy] in U. injection U as U1 U2. auto.
Qed.
(** Arrows do not reach each other's start. *)
Lemma arrow_apart m freq i j i' j' d t : (0 < freq)%nat -> 0 < m_step m -> vlength d = 1 -> 0 <= t <= 1 ->
  (exists k, (i = k * freq)%nat) -> (exists k, (j = k * freq)%nat) -> (exists k, (i' = k * freq)%nat) -> (exists k, (j' = k * freq)%nat) -> (i, j) <> (i', j') ->
  INR freq * m_step m / 10 <= edist (vadd (m_node m i j) (vscale (t * (9/10 * INR freq * m_step m)) d)) (m_node m i' j').
Proof.
  intros F S D T (k1 & ->) (k2 & ->) (k3 & ->) (k4 & ->) N. set (w := INR freq * m_step m). assert (W : 0 < w) by (apply Rmult_lt_0_compat; [now apply lt_0_INR|exact S]).
  assert (A : w <= edist (m_node m (k1 * freq) (k2 * freq)) (m_node m (k3 * freq) (k4 * freq))).
  { unfold edist, m_node. cbn [vx vy]. rewrite !mult_INR. rewrite <- (sqrt_square w) by lra. apply sqrt_le_1_alt.
    set (a := INR k2 - INR k4). set (b := INR k1 - INR k3).
    replace (_ + _) with (w * w * (a * a + b * b)) by (unfold a, b, w; ring). rewrite <- (Rmult_1_r (w * w)) at 1. apply Rmult_le_compat_l; [nra|].
    assert (Q : forall p q : nat, p <> q -> 1 <= (INR p - INR q) * (INR p - INR q)).
    { intros p q Hpq. rewrite !INR_IZR_INZ, <- minus_IZR, <- mult_IZR. apply IZR_le. nia. }
    destruct (Nat.eq_dec k1 k3) as [E|E]; [destruct (Nat.eq_dec k2 k4) as [E'|E']; [subst; contradiction|]|].
    - pose proof (Q k2 k4 E'). fold a in H. pose proof (Rle_0_sqr b). unfold Rsqr in *. lra.
    - pose proof (Q k1 k3 E). fold b in H. pose proof (Rle_0_sqr a). unfold Rsqr in *. lra. }
  set (x := m_node m (k1 * freq) (k2 * freq)) in *. set (y := m_node m (k3 * freq) (k4 * freq)) in *. set (s := t * (9/10 * INR freq * m_step m)).
  assert (Hs : 0 <= s <= 9/10 * w) by (unfold s; replace (9/10 * INR freq * m_step m) with (9/10 * w) by (unfold w; ring); nra).
  assert (E : forall p q : vec, edist p q = vlength (vsub p q)).
  { intros p q. rewrite <- elen_vlength. unfold elen, edist, vsub, vzero. cbn [vx vy]. f_equal. ring. }
  rewrite E in *. pose proof (vlength_triangle (vsub (vadd x (vscale s d)) y) (vscale (-s) d)) as Tr.
  replace (vadd (vsub (vadd x (vscale s d)) y) (vscale (- s) d)) with (vsub x y) in Tr by (destruct x as [x1 x2], y as [y1 y2], d as [d1 d2]; unfold vadd, vsub, vscale; cbn [vx vy]; f_equal; ring).
  rewrite vlength_scale, D, Rmult_1_r, Rabs_Ropp, (Rabs_pos_eq s) in Tr by lra. unfold w in *. lra.
Qed.

(** ** Paths *)
Lemma last_split (c : ascii) p : In c p -> exists a b, p = a ++ c :: b /\ ~ In c b.
Proof.
  induction p as [|d p IH]; intros []; [subst d|].
  - destruct (in_dec ascii_dec c p) as [I|I]; [|exists [], p; auto]. destruct (IH I) as (a & b & -> & N). exists (c :: a), b. auto.
  - destruct (IH H) as (a & b & -> & N). exists (d :: a), b. auto.
Qed.
Lemma last_unique {A} (c : A) a b a' b' : a ++ c :: b = a' ++ c :: b' -> ~ In c b -> ~ In c b' -> a = a' /\ b = b'.
Proof.
  revert a'. induction a as [|x a IH]; intros [|y a'] E N N'; cbn in E; pose proof (f_equal (@tl A) E) as E2; cbn in E2; pose proof (f_equal (hd c) E) as E1; cbn in E1; subst; auto.
  - destruct N. apply in_or_app. right. now left.
  - destruct N'. apply in_or_app. right. now left.
  - destruct (IH a' E2 N N'). subst. auto.
Qed.
Lemma rfind_none c p : ~ In c p -> forall i f, rfind_from c p i f = f.
Proof.
  induction p as [|d p IH]; intros N i f; [reflexivity|]. cbn. destruct (Ascii.eqb_spec d c); [destruct N; now left|]. apply IH. intros ?. apply N. now right.
Qed.
Lemma rfind_some c a b : ~ In c b -> forall i f, rfind_from c (a ++ c :: b) i f = (i + Z.of_nat (List.length a))%Z.
Proof.
  intros N. induction a as [|d a IH]; intros i f.
  - cbn. rewrite Ascii.eqb_refl, rfind_none by exact N. lia.
  - cbn [app rfind_from List.length]. rewrite IH. lia.
Qed.
(** A path as its directory and its last component. *)
Definition cut (p dir stem : text) : Prop := p = dir ++ stem /\ (dir = [] \/ exists d, dir = d ++ [slash]) /\ ~ In slash stem.
Lemma cut_ex p : exists dir stem, cut p dir stem /\ (rfind slash p + 1 = Z.of_nat (List.length dir))%Z.
Proof.
  destruct (in_dec ascii_dec slash p) as [I|I].
  - apply last_split in I as (a & b & -> & N). exists (a ++ [slash]), b. split.
    + split; [now rewrite <- app_assoc|]. split; [right; eauto|exact N].
    + unfold rfind. rewrite rfind_some by exact N. rewrite app_length. cbn [List.length]. lia.
  - exists [], p. split; [split; [reflexivity|auto]|]. unfold rfind. rewrite rfind_none by exact I. reflexivity.
Qed.
Lemma cut_unique p dir stem dir' stem' : cut p dir stem -> cut p dir' stem' -> dir = dir' /\ stem = stem'.
Proof.
  intros (E & D & N) (E' & D' & N'). subst p. destruct D as [->|(d & ->)], D' as [->|(d' & ->)]; cbn in E'.
  - auto.
  - subst stem. destruct N. rewrite <- app_assoc. apply in_or_app. right. now left.
  - subst stem'. destruct N'. rewrite <- app_assoc. apply in_or_app. right. now left.
  - rewrite <- !app_assoc in E'. cbn in E'. destruct (last_unique slash d stem d' stem' E' N N'). subst. auto.
Qed.
Lemma ext_last_dot p base ext : has_extension p base ext -> exists e, ext = dot_ :: e /\ p = base ++ dot_ :: e /\ ~ In dot_ e /\ ~ In slash e /\
  exists dir stem, cut base dir stem /\ exists c, In c stem /\ c <> dot_.
Proof.
  intros (E & dir & stem & e & B & X & D & S & C & N1 & N2). exists e. subst ext. split; [reflexivity|]. do 3 (split; [assumption|]). exists dir, stem. split; [split; auto|exact C].
Qed.
Lemma splitext_spec p base ext : splitext p = (base, ext) ->
  has_extension p base ext \/ (base = p /\ ext = [] /\ forall b e, ~ has_extension p b e).
Proof.
  intros H. unfold splitext in H. destruct (in_dec ascii_dec dot_ p) as [I|I].
  2:{ right. assert (rfind dot_ p = -1)%Z as R by (unfold rfind; apply rfind_none; exact I). rewrite R in H.
      destruct (cut_ex p) as (dir & stem & _ & L). destruct (Z.ltb_spec (rfind slash p) (-1)); [lia|]. injection H as <- <-. split; [reflexivity|]. split; [reflexivity|].
      intros b e X. destruct (ext_last_dot _ _ _ X) as (e' & _ & E & _). apply I. rewrite E. apply in_or_app. right. now left. }
  destruct (last_split dot_ p I) as (a & e & E & N). assert (R : rfind dot_ p = Z.of_nat (List.length a)) by (rewrite E; unfold rfind; now rewrite rfind_some).
  assert (U : forall b x, has_extension p b x -> b = a /\ x = dot_ :: e /\ ~ In slash e /\ exists dir stem, cut a dir stem /\ exists c, In c stem /\ c <> dot_).
  { intros b x X. destruct (ext_last_dot _ _ _ X) as (e' & -> & E' & N1 & N2 & C). rewrite E in E'. destruct (last_unique dot_ a e b e' E' N N1). subst. auto. }
  rewrite R in H. destruct (in_dec ascii_dec slash e) as [S|S].
  - right. destruct (last_split slash e S) as (e1 & e2 & Ee & N2).
    assert (Q : (rfind slash p = Z.of_nat (List.length (a ++ dot_ :: e1)))%Z).
    { rewrite E, Ee. replace (a ++ dot_ :: e1 ++ slash :: e2) with ((a ++ dot_ :: e1) ++ slash :: e2) by now rewrite <- app_assoc. unfold rfind. now rewrite rfind_some. }
    rewrite Q in H. rewrite app_length in H. destruct (Z.ltb_spec (Z.of_nat (List.length a + List.length (dot_ :: e1))) (Z.of_nat (List.length a))); [lia|]. injection H as <- <-.
    split; [reflexivity|]. split; [reflexivity|]. intros b x X. destruct (U b x X) as (_ & _ & K & _). contradiction.
  - destruct (cut_ex a) as (dir & stem & (C1 & C2 & C3) & L).
    assert (Q : (rfind slash p + 1 = Z.of_nat (List.length dir))%Z).
    { destruct (cut_ex p) as (dir' & stem' & C' & L'). assert (C'' : cut p dir (stem ++ dot_ :: e)).
      { split; [rewrite E, C1; now rewrite <- app_assoc|]. split; [exact C2|]. intros K. apply in_app_or in K as [K|[K|K]]; [contradiction|discriminate|contradiction]. }
      destruct (cut_unique _ _ _ _ _ C' C''). subst. exact L'. }
    assert (La : List.length a = (List.length dir + List.length stem)%nat) by (rewrite C1; apply app_length).
    destruct (Z.ltb_spec (rfind slash p) (Z.of_nat (List.length a))); [|lia].
    rewrite Q in H. replace (Z.to_nat (Z.of_nat (List.length a) - Z.of_nat (List.length dir))) with (List.length stem) in H by lia.
    rewrite !Nat2Z.id in H. assert (Fs : firstn (List.length stem) (skipn (List.length dir) p) = stem).
    { rewrite E, C1, <- app_assoc. rewrite skipn_app, skipn_all, Nat.sub_diag. cbn [skipn app]. rewrite firstn_app, firstn_all, Nat.sub_diag. cbn. apply app_nil_r. }
    rewrite Fs in H. destruct (existsb _ stem) eqn:X.
    + left. assert (H' : base = a /\ ext = dot_ :: e).
      { injection H as <- <-. rewrite E. rewrite firstn_app, firstn_all, Nat.sub_diag. cbn [firstn]. rewrite app_nil_r. rewrite skipn_app, skipn_all, Nat.sub_diag. auto. }
      destruct H' as [-> ->]. split; [exact E|]. exists dir, stem, e. split; [exact C1|]. split; [reflexivity|]. split; [exact C2|]. split; [exact C3|]. split; [|split; assumption].
      apply existsb_exists in X as (c & Ic & Hc). exists c. split; [exact Ic|]. intros ->. rewrite Ascii.eqb_refl in Hc. discriminate.
    + right. injection H as <- <-. split; [reflexivity|]. split; [reflexivity|]. intros b x Hx. destruct (U b x Hx) as (_ & _ & _ & dir' & stem' & C' & c & Ic & Nc).
      destruct (cut_unique a dir stem dir' stem' (conj C1 (conj C2 C3)) C'). subst dir' stem'. assert (true = false); [|discriminate]. rewrite <- X. symmetry.
      apply existsb_exists. exists c. split; [exact Ic|]. destruct (Ascii.eqb_spec c dot_); [contradiction|reflexivity].
Qed.
Lemma has_extension_unique p b e b' e' : has_extension p b e -> has_extension p b' e' -> b = b' /\ e = e'.
Proof.
  intros H H'. destruct (ext_last_dot _ _ _ H) as (x & -> & E & N & _). destruct (ext_last_dot _ _ _ H') as (x' & -> & E' & N' & _).
  rewrite E in E'. destruct (last_unique dot_ _ _ _ _ E' N N'). subst. auto.
Qed.
Lemma splitext_has p base ext : has_extension p base ext -> splitext p = (base, ext).
Proof.
  intros H. destruct (splitext p) as [b e] eqn:S. destruct (splitext_spec p b e S) as [K|(_ & _ & K)]; [|destruct (K _ _ H)].
  destruct (has_extension_unique _ _ _ _ _ H K). subst. reflexivity.
Qed.
Lemma tail_last p : last_component p (tail_of p).
Proof.
  unfold tail_of. destruct (cut_ex p) as (dir & stem & (E & D & N) & L). rewrite L, Nat2Z.id.
  assert (skipn (List.length dir) p = stem) as -> by (rewrite E, skipn_app, skipn_all, Nat.sub_diag; reflexivity). split; [exact N|].
  destruct D as [->|(d & ->)]; [left; exact E|right]. exists d. rewrite E, <- app_assoc. reflexivity.
Qed.
Lemma text_eqb_spec a : forall b, text_eqb a b = true <-> a = b.
Proof.
  induction a as [|x a IH]; intros [|y b]; cbn; try (split; congruence). rewrite andb_true_iff, IH, Ascii.eqb_eq. split; [intros [-> ->]; reflexivity|intros [= -> ->]; auto].
Qed.
Lemma figure_spec filename show save body : exists base ext file title,
  (has_extension filename base ext \/ (base = filename /\ ext = [] /\ forall b e, ~ has_extension filename b e)) /\
  ((ext = chars ".html" /\ file = filename) \/ (ext <> chars ".html" /\ file = filename ++ chars ".html")) /\
  last_component base title /\
  figure filename show save body = match body [] with
    | (fig, Some e) => ([OutputFile file title], Some e)
    | (fig, None) => (OutputFile file title :: (if show then [Shown fig] else []) ++ (if save then [Saved fig] else []), None)
    end.
Proof.
  unfold figure. destruct (splitext filename) as [base ext] eqn:S. exists base, ext. eexists. exists (tail_of base).
  split; [now apply splitext_spec|]. split; [|split; [apply tail_last|destruct (body []) as [fig [e|]]; reflexivity]].
  destruct (text_eqb ext (chars ".html")) eqn:T; [apply text_eqb_spec in T; auto|]. right. split; [|reflexivity]. intros E. apply text_eqb_spec in E. congruence.
Qed.

(** ** Trees *)
Lemma opre_length t : List.length (opre t) = List.length (opost t).
Proof.
  induction t as [i ts IH] using otree_nested_ind. cbn. rewrite app_length. cbn. rewrite Nat.add_1_r. f_equal.
  induction ts as [|t ts IHl]; [reflexivity|]. cbn. rewrite !app_length, (IH t (or_introl eq_refl)), IHl; [reflexivity|]. intros u Hu. apply IH. now right.
Qed.
Lemma top_child f c p r : top_of f c r -> par f c = Some p -> top_of f p r.
Proof.
  intros [(n & Hn) N] E. split; [|exact N]. destruct n as [|n]; cbn in Hn; [congruence|]. rewrite E in Hn. eauto.
Qed.
Lemma child_top f c p r : top_of f p r -> par f c = Some p -> top_of f c r.
Proof. intros [(n & Hn) N] E. split; [|exact N]. exists (S n). cbn. now rewrite E. Qed.
Definition edges_of (f : tree_state) (l : list nat) : list (nat * nat) := flat_map (fun i => map (pair i) (kids f i)) l.
Lemma lines_spec f i : reachable f -> (i < size f)%nat -> exists t edges, top_of f i (oroot t) /\ shape f t /\ NoDup (opre t) /\
  (forall j, In j (opre t) <-> (j < size f)%nat /\ top_of f j (oroot t)) /\
  NoDup edges /\ (forall p c, In (p, c) edges <-> (c < size f)%nat /\ top_of f c (oroot t) /\ par f c = Some p) /\
  dot_lines f (root f i) = DotHead :: map (fun j => DotNode (name f j)) (opre t) ++ map (fun '(p, c) => DotEdge (name f p) (name f c)) edges ++ [DotEnd].
Proof.
  intros Rf Hi. pose proof (reachable_wf f Rf) as W. destruct (postorder_members f i W Hi) as (t & E1 & E2 & _ & E3 & E4 & E5). rewrite <- E1 in *.
  assert (M : forall j, In j (opre t) <-> (j < size f)%nat /\ top_of f j (oroot t)) by (intros; rewrite opre_opost; auto).
  assert (Np : NoDup (opre t)).
  { apply (NoDup_incl_NoDup E4); [now rewrite opre_length|]. intros j. apply opre_opost. }
  pose proof (proj1 (wf_iff f) W) as (F1 & F2 & F3).
  exists t, (edges_of f (opre t)). split; [rewrite E1; now apply root_top|]. split; [exact E2|]. split; [exact Np|]. split; [exact M|]. split; [|split].
  - unfold edges_of. clear M E3. induction (opre t) as [|j l IH]; cbn [flat_map]; [constructor|]. inversion Np as [|? ? N1 N2]; subst. apply NoDup_app_disjoint; auto.
    + apply FinFun.Injective_map_NoDup; [intros a b [= ->]; reflexivity|]. apply (NoDup_count_occ Nat.eq_dec). intros c. destruct (in_dec Nat.eq_dec c (kids f j)) as [K|K].
      * apply F2 in K. destruct (F1 c j K) as (_ & _ & ->). lia.
      * apply (count_occ_not_In Nat.eq_dec) in K. lia.
    + intros [p c] A B. apply in_map_iff in A as (c' & [= <- <-] & _). apply in_flat_map in B as (j' & J & B). apply in_map_iff in B as (c2 & [= -> ->] & _). contradiction.
  - intros p c. unfold edges_of. rewrite in_flat_map. split.
    + intros (j & J & K). apply in_map_iff in K as (c' & [= -> ->] & K). apply F2 in K. apply M in J as (J1 & J2). destruct (F1 c p K) as (A & _). split; [exact A|]. split; [|exact K]. eapply child_top; eauto.
    + intros (A & B & C). exists p. destruct (F1 c p C) as (_ & P & O). split; [apply M; split; [exact P|eapply top_child; eauto]|]. apply in_map. apply (count_occ_In Nat.eq_dec). lia.
  - unfold dot_lines. rewrite E3. cbn [app]. f_equal. f_equal. f_equal. unfold edges_of. clear. induction (opre t) as [|j l IH]; [reflexivity|]. cbn [flat_map]. rewrite map_app, IH. f_equal. rewrite map_map. reflexivity.
Qed.

(** ** Whole fields *)
Lemma plot_spec name width height f bounds hull nav :
  let '(events, e) := plot_field name width height f bounds hull nav in
  match e with
  | Some _ => forall fig, ~ In (Shown fig) events
  | None => exists m dmap directions image arrows glyphs xs ys, nav = Ok (m, dmap, directions) /\
      add_direction_map m directions 2 [("legend", "direction_map")] [] = (arrows, None) /\
      image = Grid (rows dmap) (cols dmap) (fun i j => match at_ dmap i j with Some d => d | None => 1 end) /\
      Forall2 drawn_with (parts_of (plot_items f)) glyphs /\
      events = [OutputFile (name ++ chars ".html") name; Axes xs ys;
                Shown (add_distance_map m image [("legend", "distance_map")] [] ++ arrows ++ glyphs)]
  end.
Proof.
  unfold plot_field. destruct (rbind _ _) as [[xs ys]|e]; [|cbn; intros fig [X|[]]; discriminate]. cbn [app].
  assert (NS : forall fig, ~ In (Shown fig) [OutputFile (name ++ chars ".html") name; Axes xs ys]) by (cbn; intros fig [X|[X|[]]]; discriminate).
  destruct nav as [[[m dmap] directions]|e]; [|exact NS].
  set (image := Grid _ _ _). set (fig0 := add_distance_map _ _ _ _).
  assert (A : forall fig, exists arrows e, add_direction_map m directions 2 [("legend", "direction_map")] fig = (fig ++ arrows, e) /\ add_direction_map m directions 2 [("legend", "direction_map")] [] = (arrows, e)).
  { intros fig. unfold add_direction_map. cbn [Nat.eqb]. destruct (negb _); [exists []; rewrite app_nil_r|eexists]; eexists; split; reflexivity. }
  destruct (A fig0) as (arrows & e & -> & A'). destruct e as [e|]; cbn [next]; [exact NS|].
  assert (D : draws (parts_of (plot_items f)) (fig0 ++ arrows)
    (next (add_geom [("legend", "domain"); ("alpha", "0.05")] (as_geom (f_domain f)) (fig0 ++ arrows)) (fun fig =>
     next (add_each (map (fun '(i, s) => ([("legend", numbered "spawn_" i); ("alpha", "0.5"); ("line_width", "0"); ("color", "green")], s)) (enumerate (f_spawns f))) fig) (fun fig =>
     next (add_each (map (fun '(i, t) => ([("legend", numbered "target_" i); ("alpha", "0.8"); ("line_width", "3.0"); ("line_dash", "dashed"); ("color", "olive")], t)) (enumerate (f_targets f))) fig) (fun fig =>
     add_geom [("legend", "obstacles"); ("line_width", "3.0"); ("alpha", "0.8")] (as_geom (f_obstacles f)) fig))))).
  { unfold plot_items. rewrite !parts_app, !parts_one. repeat (apply draws_app; [first [apply draws_geom|apply draws_all]|intros ?]). apply draws_geom. }
  destruct (next _ _) as [fig e]. destruct D as (glyphs & E & D). cbn [fst snd] in *. destruct e as [e|]; [exact NS|].
  exists m, dmap, directions, image, arrows, glyphs, xs, ys. do 3 (split; [first [assumption|reflexivity]|]). split; [exact D|]. subst fig. rewrite <- app_assoc. reflexivity.
Qed.

Lemma plot_axes name width height f bounds hull nav minx miny maxx maxy : 0 < width -> 0 < height -> minx <= maxx -> miny <= maxy ->
  match f_domain f with Some d => Ok (bounds d) | None => hull end = Ok (minx, miny, maxx, maxy) ->
  exists xa xb ya yb, In (Axes (xa, xb) (ya, yb)) (fst (plot_field name width height f bounds hull nav)) /\
    set_aspect width height [minx; maxx] [miny; maxy] 1 (1/10) = Ok ((xa, xb), (ya, yb)).
Proof.
  intros W H X Y E. unfold plot_field. rewrite E. cbn [rbind].
  destruct (Proofs.ToolProofs.set_aspect_ok width height [minx; maxx] [miny; maxy] 1 (1/10)) as (xa & xb & ya & yb & S & _); try lra; try discriminate.
  rewrite S. exists xa, xb, ya, yb. split; [|reflexivity]. destruct nav as [[[m dmap] directions]|e]; [|cbn; auto]. destruct (next _ _) as [fig [e|]]; cbn; auto.
Qed.
