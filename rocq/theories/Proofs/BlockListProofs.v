From Coq Require Import Lra Lia Permutation.
From Verif Require Export Proofs.VecLemmas Proofs.ListLemmas Model.BlockList Spec.Cells.
Open Scope R_scope.

Lemma bkey_eqb_spec a b : BoolSpec (a = b) (a <> b) (bkey_eqb a b).
Proof.
  revert b; induction a as [|x a IH]; intros [|y b]; cbn; try (constructor; congruence).
  destruct (Z.eqb_spec x y); cbn; [|constructor; congruence].
  destruct (IH b); constructor; congruence.
Qed.
Lemma bkey_eqb_refl a : bkey_eqb a a = true.
Proof. destruct (bkey_eqb_spec a a); congruence. Qed.

Section BL.
  Context {A : Type}.
  Implicit Types (d : blocks A) (b : blocklist A) (k : bkey).

  Definition look d k : list A := match dd_find d k with Some v => v | None => [] end.

  Lemma dd_find_app d k k' v : dd_find (d ++ [(k', v)]) k =
    match dd_find d k with Some x => Some x | None => if bkey_eqb k k' then Some v else None end.
  Proof.
    induction d as [|[k0 v0] d IH]; cbn; auto. destruct (bkey_eqb k k0); auto.
  Qed.
  Lemma dd_get_fst d k : fst (dd_get d k) = look d k.
  Proof. unfold dd_get, look. destruct (dd_find d k); auto. Qed.
  Lemma dd_get_look d k k' : look (snd (dd_get d k)) k' = look d k'.
  Proof.
    unfold dd_get. destruct (dd_find d k) eqn:E; cbn; auto.
    unfold look. rewrite dd_find_app. destruct (dd_find d k') eqn:E'; auto.
    destruct (bkey_eqb k' k); auto.
  Qed.
  Lemma dd_get_present d k : dd_find (snd (dd_get d k)) k <> None.
  Proof.
    unfold dd_get. destruct (dd_find d k) eqn:E; cbn; [congruence|].
    rewrite dd_find_app, E, bkey_eqb_refl. congruence.
  Qed.
  Lemma dd_append_look d k a k' : dd_find d k <> None ->
    look (dd_append d k a) k' = look d k' ++ (if bkey_eqb k' k then [a] else []).
  Proof.
    unfold look. induction d as [|[k0 v0] d IH]; cbn; [congruence|].
    intros H. destruct (bkey_eqb_spec k k0) as [->|Hne]; cbn.
    - destruct (bkey_eqb_spec k' k0); auto. now rewrite app_nil_r.
    - destruct (bkey_eqb_spec k' k0) as [->|Hne'].
      + destruct (bkey_eqb_spec k0 k); [congruence|]. now rewrite app_nil_r.
      + apply IH. exact H.
  Qed.
  Lemma bl_set_look b key a k :
    look (bl_blocks (bl_set b key a)) k =
    look (bl_blocks b) k ++ (if bkey_eqb k (bl_transform key (cell_size b)) then [a] else []).
  Proof.
    unfold bl_set. pose proof (dd_get_present (bl_blocks b) (bl_transform key (cell_size b))) as P.
    pose proof (dd_get_look (bl_blocks b) (bl_transform key (cell_size b)) k) as L.
    destruct (dd_get _ _) as [v d]. cbn [snd bl_blocks] in *.
    rewrite dd_append_look by auto. now rewrite L.
  Qed.
  Lemma bl_set_cell b key a : cell_size (bl_set b key a) = cell_size b.
  Proof. unfold bl_set. destruct (dd_get _ _). reflexivity. Qed.
  Lemma bl_get_spec b item :
    fst (bl_get b item) = look (bl_blocks b) (bl_transform item (cell_size b)) /\
    (forall k, look (bl_blocks (snd (bl_get b item))) k = look (bl_blocks b) k) /\
    cell_size (snd (bl_get b item)) = cell_size b.
  Proof.
    unfold bl_get. pose proof (dd_get_fst (bl_blocks b) (bl_transform item (cell_size b))) as F.
    pose proof (dd_get_look (bl_blocks b) (bl_transform item (cell_size b))) as L.
    destruct (dd_get _ _) as [v d]. cbn in *. auto.
  Qed.
  Lemma nearest_fold keys out d :
    let r := fold_left (fun (s : list A * blocks A) key =>
                   let '(out, d) := s in
                   let '(v, d') := dd_get d key in (out ++ v, d')) keys (out, d) in
    fst r = out ++ flat_map (look d) keys /\ (forall k, look (snd r) k = look d k).
  Proof.
    revert out d; induction keys as [|k keys IH]; intros out d; cbn.
    - rewrite app_nil_r. auto.
    - pose proof (dd_get_fst d k) as F. pose proof (dd_get_look d k) as L.
      destruct (dd_get d k) as [v d']. cbn in F, L.
      destruct (IH (out ++ v) d') as [I1 I2]. split.
      + rewrite I1, F, <- app_assoc. f_equal. f_equal.
        apply flat_map_ext. intros; apply L.
      + intros k'. rewrite I2. apply L.
  Qed.
  Lemma bl_nearest_spec b item r :
    fst (bl_nearest b item r) =
      flat_map (look (bl_blocks b)) (bl_nearest_blocks (bl_transform item (cell_size b)) r) /\
    (forall k, look (bl_blocks (snd (bl_nearest b item r))) k = look (bl_blocks b) k) /\
    cell_size (snd (bl_nearest b item r)) = cell_size b.
  Proof.
    unfold bl_nearest.
    destruct (nearest_fold (bl_nearest_blocks (bl_transform item (cell_size b)) r) [] (bl_blocks b)) as [N1 N2].
    destruct (fold_left _ _ _) as [out d]. cbn in *. auto.
  Qed.

  (** Observational equality of block lists. *)
  Definition bl_eq b b' : Prop :=
    cell_size b = cell_size b' /\ forall k, look (bl_blocks b) k = look (bl_blocks b') k.
  Lemma bl_eq_get b b' item : bl_eq b b' -> fst (bl_get b item) = fst (bl_get b' item).
  Proof. intros [C L]. rewrite !(proj1 (bl_get_spec _ _)), C. apply L. Qed.
  Lemma bl_eq_nearest b b' item r : bl_eq b b' -> fst (bl_nearest b item r) = fst (bl_nearest b' item r).
  Proof.
    intros [C L]. rewrite !(proj1 (bl_nearest_spec _ _ _)), C. apply flat_map_ext. intros; apply L.
  Qed.

  Definition at_key c k (h : list (list R * A)) : list A :=
    map snd (filter (fun e => bkey_eqb k (bl_transform (fst e) c)) h).

  Lemma bl_step_cell b o : cell_size (snd (bl_step b o)) = cell_size b.
  Proof.
    destruct o; cbn.
    - apply bl_set_cell.
    - apply bl_get_spec.
    - apply bl_nearest_spec.
  Qed.
  Lemma bl_run_cell b ops : cell_size (bl_run b ops) = cell_size b.
  Proof.
    unfold bl_run. revert b; induction ops; intros; cbn; auto.
    rewrite IHops. apply bl_step_cell.
  Qed.
  Lemma bl_run_look b ops k :
    look (bl_blocks (bl_run b ops)) k = look (bl_blocks b) k ++ at_key (cell_size b) k (insertions ops).
  Proof.
    unfold bl_run. revert b; induction ops as [|o ops IH]; intros b; cbn.
    - unfold at_key. cbn. now rewrite app_nil_r.
    - rewrite IH, bl_step_cell. destruct o as [key v|item|item r]; cbn [bl_step snd].
      + rewrite bl_set_look, <- app_assoc. f_equal. cbn. unfold at_key. cbn.
        destruct (bkey_eqb k _); reflexivity.
      + destruct (bl_get_spec b item) as (_ & L & _). rewrite L. reflexivity.
      + destruct (bl_nearest_spec b item r) as (_ & L & _). rewrite L. reflexivity.
  Qed.
End BL.

Lemma sets_only_sets {A} (ops : list (bl_op A)) : insertions (only_insertions ops) = insertions ops.
Proof.
  unfold insertions, only_insertions. induction ops as [|[]]; cbn; auto. now f_equal.
Qed.
Lemma bl_run_only_sets {A} (b : blocklist A) ops : bl_eq (bl_run b ops) (bl_run b (only_insertions ops)).
Proof.
  split.
  - now rewrite !bl_run_cell.
  - intros k. rewrite (bl_run_look b ops), (bl_run_look b (only_insertions ops)), (sets_only_sets ops). reflexivity.
Qed.

(** ** Cells *)
Lemma transform_in_cell c x : 0 < c -> in_cell c (bl_transform x c) x.
Proof.
  intros Hc. unfold in_cell, bl_transform. induction x as [|e x IH]; cbn; constructor; auto.
  unfold floordiv. destruct (base_Int_part (e / c)) as [H1 H2].
  set (k := IZR (Int_part (e/c))) in *. assert (e = c * (e/c)) as E by (field; lra).
  set (q := e / c) in *. clearbody q k. subst e. split; nra.
Qed.
Lemma in_cell_unique c z x : 0 < c -> in_cell c z x -> z = bl_transform x c.
Proof.
  intros Hc H. unfold bl_transform. induction H as [|k e z x H _ IH]; cbn; auto.
  f_equal; auto. unfold floordiv. symmetry. apply Int_part_unique.
  assert (E : e = c * (e/c)) by (field; lra). set (q := e / c) in *. clearbody q. subst e.
  split; nra.
Qed.
Lemma same_cell_iff c x y : 0 < c -> (same_cell c x y <-> bl_transform x c = bl_transform y c).
Proof.
  intros Hc. split.
  - intros (z & H1 & H2). apply in_cell_unique in H1, H2; auto. congruence.
  - intros E. exists (bl_transform x c). split; [|rewrite E]; now apply transform_in_cell.
Qed.
Lemma cells_within_iff c r x y : 0 < c ->
  (cells_within c r x y <->
   Forall2 (fun a b => (Z.abs (a - b) <= r)%Z) (bl_transform x c) (bl_transform y c)).
Proof.
  intros Hc. split.
  - intros (zx & zy & H1 & H2 & H3). apply in_cell_unique in H1, H2; auto. congruence.
  - intros H. exists (bl_transform x c), (bl_transform y c).
    split; [now apply transform_in_cell|]. split; [now apply transform_in_cell|auto].
Qed.
Lemma coords_cells c r x y : 0 < c -> coords_within (c * IZR r) x y -> cells_within c r x y.
Proof.
  intros Hc H. apply cells_within_iff; auto. unfold bl_transform.
  induction H as [|a b x y H _ IH]; cbn; constructor; auto.
  unfold floordiv. destruct (base_Int_part (a / c)) as [A1 A2]. destruct (base_Int_part (b / c)) as [B1 B2].
  assert (Ea : a = c * (a/c)) by (field; lra). assert (Eb : b = c * (b/c)) by (field; lra).
  set (p := a / c) in *. set (q := b / c) in *. clearbody p q. subst a b.
  assert (Hq : - IZR r <= p - q <= IZR r).
  { assert (Hd : Rabs (p - q) <= IZR r).
    { apply Rmult_le_reg_l with c; auto. replace (c * Rabs (p - q)) with (Rabs (c * p - c * q)); auto.
      replace (c * p - c * q) with (c * (p - q)) by ring. rewrite Rabs_mult, (Rabs_pos_eq c); lra. }
    split; [|apply Rle_trans with (Rabs (p-q)); [apply Rle_abs|auto]].
    pose proof (Rle_abs (- (p - q))). rewrite Rabs_Ropp in *. lra. }
  assert (Int_part p - Int_part q < r + 1)%Z by (apply lt_IZR; rewrite minus_IZR, plus_IZR; lra).
  assert (Int_part q - Int_part p < r + 1)%Z by (apply lt_IZR; rewrite minus_IZR, plus_IZR; lra).
  lia.
Qed.

(** ** Ranges and products *)
Lemma in_zrange lo hi x : In x (zrange lo hi) <-> (lo <= x < hi)%Z.
Proof.
  unfold zrange. rewrite in_map_iff. split.
  - intros (i & <- & H). apply in_seq in H. lia.
  - intros H. exists (Z.to_nat (x - lo)). rewrite in_seq. lia.
Qed.
Lemma NoDup_zrange lo hi : NoDup (zrange lo hi).
Proof.
  unfold zrange. apply FinFun.Injective_map_NoDup; [|apply seq_NoDup].
  intros i j H. lia.
Qed.
Lemma in_zproduct rs l : In l (zproduct rs) <-> Forall2 (fun x r => In x r) l rs.
Proof.
  revert l; induction rs as [|r rs IH]; intros l; cbn.
  - split.
    + intros [<-|[]]. constructor.
    + intros H; inversion H; auto.
  - rewrite in_flat_map. split.
    + intros (x & Hx & H). apply in_map_iff in H as (l' & <- & H). constructor; auto. now apply IH.
    + intros H. inversion H as [|x y l' rs' Hx H']; subst. exists x. split; auto.
      apply in_map_iff. exists l'. split; auto. now apply IH.
Qed.
Lemma NoDup_app_intro {B} (l1 l2 : list B) : NoDup l1 -> NoDup l2 -> (forall x, In x l1 -> ~ In x l2) -> NoDup (l1 ++ l2).
Proof.
  intros H1 H2 H. induction H1; cbn; auto. constructor.
  - rewrite in_app_iff. intros [?|?]; auto. apply (H x); auto. now left.
  - apply IHNoDup. intros y Hy. apply H. now right.
Qed.
Lemma NoDup_zproduct rs : Forall (fun r => NoDup r) rs -> NoDup (zproduct rs).
Proof.
  induction rs as [|r rs IH]; intros H; cbn.
  - constructor; auto. constructor.
  - inversion H as [|? ? Hr Hrs]; subst. specialize (IH Hrs).
    induction r as [|x r IHr]; cbn; [constructor|].
    inversion Hr as [|? ? Hx Hr']; subst. apply NoDup_app_intro.
    + apply FinFun.Injective_map_NoDup; auto. intros a b E. congruence.
    + apply IHr; auto.
    + intros l Hl Hl'. apply in_map_iff in Hl as (l1 & <- & _).
      apply in_flat_map in Hl' as (y & Hy & Hl'). apply in_map_iff in Hl' as (l2 & E & _).
      inversion E; subst. contradiction.
Qed.
Lemma Forall2_len {B C} (P : B -> C -> Prop) l l' : Forall2 P l l' -> length l = length l'.
Proof. induction 1; cbn; auto. Qed.
Lemma zip_add_inj idx a b : length a = length idx -> length b = length idx ->
  zip_add idx a = zip_add idx b -> a = b.
Proof.
  revert a b; induction idx as [|x idx IH]; intros [|y a] [|z b]; cbn; try lia; intros; auto.
  injection H1 as H1 H2. f_equal; [lia|]. apply IH; auto.
Qed.
Lemma in_nearest_blocks idx r k : In k (bl_nearest_blocks idx r) <->
  Forall2 (fun a b => (Z.abs (a - b) <= r)%Z) idx k.
Proof.
  unfold bl_nearest_blocks. rewrite in_map_iff.
  assert (G : forall l, In l (zproduct (map (fun _ : Z => zrange (- r) (r + 1)) idx)) <->
     Forall2 (fun x (_ : Z) => (- r <= x < r + 1)%Z) l idx).
  { intros l. rewrite in_zproduct. revert l. clear k. induction idx as [|a idx IH]; intros l; cbn.
    - split; intros H; inversion H; constructor.
    - split; intros H; inversion H; subst; constructor; try (now apply in_zrange); now apply IH. }
  split.
  - intros (l & <- & H). apply G in H. clear G. revert l H.
    induction idx as [|a idx IH]; intros l H; inversion H; subst; cbn; constructor; auto. lia.
  - intros H. exists (map (fun p => (snd p - fst p)%Z) (combine idx k)). split.
    + clear G. induction H; cbn; auto. f_equal; auto. lia.
    + apply G. clear G. induction H; cbn; constructor; auto. lia.
Qed.
Lemma NoDup_nearest_blocks idx r : NoDup (bl_nearest_blocks idx r).
Proof.
  unfold bl_nearest_blocks.
  assert (P : NoDup (zproduct (map (fun _ : Z => zrange (- r) (r + 1)) idx))).
  { apply NoDup_zproduct. apply Forall_forall. intros l Hl. apply in_map_iff in Hl as (? & <- & _).
    apply NoDup_zrange. }
  assert (Len : forall l, In l (zproduct (map (fun _ : Z => zrange (- r) (r + 1)) idx)) -> length l = length idx).
  { intros l Hl. apply in_zproduct in Hl. apply Forall2_len in Hl. now rewrite map_length in Hl. }
  revert P Len. generalize (zproduct (map (fun _ : Z => zrange (- r) (r + 1)) idx)).
  intros ls P Len. induction P; cbn; constructor.
  - intros Hin. apply in_map_iff in Hin as (y & E & Hy).
    apply zip_add_inj in E; [subst; contradiction| |]; apply Len; [now right|now left].
  - apply IHP. intros; apply Len; now right.
Qed.

(** ** Selection *)
Lemma selected_filter {A B} (P : A -> Prop) (f : A -> bool) (h : list (A * B)) :
  (forall a, f a = true <-> P a) -> selected P h (map snd (filter (fun e => f (fst e)) h)).
Proof.
  intros H. induction h as [|[a b] h IH]; cbn; [constructor|].
  destruct (f a) eqn:E; cbn.
  - apply sel_keep; auto. now apply H.
  - apply sel_drop; auto. intros HP. apply H in HP. congruence.
Qed.
Lemma selected_fun {A B} (P : A -> Prop) (h : list (A * B)) o1 o2 :
  selected P h o1 -> selected P h o2 -> o1 = o2.
Proof.
  intros H; revert o2; induction H; intros o2 H2; inversion H2; subst; auto; try contradiction.
  f_equal; auto.
Qed.
Definition key_in (ks : list bkey) (k : bkey) : bool := existsb (bkey_eqb k) ks.
Lemma key_in_iff ks k : key_in ks k = true <-> In k ks.
Proof.
  unfold key_in. rewrite existsb_exists. split.
  - intros (x & H & E). destruct (bkey_eqb_spec k x); [now subst|discriminate].
  - intros H. exists k. split; auto. apply bkey_eqb_refl.
Qed.
Lemma flat_map_insert {B} (a : B) (f g : bkey -> list B) ks k :
  NoDup ks -> (forall k', k' <> k -> f k' = g k') -> f k = a :: g k ->
  Permutation (flat_map f ks) ((if key_in ks k then [a] else []) ++ flat_map g ks).
Proof.
  intros ND Hne He. induction ND as [|x ks Hx ND IH]; cbn; auto.
  unfold key_in in *. cbn [existsb]. destruct (bkey_eqb_spec k x) as [->|Hk].
  - cbn [orb app]. rewrite He. cbn. constructor.
    apply Permutation_app_head.
    replace (flat_map f ks) with (flat_map g ks); auto.
    assert (G : forall ks', ~ In x ks' -> flat_map g ks' = flat_map f ks').
    { induction ks' as [|y ks' IHk]; cbn; auto. intros Hn. rewrite IHk by tauto.
      rewrite (Hne y) by (intros ->; tauto). reflexivity. }
    now apply G.
  - cbn [orb]. rewrite (Hne x) by congruence.
    etransitivity; [apply Permutation_app_head; exact IH|].
    rewrite !app_assoc. apply Permutation_app_tail. apply Permutation_app_comm.
Qed.
Lemma flat_map_at_key {A} c (ks : list bkey) (h : list (list R * A)) : NoDup ks ->
  Permutation (flat_map (fun k => at_key c k h) ks)
              (map snd (filter (fun e => key_in ks (bl_transform (fst e) c)) h)).
Proof.
  intros ND. induction h as [|[x a] h IH].
  - cbn. induction ks; cbn; auto. inversion ND; auto.
  - rewrite (flat_map_insert a _ (fun k => at_key c k h) ks (bl_transform x c)); auto.
    + cbn [filter fst]. destruct (key_in ks (bl_transform x c)); cbn [map snd app]; [apply perm_skip|]; exact IH.
    + intros k' Hk'. unfold at_key; cbn [filter fst]. destruct (bkey_eqb_spec k' (bl_transform x c)); [contradiction|auto].
    + unfold at_key; cbn [filter fst]. now rewrite bkey_eqb_refl.
Qed.

(** ** Main results *)
Lemma run_get {A} c (ops : list (bl_op A)) b q : 0 < c -> bl_new c = Ok b ->
  selected (fun x => same_cell c x q) (insertions ops) (fst (bl_get (bl_run b ops) q)).
Proof.
  intros Hc E. unfold bl_new in E. replace (Rltb 0 c) with true in E by (symmetry; now apply Rltb_true).
  injection E as <-. rewrite (proj1 (bl_get_spec _ _)), bl_run_look, bl_run_cell. cbn.
  unfold at_key. apply (selected_filter _ (fun x => bkey_eqb (bl_transform q c) (bl_transform x c))).
  intros a. rewrite same_cell_iff by auto. destruct (bkey_eqb_spec (bl_transform q c) (bl_transform a c)); split; congruence.
Qed.
Lemma run_nearest {A} c (ops : list (bl_op A)) b q r : 0 < c -> bl_new c = Ok b ->
  exists out, Permutation (fst (bl_nearest (bl_run b ops) q r)) out /\
    selected (fun x => cells_within c r q x) (insertions ops) out.
Proof.
  intros Hc E. unfold bl_new in E. replace (Rltb 0 c) with true in E by (symmetry; now apply Rltb_true).
  injection E as <-. rewrite (proj1 (bl_nearest_spec _ _ _)), bl_run_cell. cbn [cell_size].
  set (ks := bl_nearest_blocks (bl_transform q c) r).
  exists (map snd (filter (fun e => key_in ks (bl_transform (fst e) c)) (insertions ops))). split.
  - rewrite <- flat_map_at_key by apply NoDup_nearest_blocks.
    rewrite (flat_map_ext _ (fun k => at_key c k (insertions ops))); auto.
    intros k. now rewrite bl_run_look.
  - apply (selected_filter _ (fun x => key_in ks (bl_transform x c))).
    intros a. rewrite key_in_iff. unfold ks. rewrite in_nearest_blocks, cells_within_iff by auto. reflexivity.
Qed.
Lemma selected_in {A B} (P : A -> Prop) (h : list (A * B)) out b :
  selected P h out -> (In b out <-> exists a, In (a, b) h /\ P a).
Proof.
  intros H; induction H; cbn.
  - firstorder.
  - rewrite IHselected. split.
    + intros [->|(a' & ? & ?)]; [exists a; auto|exists a'; auto].
    + intros (a' & [E|?] & ?); [inversion E; auto|]. right; exists a'; auto.
  - rewrite IHselected. split.
    + intros (a' & ? & ?); exists a'; auto.
    + intros (a' & [E|?] & ?); [inversion E; subst; contradiction|]. exists a'; auto.
Qed.
Lemma run_nearest_complete {A} c (ops : list (bl_op A)) b q r k v : 0 < c -> bl_new c = Ok b ->
  In (OpSet k v) ops -> coords_within (c * IZR r) q k ->
  In v (fst (bl_nearest (bl_run b ops) q r)).
Proof.
  intros Hc E Hin Hw. destruct (run_nearest c ops b q r Hc E) as (out & P & S).
  apply Permutation_in with out; [now symmetry|]. apply (selected_in _ _ _ v S).
  exists k. split; [|now apply coords_cells].
  unfold insertions. apply in_flat_map. exists (OpSet k v). split; auto. now left.
Qed.

Lemma bl_new_pos {A} c (b : blocklist A) : bl_new c = Ok b -> 0 < c.
Proof. unfold bl_new. rcase; [auto|discriminate]. Qed.
Lemma run_get' {A} c b (ops : list (bl_op A)) q : bl_new c = Ok b ->
  selected (fun x => same_cell c x q) (insertions ops) (fst (bl_get (bl_run b ops) q)).
Proof. intros E. apply run_get; auto. now apply bl_new_pos in E. Qed.
Lemma run_nearest' {A} c b (ops : list (bl_op A)) q r : bl_new c = Ok b ->
  exists out, Permutation (fst (bl_nearest (bl_run b ops) q r)) out /\
    selected (fun x => cells_within c r q x) (insertions ops) out.
Proof. intros E. apply run_nearest; auto. now apply bl_new_pos in E. Qed.
Lemma run_nearest_complete' {A} c b (ops : list (bl_op A)) q r k v : bl_new c = Ok b ->
  In (OpSet k v) ops -> coords_within (c * IZR r) q k ->
  In v (fst (bl_nearest (bl_run b ops) q r)).
Proof. intros E. apply run_nearest_complete; auto. now apply bl_new_pos in E. Qed.
Lemma reads_no_effect {A} (b : blocklist A) ops q r :
  fst (bl_get (bl_run b ops) q) = fst (bl_get (bl_run b (only_insertions ops)) q) /\
  fst (bl_nearest (bl_run b ops) q r) = fst (bl_nearest (bl_run b (only_insertions ops)) q r).
Proof.
  split; [apply bl_eq_get|apply bl_eq_nearest]; apply bl_run_only_sets.
Qed.
