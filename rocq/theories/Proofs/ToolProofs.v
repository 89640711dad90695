(** * Proofs about the command line, plots and the working directory *)
From Coq Require Import Lra Lia.
From Verif Require Import Model.CommandLine Model.WorkDir Model.Aspect Spec.Tools Proofs.VecLemmas Proofs.DensityProofs.
Open Scope list_scope.

(** ** Structured types *)
Lemma all_ok_iff {A B} (f : A -> res B) : forall l r, all_ok f l = Ok r <-> Forall2 (fun x y => f x = Ok y) l r.
Proof.
  induction l as [|x l IH]; intros r; cbn.
  - split; [intros [= <-]; constructor|intros H; now inversion H].
  - destruct (f x) as [y|e] eqn:E; cbn.
    + destruct (all_ok f l) as [r'|e'] eqn:L; cbn.
      * split; [intros [= <-]; constructor; auto; now apply IH|].
        intros H. inversion H as [|? y' ? r'' H1 H2]; subst. apply IH in H2. congruence.
      * split; [discriminate|]. intros H. inversion H as [|? y' ? r'' H1 H2]; subst. apply IH in H2. congruence.
    + split; [discriminate|]. intros H. inversion H; subst. congruence.
Qed.
Lemma all_ok_err {A B} (f : A -> res B) l e : all_ok f l = Err e -> exists x, In x l /\ f x = Err e.
Proof.
  induction l as [|x l IH]; cbn; [discriminate|]. destruct (f x) as [y|] eqn:E; cbn.
  - destruct (all_ok f l); cbn; [discriminate|]. intros H. destruct (IH H) as (z & ? & ?). eauto.
  - intros [= ->]. eauto.
Qed.
Lemma dtype_column n t f : trait_to_dtype n (ATrait t) = Ok f <-> column n t f.
Proof.
  split.
  - destruct t; cbn; try discriminate; intros [= <-]; constructor.
  - intros H. destruct H; reflexivity.
Qed.
Lemma column_name n t f : column n t f -> fst (fst f) = n.
Proof. now intros []. Qed.
Lemma has_name_iff n l : has_name n l = true <-> In n (map (fun f : dfield => fst (fst f)) l).
Proof.
  induction l as [|[[m d] s] l IH]; cbn; [split; [discriminate|contradiction]|].
  destruct (String.eqb_spec n m) as [->|Ne]; [tauto|]. rewrite IH. split; [auto|intros [->|H]; [congruence|auto]].
Qed.
Lemma repeated_iff l : repeated l = false <-> NoDup (map (fun f : dfield => fst (fst f)) l).
Proof.
  induction l as [|[[m d] s] l IH]; cbn; [split; [constructor|auto]|].
  rewrite NoDup_cons_iff, <- has_name_iff. destruct (has_name m l); [split; [discriminate|tauto]|]. rewrite IH. split; [split; [discriminate|auto]|tauto].
Qed.
Lemma columns_names l r : Forall2 (fun e f => column (fst e) (snd e) f) l r -> map (fun f : dfield => fst (fst f)) r = map fst l.
Proof. induction 1 as [|e f l r H _ IH]; cbn; auto. f_equal; auto. now apply column_name in H. Qed.
Lemma forall2_impl {A B} (P Q : A -> B -> Prop) l r : (forall a b, P a b -> Q a b) -> Forall2 P l r -> Forall2 Q l r.
Proof. intros H F. induction F; constructor; auto. Qed.
Lemma forall2_functional {A B} (P Q : A -> B -> Prop) : (forall a b c, P a b -> Q a c -> b = c) ->
  forall l r r', Forall2 P l r -> Forall2 Q l r' -> r = r'.
Proof.
  intros F l r r' H. revert r'. induction H as [|a b l r H _ IH]; intros r' H'; inversion H'; subst; auto. f_equal; eauto.
Qed.
Lemma column_fun n t f g : column n t f -> column n t g -> f = g.
Proof. intros H1 H2. apply dtype_column in H1, H2. congruence. Qed.
Lemma struct_dtype_iff mro ea ec r : class_to_struct_dtype mro ea ec = Ok r <->
  Forall2 (fun e f => column (fst e) (snd e) f) (class_traits mro ea ec) r /\ NoDup (map fst (class_traits mro ea ec)).
Proof.
  assert (A : forall l, Forall2 (fun e f => trait_to_dtype (fst e) (ATrait (snd e)) = Ok f) (class_traits mro ea ec) l <->
     Forall2 (fun e f => column (fst e) (snd e) f) (class_traits mro ea ec) l).
  { intros l. split; intros H; (eapply forall2_impl; [|exact H]); intros a b Q; now apply dtype_column. }
  unfold class_to_struct_dtype. destruct (all_ok _ _) as [l|e] eqn:E; cbn.
  - apply all_ok_iff, A in E. unfold np_dtype. rewrite <- (columns_names _ _ E), <- repeated_iff. destruct (repeated l).
    + split; [discriminate|intros [_ H]; discriminate].
    + split; [intros [= <-]; auto|]. intros [H _]. f_equal. eapply forall2_functional; [|exact E|exact H]. intros a b c. apply column_fun.
  - split; [discriminate|]. intros [H _]. apply A, all_ok_iff in H. congruence.
Qed.

Lemma own_traits_iff c ea n t : In (n, t) (class_own_traits c ea) <-> own_trait c n t /\ excluded ea n = false.
Proof.
  unfold class_own_traits, own_trait. destruct (c_has_traits c); cbn; [|split; [contradiction|intros [[H _] _]; discriminate]].
  rewrite in_flat_map. split.
  - intros ([m a] & I & H). cbn in H. destruct (excluded ea m) eqn:X; [contradiction|]. destruct a; [|contradiction].
    destruct H as [[= -> ->]|[]]. auto.
  - intros [[_ I] X]. exists (n, ATrait t). split; auto. cbn. rewrite X. now left.
Qed.
Lemma class_traits_iff mro ea ec n t : In (n, t) (class_traits mro ea ec) <->
  exists c, In c mro /\ excluded ec c = false /\ own_trait c n t /\ excluded ea n = false.
Proof.
  unfold class_traits. rewrite in_flat_map. split.
  - intros (c & I & H). destruct (excluded ec c) eqn:X; [contradiction|]. apply own_traits_iff in H as [? ?]. eauto 6.
  - intros (c & I & X & H & N). exists c. rewrite X. split; auto. now apply own_traits_iff.
Qed.

(** ** Options *)
Lemma option_type_iff n t o : trait_to_option n (ATrait t) = Ok o ->
  fst o = ("--" ++ n)%string /\ option_type t (snd o).
Proof.
  destruct t; cbn; try discriminate; try (intros [= <-]; split; [reflexivity|constructor]).
  destruct (all_ok _ traits) as [l|] eqn:E; cbn; [|discriminate]. intros [= <-]. split; [reflexivity|]. constructor.
  apply all_ok_iff in E. eapply forall2_impl; [|exact E]. intros a b H. destruct a; cbn in H; try discriminate; injection H as <-; constructor.
Qed.
Lemma option_exists n t o : option_type t o -> (forall ts, t = TTuple ts -> ~ In TUnicode ts) -> trait_to_option n (ATrait t) = Ok (("--" ++ n)%string, o).
Proof.
  intros H T. destruct H as [| | | | | |ts l H]; try reflexivity. unfold trait_to_option. specialize (T ts eq_refl).
  assert (E : all_ok (fun t => trait_to_type (ATrait t)) ts = Ok l); [|now rewrite E].
  apply all_ok_iff. revert T. induction H as [|t p ts l H _ IH]; intros T; constructor.
  - destruct H; try reflexivity. exfalso; apply T; now left.
  - apply IH. intros I. apply T. now right.
Qed.
Lemma tuple_text_fails n ts : (forall t, In t ts -> exists p, simple_type t p) -> In TUnicode ts -> trait_to_option n (ATrait (TTuple ts)) = Err TypeError.
Proof.
  intros S I. unfold trait_to_option. assert (E : all_ok (fun t => trait_to_type (ATrait t)) ts = Err TypeError); [|now rewrite E].
  induction ts as [|t ts IH]; [contradiction|]. cbn [all_ok].
  destruct (S t (or_introl eq_refl)) as (p & Sp). destruct I as [->|I]; [reflexivity|].
  specialize (IH (fun t h => S t (or_intror h)) I). destruct Sp; cbn in *; try rewrite IH; reflexivity.
Qed.

(** ** Names of simulations *)
Lemma put_names {A} k (v : A) d n w : NoDup (map fst d) -> (In (n, w) (put k v d) <-> (n = k /\ w = v) \/ (n <> k /\ In (n, w) d)).
Proof.
  induction d as [|[m u] d IH]; cbn [put]; intros N.
  - cbn. split; [intros [[= -> ->]|[]]; auto|intros [[-> ->]|[_ []]]; auto].
  - cbn in N. inversion N as [|? ? Nm N']; subst. destruct (String.eqb_spec k m) as [->|Ne]; cbn.
    + split.
      * intros [[= -> ->]|H]; auto. right. split; [|auto]. intros ->. apply Nm. now apply (in_map fst) in H.
      * intros [[-> ->]|[H1 [[= -> ->]|H2]]]; auto. congruence.
    + rewrite IH by auto. split.
      * intros [[= -> ->]|[[-> ->]|[H1 H2]]]; auto.
      * intros [[-> ->]|[H1 [[= -> ->]|H2]]]; auto.
Qed.
Lemma put_nodup {A} k (v : A) d : NoDup (map fst d) -> NoDup (map fst (put k v d)).
Proof.
  induction d as [|[m u] d IH]; cbn [put]; intros N. { repeat constructor; auto. }
  cbn in N. inversion N as [|? ? Nm N']; subst. destruct (String.eqb_spec k m) as [->|Ne]; cbn; constructor; auto.
  intros I. apply in_map_iff in I as ([m' w] & E & I). cbn in E; subst m'. apply put_names in I as [[-> _]|[_ I]]; auto.
  apply Nm. now apply (in_map fst) in I.
Qed.
Lemma update_names {A} l : forall (d : list (string * A)) n w, NoDup (map fst d) -> NoDup (map fst l) ->
  NoDup (map fst (update d l)) /\ (In (n, w) (update d l) <-> In (n, w) l \/ (~ In n (map fst l) /\ In (n, w) d)).
Proof.
  unfold update. induction l as [|[k v] l IH]; cbn [fold_left fst snd map]; intros d n w N1 N2.
  - split; auto. cbn. tauto.
  - inversion N2 as [|? ? Nk N2']; subst. destruct (IH (put k v d) n w (put_nodup _ _ _ N1) N2') as [H1 H2]. split; auto.
    rewrite H2, put_names by auto. cbn. split.
    + intros [H|[H3 [[-> ->]|[H4 H5]]]]; auto. right. split; auto. intros [->|H]; auto.
    + intros [[[= -> ->]|H]|[H3 H4]]; auto.
      right. split; [tauto|]. right. split; auto.
Qed.
Lemma get_iff {A} (d : list (string * A)) n w : NoDup (map fst d) -> (get n d = Some w <-> In (n, w) d).
Proof.
  induction d as [|[m u] d IH]; cbn; intros N; [split; [discriminate|contradiction]|].
  inversion N as [|? ? Nm N']; subst. destruct (String.eqb_spec n m) as [->|Ne].
  - split; [intros [= ->]; auto|]. intros [[= ->]|H]; auto. exfalso. apply Nm. now apply (in_map fst) in H.
  - rewrite IH by auto. split; auto. intros [[= -> ->]|H]; auto. congruence.
Qed.
Lemma subclasses_in vars (n : string) c : In (n, c) (flat_map (fun e : string * object => match snd e with Subclass c => [(fst e, c)] | _ => [] end) vars) <-> In (n, Subclass c) vars.
Proof.
  rewrite in_flat_map. split.
  - intros ([m o] & I & H). cbn in H. destruct o; try contradiction. destruct H as [[= -> ->]|[]]. auto.
  - intros I. eexists; split; [exact I|]. now left.
Qed.
Lemma subclasses_nodup vars : NoDup (map fst vars) ->
  NoDup (map fst (flat_map (fun e : string * object => match snd e with Subclass c => [(fst e, c)] | _ => [] end) vars)).
Proof.
  induction vars as [|[m o] vars IH]; cbn; intros N; [constructor|]. inversion N as [|? ? Nm N']; subst.
  destruct o; cbn; auto. constructor; auto. intros I. apply in_map_iff in I as ([k c'] & E & I). cbn in E; subst k.
  apply subclasses_in in I. apply Nm. now apply (in_map fst) in I.
Qed.
Lemma import_from_means fs2 : forall fs1 d sims, Forall one_each fs2 -> NoDup (map fst d) ->
  (forall n c, In (n, c) d <-> means fs1 n c) -> import_from d fs2 = Ok sims ->
  NoDup (map fst sims) /\ forall n c, In (n, c) sims <-> means (fs1 ++ fs2) n c.
Proof.
  induction fs2 as [|f fs2 IH]; cbn [import_from]; intros fs1 d sims O N D E.
  - injection E as <-. rewrite app_nil_r. auto.
  - inversion O as [|? ? Of O']; subst. replace (fs1 ++ f :: fs2) with ((fs1 ++ [f]) ++ fs2) by now rewrite <- app_assoc.
    destruct (String.eqb_spec (extension f) ".py") as [X|X].
    + unfold import_subclasses in E. destruct (import_ f) as [vars|] eqn:V; cbn [rbind] in E; [|discriminate].
      pose proof (subclasses_nodup _ (Of _ V)) as N2.
      apply IH with (fs1 := fs1 ++ [f]) in E; auto.
      * apply (update_names _ d ""%string (Cls 0 true [])); auto.
      * intros n c. rewrite (proj2 (update_names _ d n c N N2)), subclasses_in.
        assert (Df : forall n c, defines f n c <-> In (n, Subclass c) vars).
        { intros n' c'. unfold defines. rewrite V. split; [intros (_ & v & [= <-] & H); auto|eauto]. }
        split.
        -- intros [H|[H1 H2]]; [apply MLast; now apply Df|]. apply MBefore; [|now apply D].
           intros c' H. apply H1. apply Df, subclasses_in, (in_map fst) in H. auto.
        -- intros H. inversion H as [fs' f' ? ? H1 E'|fs' f' ? ? H1 H2 E']; subst; apply app_inj_tail in E' as [-> ->].
           ++ left. now apply Df.
           ++ right. split; [|now apply D]. intros I. apply in_map_iff in I as ([m c'] & E1 & I). cbn in E1; subst m.
              apply subclasses_in, Df in I. now apply (H1 c').
    + apply IH with (fs1 := fs1 ++ [f]) in E; auto. intros n c. rewrite D.
      assert (ND : forall c', ~ defines f n c') by (intros c' [H _]; auto).
      split; [now apply MBefore|]. intros H. inversion H as [fs' f' ? ? H1 E'|fs' f' ? ? H1 H2 E']; subst; apply app_inj_tail in E' as [-> ->]; auto.
      exfalso. now apply (ND c).
Qed.
Lemma import_means fs sims : Forall one_each fs -> import_simulations fs = Ok sims ->
  NoDup (map fst sims) /\ forall n c, In (n, c) sims <-> means fs n c.
Proof.
  intros O E. apply (import_from_means fs [] [] sims); auto; [constructor|]. intros n c. split; [contradiction|].
  intros H. inversion H as [fs' f' ? ? H1 E'|fs' f' ? ? H1 H2 E']; destruct fs'; discriminate.
Qed.

(** ** Commands *)
Lemma last_cons {A} (a b : A) l d : last (a :: b :: l) d = last (b :: l) d.
Proof. reflexivity. Qed.
Lemma last_either {A} (l : list A) : forall a x y,
  match last (map Some (a :: l)) None with Some c => Some c | None => x end = match last (map Some (a :: l)) None with Some c => Some c | None => y end.
Proof. induction l as [|b l IH]; intros a x y; [reflexivity|]. cbn [map]. rewrite last_cons. apply (IH b). Qed.
Lemma make_commands_inv sims : forall s r, NoDup (map fst sims) -> NoDup (map fst (c_list s)) -> make_commands s sims = Ok r ->
  NoDup (map fst (c_list r)) /\
  (forall n, In n (map fst (c_list r)) <-> In n (map fst (c_list s)) \/ In n (map fst sims)) /\
  (forall n c, In (n, c) sims -> exists ps, get n (c_list r) = Some ps /\ all_ok (fun e => trait_to_option (fst e) (ATrait (snd e))) (class_own_traits c None) = Ok ps) /\
  (forall n ps, ~ In n (map fst sims) -> In (n, ps) (c_list s) -> In (n, ps) (c_list r)) /\
  c_cell r = match last (map Some (map snd sims)) None with Some c => Some c | None => c_cell s end.
Proof.
  induction sims as [|[n c] sims IH]; cbn [make_commands]; intros s r N N' E.
  - injection E as <-. repeat split; cbn; auto; try tauto.
  - destruct (all_ok _ _) as [ps|] eqn:P; cbn [rbind] in E; [|discriminate]. cbn [map fst] in N. inversion N as [|? ? Nn Ns]; subst.
    assert (N1 : NoDup (map fst (update (c_list s) [(n, ps)]))) by (apply (put_nodup n ps); auto).
    destruct (IH (Commands (update (c_list s) [(n, ps)]) (Some c)) r Ns N1 E) as (R1 & R2 & R3 & R4 & R5).
    cbn [c_list c_cell] in *. repeat split; auto.
    + intros H. apply R2 in H as [H|H]; [|right; now right]. apply in_map_iff in H as ([m w] & E1 & H). cbn in E1; subst m.
      apply (put_names n ps (c_list s)) in H as [[-> _]|[_ H]]; auto. { right; now left. } left. now apply (in_map fst) in H.
    + intros H. apply R2. destruct (string_dec n0 n) as [->|Ne].
      * left. apply in_map_iff. exists (n, ps). split; auto. apply (put_names n ps (c_list s)); auto.
      * cbn [map fst In] in H. destruct H as [H|[->|H]]; [|congruence|auto]. left. apply in_map_iff in H as ([m w] & E1 & H). cbn in E1; subst m.
        apply in_map_iff. exists (n0, w). split; auto. apply (put_names n ps (c_list s)); auto.
    + intros m d [[= <- <-]|H]; [|now apply R3]. exists ps. split; auto. apply get_iff; auto. apply R4; auto.
      apply (put_names n ps (c_list s)); auto.
    + intros m qs H1 H2. cbn in H1. apply R4; [tauto|]. apply (put_names n ps (c_list s)); auto. right. split; auto.
    + rewrite R5. destruct sims as [|[a b] sims]; [reflexivity|]. cbn [map snd]. rewrite last_cons.
      exact (last_either (map snd sims) b _ _).
Qed.

Lemma own_none c : no_own_traits c -> class_own_traits c None = [].
Proof.
  intros H. destruct (class_own_traits c None) as [|[n t] l] eqn:E; auto. exfalso.
  assert (I : In (n, t) (class_own_traits c None)) by (rewrite E; now left). apply own_traits_iff in I as [I _]. now apply (H n t).
Qed.
Lemma own_some c n t : own_trait c n t -> class_own_traits c None <> [].
Proof. intros H E. assert (I : In (n, t) (class_own_traits c None)) by (apply own_traits_iff; auto). rewrite E in I. contradiction. Qed.
Lemma import_ok fs : importable fs -> forall d, exists sims, import_from d fs = Ok sims.
Proof.
  induction fs as [|f fs IH]; intros H d; cbn; [eauto|]. assert (H' : importable fs) by (intros g I; apply H; now right).
  destruct (String.eqb_spec (extension f) ".py"); [|now apply IH]. unfold import_subclasses.
  destruct (H f (or_introl eq_refl) e) as (vars & ->). cbn [rbind]. now apply IH.
Qed.
Section Commands.
  Variable fs : list file.
  Hypothesis O : Forall one_each fs.

  Lemma commands_inv s : simulation_commands fs = Ok s -> exists sims, import_simulations fs = Ok sims /\ make_commands (Commands [] None) sims = Ok s.
  Proof. unfold simulation_commands. destruct (import_simulations fs) as [sims|]; cbn; [eauto|discriminate]. Qed.
  Lemma commands_listed s : simulation_commands fs = Ok s -> forall n, In n (map fst (c_list s)) <-> exists c, means fs n c.
  Proof.
    intros E n. apply commands_inv in E as (sims & I & E). destruct (import_means fs sims O I) as [N M].
    destruct (make_commands_inv sims (Commands [] None) s N (NoDup_nil _) E) as (_ & H & _). rewrite H. cbn. split.
    - intros [[]|H1]. apply in_map_iff in H1 as ([m c] & <- & H1). exists c. now apply M.
    - intros (c & H1). right. apply M in H1. now apply (in_map fst) in H1.
  Qed.
  Lemma call_means s n c : simulation_commands fs = Ok s -> means fs n c -> exists ps,
    get n (c_list s) = Some ps /\ Forall2 (fun e o => trait_to_option (fst e) (ATrait (snd e)) = Ok o) (class_own_traits c None) ps.
  Proof.
    intros E Mn. apply commands_inv in E as (sims & I & E). destruct (import_means fs sims O I) as [N M].
    destruct (make_commands_inv sims (Commands [] None) s N (NoDup_nil _) E) as (_ & _ & H & _). apply M in Mn. destruct (H n c Mn) as (ps & H1 & H2).
    exists ps. split; auto. now apply all_ok_iff.
  Qed.
  Lemma cell_means s n c : simulation_commands fs = Ok s -> means fs n c -> exists d m, c_cell s = Some d /\ means fs m d.
  Proof.
    intros E Mn. apply commands_inv in E as (sims & I & E). destruct (import_means fs sims O I) as [N M].
    destruct (make_commands_inv sims (Commands [] None) s N (NoDup_nil _) E) as (_ & _ & _ & _ & H). apply M in Mn.
    assert (Q : forall l : list (string * cls), l <> [] -> exists m d, In (m, d) l /\ last (map Some (map snd l)) None = Some d).
    { induction l as [|[m d] l IH]; [congruence|intros _]. destruct l as [|[m' d'] l]; [exists m, d; split; [now left|reflexivity]|].
      destruct IH as (m1 & d1 & I1 & L1); [discriminate|]. exists m1, d1. split; [now right|]. cbn [map snd] in *. now rewrite last_cons. }
    destruct (Q sims) as (m & d & I1 & L1). { intros ->. contradiction. }
    exists d, m. rewrite H, L1. split; auto. now apply M.
  Qed.
  Lemma script_options s n c nm t : simulation_commands fs = Ok s -> means fs n c -> own_trait c nm t -> script fs n = Err TypeError.
  Proof.
    intros E Mn T. unfold script. rewrite E. cbn [rbind]. destruct (call_means s n c E Mn) as (ps & G & F). unfold call_command. rewrite G.
    apply own_some in T. destruct F; [congruence|reflexivity].
  Qed.
  Lemma script_plain s n c : simulation_commands fs = Ok s -> means fs n c -> no_own_traits c -> exists d, c_cell s = Some d /\ script fs n = Ok d.
  Proof.
    intros E Mn T. unfold script. rewrite E. cbn [rbind]. destruct (call_means s n c E Mn) as (ps & G & F). unfold call_command. rewrite G.
    rewrite (own_none c T) in F. inversion F; subst. destruct (cell_means s n c E Mn) as (d & m & -> & _). eauto.
  Qed.
  Lemma script_last s : simulation_commands fs = Ok s -> (exists n c, means fs n c) ->
    exists d m, means fs m d /\ forall n c, means fs n c -> no_own_traits c -> script fs n = Ok d.
  Proof.
    intros E (n & c & Mn). destruct (cell_means s n c E Mn) as (d & m & D & Md). exists d, m. split; auto.
    intros n' c' Mn' T. destruct (script_plain s n' c' E Mn' T) as (d' & D' & S). congruence.
  Qed.
  Lemma make_commands_ok sims : (forall n c, In (n, c) sims -> no_own_traits c) -> forall s, exists r, make_commands s sims = Ok r.
  Proof.
    induction sims as [|[n c] sims IH]; intros H s; cbn; [eauto|]. rewrite (own_none c) by (apply (H n); now left). cbn.
    apply IH. intros m d I. apply (H m). now right.
  Qed.
  Lemma script_single n c : importable fs -> means fs n c -> (forall m d, means fs m d -> d = c) -> no_own_traits c -> script fs n = Ok c.
  Proof.
    intros Im Mn U T. destruct (import_ok fs Im []) as (sims & I). destruct (import_means fs sims O I) as [N M].
    destruct (make_commands_ok sims) with (s := Commands [] None) as (s & E).
    { intros m d Hd. apply M, U in Hd. now subst. }
    assert (E' : simulation_commands fs = Ok s) by (unfold simulation_commands, import_simulations; rewrite I; exact E).
    destruct (script_plain s n c E' Mn T) as (d & D & S). destruct (cell_means s n c E' Mn) as (d' & m & D' & Md). rewrite S.
    f_equal. apply (U m). congruence.
  Qed.
  Lemma make_commands_fail sims n c e t nm : In (n, c) sims -> own_trait c nm t -> trait_to_option nm (ATrait t) = Err e ->
    forall s, exists e', make_commands s sims = Err e'.
  Proof.
    intros I T B. induction sims as [|[m d] sims IH]; [contradiction|]. intros s. cbn [make_commands].
    destruct (all_ok _ _) as [ps|e'] eqn:A; cbn [rbind]; [|eauto]. destruct I as [[= -> ->]|I]; [|now apply IH].
    exfalso. apply all_ok_iff in A.
    assert (J : In (nm, t) (class_own_traits c None)) by (apply own_traits_iff; auto).
    clear -A J B. induction A as [|[a b] y l r H _ IH]; [contradiction|]. destruct J as [[= -> ->]|J]; auto. cbn [fst snd] in H. rewrite B in H. discriminate.
  Qed.
  Lemma script_bad_trait n c nm t e m : importable fs -> means fs n c -> own_trait c nm t -> trait_to_option nm (ATrait t) = Err e ->
    exists e', script fs m = Err e'.
  Proof.
    intros Im Mn T B. destruct (import_ok fs Im []) as (sims & I). destruct (import_means fs sims O I) as [N M]. apply M in Mn.
    unfold script, simulation_commands, import_simulations. rewrite I. cbn [rbind].
    destruct (make_commands_fail sims n c e t nm Mn T B (Commands [] None)) as (e' & ->). cbn. eauto.
  Qed.
End Commands.

(** ** Plots *)
Open Scope R_scope.
Lemma set_aspect_ok pw ph x y aspect margin : 0 < pw -> 0 < ph -> 0 < aspect -> 0 <= margin -> x <> [] -> y <> [] ->
  exists xa xb ya yb, set_aspect pw ph x y aspect margin = Ok ((xa, xb), (ya, yb)) /\
    (forall v, In v x -> xa <= v <= xb) /\ (forall v, In v y -> ya <= v <= yb) /\
    xa < xb /\ ya < yb /\ ((xb - xa) / pw) / ((yb - ya) / ph) = aspect /\
    (forall v w, In v x -> In w x -> (v - w) * (1 + 2 * margin) <= xb - xa) /\
    (forall v w, In v y -> In w y -> (v - w) * (1 + 2 * margin) <= yb - ya).
Proof.
  intros Hw Hh Ha Hm Nx Ny. unfold set_aspect.
  destruct (rmin x) as [xmin|] eqn:E1; [|destruct x; [congruence|discriminate]]. destruct (rmax x) as [xmax|] eqn:E2; [|destruct x; [congruence|discriminate]].
  destruct (rmin y) as [ymin|] eqn:E3; [|destruct y; [congruence|discriminate]]. destruct (rmax y) as [ymax|] eqn:E4; [|destruct y; [congruence|discriminate]].
  apply rmin_inv in E1 as [I1 L1]. apply rmax_inv in E2 as [I2 L2]. apply rmin_inv in E3 as [I3 L3]. apply rmax_inv in E4 as [I4 L4].
  pose proof (L1 _ I2) as X. pose proof (L3 _ I4) as Y. cbn [rbind]. rdec.
  set (dx := xmax - xmin). set (dy := ymax - ymin). assert (Dx : 0 <= dx) by (unfold dx; lra). assert (Dy : 0 <= dy) by (unfold dy; lra).
  set (w := if Rleb (dx * (1 + 2 * margin)) 0 then 1 else dx * (1 + 2 * margin)).
  set (h := if Rleb (dy * (1 + 2 * margin)) 0 then 1 else dy * (1 + 2 * margin)).
  assert (W : 0 < w /\ dx * (1 + 2 * margin) <= w) by (unfold w; rcase; lra).
  assert (Hh' : 0 < h /\ dy * (1 + 2 * margin) <= h) by (unfold h; rcase; lra).
  assert (Wd : dx <= dx * (1 + 2 * margin)) by nra. assert (Hd : dy <= dy * (1 + 2 * margin)) by nra.
  set (r := aspect * (pw / ph)). assert (R0 : 0 < r) by (apply Rmult_lt_0_compat; auto; now apply Rdiv_lt_0_compat).
  assert (K : exists w' h', (if Rltb w (r * h) then Ok (r * h, h) else if Reqb r 0 then Err ZeroDivisionError else Ok (w, w / r)) = Ok (w', h') /\
     w <= w' /\ h <= h' /\ w' = r * h').
  { destruct (Rltb_spec w (r * h)).
    - exists (r * h), h. repeat split; lra.
    - rdec. exists w, (w / r). split; auto. split; [lra|]. assert (w = r * (w / r)) by (field; lra). split; auto.
      apply Rmult_le_reg_l with r; auto. lra. }
  destruct K as (w' & h' & -> & Kw & Kh & Kr). cbn [rbind].
  do 4 eexists. split; [reflexivity|].
  assert (Bx : forall v, In v x -> xmin <= v <= xmax) by (intros v Hv; split; auto).
  assert (By : forall v, In v y -> ymin <= v <= ymax) by (intros v Hv; split; auto).
  unfold dx, dy in *.
  split. { intros v Hv. specialize (Bx v Hv). lra. } split. { intros v Hv. specialize (By v Hv). lra. }
  split; [lra|]. split; [lra|]. split.
  - replace (1 / 2 * (xmax + xmin) + 1 / 2 * w' - (1 / 2 * (xmax + xmin) - 1 / 2 * w')) with w' by lra.
    replace (1 / 2 * (ymax + ymin) + 1 / 2 * h' - (1 / 2 * (ymax + ymin) - 1 / 2 * h')) with h' by lra.
    rewrite Kr. unfold r. field. repeat split; lra.
  - split; intros v u Hv Hu.
    + pose proof (Bx v Hv). pose proof (Bx u Hu). assert ((v - u) * (1 + 2 * margin) <= (xmax - xmin) * (1 + 2 * margin)) by nra. lra.
    + pose proof (By v Hv). pose proof (By u Hu). assert ((v - u) * (1 + 2 * margin) <= (ymax - ymin) * (1 + 2 * margin)) by nra. lra.
Qed.

(** ** Working directory *)
Section Place.
  Variables (path S name : Type) (resolve : path -> name -> path).
  Notation place := (place path S).
  Lemma remember_inv directory (body : place -> place * option exn) s s' e :
    exists_ _ _ s (cwd _ _ s) = true -> remember_cwd path S name resolve directory body s = (s', e) ->
    let target := resolve (cwd _ _ s) directory in
    let inner := if exists_ _ _ s target then body (Place _ _ target (exists_ _ _ s) (other _ _ s)) else (s, Some (OtherError 2)) in
    exists_ _ _ s' = exists_ _ _ (fst inner) /\ other _ _ s' = other _ _ (fst inner) /\
    if exists_ _ _ (fst inner) (cwd _ _ s) then cwd _ _ s' = cwd _ _ s /\ e = snd inner
    else cwd _ _ s' = cwd _ _ (fst inner) /\ e = Some (OtherError 2).
  Proof.
    intros X. unfold remember_cwd, getcwd. rewrite X. cbn zeta. unfold chdir.
    destruct (exists_ _ _ s (resolve (cwd _ _ s) directory)).
    - destruct (body _) as [s1 e1]. cbn [fst snd]. destruct (exists_ _ _ s1 (cwd _ _ s)) eqn:Y; intros [= <- <-]; cbn; auto.
    - cbn [fst snd]. rewrite X. intros [= <- <-]; cbn; auto.
  Qed.
End Place.
