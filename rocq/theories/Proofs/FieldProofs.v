(** * Proofs about fields *)
From Coq Require Import Lra Lia.
From Verif Require Import Model.Field Spec.Regions Spec.Fields Proofs.VecLemmas Proofs.SamplingProofs.
Open Scope R_scope.

Section CachedProofs.
  Context {K D St : Type}.
  Variable eqb : K -> K -> bool.
  Variable get : St -> list (K * D).
  Variable put : St -> list (K * D) -> St.

  Lemma lookup_some : forall k (c : list (K * D)) e, lookup eqb k c = Some e -> In e c /\ eqb (fst e) k = true.
  Proof. intros k c e H. apply find_some in H. exact H. Qed.

  Lemma cached_spec (Inv : St -> Prop) (E : K -> D -> Prop) (Q : res D -> Prop) call k s :
    (forall s c, Inv s -> (forall e, In e c -> E (fst e) (snd e)) -> Inv (put s c)) ->
    (forall s, Inv s -> forall e, In e (get s) -> E (fst e) (snd e)) ->
    (forall s, Inv s -> Inv (fst (call s)) /\ Q (snd (call s))) ->
    (forall v, Q (Ok v) -> E k v) ->
    (forall k' v, E k' v -> eqb k' k = true -> Q (Ok v)) ->
    Inv s -> Inv (fst (cached eqb get put call k s)) /\ Q (snd (cached eqb get put call k s)).
  Proof.
    intros Hput Hget Hcall HQE HEQ I. unfold cached.
    destruct (lookup eqb k (get s)) as [e|] eqn:L; cbn.
    - pose proof (lookup_some _ _ _ L) as (Ine & Eq). split.
      + apply Hput; auto. intros e' He'. unfold touch in He'. rewrite L in He'.
        destruct He' as [<-|He']; [now apply Hget with s|].
        apply filter_In in He' as [He' _]. now apply Hget with s.
      + apply (HEQ (fst e)); auto. now apply Hget with s.
    - specialize (Hcall s I). destruct (call s) as [s' r]; cbn in Hcall. destruct Hcall as [I' Q'].
      destruct r as [v|x]; cbn; [|now split]. split; auto.
      apply Hput; auto. intros e He. unfold store in He.
      assert (He' : In e ((k, v) :: get s')).
      { rewrite <- (firstn_skipn maxsize). apply in_or_app. now left. }
      destruct He' as [<-|He']; cbn; [now apply HQE|now apply Hget with s'].
  Qed.

  (** After an answer, the same key is found again. *)
  Lemma cached_remembers call k s s' v :
    (forall s c, get (put s c) = c) -> eqb k k = true ->
    cached eqb get put call k s = (s', Ok v) ->
    exists e, lookup eqb k (get s') = Some e /\ snd e = v.
  Proof.
    intros GP Rf. unfold cached.
    destruct (lookup eqb k (get s)) as [e|] eqn:L.
    - intros [= <- <-]. exists e. rewrite GP. unfold touch. rewrite L.
      apply lookup_some in L as [_ L]. unfold lookup. cbn. rewrite L. now split.
    - destruct (call s) as [s1 r]. destruct r as [w|x]; [|discriminate].
      intros [= <- <-]. exists (k, w). rewrite GP. unfold store, maxsize, lookup. cbn. rewrite Rf. now split.
  Qed.

  (** A value that is found is the answer, whatever the method would compute. *)
  Lemma cached_hit call k s e : lookup eqb k (get s) = Some e -> snd (cached eqb get put call k s) = Ok (snd e).
  Proof. intros L. unfold cached. now rewrite L. Qed.
End CachedProofs.

Lemma Reqb_refl : forall x, Reqb x x = true.
Proof. intros. now apply Reqb_true. Qed.

Lemma index_eqb_refl : forall i, index_eqb i i = true.
Proof. destruct i; cbn; [apply Z.eqb_refl|apply Reqb_refl|apply String.eqb_refl]. Qed.

Lemma index_eqb_trans : forall a b c, index_eqb a b = true -> index_eqb b c = true -> index_eqb a c = true.
Proof.
  intros [x|x|x] [y|y|y] [z|z|z]; cbn; try discriminate;
    rewrite ?Z.eqb_eq, ?Reqb_true, ?String.eqb_eq; intros; subst; auto.
  - now apply eq_IZR.
Qed.

Lemma whole_eqb : forall i j, whole i -> whole j -> index_eqb i j = true -> i = j.
Proof.
  intros [x|x|x] [y|y|y]; cbn; try tauto; try discriminate.
  - rewrite Z.eqb_eq. now intros _ _ ->.
  - rewrite String.eqb_eq. now intros _ _ ->.
Qed.

Section Caches.
  Variable G : Type.
  Variable join : G -> G -> G.
  Variable bounds : G -> R * R * R * R.
  Variable solve_path : mesh -> option G -> G -> G -> R -> res maps.
  Variable solve_obstacles : mesh -> option G -> res maps.
  Notation field := (field G).
  Notation world := (world G).
  Notation ask_mesh := (ask_mesh G bounds).
  Notation ask_path := (ask_path G join bounds solve_path).
  Notation ask_obstacles := (ask_obstacles G bounds solve_obstacles).
  Notation ask_navigation := (ask_navigation G join bounds solve_path solve_obstacles).
  Notation ask := (ask G join bounds solve_path solve_obstacles).
  Notation after := (after G join bounds solve_path solve_obstacles).
  Notation happen := (happen G join bounds solve_path solve_obstacles).

  (** The answers a field has by itself. *)
  Definition mesh_now (f : field) (step : R) : res mesh :=
    match f_domain f with
    | None => Err CrowdDynamicsException
    | Some d => let '(minx, miny, maxx, maxy) := bounds d in meshgrid step minx miny maxx maxy
    end.
  Definition path_now (f : field) (step : R) (i : index) (radius : R) : res maps :=
    do t <- chosen_targets G join f i;
    do m <- mesh_now f step;
    shortest_path G solve_path m (f_domain f) t (f_obstacles f) radius.
  Definition obstacles_now (f : field) (step : R) : res maps :=
    do m <- mesh_now f step; solve_obstacles m (f_obstacles f).
  Definition navigation_now (f : field) (i : index) (step radius strength : R) : res nav_result :=
    match f_targets f with
    | [] => Err CrowdDynamicsException
    | _ =>
      do t <- path_now f step i radius;
      do b <- obstacles_now f step;
      do m <- mesh_now f step;
      Ok (m, snd t, obstacle_handling (snd b) (fst b) (fst t) radius strength)
    end.

  Section Object.
    Variable o : nat.
    Variable f : field.
    Definition E_mesh (k : nat * R) (m : mesh) : Prop := fst k = o -> mesh_now f (snd k) = Ok m.
    Definition E_path (k : nat * (R * index * R)) (m : maps) : Prop :=
      fst k = o -> let '(s, i, r) := snd k in
      forall j, whole j -> index_eqb i j = true -> path_now f s j r = Ok m.
    Definition E_obs (k : nat * R) (m : maps) : Prop := fst k = o -> obstacles_now f (snd k) = Ok m.
    Definition E_nav (k : nat * (index * R * R * R)) (n : nav_result) : Prop :=
      fst k = o -> let '(i, s, r, h) := snd k in
      forall j, whole j -> index_eqb i j = true -> navigation_now f j s r h = Ok n.
    Definition Inv (w : world) : Prop :=
      fields G w o = f /\
      (forall e, In e (c_mesh G w) -> E_mesh (fst e) (snd e)) /\
      (forall e, In e (c_path G w) -> E_path (fst e) (snd e)) /\
      (forall e, In e (c_obstacles G w) -> E_obs (fst e) (snd e)) /\
      (forall e, In e (c_navigation G w) -> E_nav (fst e) (snd e)).

    Lemma ask_mesh_inv : forall p step w, Inv w ->
      Inv (fst (ask_mesh p step w)) /\ (p = o -> snd (ask_mesh p step w) = mesh_now f step).
    Proof.
      intros p step w I. unfold Field.ask_mesh.
      apply (cached_spec (key_eqb Reqb) (c_mesh G) (put_mesh G) Inv E_mesh (fun r => p = o -> r = mesh_now f step)); auto.
      - intros s c (A & B & C & D & E) H. unfold Inv. cbn. auto.
      - intros s (A & B & C). exact B.
      - intros s I'. unfold mesh_body. destruct (f_domain (fields G s p)) as [d|] eqn:Fd.
        + destruct (bounds d) as [[[a b] c] e] eqn:Bd. cbn. split; auto. intros ->.
          destruct I' as (I' & _). unfold mesh_now. rewrite <- I', Fd, Bd. reflexivity.
        + cbn. split; auto. intros ->. destruct I' as (I' & _). unfold mesh_now. now rewrite <- I', Fd.
      - intros v H P. cbn in *. symmetry. auto.
      - intros [p' s'] v H Eq P. unfold key_eqb in Eq. cbn in Eq.
        apply andb_prop in Eq as [E1 E2]. apply Nat.eqb_eq in E1. apply Reqb_true in E2. subst.
        symmetry. now apply H.
    Qed.

    Lemma ask_obstacles_inv : forall p step w, Inv w ->
      Inv (fst (ask_obstacles p step w)) /\ (p = o -> snd (ask_obstacles p step w) = obstacles_now f step).
    Proof.
      intros p step w I. unfold Field.ask_obstacles.
      apply (cached_spec (key_eqb Reqb) (c_obstacles G) (put_obstacles G) Inv E_obs (fun r => p = o -> r = obstacles_now f step)); auto.
      - intros s c (A & B & C & D & E) H. unfold Inv. cbn. auto.
      - intros s (A & B & C & D & E). exact D.
      - intros s I'. unfold obstacles_body, sbind.
        destruct (ask_mesh_inv p step s I') as (I1 & Q1). destruct (ask_mesh p step s) as [s1 r1]; cbn in *.
        destruct r1 as [m|x]; cbn; split; auto; intros ->; specialize (Q1 eq_refl); unfold obstacles_now; rewrite <- Q1; cbn.
        + destruct I1 as (I1 & _). now rewrite I1.
        + reflexivity.
      - intros v H P. cbn in *. symmetry. auto.
      - intros [p' s'] v H Eq P. unfold key_eqb in Eq. cbn in Eq.
        apply andb_prop in Eq as [E1 E2]. apply Nat.eqb_eq in E1. apply Reqb_true in E2. subst.
        symmetry. now apply H.
    Qed.

    Definition Q_path p step i radius (r : res maps) : Prop :=
      p = o -> (whole i -> r = path_now f step i radius) /\
        forall v, r = Ok v -> forall j, whole j -> index_eqb i j = true -> path_now f step j radius = Ok v.

    Lemma ask_path_inv : forall p step i radius w, Inv w ->
      Inv (fst (ask_path p step i radius w)) /\ Q_path p step i radius (snd (ask_path p step i radius w)).
    Proof.
      intros p step i radius w I. unfold Field.ask_path.
      apply (cached_spec (key_eqb path_args_eqb) (c_path G) (put_path G) Inv E_path (Q_path p step i radius)); auto.
      - intros s c (A & B & C & D & E) H. unfold Inv. cbn. auto.
      - intros s (A & B & C & D & E). exact C.
      - intros s I'.
        assert (X : Inv (fst (path_body G join bounds solve_path p step i radius s)) /\
                    (p = o -> snd (path_body G join bounds solve_path p step i radius s) = path_now f step i radius)).
        { unfold path_body.
          destruct (chosen_targets G join (fields G s p) i) as [t|x] eqn:Ct.
          - unfold sbind. destruct (ask_mesh_inv p step s I') as (I1 & Q1).
            destruct (ask_mesh p step s) as [s1 r1]; cbn in *.
            destruct r1 as [m|x]; cbn; split; auto; intros ->; specialize (Q1 eq_refl);
              destruct I' as (I' & _); rewrite I' in Ct; unfold path_now; rewrite Ct; cbn; rewrite <- Q1; cbn.
            + destruct I1 as (I1 & _). now rewrite I1.
            + reflexivity.
          - cbn. split; auto. intros ->. destruct I' as (I' & _). rewrite I' in Ct. unfold path_now. now rewrite Ct. }
        destruct X as (X1 & X2). split; auto. intros P. specialize (X2 P). split; auto.
        intros v Hv j Wj Ej. rewrite X2 in Hv.
        destruct i as [z|x|s0]; [| |].
        + assert (Int z = j) as <- by (apply whole_eqb; cbn; auto). exact Hv.
        + discriminate Hv.
        + assert (Word s0 = j) as <- by (apply whole_eqb; cbn; auto). exact Hv.
      - intros v H P. destruct (H P) as (_ & H2). cbn. now apply H2.
      - intros [p' [[s' i'] r']] v H Eq P. unfold key_eqb in Eq. cbn in Eq.
        apply andb_prop in Eq as [E1 E2]. apply andb_prop in E2 as [E2 E4]. apply andb_prop in E2 as [E2 E3].
        apply Nat.eqb_eq in E1. apply Reqb_true in E2, E4. subst. cbn in H. specialize (H eq_refl).
        split.
        + intros Wi. symmetry. now apply H.
        + intros v' [= <-] j Wj Ej. apply H; auto. now apply index_eqb_trans with i.
    Qed.

    Definition Q_nav p i step radius strength (r : res nav_result) : Prop :=
      p = o -> (whole i -> r = navigation_now f i step radius strength) /\
        forall v, r = Ok v -> forall j, whole j -> index_eqb i j = true -> navigation_now f j step radius strength = Ok v.

    Lemma ask_navigation_inv : forall p i step radius strength w, Inv w ->
      Inv (fst (ask_navigation p i step radius strength w)) /\
      Q_nav p i step radius strength (snd (ask_navigation p i step radius strength w)).
    Proof.
      intros p i step radius strength w I. unfold Field.ask_navigation.
      apply (cached_spec (key_eqb nav_args_eqb) (c_navigation G) (put_navigation G) Inv E_nav (Q_nav p i step radius strength)); auto.
      - intros s c (A & B & C & D & E) H. unfold Inv. cbn. auto.
      - intros s (A & B & C & D & E). exact E.
      - intros s I'. unfold navigation_body.
        destruct (f_targets (fields G s p)) as [|t0 ts] eqn:Ft.
        { cbn. split; auto. intros ->. destruct I' as (I' & _). rewrite I' in Ft. unfold navigation_now. rewrite Ft.
          split; [reflexivity|discriminate]. }
        assert (Ft' : p = o -> exists a l, f_targets f = a :: l).
        { intros ->. destruct I' as (I' & _). rewrite I' in Ft. eauto. }
        clear Ft. unfold sbind.
        destruct (ask_path_inv p step i radius s I') as (I1 & Q1).
        destruct (ask_path p step i radius s) as [s1 r1]; cbn in I1, Q1.
        destruct r1 as [t|x].
        2:{ cbn. split; auto. intros P. destruct (Ft' P) as (a & l & Fe). specialize (Q1 P). destruct Q1 as (Q1 & _).
            unfold navigation_now. rewrite Fe. split; [|discriminate]. intros W. rewrite <- Q1; auto. }
        destruct (ask_obstacles_inv p step s1 I1) as (I2 & Q2).
        destruct (ask_obstacles p step s1) as [s2 r2]; cbn in I2, Q2.
        destruct r2 as [b|x].
        2:{ cbn. split; auto. intros P. destruct (Ft' P) as (a & l & Fe). specialize (Q1 P). destruct Q1 as (Q1 & _).
            unfold navigation_now. rewrite Fe. split; [|discriminate]. intros W. rewrite <- Q1, <- Q2; auto. }
        destruct (ask_mesh_inv p step s2 I2) as (I3 & Q3).
        destruct (ask_mesh p step s2) as [s3 r3]; cbn in I3, Q3.
        destruct r3 as [m|x].
        2:{ cbn. split; auto. intros P. destruct (Ft' P) as (a & l & Fe). specialize (Q1 P). destruct Q1 as (Q1 & _).
            unfold navigation_now. rewrite Fe. split; [|discriminate]. intros W. rewrite <- Q1, <- Q2, <- Q3; auto. }
        cbn. split; auto. intros P. destruct (Ft' P) as (a & l & Fe). specialize (Q1 P). destruct Q1 as (Q1 & Q1').
        unfold navigation_now. rewrite Fe. split.
        + intros W. rewrite <- Q1, <- Q2, <- Q3; auto.
        + intros v [= <-] j Wj Ej. rewrite (Q1' t eq_refl j Wj Ej). cbn. rewrite <- Q2, <- Q3; auto.
      - intros v H P. destruct (H P) as (_ & H2). cbn. now apply H2.
      - intros [p' [[[i' s'] r'] h']] v H Eq P. unfold key_eqb in Eq. cbn in Eq.
        apply andb_prop in Eq as [E1 E2]. apply andb_prop in E2 as [E2 E5]. apply andb_prop in E2 as [E2 E4].
        apply andb_prop in E2 as [E2 E3].
        apply Nat.eqb_eq in E1. apply Reqb_true in E3, E4, E5. subst. cbn in H. specialize (H eq_refl).
        split.
        + intros Wi. symmetry. now apply H.
        + intros v' [= <-] j Wj Ej. apply H; auto. now apply index_eqb_trans with i.
    Qed.

    Definition now (q : query) : res answer :=
      match q with
      | QMesh s => match mesh_now f s with Ok m => Ok (AMesh m) | Err e => Err e end
      | QPath s i r => match path_now f s i r with Ok m => Ok (APath m) | Err e => Err e end
      | QObstacles s => match obstacles_now f s with Ok m => Ok (AObstacles m) | Err e => Err e end
      | QNavigation i s r h => match navigation_now f i s r h with Ok n => Ok (ANavigation n) | Err e => Err e end
      end.
    Lemma ask_inv : forall p q w, Inv w -> Inv (fst (ask w p q)).
    Proof.
      intros p [s|s i r|s|i s r h] w I; cbn.
      - now apply ask_mesh_inv.
      - now apply ask_path_inv.
      - now apply ask_obstacles_inv.
      - now apply ask_navigation_inv.
    Qed.
    Lemma ask_now : forall q w, Inv w -> whole_query q -> snd (ask w o q) = now q.
    Proof.
      intros [s|s i r|s|i s r h] w I W; cbn in W |- *.
      - destruct (ask_mesh_inv o s w I) as (_ & ->); auto.
      - destruct (ask_path_inv o s i r w I) as (_ & H). destruct (H eq_refl) as (-> & _); auto.
      - destruct (ask_obstacles_inv o s w I) as (_ & ->); auto.
      - destruct (ask_navigation_inv o i s r h w I) as (_ & H). destruct (H eq_refl) as (-> & _); auto.
    Qed.
    Lemma after_inv : forall h w, (forall f', ~ In (Assign G o f') h) -> Inv w -> Inv (after h w).
    Proof.
      induction h as [|e h IH]; intros w N I; cbn; auto.
      apply IH. { intros f' C. apply (N f'). now right. }
      destruct e as [p q|p f']; cbn; [now apply ask_inv|].
      assert (o <> p) by (intros ->; apply (N f'); now left).
      destruct I as (A & B). split; cbn; [|exact B].
      replace (Nat.eqb o p) with false by (symmetry; now apply Nat.eqb_neq). exact A.
    Qed.
  End Object.

  (** Nothing is stored for an object that was not asked. *)
  Definition clear_of (o : nat) (w : world) : Prop :=
    (forall e, In e (c_mesh G w) -> fst (fst e) <> o) /\
    (forall e, In e (c_path G w) -> fst (fst e) <> o) /\
    (forall e, In e (c_obstacles G w) -> fst (fst e) <> o) /\
    (forall e, In e (c_navigation G w) -> fst (fst e) <> o).

  Lemma clear_step : forall {K D} (eqb : K -> K -> bool) (get : world -> list ((nat * K) * D)) put call o p k w,
    p <> o ->
    (forall s c, clear_of o s -> (forall e, In e c -> fst (fst e) <> o) -> clear_of o (put s c)) ->
    (forall s, clear_of o s -> forall e, In e (get s) -> fst (fst e) <> o) ->
    (forall s, clear_of o s -> clear_of o (fst (call s))) ->
    clear_of o w -> clear_of o (fst (cached (key_eqb eqb) get put call (p, k) w)).
  Proof.
    intros K D eqb get put call o p k w N Hp Hg Hc I.
    apply (cached_spec (key_eqb eqb) get put (clear_of o) (fun k _ => fst k <> o) (fun _ => True) call (p, k) w); auto.
  Qed.

  Lemma clear_mesh : forall o p s w, p <> o -> clear_of o w -> clear_of o (fst (ask_mesh p s w)).
  Proof.
    intros o p s w N. apply clear_step; auto.
    - intros s' c (A & B & C & D) H. repeat split; cbn; auto.
    - intros s' (A & B & C & D). exact A.
    - intros s' I. unfold mesh_body. destruct (f_domain _) as [d|]; auto. now destruct (bounds d) as [[[? ?] ?] ?].
  Qed.
  Lemma clear_path : forall o p s i r w, p <> o -> clear_of o w -> clear_of o (fst (ask_path p s i r w)).
  Proof.
    intros o p s i r w N. apply clear_step; auto.
    - intros s' c (A & B & C & D) H. repeat split; cbn; auto.
    - intros s' (A & B & C & D). exact B.
    - intros s' I. unfold path_body. destruct (chosen_targets _ _ _ _); auto. unfold sbind.
      pose proof (clear_mesh o p s s' N I). destruct (ask_mesh p s s') as [s1 [?|?]]; auto.
  Qed.
  Lemma clear_obstacles : forall o p s w, p <> o -> clear_of o w -> clear_of o (fst (ask_obstacles p s w)).
  Proof.
    intros o p s w N. apply clear_step; auto.
    - intros s' c (A & B & C & D) H. repeat split; cbn; auto.
    - intros s' (A & B & C & D). exact C.
    - intros s' I. unfold obstacles_body, sbind.
      pose proof (clear_mesh o p s s' N I). destruct (ask_mesh p s s') as [s1 [?|?]]; auto.
  Qed.
  Lemma clear_navigation : forall o p i s r h w, p <> o -> clear_of o w -> clear_of o (fst (ask_navigation p i s r h w)).
  Proof.
    intros o p i s r h w N. apply clear_step; auto.
    - intros s' c (A & B & C & D) H. repeat split; cbn; auto.
    - intros s' (A & B & C & D). exact D.
    - intros s' I. unfold navigation_body. destruct (f_targets _); auto. unfold sbind.
      pose proof (clear_path o p s i r s' N I) as P1. destruct (ask_path p s i r s') as [s1 [?|?]]; auto.
      pose proof (clear_obstacles o p s s1 N P1) as P2. destruct (ask_obstacles p s s1) as [s2 [?|?]]; auto.
      pose proof (clear_mesh o p s s2 N P2) as P3. destruct (ask_mesh p s s2) as [s3 [?|?]]; auto.
  Qed.
  Lemma clear_after : forall o h w, (forall q, ~ In (Ask G o q) h) -> clear_of o w -> clear_of o (after h w).
  Proof.
    intros o. induction h as [|e h IH]; intros w N C; cbn; auto.
    apply IH. { intros q H. apply (N q). now right. }
    destruct e as [p q|p f]; cbn.
    - assert (p <> o) by (intros ->; apply (N q); now left).
      destruct q; cbn; [apply clear_mesh|apply clear_path|apply clear_obstacles|apply clear_navigation]; auto.
    - exact C.
  Qed.
  Lemma clear_inv : forall o w, clear_of o w -> Inv o (fields G w o) w.
  Proof.
    intros o w (A & B & C & D). repeat split; intros e H P.
    - now elim (A _ H).
    - now elim (B _ H).
    - now elim (C _ H).
    - now elim (D _ H).
  Qed.
  Lemma clear_unasked : forall o fs, clear_of o (unasked G fs).
  Proof. intros o fs. repeat split; intros e []. Qed.

  (** The answer is that of the field as it is now when it was not changed since it was
      first asked. *)
  Lemma answers_for_now : forall fs h1 h2 o q,
    (forall q, ~ In (Ask G o q) h1) -> (forall f, ~ In (Assign G o f) h2) -> whole_query q ->
    let w := after (h1 ++ h2) (unasked G fs) in
    snd (ask w o q) = snd (ask (unasked G (fields G w)) o q).
  Proof.
    intros fs h1 h2 o q H1 H2 W w.
    assert (C : clear_of o (after h1 (unasked G fs))) by (apply clear_after; auto; apply clear_unasked).
    apply clear_inv in C. apply (after_inv _ _ h2) in C; auto.
    assert (Ew : after h2 (after h1 (unasked G fs)) = w).
    { unfold w, Field.after. now rewrite fold_left_app. }
    rewrite Ew in C. rewrite (ask_now o _ q w C W).
    symmetry. apply ask_now; auto.
    destruct C as (C & _). rewrite <- C. apply (clear_inv o (unasked G (fields G w))). apply clear_unasked.
  Qed.

  Lemma give_ok : forall {A} (c : A -> answer) (x : world * res A) w' a,
    give G c x = (w', Ok a) -> exists v, x = (w', Ok v) /\ a = c v.
  Proof. intros A c [w [v|e]] w' a H; inversion H; subst; eauto. Qed.

  Lemma key_refl : forall {K} (eqb : K -> K -> bool) p k, eqb k k = true -> key_eqb eqb (p, k) (p, k) = true.
  Proof. intros. unfold key_eqb. cbn. now rewrite Nat.eqb_refl. Qed.

  (** An answer given once is given again after any assignment. *)
  Lemma answers_again : forall w o q w' a f,
    ask w o q = (w', Ok a) -> snd (ask (assign G w' o f) o q) = Ok a.
  Proof.
    intros w o [s|s i r|s|i s r h] w' a f H; cbn in H; apply give_ok in H as (v & H & ->); cbn;
      unfold Field.ask_mesh, Field.ask_path, Field.ask_obstacles, Field.ask_navigation in *;
      apply cached_remembers in H as (e & L & <-);
      try (unfold key_eqb; cbn; rewrite ?Nat.eqb_refl, ?Reqb_refl, ?index_eqb_refl; reflexivity); try reflexivity;
      erewrite cached_hit by exact L; reflexivity.
  Qed.

  Lemma float_answers : forall w o z s r w' a,
    ask w o (QPath s (Int z) r) = (w', Ok a) ->
    snd (ask w' o (QPath s (Float (IZR z)) r)) = Ok a.
  Proof.
    intros w o z s r w' a H. cbn in H. apply give_ok in H as (v & H & ->). cbn.
    unfold Field.ask_path in *. apply cached_remembers in H as (e & L & <-);
      [|reflexivity|unfold key_eqb; cbn; rewrite ?Nat.eqb_refl, ?Reqb_refl, ?Z.eqb_refl; reflexivity].
    erewrite cached_hit with (e := e); [reflexivity|].
    rewrite <- L. unfold lookup. clear. induction (c_path G w') as [|x c IH]; [reflexivity|].
    cbn. rewrite IH. replace (key_eqb path_args_eqb (fst x) (o, (s, Float (IZR z), r)))
      with (key_eqb path_args_eqb (fst x) (o, (s, Int z, r))); [reflexivity|].
    destruct x as [[p [[s' i'] r']] v]. unfold key_eqb. cbn. f_equal. f_equal. f_equal.
    destruct i' as [x|x|x]; cbn; try reflexivity.
    destruct (Z.eqb_spec x z) as [->|N]; symmetry; [now apply Reqb_true|].
    apply Reqb_false. intros E. apply N. now apply eq_IZR.
  Qed.
  Lemma float_invalid : forall fs o x s r,
    snd (ask (unasked G fs) o (QPath s (Float x) r)) = Err InvalidType.
  Proof. reflexivity. Qed.
End Caches.

Section Spawns.
  Variable G : Type.
  Variable region inside : G -> vec -> Prop.
  Variable is_empty : G -> bool.
  Variable hull : G -> G.
  Variable difference : G -> G -> G.
  Variable buffer : G -> R -> G.
  Variable ring : G -> res (list vec).
  Variable delaunay : list vec -> list (nat * nat * nat).
  Hypothesis Cn : corners G region hull ring.
  Hypothesis Df : differs G region inside difference.
  Hypothesis Tr : forall g vs, ring (hull g) = Ok vs -> triangulation vs (delaunay vs).

  Definition left_over (spawn : G) (obs : option G) (radius : R) : G :=
    match obs with
    | Some o => if is_empty o then spawn else difference spawn (buffer o radius)
    | None => spawn
    end.
  Lemma samples_in : forall spawn obs radius x r1 r2 p (S : vec -> Prop),
    samples G is_empty hull difference buffer ring delaunay spawn obs radius x r1 r2 = Ok p ->
    0 <= x < 1 -> 0 <= r1 <= 1 -> 0 <= r2 <= 1 ->
    convex_set S -> (forall v, region (left_over spawn obs radius) v -> S v) -> S p.
  Proof.
    intros spawn obs radius x r1 r2 p S H X R1 R2 Cv Sub. unfold samples in H.
    change (match obs with Some o => if is_empty o then spawn else difference spawn (buffer o radius) | None => spawn end)
      with (left_over spawn obs radius) in H.
    destruct (ring (hull (left_over spawn obs radius))) as [vs|e] eqn:Rg; [|discriminate]. cbn in H.
    destruct (Tr _ _ Rg) as (T1 & T2).
    destruct (polygon_sample_spec vs _ x r1 r2 T1 T2 X R1 R2) as (i & j & k & a & b & c & p' & _ & _ & _ & _ & E & _ & Hu).
    rewrite E in H. injection H as <-. apply Hu; auto. intros v V. apply Sub. eapply Cn; eauto.
  Qed.
  Lemma left_over_in : forall spawn obs radius v, region (left_over spawn obs radius) v -> region spawn v.
  Proof.
    intros spawn [o|] radius v; cbn; auto. destruct (is_empty o); auto. intros H. now apply Df in H.
  Qed.
  Lemma left_over_out : forall spawn o radius v, is_empty o = false ->
    region (left_over spawn (Some o) radius) v -> ~ inside (buffer o radius) v.
  Proof. intros spawn o radius v E. cbn. rewrite E. intros H. now apply Df in H. Qed.
  Lemma samples_succeed : forall spawn obs radius x r1 r2 vs,
    ring (hull (left_over spawn obs radius)) = Ok vs -> 0 <= x < 1 -> 0 <= r1 <= 1 -> 0 <= r2 <= 1 ->
    exists p, samples G is_empty hull difference buffer ring delaunay spawn obs radius x r1 r2 = Ok p.
  Proof.
    intros spawn obs radius x r1 r2 vs Rg X R1 R2.
    destruct (Tr _ _ Rg) as (T1 & T2).
    destruct (polygon_sample_spec vs _ x r1 r2 T1 T2 X R1 R2) as (i & j & k & a & b & c & p' & _ & _ & _ & _ & E & _ & Hu).
    exists p'. unfold samples. change (match obs with Some o => if is_empty o then spawn else difference spawn (buffer o radius) | None => spawn end)
      with (left_over spawn obs radius). rewrite Rg. exact E.
  Qed.
End Spawns.

(** *** Convex hull *)
Section Hull.
  Variable G : Type.
  Variable region : G -> vec -> Prop.
  Variable is_empty : G -> bool.
  Variable join : G -> G -> G.
  Variable nothing : G.
  Variable hull : G -> G.
  Hypothesis Jn : joins G region join.
  Hypothesis Nt : is_nothing G region nothing.
  Hypothesis Em : tells_empty G region is_empty.
  Hypothesis Hl : hulls G region hull.

  Lemma fold_join : forall l g p, region (fold_left join l g) p <-> region g p \/ exists t, In t l /\ region t p.
  Proof.
    induction l as [|t l IH]; intros g p; cbn.
    - split; [auto|]. intros [?|(t & [] & _)]; auto.
    - rewrite IH, (Jn g t p). split.
      + intros [[?|?]|(u & I & ?)]; eauto 6.
      + intros [?|(u & [->|I] & ?)]; eauto 6.
  Qed.
  Lemma add_all : forall l g, exists g',
    match l with [] => Ok g | t :: r => do u <- union join (t :: r); Ok (join g u) end = Ok g' /\
    forall p, region g' p <-> region g p \/ exists t, In t l /\ region t p.
  Proof.
    intros [|t l] g; cbn.
    - exists g. split; auto. intros p. split; auto. intros [?|(t & [] & _)]; auto.
    - eexists; split; [reflexivity|]. intros p. rewrite (Jn _ _ p), fold_join. split.
      + intros [?|[?|(u & I & ?)]]; eauto 6.
      + intros [?|(u & [->|I] & ?)]; eauto 6.
  Qed.
  Lemma convex_hull_spec : forall f, exists g, convex_hull G is_empty join nothing hull f = Ok g /\
    forall p, region g p <->
      hull_of (fun v => (exists o, f_obstacles f = Some o /\ region o v) \/
                        (exists t, In t (f_targets f) /\ region t v) \/
                        (exists s, In s (f_spawns f) /\ region s v)) p.
  Proof.
    intros f. unfold convex_hull. cbv zeta.
    set (g0 := if truth G is_empty (f_obstacles f) then _ else _).
    assert (H0 : forall p, region g0 p <-> exists o, f_obstacles f = Some o /\ region o p).
    { intros p. unfold g0. destruct (f_obstacles f) as [o|]; cbn.
      - destruct (is_empty o) eqn:E; cbn.
        + split; [intros H; now elim (Nt p)|]. intros (o' & [= <-] & H).
          now elim (proj1 (Em o) E p).
        + rewrite (Jn _ _ p). split; [intros [H|H]; [now elim (Nt p)|eauto]|]. intros (o' & [= <-] & H). now right.
      - split; [intros H; now elim (Nt p)|]. now intros (o' & [=] & _). }
    destruct (add_all (f_targets f) g0) as (g1 & E1 & H1).
    destruct (add_all (f_spawns f) g1) as (g2 & E2 & H2).
    rewrite E1. cbn [rbind]. rewrite E2. cbn [rbind].
    exists (hull g2). split; auto. intros p. rewrite (Hl g2 p).
    split; intros H C Cv Sub; apply (H C Cv); intros v Hv; apply Sub.
    - apply H2 in Hv as [Hv|Hv]; auto. apply H1 in Hv as [Hv|Hv]; auto. apply H0 in Hv. auto.
    - apply H2. rewrite H1, H0. tauto.
  Qed.
End Hull.

(** *** Assignments *)
Section Assigned.
  Variable G : Type.
  Variables is_valid is_empty : G -> bool.
  Notation change_field := (change_field G is_valid is_empty).
  Notation proper := (proper G is_valid is_empty).
  Lemma validated_cases : forall v,
    (proper v /\ validated G is_valid is_empty v = Ok v) \/
    (~ proper v /\ validated G is_valid is_empty v = Err ValidationError).
  Proof.
    intros [g|]; cbn.
    - destruct (is_valid g) eqn:A; cbn; [destruct (is_empty g) eqn:B|].
      + right. split; auto. intros P. destruct (P g eq_refl). congruence.
      + left. split; auto. intros ? [= <-]. auto.
      + right. split; auto. intros P. destruct (P g eq_refl). congruence.
    - left. split; auto. now intros ? [=].
  Qed.
  Lemma change_proper : forall c f, proper (f_domain f) -> proper (f_obstacles f) ->
    proper (f_domain (change_field f c)) /\ proper (f_obstacles (change_field f c)).
  Proof.
    intros [v|v|v|v] f D O; cbn; auto; unfold assign_domain, assign_obstacles;
      destruct (validated_cases v) as [(P & ->)|(P & ->)]; cbn; auto.
  Qed.
  Lemma changes_proper : forall cs f, proper (f_domain f) -> proper (f_obstacles f) ->
    proper (f_domain (fold_left change_field cs f)) /\ proper (f_obstacles (fold_left change_field cs f)).
  Proof.
    induction cs as [|c cs IH]; intros f D O; cbn; auto. apply IH; now apply change_proper.
  Qed.
End Assigned.

(** *** Every point of a triangle can be drawn *)
Lemma polygon_sample_onto : forall vs simplices mesh a b c p,
  mesh_of vs simplices = Ok mesh -> NoDup mesh -> In (a, b, c) mesh ->
  (vx b - vx a) * (vy c - vy a) - (vy b - vy a) * (vx c - vx a) <> 0 ->
  inside_triangle a b c p ->
  exists x r1 r2, 0 < x < 1 /\ 0 < r1 < 1 /\ 0 < r2 < 1 /\ polygon_sample vs simplices x r1 r2 = Ok p.
Proof.
  intros vs simplices mesh a b c p M ND I D P.
  assert (P0 : forall t : Sampling.triangle, 0 <= triangle_area t).
  { intros [[u v] w]. change (0 <= 1 / 2 * Rabs (shoelace_loop [u; v; w] 3 + vx w * (vy u - vy v) + vx u * (vy v - vy w))).
    apply Rmult_le_pos; [lra|apply Rabs_pos]. }
  assert (Pa : 0 < triangle_area (a, b, c)).
  { change (0 < 1 / 2 * Rabs (0 + vx b * (vy c - vy a) + vx c * (vy a - vy b) + vx a * (vy b - vy c))).
    apply Rmult_lt_0_compat; [lra|]. apply Rabs_pos_lt. intros Z. apply D. lra. }
  assert (Ps : triangle_area (a, b, c) <= rsum (map triangle_area mesh)).
  { clear - I P0. assert (Q : forall l : list Sampling.triangle, 0 <= rsum (map triangle_area l)).
    { induction l as [|t l IH]; [cbn; lra|].
      change (0 <= triangle_area t + rsum (map triangle_area l)). specialize (P0 t). lra. }
    induction mesh as [|t m IH]; [destruct I|].
    change (triangle_area (a, b, c) <= triangle_area t + rsum (map triangle_area m)). destruct I as [->|I].
    - specialize (Q m). lra.
    - specialize (IH I). specialize (P0 t). lra. }
  destruct (pick_triangle_chance mesh (a, b, c) ND I ltac:(lra)) as (lo & hi & B1 & B2 & B3 & B4).
  assert (L : lo < hi).
  { assert (0 < triangle_area (a, b, c) / rsum (map triangle_area mesh)) by (apply Rdiv_lt_0_compat; lra). lra. }
  destruct (triangle_onto a b c p P) as (r1 & r2 & R1 & R2 & E).
  exists ((lo + hi) / 2), r1, r2. split; [lra|]. split; auto. split; auto.
  unfold polygon_sample. rewrite M. cbn [rbind].
  rewrite (proj2 (B4 ((lo + hi) / 2) ltac:(lra))) by lra. cbn [rbind]. now rewrite E.
Qed.

Lemma list_get_nat : forall {A} (l : list A) i x, nth_error l i = Some x -> list_get l (Z.of_nat i) = Ok x.
Proof.
  intros A l i x H. unfold list_get.
  assert (i < List.length l)%nat by (apply nth_error_Some; congruence).
  replace (_ && _)%bool with true
    by (symmetry; apply andb_true_intro; split; [apply Z.leb_le|apply Z.ltb_lt]; lia).
  replace (Z.ltb (Z.of_nat i) 0) with false by (symmetry; apply Z.ltb_ge; lia).
  now rewrite Nat2Z.id, H.
Qed.

Lemma edist_square : forall a b, edist a b * edist a b = (vx a - vx b) * (vx a - vx b) + (vy a - vy b) * (vy a - vy b).
Proof. intros. unfold edist. apply sqrt_sqrt.
  apply Rplus_le_le_0_compat; apply Rle_0_sqr. Qed.

(** A fresh program gets an answer to a path query when the field is complete. *)
Lemma fresh_path : forall G join bounds solve_path solve_obstacles fs o f t d ob z s r m v,
  fs o = f -> f_domain f = Some d -> f_obstacles f = Some ob -> list_get (f_targets f) z = Ok t ->
  (let '(a, b, c, e) := bounds d in meshgrid s a b c e) = Ok m ->
  solve_path m (Some d) t ob r = Ok v ->
  snd (ask G join bounds solve_path solve_obstacles (unasked G fs) o (QPath s (Int z) r)) = Ok (APath v).
Proof.
  intros G join bounds solve_path solve_obstacles fs o f t d ob z s r m v E D O T M V.
  assert (I : Inv G join bounds solve_path solve_obstacles o f (unasked G fs)).
  { rewrite <- E. change (fs o) with (fields G (unasked G fs) o). apply clear_inv. apply clear_unasked. }
  rewrite (ask_now G join bounds solve_path solve_obstacles o f); cbn; auto.
  unfold path_now. cbn. rewrite T. cbn. unfold mesh_now. rewrite D.
  destruct (bounds d) as [[[a b] c] e]. rewrite M. cbn. rewrite O. cbn. now rewrite V.
Qed.

(** The same for every kind of target. *)
Lemma fresh_path_any : forall G join bounds solve_path solve_obstacles fs o d ob i s r m,
  f_domain (fs o) = Some d -> f_obstacles (fs o) = Some ob ->
  (let '(a, b, c, e) := bounds d in meshgrid s a b c e) = Ok m ->
  whole i ->
  snd (ask G join bounds solve_path solve_obstacles (unasked G fs) o (QPath s i r)) =
  do t <- chosen_targets G join (fs o) i; do v <- solve_path m (Some d) t ob r; Ok (APath v).
Proof.
  intros G join bounds solve_path solve_obstacles fs o d ob i s r m D O M W.
  assert (I : Inv G join bounds solve_path solve_obstacles o (fs o) (unasked G fs)).
  { change (fs o) with (fields G (unasked G fs) o). apply clear_inv. apply clear_unasked. }
  rewrite (ask_now G join bounds solve_path solve_obstacles o (fs o)); cbn; auto.
  unfold path_now. cbn. destruct (chosen_targets G join (fs o) i) as [t|e]; cbn; [|reflexivity].
  unfold mesh_now. rewrite D. destruct (bounds d) as [[[a b] c] e]. rewrite M. cbn. rewrite O. cbn.
  destruct (solve_path m (Some d) t ob r); reflexivity.
Qed.
Lemma list_get_back : forall {A} (l : list A) i x, nth_error l i = Some x ->
  list_get l (Z.of_nat i - Z.of_nat (List.length l)) = Ok x.
Proof.
  intros A l i x H. unfold list_get.
  assert (i < List.length l)%nat by (apply nth_error_Some; congruence).
  replace (_ && _)%bool with true
    by (symmetry; apply andb_true_intro; split; [apply Z.leb_le|apply Z.ltb_lt]; lia).
  replace (Z.ltb (Z.of_nat i - Z.of_nat (List.length l)) 0) with true by (symmetry; apply Z.ltb_lt; lia).
  replace (Z.of_nat i - Z.of_nat (List.length l) + Z.of_nat (List.length l))%Z with (Z.of_nat i) by lia.
  now rewrite Nat2Z.id, H.
Qed.
Lemma list_get_out : forall {A} (l : list A) z, (z < - Z.of_nat (List.length l) \/ Z.of_nat (List.length l) <= z)%Z ->
  list_get l z = Err IndexError.
Proof.
  intros A l z H. unfold list_get.
  replace (_ && _)%bool with false; [reflexivity|].
  symmetry. apply andb_false_iff. destruct H; [left; apply Z.leb_gt|right; apply Z.ltb_ge]; lia.
Qed.

(** *** Queries do not change fields *)
Section Unchanged.
  Variable G : Type.
  Variable join : G -> G -> G.
  Variable bounds : G -> R * R * R * R.
  Variable solve_path : mesh -> option G -> G -> G -> R -> res maps.
  Variable solve_obstacles : mesh -> option G -> res maps.
  Variable F : nat -> field G.
  Lemma same_step : forall {K D} (eqb : K -> K -> bool) (get : world G -> list (K * D)) put call k w,
    (forall s c, fields G (put s c) = fields G s) ->
    (forall s, fields G s = F -> fields G (fst (call s)) = F) ->
    fields G w = F -> fields G (fst (cached eqb get put call k w)) = F.
  Proof.
    intros K D eqb get put call k w Hp Hc I.
    apply (cached_spec eqb get put (fun s => fields G s = F) (fun _ _ => True) (fun _ => True) call k w); auto.
    intros s c Hs _. now rewrite Hp.
  Qed.
  Lemma same_mesh : forall p s w, fields G w = F -> fields G (fst (ask_mesh G bounds p s w)) = F.
  Proof.
    intros p s w. apply same_step; auto. intros s' I. unfold mesh_body.
    destruct (f_domain _) as [d|]; auto. now destruct (bounds d) as [[[? ?] ?] ?].
  Qed.
  Lemma same_path : forall p s i r w, fields G w = F -> fields G (fst (ask_path G join bounds solve_path p s i r w)) = F.
  Proof.
    intros p s i r w. apply same_step; auto. intros s' I. unfold path_body.
    destruct (chosen_targets _ _ _ _); auto. unfold sbind.
    pose proof (same_mesh p s s' I). destruct (ask_mesh G bounds p s s') as [s1 [?|?]]; auto.
  Qed.
  Lemma same_obstacles : forall p s w, fields G w = F -> fields G (fst (ask_obstacles G bounds solve_obstacles p s w)) = F.
  Proof.
    intros p s w. apply same_step; auto. intros s' I. unfold obstacles_body, sbind.
    pose proof (same_mesh p s s' I). destruct (ask_mesh G bounds p s s') as [s1 [?|?]]; auto.
  Qed.
  Lemma same_ask : forall p q w, fields G w = F -> fields G (fst (ask G join bounds solve_path solve_obstacles w p q)) = F.
  Proof.
    intros p [s|s i r|s|i s r h] w I; cbn; [now apply same_mesh|now apply same_path|now apply same_obstacles|].
    revert I. apply same_step; auto. intros s' I. unfold navigation_body. destruct (f_targets _); auto. unfold sbind.
    pose proof (same_path p s i r s' I) as P1. destruct (ask_path G join bounds solve_path p s i r s') as [s1 [?|?]]; auto.
    pose proof (same_obstacles p s s1 P1) as P2. destruct (ask_obstacles G bounds solve_obstacles p s s1) as [s2 [?|?]]; auto.
    pose proof (same_mesh p s s2 P2) as P3. destruct (ask_mesh G bounds p s s2) as [s3 [?|?]]; auto.
  Qed.
End Unchanged.
Lemma ask_keeps_fields : forall G join bounds solve_path solve_obstacles w p q,
  fields G (fst (ask G join bounds solve_path solve_obstacles w p q)) = fields G w.
Proof. intros. now apply same_ask. Qed.
