(** * Proofs about saving a simulation *)
From Coq Require Import Lia.
From Verif Require Import Spec.Records Spec.Trees Model.Saving Model.LogicTree Proofs.StorageProofs Proofs.TreeProofs Proofs.TreeOrderProofs.
Open Scope list_scope.
Open Scope nat_scope.

Section Saver.
  Context {A K D : Type}.
  Notation update := (list A * dict K D * bool)%type.
  Definition array_events (u : update) : list (npy_event A) :=
    let '(x, _, save) := u in [Change 0 x; SendData 0; SendDump save].
  Definition row_events (u : update) : list (csv_event K D) :=
    let '(_, d, save) := u in [SendRow d; SendCsvDump save].
  Definition state_of (u : update) : list A * bool := let '(x, _, save) := u in (x, save).
  Definition row_of (u : update) : dict K D * bool := let '(_, d, save) := u in (d, save).

  Lemma npy_run_app es es' : forall (s : @npy_state A), npy_run s (es ++ es') = (do s <- npy_run s es; npy_run s es').
  Proof. induction es as [|e es IH]; intros s; [reflexivity|]. cbn. destruct (npy_step s e); [apply IH|reflexivity]. Qed.
  Lemma csv_run_app (es es' : list (csv_event K D)) : forall s, csv_run s (es ++ es') = (do s <- csv_run s es; csv_run s es').
  Proof. induction es as [|e es IH]; intros s; [reflexivity|]. cbn. destruct (csv_step s e); [apply IH|reflexivity]. Qed.

  Lemma saver_run_split : forall (us : list update) n c n' c',
    npy_run n (flat_map array_events us) = Ok n' -> csv_run c (flat_map row_events us) = Ok c' ->
    saver_run (n, c) us = Ok (n', c').
  Proof.
    induction us as [|[[x d] save] us IH]; intros n c n' c' N C.
    - cbn in *. congruence.
    - cbn [flat_map] in N, C. rewrite npy_run_app in N. rewrite csv_run_app in C.
      cbn [saver_run saver_update fst snd].
      change (array_events (x, d, save)) with [Change 0 x; SendData 0; SendDump save] in N.
      change (row_events (x, d, save)) with [@SendRow K D d; SendCsvDump save] in C.
      destruct (npy_run n _) as [n1|]; [|discriminate]. cbn [rbind] in N |- *.
      destruct (csv_run c _) as [c1|]; [|discriminate]. cbn [rbind] in C |- *.
      now apply IH.
  Qed.

  Lemma repeat_snoc {X} (x : X) n : repeat x n ++ [x] = repeat x (S n).
  Proof. induction n; cbn; [reflexivity|]. now rewrite IHn. Qed.
  Lemma map_repeat' {X Y} (f : X -> Y) x n : map f (repeat x n) = repeat (f x) n.
  Proof. induction n; cbn; [reflexivity|]. now rewrite IHn. Qed.

  Definition last_for_all (g : list (list A)) : list (list A) := repeat (last g []) (List.length g).
  Lemma npy_files w : forall (us : list update) h files index (pending : list (list A)),
    (forall x d save, In (x, d, save) us -> List.length x = w) ->
    exists s, npy_run (Npy h (repeat 0 (List.length pending)) files index false) (flat_map array_events us) = Ok s /\
      n_files s = files ++ combine (seq index (List.length (save_groups pending (map state_of us))))
        (map last_for_all (save_groups pending (map state_of us))).
  Proof.
    induction us as [|[[x d] save] us IH]; intros h files index pending W.
    - eexists. split; [reflexivity|]. cbn. now rewrite app_nil_r.
    - cbn [flat_map map state_of save_groups]. rewrite npy_run_app.
      unfold array_events at 1.
      assert (L : List.length (pending ++ [x]) = S (List.length pending)) by (rewrite app_length; cbn; lia).
      cbn [npy_run npy_step rbind n_heap n_buffer n_files n_index n_expects_dump].
      rewrite repeat_snoc. destruct save.
      + rewrite map_repeat'. rewrite (vstack_ok w).
        * cbn [rbind]. change (@nil nat) with (repeat 0 (List.length (@nil (list A)))).
          destruct (IH (write h 0 x) (files ++ [(index, repeat (write h 0 x 0) (S (List.length pending)))]) (S index) []) as (s & E & F).
          { intros; eapply W; right; eauto. }
          exists s. split; [exact E|]. rewrite F, <- app_assoc.
          cbn [List.length seq map combine app]. do 2 f_equal. unfold last_for_all at 1.
          rewrite last_last, L. reflexivity.
        * discriminate.
        * intros y I. apply repeat_spec in I. subst y. unfold write. cbn. eapply W. now left.
      + rewrite <- L. cbn [rbind].
        destruct (IH (write h 0 x) files index (pending ++ [x])) as (s & E & F).
        { intros; eapply W; right; eauto. }
        exists s. split; [exact E|exact F].
  Qed.

  Lemma rows_protocol (us : list update) : csv_in_protocol false (flat_map row_events us).
  Proof. induction us as [|[[x d] save] us IH]; cbn; auto. Qed.
  Lemma dumped_groups : forall (us : list update) pending, dumped_rows pending (flat_map row_events us) = concat (save_groups pending (map row_of us)).
  Proof.
    induction us as [|[[x d] save] us IH]; intros pending; [reflexivity|].
    cbn [flat_map map row_of row_events save_groups app dumped_rows]. destruct save; cbn [concat]; now rewrite IH.
  Qed.

  Lemma saver_spec w x0 (us : list update) : (forall x d save, In (x, d, save) us -> List.length x = w) ->
    exists n c, saver_run (saver_start x0) us = Ok (n, c) /\
      n_files n = numbered (map last_for_all (save_groups [] (map state_of us))) /\
      c_file c = (match concat (save_groups [] (map row_of us)) with [] => [] | d :: _ => [Names (map fst d)] end)
        ++ map (fun d => Values (map snd d)) (concat (save_groups [] (map row_of us))).
  Proof.
    intros W. destruct (npy_files w us (fun _ => x0) [] 0 [] W) as (n & E & F).
    destruct (csv_spec (flat_map row_events us) [] (rows_protocol us)) as (c & E' & F').
    exists n, c. split; [apply saver_run_split; assumption|]. split.
    - rewrite F. unfold numbered. cbn [app]. now rewrite map_length.
    - rewrite F', dumped_groups. reflexivity.
  Qed.
  Lemma every_update (us : list (list A * bool)) : (forall x save, In (x, save) us -> save = true) ->
    save_groups [] us = map (fun u => [fst u]) us.
  Proof.
    induction us as [|[x save] us IH]; intros H; [reflexivity|]. rewrite (H x save (or_introl eq_refl)). cbn. f_equal.
    apply IH. intros; eapply H; right; eauto.
  Qed.
End Saver.

(** Groups that are not one state over and over are not stored. *)
Lemma last_for_all_id {A} (g : list (list A)) : last_for_all g = g -> forall x y, In x g -> In y g -> x = y.
Proof. intros E x y X Y. rewrite <- E in X, Y. apply repeat_spec in X, Y. congruence. Qed.
Lemma numbered_inj {X} (l l' : list X) : numbered l = numbered l' -> l = l'.
Proof.
  intros E. apply (f_equal (map snd)) in E. unfold numbered in E. now rewrite !numbered_snd in E.
Qed.
Lemma map_id_in {X} (f : X -> X) l : map f l = l -> forall x, In x l -> f x = x.
Proof. induction l as [|y l IH]; intros E x I; [destruct I|]. injection E as E1 E2. destruct I as [<- | I]; auto. Qed.

(** The position of the saving node. *)
Lemma add_to_logic_last f i m : reachable f -> i < size f -> par f i = None -> name f i = "Reset"%string ->
  m < size f -> m <> i -> par f m = None -> kids f m = [] ->
  exists g L, add_to_simulation_logic f i m = (g, None) /\ whole_order f i L /\ whole_order g i (L ++ [m]).
Proof.
  intros R Hi Pi Ni Hm Mi Pm Km. unfold add_to_simulation_logic.
  destruct (getitem_ok f i "Reset"%string (reachable_wf f R) Hi) as (t & T & S & M & G).
  assert (Ti : top_of f i i) by (split; [now exists 0|exact Pi]).
  assert (E : oroot t = i).
  { pose proof (top_root f i _ (reachable_wf f R) Hi T). pose proof (top_root f i _ (reachable_wf f R) Hi Ti). congruence. }
  destruct (getitem f i "Reset"%string) as [j|e].
  - destruct G as (l1 & l2 & E1 & E2 & E3). destruct t as [i' ts]. cbn in E, E1. subst i'.
    assert (j = i).
    { destruct l1 as [|h l1]; cbn in E1; [congruence|]. injection E1 as <- _. exfalso. apply (E3 i); auto. now left. }
    subst j. destruct (inject_before_root_order f i m (reachable_wf f R) Hi Hm Mi Pm Km Pi) as (g & L & A & _ & B & C).
    exists g, L. auto.
  - destruct G as [_ G]. exfalso. apply (G i); auto.
Qed.
